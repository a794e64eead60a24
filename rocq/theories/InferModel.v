(** Model of the inference code: bcause/inference/ordering.py,
    bcause/inference/probabilistic/probabilistic.py and elimination.py,
    bcause/models/transform/simplification.py, and the connectivity queries of
    bcause/util/graphutils.py they use.

    Two things are left open and quantified over: the order in which a python
    set is iterated, and the outcome of numpy's random choice among ties. *)

From Coq Require Import String Bool Arith ZArith QArith Qcanon List.
From Verif Require Import PyBase Num DomainModel NdArray StoreModel NumStore FactorModel GraphModel ModelModel.
Import ListNotations.
Local Open Scope nat_scope.

(** ** Elimination orderings (ordering.py) *)

(** An undirected graph: nodes and edges in insertion order; an edge may be
    listed in either direction. (ordering.py:34) *)
Record ugraph := mkU { u_nodes : list var; u_edges : list (var * var) }.
(** y in G.adj[x] (ordering.py:16-17) *)
Definition u_adj (g : ugraph) (x y : var) : bool := mem (x, y) (u_edges g) || mem (y, x) (u_edges g).
(** list(G[v]): unknown nodes raise KeyError (the order of the neighbours is
    the order of the nodes here) (ordering.py:16-24) *)
Definition u_neighbours (g : ugraph) (v : var) : list var := filter (u_adj g v) (u_nodes g).
(** ordering.py:16-24 [u_get] *)
Definition u_get (g : ugraph) (v : var) : res (list var) :=
  if mem v (u_nodes g) then Ok (u_neighbours g v) else Raise KeyError.

(** itertools.combinations(l, r=2) (ordering.py:17) *)
Fixpoint combinations2 {A} (l : list A) : list (A * A) :=
  match l with
  | [] => []
  | x :: r => map (fun y => (x, y)) r ++ combinations2 r
  end.

(** networkx moral_graph: the undirected version, plus an edge between any two
    parents of a node (ordering.py:34) *)
Definition moral_graph (g : digraph) : ugraph :=
  mkU (nodes g) (g_edges g ++ flat_map (fun v => combinations2 (preds g v)) (nodes g)).

(** ordering.py:16-17 [fillin_arcs] *)
Definition fillin_arcs (v : var) (moral : ugraph) : res (list (var * var)) :=
  let* ns := u_get moral v in
  Ok (filter (fun xy => negb (u_adj moral (fst xy) (snd xy))) (combinations2 ns)).

(** ordering.py:10-13 [heuristic] *)
Inductive heuristic := MIN_FILL | MIN_SIZE | MIN_WEIGHT.

(** ordering.py:21-25 [cost_functions]; the node attribute "size" is the entry
    of [varsizes] (lines 35-38) *)
Definition cost_fn (h : heuristic) (varsizes : dict var nat) (v : var) (moral : ugraph) : res nat :=
  match h with
  | MIN_SIZE => let* ns := u_get moral v in Ok (length ns)
  | MIN_WEIGHT => let* ns := u_get moral v in
                  let* sizes := mapM (fun w => dlook w varsizes) (ns ++ [v]) in
                  Ok (fold_left Nat.mul sizes 1)
  | MIN_FILL => let* arcs := fillin_arcs v moral in Ok (length arcs)
  end.

(** min of a non-empty list; python's min of an empty one is ValueError (ordering.py:45) *)
Definition py_min (l : list nat) : res nat :=
  match l with [] => Raise ValueError | x :: r => Ok (fold_left Nat.min r x) end.

(** list.remove: the first occurrence (ordering.py:53) *)
Fixpoint remove_first (v : var) (l : list var) : res (list var) :=
  match l with
  | [] => Raise ValueError
  | w :: r => if eqd v w then Ok r else let* r' := remove_first v r in Ok (w :: r')
  end.

(** ordering.py:48-52: add the fill-in arcs, remove the node *)
Definition u_eliminate (v : var) (moral : ugraph) : res ugraph :=
  let* arcs := fillin_arcs v moral in
  Ok (mkU (filter (fun w => negb (if eqd w v then true else false)) (u_nodes moral))
          (filter (fun e => negb (if eqd (fst e) v then true else false) && negb (if eqd (snd e) v then true else false))
                  (u_edges moral ++ arcs))).

(** ordering.py:42-58, the loop.  [choose] stands for the random choice: round
    number and candidates to the chosen candidate.  The fuel is never used up
    (each round removes one variable).  Returns the ordering and what is left
    in the caller's list [to_remove]. *)
Fixpoint elim_loop (h : heuristic) (varsizes : dict var nat) (choose : nat -> list var -> var)
    (fuel round : nat) (moral : ugraph) (to_remove ordering : list var) : res (list var * list var) :=
  match to_remove with
  | [] => Ok (ordering, [])
  | _ =>
      match fuel with
      | 0 => Raise Unmodelled
      | S fuel' =>
          let* costs := mapM (fun v => let* c := cost_fn h varsizes v moral in Ok (v, c)) to_remove in
          let costs := dict_of costs in
          let* min_cost := py_min (vals costs) in
          let select_var := choose round (map fst (filter (fun vc => snd vc =? min_cost) costs)) in
          let* moral' := u_eliminate select_var moral in
          let* to_remove' := remove_first select_var to_remove in
          elim_loop h varsizes choose fuel' (S round) moral' to_remove' (ordering ++ [select_var])
      end
  end.

(** ordering.py:28-58 [_get_elim_ordering] *)
Definition get_elim_ordering (h : heuristic) (choose : nat -> list var -> var)
    (dag : digraph) (to_remove : list var) (varsizes : dict var nat) : res (list var * list var) :=
  let* _ := match h with
            | MIN_WEIGHT => mapM (fun v => dlook v varsizes) (nodes dag)
            | _ => Ok []
            end in
  elim_loop h varsizes choose (length to_remove) 0 (moral_graph dag) to_remove [].

(** ordering.py:60-69, the three heuristics, as functions of the dag, the
    variables to remove and the sizes (given); their `random_state` argument is
    not used *)
Definition heuristic_fn (h : heuristic) (choose : nat -> list var -> var)
    (dag : digraph) (to_remove : list var) (varsizes : dict var nat) : res (list var) :=
  let* r := get_elim_ordering h choose dag to_remove varsizes in Ok (fst r).

(** ** Removing irrelevant nodes (simplification.py) *)

(** graphutils.py:94-97 [connected]; nx.node_connectivity(G, t, y) > 0 holds
    when the undirected graph has a path from t to y, and an unknown node
    raises NetworkXError *)
Definition connected (g : digraph) (target : list var) (y : var) : res bool :=
  if mem y target then Ok true else
  let* bs := mapM (fun t => if mem t (nodes g)
                            then match component g t with Some c => Ok (mem y c) | None => Raise Unmodelled end
                            else Raise NetworkXError) target in
  Ok (existsb (fun b => b) bs).
(** graphutils.py:99-100 [disconnected_nodes] *)
Definition disconnected_nodes (g : digraph) (target : list var) : res (list var) :=
  let* bs := mapM (fun x => let* b := connected g target x in Ok (x, b)) (nodes g) in
  Ok (map fst (filter (fun xb => negb (snd xb)) bs)).

(** f.R( **obs ) for a factor of a model (mulitnomial.py, deterministic.py:88-89) *)
Definition fo_restrict (f : fobj) (o : obs) : res fobj :=
  match f with
  | FM f => let* g := mf_restrict f o in Ok (FM g)
  | FD _ => Raise NotImplementedError
  | FObj => Raise AttributeError
  end.

(** simplification.py:33-35, one factor: restricted to the observed parents
    (a dict whose order follows a python set; here that of the evidence) *)
Definition set_observed (evidence : obs) (f : fobj) : res fobj :=
  let* rv := fo_right f in
  fo_restrict f (dfilter (fun v => mem v rv) evidence).

(** simplification.py:12-38 [minimalize] *)
Definition minimalize (m : pgm) (target : list var) (evidence : obs) : res pgm :=
  match barren_nodes (m_graph m) (target ++ keys evidence) with
  | None => Raise Unmodelled
  | Some barren =>
      let graph := remove_outgoing_edges (m_graph m) (keys evidence) in
      let* disconnected := disconnected_nodes (remove_nodes graph barren) target in
      let irrelevant := filter (fun v => negb (mem v target)) (barren ++ disconnected) in
      let new_dag := remove_nodes graph irrelevant in
      let kept := dfilter (fun v => negb (mem v irrelevant)) (m_factor_dict m) in
      let* new_factors := mapM (fun vf => let* f := set_observed evidence (snd vf) in Ok (fst vf, f)) kept in
      m_builder m new_dag (Some (FsDict new_factors)) false
  end.

(** ** Variable elimination (elimination.py) *)

(** the factors of the inference model are all multinomial (minimalize raises
    for deterministic ones); a missing factor has no domain (elimination.py:45-48) *)
Definition multinomial_of (f : option fobj) : res mfactor :=
  match f with
  | Some (FM f) => Ok f
  | Some (FD _) => Raise NotImplementedError
  | _ => Raise AttributeError
  end.

(** reduce((lambda f1, f2: f1 * f2), factors) (elimination.py:66, 80) *)
Definition product_all (fs : list mfactor) : res mfactor := reduceM (fun f1 f2 => mf_multiply f1 (OFac f2)) fs.

(** elimination.py:60-76, one round: `f not in relevant` compares objects, so
    it keeps the factors without [select_var] *)
Definition ve_step (factors : list mfactor) (select_var : var) : res (list mfactor) :=
  let relevant := filter (fun f => mem select_var (mf_vars f)) factors in
  let* join := product_all relevant in
  let* fnew := mf_marginalize join [select_var] in
  let factors := filter (fun f => negb (mem select_var (mf_vars f))) factors in
  Ok (if 0 <? length (mf_left fnew) then factors ++ [fnew] else factors).

Section Elimination.
  (** the heuristic given to the constructor (elimination.py:18-33) *)
  Variable heur : digraph -> list var -> dict var nat -> res (list var).
  (** the iteration order of the union of a list of sets *)
  Variable set_order : list (list var) -> list var.

  (** elimination.py:38-86 [run] on the compiled model *)
  Definition ve_run (im : pgm) (target : list var) (evidence : obs) : res mfactor :=
    let* factors := mapM multinomial_of (vals (m_factors im)) in
    let* vars_in_factors := match factors with [] => Raise TypeError | _ => Ok (set_order (map mf_vars factors)) end in
    let to_remove := filter (fun v => negb (mem v target) && negb (mem v (keys evidence))) vars_in_factors in
    let* varsizes := get_varsizes im (nodes (m_graph im)) in
    let* ordering := heur (m_graph im) to_remove varsizes in
    let* factors := foldM ve_step ordering factors in
    let* joint0 := product_all factors in
    let* joint := mf_restrict joint0 evidence in
    let* den := mf_marginalize joint target in
    mf_divide joint (OFac den).

  (** probabilistic.py:18-32 [compile], with [evidence] a dict *)
  Definition ve_compile (m : pgm) (target : list var) (evidence : obs) : res pgm :=
    if negb (length (nodup eqd target) =? length target) then Raise ValueError else
    if existsb (fun v => mem v (keys evidence)) target then Raise ValueError else
    if negb (forallb (fun v => mem v (nodes (m_graph m))) (target ++ keys evidence)) then Raise NodeNotFound else
    minimalize m target evidence.

  (** probabilistic.py:38-54 [query]; [conditioning = None] when not given *)
  Definition ve_query (m : pgm) (target : list var) (conditioning : option (list var)) (evidence : obs) : res mfactor :=
    match conditioning with
    | None =>
        let* im := ve_compile m target evidence in
        ve_run im target evidence
    | Some conditioning =>
        if existsb (fun v => mem v conditioning) target then Raise ValueError else
        let all := set_order [target; conditioning] in
        let* im := ve_compile m all evidence in
        let* p := ve_run im all evidence in
        let* q := mf_marginalize p target in
        mf_divide p (OFac q)
    end.
End Elimination.
