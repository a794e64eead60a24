(** Model of the causal queries: bcause/inference/causal/causal.py and
    elimination.py, and bcause/models/transform/combination.py.

    As in [InferModel], the elimination heuristic and the iteration order of
    python sets are quantified over. *)

From Coq Require Import String Ascii Bool Arith ZArith QArith Qcanon DecimalString List.
From Verif Require Import PyBase Num DomainModel NdArray StoreModel NumStore FactorModel GraphModel ModelModel InferModel.
Import ListNotations.
Local Open Scope nat_scope.

(** str(n) for a natural number (causal.py:39, 62, 84) *)
Definition nat_str (n : nat) : string := NilEmpty.string_of_uint (Nat.to_uint n).
(** f"{v}_{i}" (causal.py:41, 62, 84) *)
Definition world_name (v : var) (i : nat) : var := (v ++ "_" ++ nat_str i)%string.

(** cmodel.py:39-44 [exogenous] *)
Definition scm_exogenous (m : pgm) : list var :=
  filter (fun v => negb (mem v (scm_endogenous m))) (nodes (m_graph m)).

(** combination.py:7-10: the root checks, evaluated one by one until one fails *)
Fixpoint all_roots (l : list (var * pgm)) : res bool :=
  match l with
  | [] => Ok true
  | (x, m) :: r => let* p := predecessors (m_graph m) x in
                   if length p =? 0 then all_roots r else Ok false
  end.
(** combination.py:13, the class of a model [is_scm] *)
Definition is_scm (m : pgm) : bool := match m_kind m with KScm _ _ => true | KBn => false end.

(** the `do` argument: a dict, or a list of dicts (causal.py:31, 35, 59) *)
Inductive doarg := DoDict (o : obs) | DoList (os : list obs).
(** causal.py:36, 58 *)
Definition do_list (d : doarg) : list obs := match d with DoDict o => [o] | DoList l => l end.
(** causal.py:32 *)
Definition do_vars (d : doarg) : list var := match d with DoDict o => keys o | DoList l => flat_map keys l end.

(** causal.py:37-41: the interventions under the names of their worlds *)
Definition world_do (dos : list obs) : obs :=
  dict_of (flat_map (fun io => map (fun kv => (world_name (fst kv) (fst io), snd kv)) (snd io))
                    (combine (seq 1 (length dos)) dos)).

Section Causal.
  (** the heuristic and the set order, as in [InferModel] *)
  Variable heur : digraph -> list var -> dict var nat -> res (list var).
  Variable set_order : list (list var) -> list var.

  (** combination.py:6-23 [fusion_roots], with or without the keyword argument
      `endogenous` (which the builder of a Bayesian network does not know, and
      for which the builder of a causal model takes the one of the first model,
      cmodel.py:160) *)
  Definition fusion_roots (models : list pgm) (on : list var) (endogenous : option (list var)) : res pgm :=
    let* ok := all_roots (combine on models) in
    if negb ok then Raise ValueError else
    match models with
    | [] => Raise ValueError
    | m0 :: ms =>
        if negb (forallb (fun m => Bool.eqb (is_scm m) (is_scm m0)) ms) then Raise ValueError else
        let dag0 := fold_left add_node (nodes (m_graph m0)) (mkG [] []) in
        let new_dag := fold_left (fun g m => fold_left add_edge (g_edges (m_graph m)) g) models dag0 in
        let* f0 := get_factors m0 on in
        let* fs := mapM (fun m => get_factors m (set_order [filter (fun v => negb (mem v on)) (nodes (m_graph m))])) models in
        let new_factors := FsList (map as_fobj (f0 ++ concat fs)) in
        match m_kind m0, endogenous with
        | KBn, Some _ => Raise TypeError
        | KBn, None => bn_init (GDag new_dag) (Some new_factors) true
        | KScm endo cast, None => scm_init (GDag new_dag) (Some new_factors) (Some endo) cast true
        | KScm _ cast, Some _ => scm_init (GDag new_dag) (Some new_factors) endogenous cast true
        end
    end.

  (** causal.py:52-69 [_preprocess] *)
  Definition ci_preprocess (m : pgm) (d : doarg) (counterfactual : bool) : res pgm :=
    if counterfactual then
      let dos := do_list d in
      let* ms := mapM (fun io => let mapping := map (fun v => (v, world_name v (fst io))) (scm_endogenous m) in
                                 let* mi := scm_intervention m (snd io) in
                                 m_rename mi mapping) (combine (seq 1 (length dos)) dos) in
      let models := m :: ms in
      fusion_roots models (scm_exogenous m) (Some (concat (map scm_endogenous models)))
    else
      match d with
      | DoDict o => scm_intervention m o
      | DoList _ => Raise TypeError
      end.

  (** causal.py:21-50 [compile] followed by [run] (76-77) *)
  Definition ci_compile_run (m : pgm) (target : list var) (d : doarg) (evidence : obs) (counterfactual : bool) : res mfactor :=
    if negb (forallb (fun v => mem v (nodes (m_graph m))) (do_vars d)) then Raise NodeNotFound else
    let* o := (if counterfactual then Ok (world_do (do_list d))
               else match d with DoDict o => Ok o | DoList _ => Raise TypeError end) in
    let evidence := dmerge evidence o in
    let* im := ci_preprocess m d counterfactual in
    ve_query heur set_order im target None evidence.

  (** causal.py:79-85 [query] *)
  Definition ci_query (m : pgm) (target : list var) (d : doarg) (evidence : obs) (counterfactual : bool)
      (targets_subgraphs : option (list nat)) : res mfactor :=
    let target :=
      if counterfactual then
        let sub := match targets_subgraphs with
                   | Some (i :: r) => i :: r
                   | _ => repeat 1 (length target)
                   end in
        map (fun ti => world_name (fst ti) (snd ti)) (combine target sub)
      else target in
    ci_compile_run m target d evidence counterfactual.

  (** causal.py:87-91 *)
  Definition causal_query (m : pgm) (target : list var) (d : doarg) (evidence : obs) : res mfactor :=
    ci_query m target d evidence false None.
  (** causal.py:90-91 [counterfactual_query] *)
  Definition counterfactual_query (m : pgm) (target : list var) (d : doarg) (evidence : obs) (sub : option (list nat)) : res mfactor :=
    ci_query m target d evidence true sub.

  (** causal.py:95-96: the given pair, or the one read off the domain *)
  Definition true_false (m : pgm) (v : var) (given : option (state * state)) : res (state * state) :=
    match given with
    | Some p => Ok p
    | None => let* dom := dlook v (m_domains m) in
              match dom with
              | Some l => identify_true_false v l
              | None => Raise TypeError
              end
    end.

  (** causal.py:93-103 [prob_necessity_sufficiency], with [_process_output]
      (105-106) *)
  Definition prob_necessity_sufficiency (m : pgm) (cause effect : var) (tfc tfe : option (state * state)) : res num :=
    let* (tc, fc) := true_false m cause tfc in
    let* (te, fe) := true_false m effect tfe in
    let* r := counterfactual_query m [effect; effect] (DoList [[(cause, fc)]; [(cause, tc)]]) [] (Some [1; 2]) in
    mf_get_value r (dict_of [(effect ++ "_1", fe); (effect ++ "_2", te)]%string).

  (** causal.py:108-120 [prob_necessity] *)
  Definition prob_necessity (m : pgm) (cause effect : var) (tfc tfe : option (state * state)) : res num :=
    let* (tc, fc) := true_false m cause tfc in
    let* (te, fe) := true_false m effect tfe in
    let* r := counterfactual_query m [effect] (DoDict [(cause, fc)]) (dict_of [(cause, tc); (effect, te)]) None in
    mf_get_value r [((effect ++ "_1")%string, fe)].

  (** causal.py:122-134 [prob_sufficiency] *)
  Definition prob_sufficiency (m : pgm) (cause effect : var) (tfc tfe : option (state * state)) : res num :=
    let* (tc, fc) := true_false m cause tfc in
    let* (te, fe) := true_false m effect tfe in
    let* r := counterfactual_query m [effect] (DoDict [(cause, tc)]) (dict_of [(cause, fc); (effect, fe)]) None in
    mf_get_value r [((effect ++ "_1")%string, te)].
End Causal.

(** causal/elimination.py:11-14 [CausalVariableElimination]: the model is
    converted first; every query is answered on the converted model *)
Definition cve_init (m : pgm) : res pgm := scm_to_multinomial m.
