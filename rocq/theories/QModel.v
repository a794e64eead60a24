(** Model of the Q-factorisation of causal models: get_qfactors in
    bcause/models/info.py, get_qfactorisation, get_qbnet, log_likelihood and
    max_log_likelihood in bcause/models/cmodel.py, and log_prob in
    bcause/models/pgmodel.py and bcause/factors/mulitnomial.py. *)

From Coq Require Import String Bool Arith ZArith QArith Qcanon List.
From Verif Require Import PyBase Num DomainModel NdArray StoreModel NumStore FactorModel GraphModel ModelModel InferModel LearnModel DataModel.
Import ListNotations.
Local Open Scope nat_scope.

(** ** The Q-factorisation *)

(** info.py:24-25 [get_endo_ccomponent] *)
Definition get_endo_ccomponent (g : digraph) (endo : list var) (v : var) : res (list var) :=
  let* c := get_ccomponent g endo v in
  match c with
  | Some c => Ok (filter (fun x => mem x endo) c)
  | None => Raise Unmodelled
  end.

Section QFactors.
  (** list(topological_sort(g)) *)
  Variable topo : digraph -> list var.
  (** the iteration order of the union of a list of sets *)
  Variable set_order : list (list var) -> list var.
  (** the element that set.pop returns *)
  Variable pop : list var -> var.
  (** the default heuristic of VariableElimination *)
  Variable heur : digraph -> list var -> dict var nat -> res (list var).
  (** the default kind of store *)
  Variable dflt : vtype.

  (** model.domains as a dict of lists; variables without a domain (None) are
      left out of the model (info.py:51) *)
  Definition known_domains (m : pgm) : res domain :=
    mapM (fun vd => match snd vd with Some l => Ok (fst vd, l) | None => Raise Unmodelled end) (m_domains m).
  (** info.py:46-51: the inference object and its method query(v, conditioning) *)
  Definition q_query (m : pgm) (data : option frame) (v : var) (conditioning : list var) : res mfactor :=
    match data with
    | None => ve_query heur set_order m [v] (Some conditioning) []
    | Some data =>
        let* d := known_domains m in
        laplace_query set_order dflt data d true [v] (Some conditioning) []
    end.
  (** cmodel.py:129-134 [qgraph] *)
  Definition m_qgraph (m : pgm) : res digraph :=
    let endo := scm_endogenous m in
    get_qgraph (m_graph m) endo (topo (endo_graph (m_graph m) endo)).
  (** info.py:45-54 [get_qfactors]; a dict comprehension over a set *)
  Definition get_qfactors (m : pgm) (data : option frame) (v : var) : res (dict var fobj) :=
    let* ccomp := get_endo_ccomponent (m_graph m) (scm_endogenous m) v in
    let* fs := mapM (fun v => let* q := m_qgraph m in
                              let* ps := predecessors q v in
                              let* f := q_query m data v ps in
                              Ok (v, FM f)) (set_order [ccomp]) in
    Ok (dict_of fs).
  (** cmodel.py:236-237 [get_qfactorisation] *)
  Definition get_qfactorisation (m : pgm) (data : option frame) : res (dict var fobj) :=
    match ccomponents (m_graph m) (scm_endogenous m) with
    | None => Raise Unmodelled
    | Some cs => let* fss := mapM (fun c => get_qfactors m data (pop c)) cs in Ok (dict_of (concat fss))
    end.
  (** cmodel.py:240-241 [get_qbnet] *)
  Definition get_qbnet (m : pgm) (data : option frame) : res pgm :=
    let* q := m_qgraph m in
    let* fs := get_qfactorisation m data in
    bn_init (GDag q) (Some (FsDict fs)) true.

  (** ** Logarithms of probabilities *)

  (** The numbers that math.log returns, with their sum; [lg] is the logarithm of
      positive numbers. *)
  Variables (L : Type) (l0 : L) (ladd : L -> L -> L) (lg : Qc -> L) (lnan linf : L).

  (** math.log: numbers that are not positive are rejected, nan and inf give nan
      and inf (mulitnomial.py:137-138) *)
  Definition math_log (x : num) : res L :=
    match x with
    | Fin q => if Qclt_le_dec 0 q then Ok (lg q) else Raise ValueError
    | NaN => Ok lnan
    | PInf => Ok linf
    | NInf => Raise ValueError
    end.
  (** mulitnomial.py:137-138 [log_prob] *)
  Definition mf_log_prob (f : mfactor) (os : list obs) : res (list L) :=
    mapM (fun o => let* x := mf_get_value f o in math_log x) os.
  (** the method of a factor of a model; other objects have none (pgmodel.py:104) *)
  Definition fo_log_prob (os : list obs) (f : option fobj) : res (list L) :=
    match f with Some (FM f) => mf_log_prob f os | _ => Raise AttributeError end.
  (** np.sum(rows, axis=0) for rows of equal length; without rows numpy returns
      the number 0.0 instead of an array (left out) (pgmodel.py:104) *)
  Definition np_sum_rows (rows : list (list L)) : res (list L) :=
    match rows with
    | [] => Raise Unmodelled
    | r :: rs => Ok (fold_left (fun acc row => map (fun xy => ladd (fst xy) (snd xy)) (combine acc row)) rs r)
    end.
  (** pgmodel.py:102-104 [log_prob]; no variables and an empty list mean all *)
  Definition m_log_prob (m : pgm) (os : list obs) (variables : option (list var)) : res (list L) :=
    let vs := match variables with None | Some [] => nodes (m_graph m) | Some vs => vs end in
    let* fs := get_factors m vs in
    let* rows := mapM (fo_log_prob os) fs in
    np_sum_rows rows.
  (** data.to_dict("records") for data without missing values (others are left
      out of the model) (cmodel.py:254, 260) *)
  Definition records (data : frame) : res (list obs) :=
    mapM (fun r => mapM (fun vc => match snd vc with Some s => Ok (fst vc, s) | None => Raise Unmodelled end)
                        (row_dict (f_cols data) r)) (f_rows data).
  (** np.sum of an array (cmodel.py:255, 261) *)
  Definition np_sum (l : list L) : L := fold_left ladd l l0.
  (** cmodel.py:252-255 [log_likelihood] *)
  Definition log_likelihood (m : pgm) (data : frame) (variables : option (list var)) : res L :=
    let* bn := get_qbnet m None in
    let* os := records data in
    let* ls := m_log_prob bn os variables in
    Ok (np_sum ls).
  (** cmodel.py:258-261 [max_log_likelihood] *)
  Definition max_log_likelihood (m : pgm) (data : frame) (variables : option (list var)) : res L :=
    let* bn := get_qbnet m (Some data) in
    let* os := records data in
    let* ls := m_log_prob bn os variables in
    Ok (np_sum ls).
End QFactors.
