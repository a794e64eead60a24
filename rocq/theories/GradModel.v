(** Model of the gradient learner: bcause/learning/parameter/gradient.py, with
    values_dict of bcause/factors/values/store.py.

    The learner fits the distribution of every trainable exogenous variable on
    its own.  scipy's optimiser is an argument: it is given the objective as a
    function and the start, and it returns parameters or raises.  The record of
    its iterations (`trajectory`, gradient.py:81, 210-212) is left out. *)

From Coq Require Import String Bool Arith ZArith QArith Qcanon List.
From Verif Require Import PyBase Num DomainModel NdArray StoreModel NumStore FactorModel GraphModel ModelModel InferModel LearnModel UaiModel.
Import ListNotations.
Local Open Scope nat_scope.

(** store.py:153-155 [values_dict]: the keys are the items of the assignments *)
Definition values_dict (f : mfactor) : res (dict obs num) :=
  let* l := mapM (fun o => let* x := mf_get_value f o in Ok (o, x)) (assignment_space (mf_domain f)) in
  Ok (dict_of l).

(** The attributes of GradientLikelihood: _trainable_vars (None when not given),
    _max_iter (absent before [run]; Some None is infinity) and _data (absent
    before the first [_process_data] that succeeds). (gradient.py:39-42, 151-169) *)
Record gr_state := MkG {
  gr_trainable : option (list var);
  gr_max_iter : option (option Z);
  gr_data : option frame }.

(** gradient.py:39-42 [__init__] (the tolerance goes to the optimiser) *)
Definition gr_init (prior : pgm) (trainable : option (list var)) : learner gr_state :=
  MkL prior None None (MkG trainable None None).

(** cmodel.py:33 [endogenous]; a Bayesian network has no such attribute *)
Definition endogenous_of (m : pgm) : res (list var) :=
  match m_kind m with KScm endo _ => Ok endo | KBn => Raise AttributeError end.

(** gradient.py:160-166: the checks of one trainable variable; `data[v]` of a
    column that does not exist is a KeyError *)
Definition check_trainable (prior : pgm) (data : frame) (v : var) : res unit :=
  let* endo := endogenous_of prior in
  if mem v endo then Raise ValueError else
  if negb (mem v (f_cols data)) then Raise KeyError else
  if existsb (fun r => match dget v (row_dict (f_cols data) r) with Some (Some _) => true | _ => false end) (f_rows data)
  then Raise ValueError else Ok tt.
(** gradient.py:151-169 [_process_data]: the trainable variables are replaced
    before they are checked, the data only afterwards *)
Definition gr_process_data (l : learner gr_state) (data : frame) : gr_state * option err :=
  let s := l_sub l in
  let data := add_missing (l_prior l) data in
  let trainable := match gr_trainable s with
                   | Some (v :: r) => v :: r
                   | _ => incomplete_columns data
                   end in
  match mapM (check_trainable (l_prior l) data) trainable with
  | Raise e => (MkG (Some trainable) (gr_max_iter s) (gr_data s), Some e)
  | Ok _ => (MkG (Some trainable) (gr_max_iter s) (Some data), None)
  end.

(** cmodel.py:55-56 [get_edogenous_children] *)
Definition endo_children (g : digraph) (endo : list var) (v : var) : res (list var) :=
  let* c := get_children g [v] in Ok (filter (fun x => mem x endo) c).
(** gradient.py:85-88 [_get_bmY] *)
Definition get_bmY (m : pgm) (endo bmV : list var) : res (list var) :=
  let* ps := mapM (endo_parents (m_graph m) endo) bmV in
  Ok (filter (fun v => negb (mem v bmV)) (concat ps)).

(** pgmodel.py:140-141 [get_domains] with the name of a variable in the place
    of a list of variables: `v in variables` is then a test for substrings *)
Definition get_domains_str (m : pgm) (name : var) : dict var (option (list state)) :=
  dfilter (fun v => substr_of v name) (m_domains m).
(** a dictionary of domains where all of them are iterated; None is a TypeError (gradient.py:94-96, 126) *)
Definition domains_only (d : dict var (option (list state))) : res domain :=
  mapM (fun vd => match snd vd with Some l => Ok (fst vd, l) | None => Raise TypeError end) d.

(** gradient.py:106-120 [_filter_data], its length (used at line 99): the
    comparison of no columns, or of no rows, is an empty table *)
Definition count_filtered (data : frame) (bmv bmy : obs) : res nat :=
  if negb (forallb (fun v => mem v (f_cols data)) (keys bmv)) then Raise KeyError else
  if negb (forallb (fun v => mem v (f_cols data)) (keys bmy)) then Raise KeyError else
  match bmv with
  | [] => Ok 0
  | _ => Ok (length (filter (fun r => matches (f_cols data) bmv r && matches (f_cols data) bmy r) (f_rows data)))
  end.

(** gradient.py:137-149 [_get_P_v_pav_key] *)
Definition get_P_v_pav_key (bmv bmy : obs) (m : pgm) (endo : list var) (u : state) (V : var) (bmV bmY : list var) : res obs :=
  let* f := dlook V (m_factors m) in
  let* vars := match f with Some f => fo_vars f | None => Raise AttributeError end in
  mapM (fun v =>
    if mem v (exogenous (m_graph m) endo) then Ok (v, u) else
    if mem v bmV then let* s := dlook v bmv in Ok (v, s) else
    if mem v bmY then let* s := dlook v bmy in Ok (v, s) else
    Raise PlainException) vars.

(** `m.factors[V].values_dict[key]`; the store of a deterministic factor has no
    column for [V], so the key is not in its dictionary (gradient.py:131) *)
Definition lookup_value (m : pgm) (V : var) (key : obs) : res num :=
  let* f := dlook V (m_factors m) in
  match f with
  | Some (FM f) => let* d := values_dict f in dlook key d
  | Some (FD _) => Raise KeyError
  | Some FObj => Raise AttributeError
  | None => Raise AttributeError
  end.
(** gradient.py:129-133: 1, or 0 from the first factor whose value is 0 *)
Fixpoint prod_P (m : pgm) (endo : list var) (bmv bmy : obs) (u : state) (bmV bmY vs : list var) : res nat :=
  match vs with
  | [] => Ok 1
  | V :: vs =>
      let* key := get_P_v_pav_key bmv bmy m endo u V bmV bmY in
      let* x := lookup_value m V key in
      if (match x with Fin q => qzero q | _ => false end) then Ok 0 else prod_P m endo bmv bmy u bmV bmY vs
  end.
(** gradient.py:123-135 [_compute_P] *)
Definition compute_P (bmv bmy : obs) (m : pgm) (endo : list var) (U : var) (bmV bmY : list var) : res (dict state nat) :=
  let* d := dlook U (get_domains_str m U) in
  let* us := match d with Some us => Ok us | None => Raise TypeError end in
  let* l := mapM (fun u => let* p := prod_P m endo bmv bmy u bmV bmY bmV in Ok (u, p)) us in
  Ok (dict_of l).
(** gradient.py:90-104 [_compute_N_and_P]: the two nested dictionaries as one
    with pairs as keys *)
Definition compute_N_and_P (bmV bmY : list var) (data : frame) (m : pgm) (endo : list var) (U : var)
  : res (dict (obs * obs) (nat * dict state nat)) :=
  let* dv := domains_only (get_domains m bmV) in
  let* l := mapM (fun bmv =>
      let* dy := domains_only (get_domains m bmY) in
      mapM (fun bmy =>
          let* N := count_filtered data bmv bmy in
          let* P := compute_P bmv bmy m endo U bmV bmY in
          Ok ((bmv, bmy), (N, P))) (assignment_space dy)) (assignment_space dv) in
  Ok (dict_of (concat l)).

(** Lines 73-77 of [_updated_factor]: the numbers behind the objective. (gradient.py:73-77) *)
Definition statistics (m : pgm) (data : frame) (U : var) : res (dict (obs * obs) (nat * dict state nat)) :=
  let* endo := endogenous_of m in
  let* bmV := endo_children (m_graph m) endo U in
  let* bmY := get_bmY m endo bmV in
  compute_N_and_P bmV bmY data m endo U.

Section Gradient.
  (** The numbers that np.log returns, with their sum and their opposites; [lg]
      is the logarithm of positive numbers, and the logarithm of a negative
      number is nan. *)
  Variables (L : Type) (l0 : L) (ladd : L -> L -> L) (lopp : L -> L) (lg : Qc -> L) (lnan : L).
  (** scipy's minimize with the bounds, the constraint and the tolerance of
      gradient.py:222-226: the option maxiter (None: not given), the objective
      (None is inf) and the initial parameters *)
  Variable minimize : option Z -> (list Qc -> res (option L)) -> list num -> res (list Qc).
  (** the default store class of a new factor *)
  Variable dflt : vtype.

  (** `N * np.log(x)` as a repeated sum (gradient.py:182) *)
  Fixpoint times (n : nat) (x : L) : L := match n with 0 => l0 | S n => ladd x (times n x) end.
  (** np.log of a number that is not zero (gradient.py:182) *)
  Definition np_log (x : Qc) : L := if Qclt_le_dec 0 x then lg x else lnan.
  (** gradient.py:178-180: the sum over the states of U *)
  Definition sum_lkh (P : dict state nat) (theta : list Qc) : res Qc :=
    foldM (fun acc ip => let* t := py_nth theta (fst ip) in
                         Ok (acc + Q2Qc (inject_Z (Z.of_nat (snd (snd ip)))) * t)%Qc)
          (combine (seq 0 (length P)) P) 0%Qc.
  (** gradient.py:172-188 [negative_log_likelihood]; None is np.inf *)
  Fixpoint nll_loop (stats : dict (obs * obs) (nat * dict state nat)) (theta : list Qc) (log_likelihood : L) : res (option L) :=
    match stats with
    | [] => Ok (Some (lopp log_likelihood))
    | (_, (N, P)) :: stats =>
        if N =? 0 then nll_loop stats theta log_likelihood else
        let* s := sum_lkh P theta in
        if Qc_eq_dec s 0 then Ok None else nll_loop stats theta (ladd log_likelihood (times N (np_log s)))
    end.
  (** gradient.py:172-188 [negative_log_likelihood] *)
  Definition negative_log_likelihood (stats : dict (obs * obs) (nat * dict state nat)) (theta : list Qc) : res (option L) :=
    nll_loop stats theta l0.

  (** gradient.py:195-244 [fitPMF], the parameters *)
  Definition fitPMF (s : gr_state) (initial_params : list num) (stats : dict (obs * obs) (nat * dict state nat)) : res (list Qc) :=
    match gr_max_iter s with
    | None => Raise AttributeError
    | Some k => minimize k (negative_log_likelihood stats) initial_params
    end.

  (** gradient.py:56-83 [_updated_factor]; the values of a deterministic factor
      are states, which scipy rejects in its own way (left out) *)
  Definition updated_factor (m : pgm) (s : gr_state) (U : var) : res mfactor :=
    match gr_data s with
    | None => Raise AttributeError
    | Some data =>
        let* f := dlook U (m_factors m) in
        let* init := match f with
                     | Some (FM f) => mf_values f
                     | Some (FD _) => Raise Unmodelled
                     | _ => Raise AttributeError
                     end in
        let* stats := statistics m data U in
        let* params := fitPMF s init stats in
        (* factor.py:73-77, [_check_domain]: None is no list of states *)
        let* dom := match domains_only (get_domains_str m U) with Ok d => Ok d | Raise _ => Raise ValueError end in
        mf_init dom (FArr (mkNd [length params] (map Fin params))) None None dflt
    end.
  (** gradient.py:53-54 [_calculate_updated_factors] *)
  Definition gr_calculate (l : learner gr_state) : gr_state * res (dict var fobj) :=
    (l_sub l,
     match gr_trainable (l_sub l) with
     | None => Raise TypeError
     | Some tr =>
         let* fs := mapM (fun U => let* f := updated_factor (l_prior l) (l_sub l) U in Ok (U, FM f)) tr in
         Ok (dict_of fs)
     end).

  (** parameter.py:24-27 [step] for this learner *)
  Definition gr_step : learner gr_state -> option frame -> learner gr_state * option err :=
    step gr_process_data gr_calculate.
  (** gradient.py:247-258 [run] *)
  Definition gr_run (l : learner gr_state) (data : frame) (max_iter : option Z) : learner gr_state * option err :=
    let s := l_sub l in
    let l := with_sub l (MkG (gr_trainable s) (Some max_iter) (gr_data s)) in
    let (l, e) := initialize gr_process_data l data in
    match e with
    | Some e => (l, Some e)
    | None => gr_step l None
    end.
End Gradient.
