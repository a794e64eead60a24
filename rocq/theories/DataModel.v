(** Model of sampling and of inference from data: bcause/models/sampling.py,
    the sampling methods of bcause/factors/mulitnomial.py,
    bcause/util/datautils.py and
    bcause/inference/probabilistic/datainference.py. *)

From Coq Require Import String Bool Arith ZArith QArith Qcanon List.
From Verif Require Import PyBase Num DomainModel NdArray StoreModel NumStore FactorModel GraphModel ModelModel InferModel LearnModel.
Import ListNotations.
Local Open Scope nat_scope.

(** ** Sampling *)

(** The random generator: np.random.choice draws one uniform number of [0, 1)
    for every sample (here a rational). (mulitnomial.py:159) *)
Definition draws := nat -> Qc.

(** mulitnomial.py:158, the values as finite floats [fins] *)
Definition fins (l : list num) : option (list Qc) :=
  fold_right (fun x r => match x, r with Fin q, Some l => Some (q :: l) | _, _ => None end) (Some []) l.
(** The first position whose cumulative sum (over [acc]) is greater than [u]:
    cdf.searchsorted(u, side='right'). (mulitnomial.py:159) *)
Fixpoint searchsorted (acc : Qc) (ps : list Qc) (u : Qc) : nat :=
  match ps with
  | [] => 0
  | p :: r => if Qclt_le_dec u (acc + p) then 0 else S (searchsorted (acc + p) r u)
  end.
(** np.random.choice(list(range(0, len(p))), p=p) (mulitnomial.py:159): empty
    lists, NaN, negative numbers and a sum other than one are rejected.  (The
    tolerance of the last test is not modelled.) *)
Definition choice (ps : list num) (u : Qc) : res nat :=
  match fins ps with
  | None => Raise ValueError
  | Some [] => Raise ValueError
  | Some l =>
      if existsb (fun p => if Qclt_le_dec p 0 then true else false) l then Raise ValueError else
      if Qc_eq_dec (fold_right Qcplus 0%Qc l) 1 then Ok (searchsorted 0 l u) else Raise ValueError
  end.

(** mulitnomial.py:153-162 [_sample] with varnames *)
Definition sample_once (f : mfactor) (u : Qc) : res obs :=
  match mf_right f with
  | [] =>
      let observations := assignment_space (mf_left_domain f) in
      let* probs := mapM (mf_get_value f) observations in
      let* idx := choice (map (fun x => ndiv x (nsum probs)) probs) u in
      py_nth observations idx
  | _ => Raise NotImplementedError
  end.
(** mulitnomial.py:140-143 [sample] *)
Definition mf_sample (f : mfactor) (n : Z) (u : draws) : res (list obs) :=
  if (n <? 1)%Z then Raise ValueError else
  mapM (fun i => sample_once f (u i)) (seq 0 (Z.to_nat n)).
(** mulitnomial.py:145-150 [sample_conditional]; the observations are the
    records of a data frame, which all have the same keys *)
Definition mf_sample_conditional (f : mfactor) (observations : list obs) (u : draws) : res (list obs) :=
  match observations with
  | [] => Raise ValueError
  | _ =>
      let* factors := mapM (fun o => let* g := mf_restrict f o in Ok (o, g)) (rev (nodup eqd (rev observations))) in
      mapM (fun io => match dget (snd io) factors with
                      | Some g => sample_once g (u (fst io))
                      | None => Raise KeyError
                      end) (combine (seq 0 (length observations)) observations)
  end.
(** factors[v].sample(n) and .sample_conditional(records) (sampling.py:14-15).
    Those of a DeterministicFactor (deterministic.py:82-86) have a parameter
    without default that is not passed. *)
Definition fo_sample (f : fobj) (n : Z) (u : draws) : res (list obs) :=
  match f with FM f => mf_sample f n u | FD _ => Raise TypeError | FObj => Raise AttributeError end.
(** sampling.py:11-17, mulitnomial.py:145-150 [fo_sample_conditional] *)
Definition fo_sample_conditional (f : fobj) (observations : list obs) (u : draws) : res (list obs) :=
  match f with FM f => mf_sample_conditional f observations u | FD _ => Raise TypeError | FObj => Raise AttributeError end.

(** sampling.py:11-17 [forward_sampling].  [order] is what
    nx.topological_sort yields, [u v] the numbers drawn for the variable [v],
    and the data frame is the list of its records; columns are added on the
    right. *)
Definition forward_step (m : pgm) (n : Z) (u : var -> draws) (data : list obs) (v : var) : res (list obs) :=
  let* f := match dget v (m_factors m) with
            | None => Raise KeyError
            | Some None => Raise AttributeError
            | Some (Some f) => Ok f
            end in
  match preds (m_graph m) v with
  | [] => let* new := fo_sample f n (u v) in
          Ok (match data with [] => new | _ => map (fun rn => fst rn ++ snd rn) (combine data new) end)
  | _ => let* new := fo_sample_conditional f data (u v) in
         Ok (map (fun rn => fst rn ++ snd rn) (combine data new))
  end.
(** sampling.py:11-17 [forward_sampling] *)
Definition forward_sampling (order : list var) (m : pgm) (n : Z) (u : var -> draws) : res (list obs) :=
  foldM (forward_step m n u) order [].
(** cmodel.py:249-250 [sampleEndogenous] of pgmodel.py:192-197 [sample];
    without as_pandas a list is subscripted with a list *)
Definition sample_endogenous (order : list var) (m : pgm) (n : Z) (u : var -> draws) (as_pandas : bool) : res (list obs) :=
  match m_kind m with
  | KScm endo _ =>
      let* data := forward_sampling order m n u in
      if as_pandas then mapM (fun r => mapM (fun v => let* s := dlook v r in Ok (v, s)) endo) data else Raise TypeError
  | _ => Raise AttributeError
  end.

(** ** Counting *)

(** data[columns] (cmodel.py:249-250) *)
Definition select (data : frame) (cols : list var) : res frame :=
  if forallb (fun v => mem v (f_cols data)) cols then
    let* rows := mapM (fun r => mapM (fun v => dlook v (row_dict (f_cols data) r)) cols) (f_rows data) in
    Ok (mkF cols rows)
  else Raise KeyError.

(** datautils.py:26-29 [filter_data] *)
Definition filter_data (data : frame) (o : obs) : res frame :=
  foldM (fun data vs =>
           if mem (fst vs) (f_cols data)
           then Ok (mkF (f_cols data) (filter (matches (f_cols data) [vs]) (f_rows data)))
           else Raise KeyError) o data.

(** datautils.py:11-14: the domains with the state "nan" added to those of the
    columns with missing values *)
Definition add_nan (data : frame) (doms : domain) : res domain :=
  foldM (fun doms v =>
           if mem v (incomplete_columns data) then
             let* l := dlook v doms in
             if forallb (fun s => match s with SStr _ => true | _ => false end) l
             then Ok (dset v (l ++ [SStr "nan"]) doms)
             else Raise ValueError
           else Ok doms) (f_cols data) doms.
(** datautils.py:5-23 [to_counts]; [dflt] is the default store class.  The keys
    of value_counts are the rows (NaN is a value of its own, not "nan"); without
    columns it raises. *)
Definition to_counts (dflt : vtype) (doms : domain) (data : option frame) (normalize : bool) : res mfactor :=
  let* dc := match data with
             | None => Ok (doms, [])
             | Some data =>
                 let* data := select data (keys doms) in
                 match doms with
                 | [] => Raise ValueError
                 | _ => let* doms := add_nan data doms in Ok (doms, f_rows data)
                 end
             end in
  let (doms, rows) := dc in
  let counts := map (fun k => length (filter (fun r => if eqd r (map Some k) then true else false) rows)) (state_space doms) in
  let z c := inject_Z (Z.of_nat c) in
  let* values := if normalize then
                   let N := fold_left Nat.add counts 0 in
                   if (N =? 0) && (0 <? length counts) then Raise ZeroDivisionError
                   else Ok (map (fun c => Fin (Q2Qc (z c) / Q2Qc (z N))) counts)
                 else Ok (map (fun c => Fin (Q2Qc (z c))) counts) in
  mf_init doms (flist values) None None dflt.

(** ** LaplaceInference *)

Section Laplace.
  (** the iteration order of a set, given as a union of lists *)
  Variable set_order : list (list var) -> list var.
  Variable dflt : vtype.
  (** datainference.py:15-18: the data, the domains and the flag given to the
      constructor *)
  Variables (data : frame) (domains : domain) (preprocess : bool).

  (** datainference.py:19-32 [compile] with 35-39 [_preprocess] *)
  Definition laplace_compile (target : list var) (evidence : obs) : res frame :=
    if negb (length (nodup eqd target) =? length target) then Raise ValueError else
    if existsb (fun v => mem v (keys evidence)) target then Raise ValueError else
    if preprocess then select data (set_order [target; keys evidence]) else Ok data.
  (** datainference.py:41-56 [run] *)
  Definition laplace_run (im : frame) (target : list var) (evidence : obs) : res mfactor :=
    let* d := filter_data im evidence in
    to_counts dflt (dfilter (fun v => mem v target) domains) (Some d) true.
  (** probabilistic.py:38-54 [query] *)
  Definition laplace_query (target : list var) (conditioning : option (list var)) (evidence : obs) : res mfactor :=
    match conditioning with
    | None =>
        let* im := laplace_compile target evidence in
        laplace_run im target evidence
    | Some conditioning =>
        if existsb (fun v => mem v conditioning) target then Raise ValueError else
        let all := set_order [target; conditioning] in
        let* im := laplace_compile all evidence in
        let* p := laplace_run im all evidence in
        let* q := mf_marginalize p target in
        mf_divide p (OFac q)
    end.
End Laplace.
