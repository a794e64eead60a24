(** Properties C17-C19: generated tables and interval factors. *)

From Coq Require Import String Ascii Bool Arith ZArith QArith Qcanon Permutation List.
From Verif Require Import PyBase Num DomainModel NdArray StoreModel NumStore FactorModel GenModel Spec StoreSpec
  FactorSpec GenSpec FactorFacts FactorFacts2 FactorFacts3 GenFacts GenFacts2 GenFacts3 GenFacts4 CanonFacts7 Checks FactorChecks GenChecks.
Import ListNotations.
Local Open Scope nat_scope.

(** * C17 *)
Theorem C17_random_multinomial : forall (dom : domain) (r : list var) (vt : vtype) (az : bool) (draw : list num),
  usable dom -> NoDup r -> incl r (keys dom) -> length draw = size dom ->
  (forall x, In x draw -> exists q, x = Fin q /\ if az then (0 <= q)%Qc else (q < 0)%Qc) ->
  (az = true -> forall o, full (pick r dom) o -> exists p q, In p (all_assignments (drop r dom)) /\
     nth_error draw (rowpos dom (p ++ o)) = Some (Fin q) /\ (0 < q)%Qc) ->
  exists f, random_multinomial dom r vt az draw = Ok f /\
    wf_mf f /\ mf_domain f = dom /\ mf_right f = r /\ mf_vtype f = vt /\ normalised f /\
    forall o, full dom o -> exists q, mf_get_value f o = Ok (Fin q) /\ (0 <= q)%Qc /\ (az = false -> (0 < q)%Qc).
Proof. exact random_multinomial_ok. Qed.
Print Assumptions C17_random_multinomial.

Theorem C17_uniform_multinomial : forall (dom : domain) (r : list var) (vt : vtype),
  usable dom -> NoDup r -> incl r (keys dom) ->
  exists f, uniform_multinomial dom r vt = Ok f /\
    wf_mf f /\ mf_domain f = dom /\ mf_right f = r /\ mf_vtype f = vt /\ normalised f /\
    forall o, full dom o -> mf_get_value f o = Ok (ndiv n1 (nsum (repeat n1 (size (drop r dom))))).
Proof. exact uniform_multinomial_ok. Qed.
Print Assumptions C17_uniform_multinomial.

Theorem C17_random_deterministic : forall (dom : domain) (r : list var) (vt : vtype) (choose : nat -> var -> nat),
  usable dom -> dom <> [] -> NoDup r -> incl r (keys dom) ->
  (forall k v l, In (v, l) dom -> choose k v < length l) ->
  exists f, random_deterministic dom (Some r) vt choose = Ok f /\
    wf_mf f /\ mf_domain f = dom /\ mf_right f = r /\ mf_vtype f = vt /\
    forall o, full (pick r dom) o -> exists p, In p (all_assignments (drop r dom)) /\
      mf_get_value f (p ++ o) = Ok n1 /\
      forall p', In p' (all_assignments (drop r dom)) -> p' <> p -> mf_get_value f (p' ++ o) = Ok n0.
Proof. exact random_deterministic_ok. Qed.
Print Assumptions C17_random_deterministic.

(** With the default right_vars=None the function crashes on every non-empty domain. *)
Theorem C17_no_right_vars : forall (dom : domain) (vt : vtype) (choose : nat -> var -> nat),
  dom <> [] -> random_deterministic dom None vt choose = Raise AttributeError.
Proof. exact random_deterministic_none. Qed.
Print Assumptions C17_no_right_vars.

(** On the empty domain there is no position to write. *)
Theorem C17_empty_raises : forall (vt : vtype) (choose : nat -> var -> nat), random_deterministic [] (Some []) vt choose = Raise IndexError.
Proof. exact (fun _ _ => eq_refl). Qed.
Print Assumptions C17_empty_raises.

(** Zeros allowed and a column of zeros drawn: the entries are not numbers. *)
Theorem C17_zero_column_refuted : exists (dom : domain) (r : list var) (draw : list num) f,
  usable dom /\ NoDup r /\ incl r (keys dom) /\ length draw = size dom /\
  (forall x, In x draw -> exists q, x = Fin q /\ (0 <= q)%Qc) /\
  random_multinomial dom r VNumpy true draw = Ok f /\ ~ normalised f.
Proof. exact zero_column. Qed.
Print Assumptions C17_zero_column_refuted.

Example C17_case : forall vt,
  usable dAB /\ NoDup ["A"%string] /\ incl ["A"%string] (keys dAB) /\
  length (map q [-1#6; -2#6; -3#6; -1#2; -1#4; -1#4]) = size dAB /\
  (forall x, In x (map q [-1#6; -2#6; -3#6; -1#2; -1#4; -1#4]) -> exists q, x = Fin q /\ (q < 0)%Qc) /\
  view (random_multinomial dAB ["A"%string] vt false (map q [-1#6; -2#6; -3#6; -1#2; -1#4; -1#4])) =
    Ok (dAB, ["B"%string], ["A"%string], map q [1#6; 1#3; 1#2; 1#2; 1#4; 1#4]) /\
  view (uniform_multinomial dAB ["A"%string] vt) =
    Ok (dAB, ["B"%string], ["A"%string], map q [1#3; 1#3; 1#3; 1#3; 1#3; 1#3]) /\
  view (random_deterministic dAB (Some ["B"%string]) vt (fun k _ => k mod 2)) =
    Ok (dAB, ["A"%string], ["B"%string], map q [1; 0; 1; 0; 1; 0]%Q).
Proof.
  intros vt. split; [apply usableb_sound; reflexivity|]. split; [apply nodupb_sound; reflexivity|].
  split; [apply inclb_sound; reflexivity|]. split; [reflexivity|]. split.
  { intros x H. repeat (destruct H as [<-|H]; [eexists; split; [reflexivity|reflexivity]|]). destruct H. }
  repeat split; apply view_ok; destruct vt; vm_compute; reflexivity.
Qed.

(** * C18 *)
Theorem C18_canonical : forall (dom : domain) (x exo : var) (endo : list var) (l lu : list state) (vt : vtype),
  canon_vars dom x exo endo l lu ->
  (vt = VNumpy -> length endo = 1) ->
  length lu = length l ^ size (order_dom dom endo) ->
  exists f, canonical_deterministic dom exo endo vt = Ok f /\ wf_df f x l /\
    df_domain f = (x, l) :: (exo, lu) :: order_dom dom endo /\ df_vtype f = vt /\ df_right f = exo :: endo /\
    (forall u p, In u lu -> In p (all_assignments (order_dom dom endo)) ->
       exists y, get_value (df_store f) ((exo, u) :: p) = Ok y /\ In y l) /\
    (forall h : obs -> state, (forall p, In p (all_assignments (order_dom dom endo)) -> In (h p) l) ->
       exists u, In u lu /\
         (forall p, In p (all_assignments (order_dom dom endo)) -> get_value (df_store f) ((exo, u) :: p) = Ok (h p)) /\
         (forall u', In u' lu ->
            (forall p, In p (all_assignments (order_dom dom endo)) -> get_value (df_store f) ((exo, u') :: p) = Ok (h p)) ->
            u' = u)).
Proof. exact canonical_ok. Qed.
Print Assumptions C18_canonical.

(** The functions are in lexicographic order: the values of the [i]-th one, in
    the order of the values of the parents, are the digits of [i]. *)
Theorem C18_order : forall (dom : domain) (x exo : var) (endo : list var) (l lu : list state) (vt : vtype),
  canon_vars dom x exo endo l lu -> (vt = VNumpy -> length endo = 1) ->
  length lu = length l ^ size (order_dom dom endo) ->
  exists f, canonical_deterministic dom exo endo vt = Ok f /\
    forall i j u p, nth_error lu i = Some u -> nth_error (all_assignments (order_dom dom endo)) j = Some p ->
      exists y, get_value (df_store f) ((exo, u) :: p) = Ok y /\
        nth_error l ((i / length l ^ (size (order_dom dom endo) - 1 - j)) mod length l) = Some y.
Proof. exact canonical_order. Qed.
Print Assumptions C18_order.

(** [canonical_multinomial] is the 0-1 table of the same functions. *)
Theorem C18_table : forall (dom : domain) (x exo : var) (endo : list var) (l lu : list state) (vt : vtype),
  usable dom -> canon_vars dom x exo endo l lu -> (vt = VNumpy -> length endo = 1) ->
  length lu = length l ^ size (order_dom dom endo) ->
  exists f c, canonical_deterministic dom exo endo vt = Ok f /\ canonical_multinomial dom exo endo vt = Ok c /\ wf_mf c /\
    mf_domain c = (x, l) :: (exo, lu) :: order_dom dom endo /\ mf_left c = [x] /\ mf_right c = exo :: endo /\ mf_vtype c = vt /\
    forall o, full (mf_domain c) o -> exists y z, get_value (df_store f) o = Ok y /\ dget x o = Some z /\
      mf_get_value c o = Ok (if eqd y z then n1 else n0).
Proof. exact canonical_table. Qed.
Print Assumptions C18_table.

Theorem C18_wrong_cardinality : forall (dom : domain) (x exo : var) (endo : list var) (l lu : list state) (vt : vtype),
  canon_vars dom x exo endo l lu -> vt <> VTree ->
  length lu <> length l ^ size (order_dom dom endo) -> canonical_deterministic dom exo endo vt = Raise ValueError.
Proof. exact canonical_length. Qed.
Print Assumptions C18_wrong_cardinality.

Theorem C18_not_one_child : forall (dom : domain) (exo : var) (endo : list var) (vt : vtype),
  length (filter (fun v => negb (mem v endo) && negb (if eqd v exo then true else false)) (keys dom)) <> 1 ->
  canonical_deterministic dom exo endo vt = Raise ValueError.
Proof. exact canonical_not_one. Qed.
Print Assumptions C18_not_one_child.

(** Under the default store the function only works with exactly one
    endogenous parent. *)
Theorem C18_numpy_parents : forall (dom : domain) (x exo : var) (endo : list var) (l lu : list state),
  canon_vars dom x exo endo l lu -> length endo <> 1 -> canonical_deterministic dom exo endo VNumpy = Raise ValueError.
Proof. exact canonical_numpy. Qed.
Print Assumptions C18_numpy_parents.

Theorem C18_numpy_refuted : exists (dom : domain) (x exo : var) (endo : list var) (l lu : list state),
  canon_vars dom x exo endo l lu /\ length lu = length l ^ size (order_dom dom endo) /\
  canonical_deterministic dom exo endo VNumpy = Raise ValueError.
Proof. exact canonical_numpy_case. Qed.
Print Assumptions C18_numpy_refuted.

Theorem C18_treedict_refuted : exists (dom : domain) (x exo : var) (endo : list var) (l lu : list state) f,
  canon_vars dom x exo endo l lu /\ length lu <> length l ^ size (order_dom dom endo) /\
  canonical_deterministic dom exo endo VTree = Ok f.
Proof. exact canonical_tree_case. Qed.
Print Assumptions C18_treedict_refuted.

Example C18_case : forall vt,
  canon_vars dXUY "X"%string "U"%string ["Y"%string] [SInt 0; SInt 1]%Z [SInt 0; SInt 1; SInt 2; SInt 3]%Z /\
  length [SInt 0; SInt 1; SInt 2; SInt 3]%Z = length [SInt 0; SInt 1]%Z ^ size (order_dom dXUY ["Y"%string]) /\
  match canonical_deterministic dXUY "U"%string ["Y"%string] vt with
  | Ok f => mapM (fun uy => get_value (df_store f) [("U"%string, SInt (fst uy)); ("Y"%string, SInt (snd uy))])
              [(0, 0); (0, 1); (1, 0); (1, 1); (2, 0); (2, 1); (3, 0); (3, 1)]%Z
            = Ok (map SInt [0; 0; 0; 1; 1; 0; 1; 1]%Z)
  | Raise _ => False
  end.
Proof.
  intros vt. split; [exact dXUY_canon|]. split; [reflexivity|]. destruct vt; reflexivity.
Qed.

(** * C19 *)
Theorem C19_envelope : forall (dflt : vtype) (fs : list mfactor) (f0 : mfactor), In f0 fs ->
  (forall f, In f fs -> wf_mf f /\ mf_domain f = mf_domain f0 /\ all_finite f) ->
  exists g, from_precise dflt fs = Ok g /\ wf_store (if_store g) /\
    st_domain (if_store g) = (bound_var, [low; up]) :: mf_domain f0 /\ st_type (if_store g) = dflt /\ if_domain g = mf_domain f0 /\
    (exists f1, hd_error fs = Some f1 /\ forall v, In v (if_left g) <-> In v (mf_left f1)) /\
    forall o, full (mf_domain f0) o -> exists lo hi, interval g o lo hi /\
      (exists f, In f fs /\ mf_get_value f o = Ok (Fin lo)) /\
      (exists f, In f fs /\ mf_get_value f o = Ok (Fin hi)) /\
      (forall f q, In f fs -> mf_get_value f o = Ok (Fin q) -> (lo <= q)%Qc /\ (q <= hi)%Qc).
Proof. exact from_precise_ok. Qed.
Print Assumptions C19_envelope.

Theorem C19_restrict_envelope : forall (dflt : vtype) (fs : list mfactor) (f0 : mfactor) (o : obs) (g : ifactor),
  In f0 fs -> dflt <> VTree ->
  (forall f, In f fs -> wf_mf f /\ mf_domain f = mf_domain f0 /\ all_finite f) ->
  (forall v l x, In (v, l) (mf_domain f0) -> dget v o = Some x -> In x l) -> ~ In bound_var (keys o) ->
  from_precise dflt fs = Ok g ->
  exists fs' g1 g2, mapM (fun f => mf_restrict f o) fs = Ok fs' /\ from_precise dflt fs' = Ok g1 /\ if_restrict g o = Ok g2 /\
    if_domain g1 = drop (keys o) (mf_domain f0) /\ if_domain g2 = drop (keys o) (mf_domain f0) /\
    (forall v, In v (if_left g1) <-> In v (if_left g2)) /\
    forall o', full (drop (keys o) (mf_domain f0)) o' -> exists lo hi, interval g1 o' lo hi /\ interval g2 o' lo hi.
Proof. exact envelope_restrict. Qed.
Print Assumptions C19_restrict_envelope.

(** An undefined entry of one of the tables makes both bounds undefined. *)
Theorem C19_undefined : forall (dflt : vtype) (fs : list mfactor) (f0 : mfactor), In f0 fs ->
  (forall f, In f fs -> wf_mf f /\ mf_domain f = mf_domain f0) ->
  exists g, from_precise dflt fs = Ok g /\ if_domain g = mf_domain f0 /\
    forall o f, full (mf_domain f0) o -> In f fs -> mf_get_value f o = Ok NaN ->
      exists sl su, store_low g = Ok sl /\ store_up g = Ok su /\ get_value sl o = Ok NaN /\ get_value su o = Ok NaN.
Proof. exact from_precise_nan. Qed.
Print Assumptions C19_undefined.

Theorem C19_different_domains : forall (dflt : vtype) (f0 f : mfactor) (fs : list mfactor),
  In f fs -> mf_domain f <> mf_domain f0 -> from_precise dflt (f0 :: fs) = Raise ValueError.
Proof. intros dflt f0 f fs. exact (from_precise_domains dflt f0 fs f). Qed.
Print Assumptions C19_different_domains.

Theorem C19_empty : forall (dflt : vtype), from_precise dflt [] = Raise IndexError.
Proof. exact from_precise_empty. Qed.
Print Assumptions C19_empty.

Example C19_undefined_case : forall vt,
  bounds_of (let* f := mf_init [("A"%string, [SInt 0; SInt 1; SInt 2]%Z)] (flist [q 1; NaN; q 0]) None None vt in
             from_precise vt [fac vt [("A"%string, [SInt 0; SInt 1; SInt 2]%Z)] [1#2; 1#2; 0]%Q []; f]) =
  Ok ([q (1#2); NaN; q 0], [q 1; NaN; q 0]).
Proof. intros vt. apply bounds_eqb_sound. destruct vt; vm_compute; reflexivity. Qed.

Example C19_case : forall vt,
  let fs := [fac vt dAB [1; 2; 3; 4; 5; 6]%Q []; fac vt dAB [6; 5; 4; 3; 2; 1]%Q []; fac vt dAB [3; 3; 3; 3; 3; 3]%Q []] in
  (forall f, In f fs -> wf_mf f /\ mf_domain f = dAB /\ all_finite f) /\
  bounds_of (from_precise vt fs) = Ok (map q [1; 2; 3; 3; 2; 1]%Q, map q [6; 5; 4; 4; 5; 6]%Q) /\
  (vt <> VTree -> bounds_of (let* g := from_precise vt fs in if_restrict g [("A"%string, SStr "a1"%string)])
                  = Ok (map q [3; 2; 1]%Q, map q [4; 5; 6]%Q)).
Proof. exact envelope_case. Qed.
