(** C45: derived stores and the store they were derived from. *)

From Coq Require Import String Bool Arith ZArith QArith Qcanon List.
From Verif Require Import PyBase Num DomainModel NdArray StoreModel NumStore Spec StoreSpec
  HeapModel HeapSpec HeapFacts4 HeapFacts6 HeapFacts7 HeapFacts8 HeapChecks.
Import ListNotations.
Local Open Scope nat_scope.

(** After a derivation with a result of its own, any sequence of set_value calls
    on the result leaves every store object that existed before (the source, the
    second operand, and all others) with the table it had. *)
Theorem C45_independent : forall n m dv s p q F h r h1 calls r' h2 s0 p0 F0,
  holds h s p F -> operand_holds h dv q -> derive n dv s h = (Ok r, h1) -> own_result dv p ->
  set_values m r calls h1 = (r', h2) ->
  holds h s0 p0 F0 -> holds h2 s0 p0 F0.
Proof. exact derived_own. Qed.
Print Assumptions C45_independent.

Example C45_independent_case :
  holds hheap hs0 hp0 hF0 /\ own_result (DRestrict (single [("Y", hy0)]%string)) hp0 /\
  exists r h1 r' h2,
    derive 9 (DRestrict (single [("Y", hy0)]%string)) hs0 hheap = (Ok r, h1) /\
    set_values 9 r hcalls h1 = (r', h2) /\ h1 <> h2.
Proof. exact (conj hs0_holds (conj own_Y restrict_case)). Qed.

(** Conversely, calls on the source leave the result with the table it had. *)
Theorem C45_result_independent : forall n m dv s p q F h r h1 calls s' h2 p' G,
  holds h s p F -> operand_holds h dv q -> derive n dv s h = (Ok r, h1) -> own_result dv p ->
  holds h1 r p' G -> set_values m s calls h1 = (s', h2) -> holds h2 r p' G.
Proof. exact derived_back. Qed.
Print Assumptions C45_result_independent.

Example C45_result_independent_case : holds hheap hs0 hp0 hF0 /\
  own_result (DMultiply hsY) hp0 /\ operand_holds hheap (DMultiply hsY) (Some hpY) /\
  exists r h1 p' G, derive 9 (DMultiply hsY) hs0 hheap = (Ok r, h1) /\ holds h1 r p' G /\
    get_value p' [("X", hx1); ("Y", hy1)]%string = Ok (qn 12) /\ G = [13; 10; 12].
Proof. exact (conj hs0_holds (conj I (conj (ex_intro _ [7] hsY_holds) mult_case))). Qed.

(** The derived store object holds the table computed by the operation of
    StoreModel.v and NumStore.v, and no dictionary occurs twice in it if none
    does in the source. *)
Theorem C45_derived_table : forall n dv s p q F h r h1, wf_store p ->
  holds h s p F -> operand_holds h dv q -> derive n dv s h = (Ok r, h1) ->
  exists p' G, table_of dv p q = Ok p' /\ holds h1 r p' G /\ (NoDup F -> NoDup G).
Proof. exact derived_table. Qed.
Print Assumptions C45_derived_table.

(** The derivation returns whenever the operation on tables does, unless the
    recursion limit is too small for the number of variables. *)
Theorem C45_derivation_returns : forall n dv s p q p' F h,
  wf_store p -> (forall q', q = Some q' -> wf_store q') ->
  (match dv with DMarginalize vs | DMaxmarginalize vs => NoDup vs /\ incl vs (keys (st_domain p)) | _ => True end) ->
  holds h s p F -> operand_holds h dv q -> table_of dv p q = Ok p' -> wf_store p' ->
  2 * length (st_domain p) + match q with Some q' => length (st_domain q') | None => 0 end < n ->
  exists r h1 G, derive n dv s h = (Ok r, h1) /\ holds h1 r p' G.
Proof. exact derived_runs. Qed.
Print Assumptions C45_derivation_returns.

Example C45_derivation_returns_case : wf_store hp0 /\ wf_store hpY /\ holds hheap hs0 hp0 hF0 /\
  operand_holds hheap (DMultiply hsY) (Some hpY) /\ length (st_domain hp0) = 2 /\ length (st_domain hpY) = 1.
Proof.
  exact (conj hp0_wf (conj hpY_wf (conj hs0_holds (conj (ex_intro _ [7] hsY_holds) (conj eq_refl eq_refl))))).
Qed.

(** set_value on a store object in which no dictionary occurs twice does to its
    table what set_value of StoreModel.v does. *)
Theorem C45_set_value_table : forall n s p F x o h r h',
  holds h s p F -> NoDup F -> hs_set_value n s x o h = (r, h') ->
  match r with
  | Ok s' => exists p' F', st_set_value p x o = Ok p' /\ holds h' s' p' F' /\ NoDup F' /\
               forall b, In b F' -> In b F \/ length h <= b
  | Raise e => st_set_value p x o = Raise e \/
               e = RecursionError /\ st_type p = VTree /\ (wf_store p -> n <= length (st_domain p))
  end.
Proof. exact set_value_ok. Qed.
Print Assumptions C45_set_value_table.

Example C45_set_value_table_case : holds hheap hs0 hp0 hF0 /\ NoDup hF0 /\ holds hheap hsL hpL [6] /\ NoDup [6].
Proof. exact (conj hs0_holds (conj hF0_nodup (conj hsL_holds (one_nodup 6)))). Qed.

(** Stores without a common object are independent ... *)
Theorem C45_apart : forall n calls s1 s2 p1 p2 F1 F2 h s1' h',
  holds h s1 p1 F1 -> holds h s2 p2 F2 -> apart F1 F2 ->
  set_values n s1 calls h = (s1', h') -> holds h' s2 p2 F2.
Proof. exact set_values_apart. Qed.
Print Assumptions C45_apart.

(** ... and treedict stores with a common dictionary never are: some set_value,
    at a full observation, on one of them changes the other. *)
Theorem C45_common_dictionary : forall h s r d t d' t' F G a,
  holds h s (StTree d t) F -> holds h r (StTree d' t') G -> wf_store (StTree d' t') ->
  In a F -> In a G ->
  exists x o, full d' o /\ forall m, length d' < m ->
    exists r' h2, hs_set_value m r x o h = (Ok r', h2) /\ ~ exists F', holds h2 s (StTree d t) F'.
Proof. exact sharing_visible. Qed.
Print Assumptions C45_common_dictionary.

Example C45_common_dictionary_case : holds hheap hs0 hp0 hF0 /\ wf_store hpY /\
  holds hheap (mkHS VTree hdY (HRef 0)) (StTree hdY (Node "Y" [(hy0, Leaf (qn 1)); (hy1, Leaf (qn 2))])%string) [0] /\
  In 0 hF0.
Proof. exact (conj hs0_holds (conj hpY_wf (conj sub_holds (or_intror (or_introl eq_refl))))). Qed.

(** For restrict on a treedict store the condition of [own_result] is exact: the
    source is safe from later calls if and only if the observation is used up
    only at the end of each path. *)
Theorem C45_restrict_exact : forall n s d t o F h r h1,
  wf_store (StTree d t) -> known d o -> holds h s (StTree d t) F ->
  derive n (DRestrict (single o)) s h = (Ok r, h1) ->
  (used_up o t <-> forall m calls r' h2, set_values m r calls h1 = (r', h2) -> holds h2 s (StTree d t) F).
Proof. exact restrict_exact. Qed.
Print Assumptions C45_restrict_exact.

Example C45_restrict_exact_case : wf_store hp0 /\ holds hheap hs0 hp0 hF0 /\
  exists t, hp0 = StTree hdom t /\ used_up [("Y", hy0)]%string t /\ ~ used_up [("X", hx0)]%string t.
Proof. exact (conj hp0_wf (conj hs0_holds (ex_intro _ _ (conj eq_refl (conj used_Y not_used_X))))). Qed.

(** The literal claim is false for the treedict store: with restrict, ... *)
Theorem C45_restrict_refuted : exists p o,
  st_type p = VTree /\ o <> [] /\ changes_source 9 (DRestrict (single o)) p.
Proof. exact (ex_intro _ hp0 (ex_intro _ [("X", hx0)]%string (conj eq_refl (conj obs_nonempty leak_restrict)))). Qed.
Print Assumptions C45_restrict_refuted.

Theorem C45_restrict_nothing_refuted : exists p,
  st_type p = VTree /\ changes_source 9 (DRestrict (single [])) p.
Proof. exact (ex_intro _ hp0 (conj eq_refl leak_restrict_nothing)). Qed.
Print Assumptions C45_restrict_nothing_refuted.

(** ... with the removal of a variable with one state, or of no variable, ... *)
Theorem C45_marginalize_refuted : exists p v, In v (keys (st_domain p)) /\
  st_type p = VTree /\ changes_source 9 (DMarginalize [v]) p /\ changes_source 9 (DMaxmarginalize [v]) p.
Proof.
  exact (ex_intro _ hpZ (ex_intro _ "Z"%string (conj (or_introl eq_refl) (conj eq_refl
    (conj (leak_marginalize _ (or_introl eq_refl)) (leak_marginalize _ (or_intror eq_refl))))))).
Qed.
Print Assumptions C45_marginalize_refuted.

Theorem C45_marginalize_nothing_refuted : exists p,
  st_type p = VTree /\ changes_source 9 (DMarginalize []) p.
Proof. exact (ex_intro _ hpZ (conj eq_refl leak_marginalize_nothing)). Qed.
Print Assumptions C45_marginalize_nothing_refuted.

(** ... and with the shallow copy, for every treedict store with a variable; the
    shallow copy of a numpy1d store shares its array as well. *)
Theorem C45_shallow_copy_shares : forall n s d t F h r h1,
  wf_store (StTree d t) -> d <> [] -> holds h s (StTree d t) F -> derive n (DCopy false) s h = (Ok r, h1) ->
  exists x o, full d o /\ forall m, length d < m ->
    exists r' h2, hs_set_value m r x o h1 = (Ok r', h2) /\ ~ exists F', holds h2 s (StTree d t) F'.
Proof. exact shallow_copy_shares. Qed.
Print Assumptions C45_shallow_copy_shares.

Theorem C45_shallow_copy_refuted :
  (exists p, st_type p = VTree /\ changes_source 9 (DCopy false) p) /\
  (exists p, st_type p = VNumpy1D /\ changes_source 9 (DCopy false) p).
Proof.
  exact (conj (ex_intro _ hpY (conj eq_refl leak_copy_tree)) (ex_intro _ hp1 (conj eq_refl leak_copy_numpy1d))).
Qed.
Print Assumptions C45_shallow_copy_refuted.

(** A store built from an array: a numpy1d store keeps the array of the caller,
    the others have one of their own. *)
Theorem C45_constructor : forall vt d a x s h h1, vt <> VTree -> nth_error h a = Some (CArr x) ->
  hinit vt d (HRef a) h = (Ok s, h1) ->
  exists p F, st_init vt d (DArr x) = Ok p /\ holds h1 s p F /\
    (vt = VNumpy1D -> F = [a]) /\ (vt <> VNumpy1D -> forall b, In b F -> length h <= b).
Proof. exact constructor_array. Qed.
Print Assumptions C45_constructor.

Example C45_constructor_case : exists s h1, hinit VNumpy1D hdX (HRef 5) hheap = (Ok s, h1).
Proof. exact constructor_case. Qed.
