(** Tables of pgmpy and factors. *)

From Coq Require Import String Bool Arith ZArith Lia Permutation List.
From Verif Require Import PyBase Num DomainModel NdArray StoreModel NumStore FactorModel GraphModel ModelModel PgmpyModel
  PyFacts Spec DomainFacts StoreSpec StoreFacts StoreOps PropFacts1 FactorSpec FactorFacts FactorFacts2 FactorFacts3 PgmpySpec.
Import ListNotations.
Local Open Scope nat_scope.
Local Arguments eqd : simpl never.

(** ** distinct names *)
Lemma distinct_NoDup {K} `{EqD K} (l : list K) : NoDup l -> distinct l = true.
Proof. intros N. unfold distinct. rewrite nodup_fixed_point by assumption. apply Nat.eqb_refl. Qed.

(** ** the transposed matrix *)
Lemma prodl2 r c : prodl [r; c] = r * c.
Proof. rewrite !prodl_cons, prodl_nil. lia. Qed.
Lemma transpose_matrix {V} r c (xs : list V) : length xs = r * c ->
  exists ys, np_T (mkNd [r; c] xs) = Ok (mkNd [c; r] ys) /\ length ys = c * r /\
    forall i j, i < c -> j < r -> nth_error ys (i * r + j) = nth_error xs (j * c + i).
Proof.
  intros L. unfold np_T. cbn [shape length seq rev app]. unfold np_transpose. cbn [shape mapM].
  unfold py_nth at 1 2. cbn [nth_error bind].
  set (g := fun idx : list nat => _).
  assert (G : forall i j, i < c -> j < r -> g [i; j] = nd_get (mkNd [r; c] xs) [j; i]) by reflexivity.
  destruct (nd_build_total [c; r] g) as (a & E).
  { intros [|i [|j [|k idx]]]; try discriminate; cbn [in_bounds].
    - intros B. rewrite andb_false_r in B. discriminate.
    - intros B. rewrite !andb_true_iff, !Nat.ltb_lt in B. destruct B as (Bi & Bj & _). rewrite G by assumption.
      apply nd_get_total; [unfold nd_wf; cbn [flat shape]; now rewrite prodl2|]. cbn [shape in_bounds]. rewrite !andb_true_iff, !Nat.ltb_lt. tauto.
    - intros B. rewrite !andb_false_r in B. discriminate. }
  destruct (nd_build_ok _ _ _ E) as (Sa & Wa & Ga). exists (flat a). rewrite E.
  split; [destruct a; cbn in *; now subst|]. split; [unfold nd_wf in Wa; rewrite Wa, Sa; now rewrite prodl2|].
  intros i j Li Lj.
  assert (B1 : in_bounds (shape a) [i; j] = true) by (rewrite Sa; cbn [in_bounds]; rewrite !andb_true_iff, !Nat.ltb_lt; tauto).
  assert (B2 : in_bounds [r; c] [j; i] = true) by (cbn [in_bounds]; rewrite !andb_true_iff, !Nat.ltb_lt; tauto).
  assert (P : forall (b : nd V) idx, nd_wf b -> in_bounds (shape b) idx = true -> exists x, nd_get b idx = Ok x /\ nth_error (flat b) (ravel (shape b) idx) = Some x).
  { intros b idx Wb Bb. destruct (nd_get_total b idx Wb Bb) as (x & Ex). exists x. split; [assumption|]. now apply nd_get_flat in Ex. }
  destruct (P a [i; j] Wa B1) as (x & Ex & Nx). rewrite Sa in B1.
  rewrite (Ga _ B1), (G i j Li Lj) in Ex.
  destruct (P (mkNd [r; c] xs) [j; i]) as (y & Ey & Ny); [unfold nd_wf; cbn [flat shape]; now rewrite prodl2|exact B2|].
  rewrite Ey in Ex. injection Ex as ->.
  rewrite Sa in Nx. cbn [ravel shape flat] in Nx, Ny. unfold prodl in Nx, Ny. cbn [fold_left] in Nx, Ny.
  rewrite !Nat.mul_1_r, !Nat.add_0_r, !Nat.mul_1_l in Nx, Ny. now rewrite Nx, Ny.
Qed.

(** ** arrange *)
Lemma arrange_keys vs (d : domain) : incl vs (keys d) -> keys (arrange vs d) = vs.
Proof.
  induction vs as [|v vs IH]; intros I; [reflexivity|]. cbn [arrange flat_map].
  destruct (dget v d) as [l|] eqn:E.
  - cbn [app keys map fst]. f_equal. apply IH. intros x J. apply I. now right.
  - apply dget_None in E. exfalso. apply E, I. now left.
Qed.
Lemma arrange_In vs (d : domain) v l : In (v, l) (arrange vs d) <-> In v vs /\ dget v d = Some l.
Proof.
  unfold arrange. rewrite in_flat_map. split.
  - intros (w & J & K). destruct (dget w d) as [k|] eqn:E; [|destruct K]. destruct K as [K | []]. injection K as -> ->. auto.
  - intros (J & E). exists v. rewrite E. split; [assumption|now left].
Qed.
Lemma arrange_app vs ws (d : domain) : arrange (vs ++ ws) d = arrange vs d ++ arrange ws d.
Proof. apply flat_map_app. Qed.
Lemma arrange_self (d : domain) : NoDup (keys d) -> arrange (keys d) d = d.
Proof.
  intros N. apply NoDup_map_inv in N as N'. 
  assert (G : forall p q, d = p ++ q -> arrange (keys q) d = q).
  { intros p q. revert p. induction q as [|[v l] q IH]; intros p E; [reflexivity|]. cbn [keys map fst arrange flat_map].
    assert (Ev : dget v d = Some l) by (apply In_dget; [assumption|rewrite E; apply in_or_app; right; now left]).
    rewrite Ev. cbn [app]. f_equal. apply (IH (p ++ [(v, l)])). now rewrite <- app_assoc. }
  apply (G []). reflexivity.
Qed.

Lemma rowpos_app d1 d2 o : rowpos (d1 ++ d2) o = rowpos d1 o * size d2 + rowpos d2 o.
Proof.
  induction d1 as [|[v l] d1 IH]; [reflexivity|]. cbn [app rowpos]. rewrite IH.
  assert (S : size (d1 ++ d2) = size d1 * size d2) by (clear; induction d1 as [|[v l] d1 IH]; cbn [app size]; [lia|rewrite IH; lia]).
  rewrite S. lia.
Qed.
Lemma rowpos_lt d o : wf_dom d -> full d o -> rowpos d o < size d.
Proof.
  intros W F. rewrite rowpos_ravel by assumption. rewrite size_prodl. apply ravel_lt, coords_bounds.
  intros v l I. destruct (F v l I) as (s & E & J). unfold asg_of, over. now rewrite E.
Qed.

Lemma size_perm (d d' : domain) : Permutation d d' -> size d = size d'.
Proof. induction 1 as [|[v l] d d' P IH|[v l] [w k] d|d d' d'' P IH P' IH']; cbn [size]; lia. Qed.

(** the assignment with a given number *)
Lemma at_position d k : wf_dom d -> k < size d -> exists o, full d o /\ keys o = keys d /\ rowpos d o = k.
Proof.
  intros W L. destruct (enumeration_ok d (proj1 W)) as (Ln & I & N & P & _).
  destruct (nth_error (assignment_space d) k) as [o|] eqn:E; [|apply nth_error_None in E; lia].
  assert (J := nth_error_In _ _ E). apply I in J. destruct J as (K & F). exists o. split; [assumption|]. split; [assumption|].
  specialize (P o K F). assert (ND : NoDup (assignment_space d)) by (apply N; intros v l J; apply (proj2 W v l J)).
  rewrite NoDup_nth_error in ND. apply ND; [|congruence]. apply nth_error_Some. congruence.
Qed.

(** ** the array of a factor *)
Lemma factor_array f : wf_mf f ->
  exists a, mf_values_array f [] = Ok a /\ shape a = card (mf_domain f) /\ length (flat a) = size (mf_domain f) /\
    forall o, full (mf_domain f) o -> exists x, mf_get_value f o = Ok x /\ nth_error (flat a) (rowpos (mf_domain f) o) = Some x.
Proof.
  intros Wf. destruct (mf_array_store f Wf) as (a & E & (W & Sh & Ln) & H). exists a. split; [assumption|].
  cbn [st_domain] in *. split; [assumption|]. rewrite size_prodl. split; [assumption|].
  intros o F. destruct (get_full (mf_store f) o (proj1 Wf) F) as (x & Lx & Gx). exists x. split; [assumption|].
  rewrite <- H in Lx.
  - cbn [look] in Lx. rewrite rowpos_ravel by assumption. now rewrite <- Sh.
  - intros v l I. destruct (F v l I) as (s & Es & Is). unfold asg_of, over. now rewrite Es.
Qed.
