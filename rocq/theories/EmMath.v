(** Inequalities between products and sums of rational numbers, used for the
    likelihood: the inequality of arithmetic and geometric means, with natural
    weights, and what it says about a step of expectation maximization. *)

From Coq Require Import Bool Arith ZArith QArith Qcanon Lqa Lia Permutation List.
From Verif Require Import PyBase Num NumFacts BigSum FactorFacts FactorFacts3 NetSem.
From Coq Require Import List.
Import ListNotations.
Local Open Scope Qc_scope.

(** *** Powers and naturals *)
Fixpoint pw (a : Qc) (n : nat) : Qc := match n with O => 1 | S n => a * pw a n end.
Definition qn (n : nat) : Qc := Q2Qc (inject_Z (Z.of_nat n)).

Lemma qn_0 : qn 0 = 0.
Proof. reflexivity. Qed.
Lemma qn_1 : qn 1 = 1.
Proof. reflexivity. Qed.
Lemma qn_add n m : qn (n + m) = qn n + qn m.
Proof. apply (proj2 (this_eq _ _)). rewrite this_plus. unfold qn. cbn [this Q2Qc]. now rewrite !Qred_correct, Nat2Z.inj_add, inject_Z_plus. Qed.
Lemma qn_S n : qn (S n) = 1 + qn n.
Proof. apply (qn_add 1 n). Qed.
Lemma qn_mul n m : qn (n * m) = qn n * qn m.
Proof. apply (proj2 (this_eq _ _)). rewrite this_mult. unfold qn. cbn [this Q2Qc]. now rewrite !Qred_correct, Nat2Z.inj_mul, inject_Z_mult. Qed.
Lemma qn_nonneg n : 0 <= qn n.
Proof. induction n; [rewrite qn_0; apply Qcle_refl|]. rewrite qn_S. qclra. Qed.
Lemma qn_pos n : (0 < n)%nat -> 0 < qn n.
Proof. destruct n; [lia|]. intros _. rewrite qn_S. pose proof (qn_nonneg n). qclra. Qed.
Lemma qn_inj_0 n : qn n = 0 -> n = O.
Proof. intros E. destruct n; [auto|]. assert (P := qn_pos (S n) (Nat.lt_0_succ n)). rewrite E in P. exfalso. qclra. Qed.

Lemma pw_nonneg a n : 0 <= a -> 0 <= pw a n.
Proof. intros A. induction n; cbn; [qclra|]. qcnra. Qed.
Lemma pw_pos a n : 0 < a -> 0 < pw a n.
Proof. intros A. induction n; cbn; [qclra|]. qcnra. Qed.
Lemma pw_mul a b n : pw (a * b) n = pw a n * pw b n.
Proof. induction n; cbn; [ring|]. rewrite IHn. ring. Qed.
Lemma pw_add a n m : pw a (n + m) = pw a n * pw a m.
Proof. induction n; cbn; [ring|]. rewrite IHn. ring. Qed.
Lemma pw_1 n : pw 1 n = 1.
Proof. induction n; cbn; [auto|]. rewrite IHn. ring. Qed.
Lemma pw_0 n : (0 < n)%nat -> pw 0 n = 0.
Proof. destruct n; [lia|]. intros _. cbn. ring. Qed.
Lemma pw_le a b n : 0 <= a -> a <= b -> pw a n <= pw b n.
Proof.
  intros A B. induction n; cbn; [apply Qcle_refl|]. assert (0 <= pw a n) by now apply pw_nonneg. qcnra.
Qed.
Lemma pw_lt a b n : (0 < n)%nat -> 0 <= a -> a < b -> pw a n < pw b n.
Proof.
  intros N A B. destruct n; [lia|]. cbn. assert (pw a n <= pw b n) by (apply pw_le; [auto|qclra]).
  assert (0 <= pw a n) by now apply pw_nonneg. assert (0 < pw b n) by (apply pw_pos; qclra). qcnra.
Qed.
Lemma pw_le_inv a b n : (0 < n)%nat -> 0 <= b -> pw a n <= pw b n -> a <= b.
Proof.
  intros N B L. destruct (Qclt_le_dec b a) as [C|C]; [|auto]. exfalso. assert (P := pw_lt b a n N B C). qclra.
Qed.
Lemma pw_qprod l n : pw (qprod l) n = qprod (map (fun x => pw x n) l).
Proof. induction l; cbn; [apply pw_1|]. rewrite pw_mul. now rewrite IHl. Qed.
Lemma pw_inv a n : a <> 0 -> pw (/ a) n * pw a n = 1.
Proof. intros A. rewrite <- pw_mul. rewrite (Qcmult_comm (/ a)), Qcmult_inv_r by auto. apply pw_1. Qed.

Lemma qprod_nonneg l : (forall x, In x l -> 0 <= x) -> 0 <= qprod l.
Proof.
  induction l as [|x l IH]; cbn; intros H; [qclra|]. assert (0 <= x) by auto. assert (0 <= qprod l) by auto. qcnra.
Qed.
Lemma qprod_pos l : (forall x, In x l -> 0 < x) -> 0 < qprod l.
Proof.
  induction l as [|x l IH]; cbn; intros H; [qclra|]. assert (0 < x) by auto. assert (0 < qprod l) by auto. qcnra.
Qed.
Lemma qprod_le {A} (f g : A -> Qc) l : (forall x, In x l -> 0 <= f x /\ f x <= g x) -> qprod (map f l) <= qprod (map g l).
Proof.
  induction l as [|x l IH]; cbn; intros H; [apply Qcle_refl|]. destruct (H x) as [A1 A2]; [auto|].
  assert (qprod (map f l) <= qprod (map g l)) by auto.
  assert (0 <= qprod (map f l)). { apply qprod_nonneg. intros y I. apply in_map_iff in I as (z & <- & I). now apply H; right. }
  qcnra.
Qed.
Lemma qprod_mul {A} (f g : A -> Qc) l : qprod (map (fun x => f x * g x) l) = qprod (map f l) * qprod (map g l).
Proof. induction l; cbn; [ring|]. rewrite IHl. ring. Qed.
Lemma qprod_ones {A} (f : A -> Qc) l : (forall x, In x l -> f x = 1) -> qprod (map f l) = 1.
Proof. induction l as [|x l IH]; cbn; intros H; [auto|]. rewrite (H x), IH by auto. ring. Qed.
Lemma qprod_swap {A B} (f : A -> B -> Qc) l m :
  qprod (map (fun a => qprod (map (f a) m)) l) = qprod (map (fun b => qprod (map (fun a => f a b) l)) m).
Proof.
  induction l as [|a l IH]; cbn.
  - symmetry. now apply qprod_ones.
  - rewrite IH. rewrite <- qprod_mul. reflexivity.
Qed.
Lemma qsum_nn l : (forall x, In x l -> 0 <= x) -> 0 <= qsum l.
Proof. induction l as [|x l IH]; cbn; intros H; [qclra|]. assert (0 <= x) by auto. assert (0 <= qsum l) by auto. qclra. Qed.
Lemma qsum_le {A} (f g : A -> Qc) l : (forall x, In x l -> f x <= g x) -> qsum (map f l) <= qsum (map g l).
Proof. induction l as [|x l IH]; cbn; intros H; [apply Qcle_refl|]. assert (f x <= g x) by auto. assert (qsum (map f l) <= qsum (map g l)) by auto. qclra. Qed.
Lemma qsum_add {A} (f g : A -> Qc) l : qsum (map (fun x => f x + g x) l) = qsum (map f l) + qsum (map g l).
Proof. induction l; cbn; [ring|]. rewrite IHl. ring. Qed.
Lemma qsum_zeros {A} (f : A -> Qc) l : (forall x, In x l -> f x = 0) -> qsum (map f l) = 0.
Proof. induction l as [|x l IH]; cbn; intros H; [auto|]. rewrite (H x), IH by auto. ring. Qed.
Lemma qsum_swap {A B} (f : A -> B -> Qc) l m :
  qsum (map (fun a => qsum (map (f a) m)) l) = qsum (map (fun b => qsum (map (fun a => f a b) l)) m).
Proof.
  induction l as [|a l IH]; cbn.
  - symmetry. now apply qsum_zeros.
  - rewrite IH. rewrite <- qsum_add. reflexivity.
Qed.

(** *** Arithmetic and geometric mean *)
Lemma bernoulli t n : 0 <= 1 + t -> 1 + qn n * t <= pw (1 + t) n.
Proof.
  intros T. induction n as [|n IH]; [rewrite qn_0; cbn; qclra|]. rewrite qn_S. cbn.
  apply Qcle_trans with ((1 + t) * (1 + qn n * t)).
  - replace ((1 + t) * (1 + qn n * t)) with (1 + (1 + qn n) * t + qn n * (t * t)) by ring.
    assert (0 <= t * t) by qcnra. assert (0 <= qn n) by apply qn_nonneg. assert (0 <= qn n * (t * t)) by qcnra. qclra.
  - qcnra.
Qed.

Lemma amgm l : (forall x, In x l -> 0 <= x) -> qprod l * pw (qn (length l)) (length l) <= pw (qsum l) (length l).
Proof.
  induction l as [|x l IH]; intros H; [cbn; qclra|].
  assert (X : 0 <= x) by (apply H; now left). assert (H' : forall y, In y l -> 0 <= y) by (intros y I; apply H; now right).
  specialize (IH H'). set (n := length l) in *. cbn [qprod qsum length]. fold n.
  assert (S0 : 0 <= qsum l) by now apply qsum_nn. assert (P0 : 0 <= qprod l) by now apply qprod_nonneg.
  set (S := qsum l) in *. set (P := qprod l) in *.
  destruct (Nat.eq_dec n 0) as [N|N].
  - assert (E : l = []) by (destruct l; [auto|discriminate N]). subst S P. rewrite N, E. cbn. rewrite qn_1. qclra.
  - assert (Nn : 0 < qn n) by (apply qn_pos; lia).
    destruct (Qcle_lt_or_eq _ _ S0) as [Sp|Sz].
    + (* the mean of l is positive *)
      set (A := S / qn n). assert (An : A * qn n = S) by (unfold A; field; intros E; rewrite E in Nn; qclra).
      assert (Ap : 0 < A) by (destruct (Qclt_le_dec 0 A) as [?|C]; [auto|exfalso; qcnra]).
      set (m := qn (Datatypes.S n)). assert (Em : m = 1 + qn n) by apply qn_S. assert (Mp : 0 < m) by qclra.
      set (t := (x - A) / (m * A)).
      assert (Et : t * (m * A) = x - A) by (unfold t; field; split; intros E; [rewrite E in Ap|rewrite E in Mp]; qclra).
      assert (Sx : x + S = (m * A) * (1 + t)). { replace (m * A * (1 + t)) with (m * A + t * (m * A)) by ring. rewrite Et, Em, <- An. ring. }
      assert (T0 : 0 <= 1 + t).
      { destruct (Qclt_le_dec (1 + t) 0) as [C|C]; [|auto]. exfalso. assert (0 < m * A) by qcnra. assert (0 <= x + S) by qclra. qcnra. }
      assert (B := bernoulli t (Datatypes.S n) T0). fold m in B.
      assert (B2 : x <= A * pw (1 + t) (Datatypes.S n)).
      { apply Qcle_trans with (A * (1 + m * t)); [|qcnra]. replace (A * (1 + m * t)) with (A + t * (m * A)) by ring. rewrite Et. qclra. }
      rewrite Sx, pw_mul, pw_mul.
      assert (IH2 : P <= pw A n).
      { assert (Pn : 0 < pw (qn n) n) by now apply pw_pos. rewrite <- An, pw_mul in IH.
        destruct (Qclt_le_dec (pw A n) P) as [C|C]; [|auto]. exfalso. qcnra. }
      assert (Pm : 0 < pw m (Datatypes.S n)) by now apply pw_pos.
      apply Qcle_trans with (pw m (Datatypes.S n) * (x * pw A n)).
      * replace (x * P * pw m (Datatypes.S n)) with (pw m (Datatypes.S n) * (x * P)) by ring.
        assert (x * P <= x * pw A n) by qcnra. qcnra.
      * cbn [pw] in *. assert (0 < pw A n) by now apply pw_pos. set (u := pw A n) in *. set (w := (1 + t) * pw (1 + t) n) in *.
        replace (m * pw m n * (A * u) * w) with (m * pw m n * ((A * w) * u)) by ring.
        assert (x * u <= A * w * u) by qcnra. qcnra.
    + assert (Pz : P = 0).
      { rewrite <- Sz, pw_0 in IH by lia. assert (Pn : 0 < pw (qn n) n) by now apply pw_pos.
        apply Qcle_antisym; [|auto]. destruct (Qclt_le_dec 0 P) as [C|C]; [|auto]. exfalso. qcnra. }
      rewrite Pz. replace (x * 0 * _) with 0 by ring. apply pw_nonneg. qclra.
Qed.

(** with natural weights *)
Lemma qprod_repeat a n : qprod (repeat a n) = pw a n.
Proof. induction n; cbn; congruence. Qed.
Lemma qsum_repeat a n : qsum (repeat a n) = qn n * a.
Proof. induction n; [rewrite qn_0; cbn; ring|]. rewrite qn_S. cbn. rewrite IHn. ring. Qed.
Definition nsum_of (l : list nat) : nat := fold_right Nat.add 0%nat l.
Lemma qn_sum {B} (k : B -> nat) O : qn (nsum_of (map k O)) = qsum (map (fun o => qn (k o)) O).
Proof. induction O; [reflexivity|]. cbn [map qsum nsum_of fold_right]. rewrite qn_add. f_equal. exact IHO. Qed.

Lemma amgm_weighted {B} (k : B -> nat) (x : B -> Qc) O : (forall o, In o O -> 0 <= x o) ->
  let K := nsum_of (map k O) in
  qprod (map (fun o => pw (x o) (k o)) O) * pw (qn K) K <= pw (qsum (map (fun o => qn (k o) * x o) O)) K.
Proof.
  intros H K. set (l := flat_map (fun o => repeat (x o) (k o)) O).
  assert (L : length l = K).
  { unfold l, K. clear. induction O; [reflexivity|]. cbn. rewrite app_length, repeat_length. unfold nsum_of in IHO. now rewrite IHO. }
  assert (P : qprod l = qprod (map (fun o => pw (x o) (k o)) O)).
  { unfold l. clear. induction O; [reflexivity|]. cbn. now rewrite qprod_app, qprod_repeat, IHO. }
  assert (S : qsum l = qsum (map (fun o => qn (k o) * x o) O)).
  { unfold l. clear. induction O; [reflexivity|]. cbn. now rewrite qsum_app, qsum_repeat, IHO. }
  rewrite <- L, <- P, <- S. apply amgm. intros y I. apply in_flat_map in I as (o & I & J). apply repeat_spec in J. subst y. auto.
Qed.
Lemma amgm_one {B} (k : B -> nat) (x : B -> Qc) O : (forall o, In o O -> 0 <= x o) ->
  qsum (map (fun o => qn (k o) * x o) O) <= qsum (map (fun o => qn (k o)) O) ->
  qprod (map (fun o => pw (x o) (k o)) O) <= 1.
Proof.
  intros H L. assert (A := amgm_weighted k x O H). cbn zeta in A. set (K := nsum_of (map k O)) in *.
  rewrite <- qn_sum in L. fold K in L.
  assert (0 <= qsum (map (fun o => qn (k o) * x o) O)).
  { apply qsum_nn. intros y I. apply in_map_iff in I as (o & <- & I). assert (0 <= qn (k o)) by apply qn_nonneg.
    assert (0 <= x o) by auto. qcnra. }
  assert (Q := pw_le _ _ K H0 L). set (Pr := qprod _) in *.
  destruct (Nat.eq_dec K 0) as [Z|Z]; [rewrite Z in A; cbn in A; qclra|].
  assert (Kp : 0 < pw (qn K) K) by (apply pw_pos, qn_pos; lia).
  destruct (Qclt_le_dec 1 Pr) as [C|C]; [|auto]. exfalso. set (u := pw (qn K) K) in *. set (w := pw (qsum _) K) in *.
  assert (u < Pr * u) by qcnra. qclra.
Qed.

(** *** A common denominator *)
Definition as_nat (x : Qc) : nat := Z.to_nat (Qnum (this x)).
Lemma as_nat_qn n : as_nat (qn n) = n.
Proof.
  unfold as_nat, qn. cbn [this Q2Qc].
  assert (E : Qred (inject_Z (Z.of_nat n)) = inject_Z (Z.of_nat n)).
  { unfold Qred, inject_Z. assert (G := Z.ggcd_gcd (Z.of_nat n) 1). assert (C := Z.ggcd_correct_divisors (Z.of_nat n) 1).
    destruct (Z.ggcd (Z.of_nat n) 1) as [g [a b]]. cbn [fst] in G. rewrite Z.gcd_1_r in G. subst g. destruct C as [C1 C2].
    rewrite Z.mul_1_l in *. subst. reflexivity. }
  rewrite E. cbn. apply Nat2Z.id.
Qed.
Lemma denominator x : 0 <= x -> qn (Pos.to_nat (Qden (this x))) * x = qn (as_nat x).
Proof.
  intros N. apply (proj2 (this_eq _ _)). rewrite this_mult. unfold qn, as_nat. cbn [this Q2Qc]. rewrite !Qred_correct.
  destruct x as [[a b] C]. cbn [this Qden Qnum]. unfold Qeq, Qmult, inject_Z. cbn [Qnum Qden].
  unfold Qcle, Qle in N. cbn in N. rewrite positive_nat_Z, Z2Nat.id by lia. lia.
Qed.
Lemma common_denominator l : (forall x, In x l -> 0 <= x) ->
  exists M, (0 < M)%nat /\ forall x, In x l -> qn (as_nat (qn M * x)) = qn M * x.
Proof.
  induction l as [|x l IH]; intros H; [exists 1%nat; split; [lia|intros ? []]|].
  destruct IH as (M & Mp & HM); [intros y I; apply H; now right|].
  set (d := Pos.to_nat (Qden (this x))). assert (Dx : qn d * x = qn (as_nat x)) by (apply denominator, H; now left).
  exists (d * M)%nat. split; [unfold d; nia|]. intros y [<- | I].
  - replace (qn (d * M) * x) with (qn (M * as_nat x)); [now rewrite as_nat_qn|]. rewrite !qn_mul, <- Dx. ring.
  - replace (qn (d * M) * y) with (qn (d * as_nat (qn M * y))); [now rewrite as_nat_qn|].
    rewrite !qn_mul, HM by auto. ring.
Qed.

(** *** A step of expectation maximization

    [p] and [p'] are two non-negative functions on the points [O], both products
    of terms, one for each of [V].  Every row has the points that agree with
    it, with a total of [p] that is positive.  If for every term the expected
    ratio of old to new is at most 1 -- the expectation being over the points,
    weighted with the share of [p] they have in each row -- then the product of
    the totals of [p'] is at least that of [p]. *)
Section Step.
  Context {R B C : Type}.
  Variables (rows : list R) (O : list B) (agree : R -> B -> bool) (V : list C).
  Variables (old new : C -> B -> Qc).
  Hypothesis old_nn : forall v o, In v V -> In o O -> 0 <= old v o.
  Hypothesis new_nn : forall v o, In v V -> In o O -> 0 <= new v o.
  Definition prod_of (t : C -> B -> Qc) (o : B) : Qc := qprod (map (fun v => t v o) V).
  Definition total_of (t : C -> B -> Qc) (r : R) : Qc := qsum (map (prod_of t) (filter (agree r) O)).
  Hypothesis pos : forall r, In r rows -> 0 < total_of old r.
  (** the share of a point in a row, and in all rows *)
  Definition share (r : R) (o : B) : Qc := if agree r o then prod_of old o / total_of old r else 0.
  Definition weight (o : B) : Qc := qsum (map (fun r => share r o) rows).
  Hypothesis new_pos : forall v o, In v V -> In o O -> weight o <> 0 -> new v o <> 0.
  Hypothesis ratio : forall v, In v V -> qsum (map (fun o => weight o * (old v o / new v o)) O) <= qsum (map weight O).

  Let p := prod_of old.
  Let p' := prod_of new.
  Let L := total_of old.
  Let L' := total_of new.
  Lemma p_nn o : In o O -> 0 <= p o.
  Proof. intros I. apply qprod_nonneg. intros x J. apply in_map_iff in J as (v & <- & J). auto. Qed.
  Lemma p'_nn o : In o O -> 0 <= p' o.
  Proof. intros I. apply qprod_nonneg. intros x J. apply in_map_iff in J as (v & <- & J). auto. Qed.
  Lemma L'_nn r : 0 <= L' r.
  Proof. apply qsum_nn. intros x J. apply in_map_iff in J as (o & <- & J). apply filter_In in J as [J _]. now apply p'_nn. Qed.
  Lemma inv_nn x : 0 <= x -> 0 <= / x.
  Proof.
    intros X. destruct (Qc_eq_dec x 0) as [-> | N]; [discriminate|].
    assert (E : x * / x = 1) by now apply Qcmult_inv_r. destruct (Qclt_le_dec (/ x) 0) as [H|H]; [|auto]. exfalso. qcnra.
  Qed.
  Lemma share_nn r o : In r rows -> In o O -> 0 <= share r o.
  Proof.
    intros Ir Io. unfold share. destruct (agree r o); [|qclra]. assert (0 < L r) by auto. fold (p o). fold L.
    assert (0 <= p o) by now apply p_nn. assert (0 <= / L r) by (apply inv_nn; qclra). unfold Qcdiv. qcnra.
  Qed.
  Lemma weight_nn o : In o O -> 0 <= weight o.
  Proof. intros Io. apply qsum_nn. intros x J. apply in_map_iff in J as (r & <- & J). now apply share_nn. Qed.

  Section Natural.
    Variable M : nat.
    Hypothesis M_pos : (0 < M)%nat.
    Let k (r : R) (o : B) : nat := as_nat (qn M * share r o).
    Hypothesis k_ok : forall r o, In r rows -> In o O -> qn (k r o) = qn M * share r o.
    Let K (o : B) : nat := nsum_of (map (fun r => k r o) rows).
    Let rho (o : B) : Qc := p' o / p o.

    Lemma K_weight o : In o O -> qn (K o) = qn M * weight o.
    Proof.
      intros Io. unfold K. rewrite qn_sum. unfold weight. rewrite <- qsum_scale. f_equal. apply map_ext_in. intros r Ir. now apply k_ok.
    Qed.
    Lemma K_weight_0 o : In o O -> weight o = 0 -> K o = 0%nat.
    Proof. intros Io E. apply qn_inj_0. rewrite K_weight, E by auto. ring. Qed.
    Lemma weight_old o : In o O -> K o <> 0%nat -> weight o <> 0 /\ forall v, In v V -> old v o <> 0.
    Proof.
      intros Io N. split; [intros E; apply N; now apply K_weight_0|]. intros v Iv E. apply N.
      apply K_weight_0; [auto|]. unfold weight. apply qsum_zeros. intros r Ir. unfold share. destruct (agree r o); [|auto].
      assert (Z : prod_of old o = 0). { unfold prod_of. apply qprod_zero. rewrite <- E. apply in_map_iff. now exists v. }
      rewrite Z. unfold Qcdiv. ring.
    Qed.

    Lemma filter_total (f : B -> Qc) (b : B -> bool) l : qsum (map f (filter b l)) = qsum (map (fun o => if b o then f o else 0) l).
    Proof. induction l as [|o l IH]; cbn; [auto|]. destruct (b o); cbn; rewrite IH; ring. Qed.

    (** one row *)
    Lemma row_bound r : In r rows ->
      pw (L r) M * qprod (map (fun o => pw (rho o) (k r o)) O) <= pw (L' r) M.
    Proof.
      intros Ir. assert (Lp : 0 < L r) by auto.
      assert (Sk : nsum_of (map (k r) O) = M).
      { assert (E : qn (nsum_of (map (k r) O)) = qn M).
        { rewrite qn_sum. rewrite (map_ext_in _ (fun o => qn M * share r o)) by (intros o Io; now apply k_ok).
          rewrite qsum_scale. replace (qsum (map (share r) O)) with 1; [ring|]. symmetry.
          unfold share. rewrite <- (filter_total (fun o => prod_of old o / total_of old r)).
          rewrite (map_ext _ (fun o => / L r * p o)) by (intros o; unfold Qcdiv; apply Qcmult_comm).
          rewrite qsum_scale. fold (L r). replace (qsum (map p (filter (agree r) O))) with (L r) by reflexivity.
          rewrite Qcmult_comm. apply Qcmult_inv_r. intros E. rewrite E in Lp. qclra. }
        apply (f_equal as_nat) in E. now rewrite !as_nat_qn in E. }
      assert (A := amgm_weighted (k r) rho O). cbn zeta in A. rewrite Sk in A.
      assert (Rn : forall o, In o O -> 0 <= rho o).
      { intros o Io. unfold rho, Qcdiv. assert (0 <= p' o) by now apply p'_nn. assert (0 <= / p o) by now apply inv_nn, p_nn. qcnra. }
      specialize (A Rn).
      assert (E1 : qsum (map (fun o => qn (k r o) * rho o) O) <= qn M * (L' r / L r)).
      { apply Qcle_trans with (qsum (map (fun o => qn M * (/ L r * (if agree r o then p' o else 0))) O)).
        - apply qsum_le. intros o Io. rewrite k_ok by auto. unfold share. fold (p o) (L r).
          assert (0 <= qn M) by apply qn_nonneg. assert (Li : 0 <= / L r) by (apply inv_nn; qclra).
          destruct (agree r o); [|ring_simplify; apply Qcle_refl].
          rewrite <- Qcmult_assoc. assert (p o / L r * rho o <= / L r * p' o); [|qcnra].
          unfold rho. destruct (Qc_eq_dec (p o) 0) as [Z|Z].
          + rewrite Z. replace (0 / L r * (p' o / 0)) with 0 by (unfold Qcdiv; ring). assert (0 <= p' o) by now apply p'_nn. qcnra.
          + replace (p o / L r * (p' o / p o)) with (/ L r * p' o); [apply Qcle_refl|]. field. split; [auto|].
            intros E. rewrite E in Lp. qclra.
        - rewrite qsum_scale, qsum_scale, <- filter_total. fold p' . replace (qsum (map p' (filter (agree r) O))) with (L' r) by reflexivity.
          unfold Qcdiv. rewrite (Qcmult_comm (/ L r)). apply Qcle_refl. }
      assert (E0 : 0 <= qsum (map (fun o => qn (k r o) * rho o) O)).
      { apply qsum_nn. intros x J. apply in_map_iff in J as (o & <- & J). assert (0 <= qn (k r o)) by apply qn_nonneg.
        assert (0 <= rho o) by auto. qcnra. }
      assert (E2 := pw_le _ _ M E0 E1). rewrite pw_mul in E2. set (Z := qprod _) in *.
      assert (Mp : 0 < pw (qn M) M) by (apply pw_pos, qn_pos; auto).
      assert (E3 : Z <= pw (L' r / L r) M).
      { destruct (Qclt_le_dec (pw (L' r / L r) M) Z) as [C0|C0]; [|auto]. exfalso.
        set (u := pw (qn M) M) in *. set (w := pw (L' r / L r) M) in *. assert (u * w < u * Z) by qcnra. qclra. }
      unfold Qcdiv in E3. rewrite pw_mul in E3.
      assert (I1 := pw_inv (L r) M). assert (Lr0 : L r <> 0) by (intros E; rewrite E in Lp; qclra). specialize (I1 Lr0).
      assert (Pl : 0 < pw (L r) M) by now apply pw_pos.
      replace (pw (L' r) M) with (pw (L r) M * (pw (L' r) M * pw (/ L r) M)); [qcnra|].
      replace (pw (L r) M * (pw (L' r) M * pw (/ L r) M)) with (pw (L' r) M * (pw (/ L r) M * pw (L r) M)) by ring.
      rewrite I1. ring.
    Qed.

    Lemma pw_sum a (f : R -> nat) l : pw a (nsum_of (map f l)) = qprod (map (fun r => pw a (f r)) l).
    Proof. induction l; cbn; [auto|]. rewrite pw_add. f_equal. exact IHl. Qed.

    (** all the rows together *)
    Lemma rows_bound :
      pw (qprod (map L rows)) M * qprod (map (fun o => pw (rho o) (K o)) O) <= pw (qprod (map L' rows)) M.
    Proof.
      rewrite !pw_qprod, !map_map.
      replace (qprod (map (fun o => pw (rho o) (K o)) O))
        with (qprod (map (fun r => qprod (map (fun o => pw (rho o) (k r o)) O)) rows)).
      - rewrite <- qprod_mul. apply qprod_le. intros r Ir. split; [|now apply row_bound].
        assert (0 < pw (L r) M) by (apply pw_pos; auto).
        assert (0 <= qprod (map (fun o => pw (rho o) (k r o)) O)); [|qcnra].
        apply qprod_nonneg. intros x J. apply in_map_iff in J as (o & <- & J). apply pw_nonneg. unfold rho, Qcdiv.
        assert (0 <= p' o) by now apply p'_nn. assert (0 <= / p o) by now apply inv_nn, p_nn. qcnra.
      - rewrite qprod_swap. f_equal. apply map_ext. intros o. unfold K. now rewrite pw_sum.
    Qed.

    Lemma prod_div (f g : C -> Qc) l : qprod (map f l) / qprod (map g l) = qprod (map (fun v => f v / g v) l).
    Proof.
      induction l as [|v l IH]; cbn; [reflexivity|]. rewrite <- IH. unfold Qcdiv. rewrite Qcinv_mult_distr. ring.
    Qed.

    (** the terms *)
    Lemma term_bound v : In v V -> 1 <= qprod (map (fun o => pw (new v o / old v o) (K o)) O).
    Proof.
      intros Iv. assert (A := amgm_one K (fun o => old v o / new v o) O). cbn beta in A.
      assert (N1 : forall o, In o O -> 0 <= old v o / new v o).
      { intros o Io. unfold Qcdiv. assert (0 <= old v o) by auto. assert (0 <= / new v o) by (apply inv_nn; auto). qcnra. }
      specialize (A N1).
      rewrite (map_ext_in (fun o => qn (K o) * (old v o / new v o)) (fun o => qn M * (weight o * (old v o / new v o)))) in A
        by (intros o Io; rewrite K_weight by auto; ring).
      rewrite (map_ext_in (fun o => qn (K o)) (fun o => qn M * weight o)) in A by (intros o Io; now apply K_weight).
      rewrite !qsum_scale in A. assert (Hr := ratio v Iv). assert (Qm : 0 < qn M) by now apply qn_pos.
      assert (A2 : qprod (map (fun o => pw (old v o / new v o) (K o)) O) <= 1) by (apply A; qcnra).
      assert (E : qprod (map (fun o => pw (old v o / new v o) (K o)) O) * qprod (map (fun o => pw (new v o / old v o) (K o)) O) = 1).
      { rewrite <- qprod_mul. apply qprod_ones. intros o Io. destruct (Nat.eq_dec (K o) 0) as [Z|Z]; [rewrite Z; cbn; ring|].
        destruct (weight_old o Io Z) as [W0 O0]. rewrite <- pw_mul.
        replace (old v o / new v o * (new v o / old v o)) with 1; [apply pw_1|]. field. split; [apply O0; auto|]. now apply new_pos. }
      assert (N2 : 0 <= qprod (map (fun o => pw (new v o / old v o) (K o)) O)).
      { apply qprod_nonneg. intros x J. apply in_map_iff in J as (o & <- & J). apply pw_nonneg. unfold Qcdiv.
        assert (0 <= new v o) by auto. assert (0 <= / old v o) by (apply inv_nn; auto). qcnra. }
      set (x := qprod (map (fun o => pw (old v o / new v o) (K o)) O)) in *. set (y := qprod (map _ O)) in *. qcnra.
    Qed.

    Lemma totals_bound : qprod (map L rows) <= qprod (map L' rows).
    Proof.
      apply (pw_le_inv _ _ M M_pos); [apply qprod_nonneg; intros x J; apply in_map_iff in J as (r & <- & _); apply L'_nn|].
      assert (B0 := rows_bound). eapply Qcle_trans; [|exact B0].
      assert (G : 1 <= qprod (map (fun o => pw (rho o) (K o)) O)).
      { replace (qprod (map (fun o => pw (rho o) (K o)) O))
          with (qprod (map (fun v => qprod (map (fun o => pw (new v o / old v o) (K o)) O)) V)).
        - rewrite <- (qprod_ones (fun _ : C => 1) V) by auto. apply qprod_le. intros v Iv. split; [qclra|]. now apply term_bound.
        - rewrite qprod_swap. f_equal. apply map_ext. intros o. unfold rho, p', p, prod_of. rewrite prod_div, pw_qprod, map_map. reflexivity. }
      assert (0 < pw (qprod (map L rows)) M).
      { apply pw_pos, qprod_pos. intros x J. apply in_map_iff in J as (r & <- & J). auto. }
      qcnra.
    Qed.
  End Natural.

  Theorem em_inequality : qprod (map (total_of old) rows) <= qprod (map (total_of new) rows).
  Proof.
    destruct (common_denominator (flat_map (fun r => map (share r) O) rows)) as (M & Mp & HM).
    - intros x I. apply in_flat_map in I as (r & Ir & I). apply in_map_iff in I as (o & <- & Io). now apply share_nn.
    - apply (totals_bound M Mp). intros r o Ir Io. apply HM. apply in_flat_map. exists r. split; [auto|]. now apply in_map.
  Qed.

  (** the rows stay possible *)
  Theorem em_positive r o : In r rows -> In o O -> agree r o = true -> prod_of old o <> 0 -> 0 < prod_of new o.
  Proof.
    intros Ir Io Ag N. apply qprod_pos. intros x J. apply in_map_iff in J as (v & <- & Iv).
    assert (G : new v o <> 0); [|assert (0 <= new v o) by auto; apply Qcle_lt_or_eq in H as [H|H]; [auto|congruence]].
    apply new_pos; [auto|auto|]. intros Z.
    assert (S : 0 < share r o).
    { unfold share. rewrite Ag. assert (Lp := pos r Ir). assert (0 <= p o) by now apply p_nn. fold (p o) in *. fold (L r) in *.
      assert (E : L r * / L r = 1) by (apply Qcmult_inv_r; intros E; rewrite E in Lp; qclra).
      apply Qcle_lt_or_eq in H as [H|H]; [|congruence]. unfold Qcdiv. assert (0 <= / L r) by (apply inv_nn; qclra).
      assert (0 < / L r) by (destruct (Qclt_le_dec 0 (/ L r)); [auto|exfalso; qcnra]). qcnra. }
    unfold weight in Z. apply in_split in Ir as (l1 & l2 & E). rewrite E in Z. rewrite map_app, qsum_app in Z. cbn in Z.
    assert (G1 : 0 <= qsum (map (fun r => share r o) l1)).
    { apply qsum_nn. intros x J. apply in_map_iff in J as (r1 & <- & J). apply share_nn; [|auto]. rewrite E. apply in_or_app. auto. }
    assert (G2 : 0 <= qsum (map (fun r => share r o) l2)).
    { apply qsum_nn. intros x J. apply in_map_iff in J as (r1 & <- & J). apply share_nn; [|auto]. rewrite E. apply in_or_app. right. now right. }
    qclra.
  Qed.
End Step.
