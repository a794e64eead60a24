(** Arithmetic with infinite values is arithmetic of limits (C76). *)

From Coq Require Import Arith ZArith QArith Qcanon Lqa Lia List.
From Verif Require Import Num NumFacts LimitSpec.
Local Open Scope Qc_scope.

Lemma ev_and P Q : eventually P -> eventually Q -> eventually (fun n => P n /\ Q n).
Proof.
  intros [N H] [M K]. exists (Nat.max N M). intros n L. split; [apply H|apply K]; lia.
Qed.
Lemma ev_imp (P Q : nat -> Prop) : eventually P -> (forall n, P n -> Q n) -> eventually Q.
Proof. intros [N H] K. exists N. auto. Qed.
Lemma ev_one P : eventually P -> exists n, P n.
Proof. intros [N H]. exists N. apply H. lia. Qed.

Lemma half_two e : e / Q2Qc 2 + e / Q2Qc 2 = e.
Proof. unfold Qcdiv. rewrite <- Qcmult_plus_distr_r. replace (/ Q2Qc 2 + / Q2Qc 2) with 1 by (apply Qc_is_canon; vm_compute; reflexivity). apply Qcmult_1_r. Qed.
Lemma half_pos e : 0 < e -> 0 < e / Q2Qc 2.
Proof. intros P. assert (T := half_two e). revert T. generalize (e / Q2Qc 2). intros h T. qclra. Qed.

(** ** Uniqueness and existence *)
Lemma tends_lt s x y : tends s x -> tends s y -> nltb x y = true -> False.
Proof.
  intros Hx Hy E. destruct x as [a| | |], y as [b| | |]; cbn in E, Hx, Hy; try discriminate; try easy.
  - destruct (Qclt_le_dec a b) as [L|L]; [|discriminate]. assert (P : 0 < (b - a) / Q2Qc 2).
    { apply half_pos. qclra. }
    assert (D := half_two (b - a)).
    destruct (ev_one _ (ev_and _ _ (Hx _ P) (Hy _ P))) as (n & [_ A] & B & _). revert P D A B. generalize ((b - a) / Q2Qc 2). intros h. intros. qclra.
  - destruct (ev_one _ (ev_and _ _ (Hx 1 eq_refl) (Hy (a + 1)))) as (n & [_ A] & B). qclra.
  - destruct (ev_one _ (ev_and _ _ (Hx (b - 1)) (Hy 1 eq_refl))) as (n & A & B & _). qclra.
  - destruct (ev_one _ (ev_and _ _ (Hx 0) (Hy 0))) as (n & A & B). qclra.
Qed.

Lemma trichotomy x y : x <> NaN -> y <> NaN -> nltb x y = true \/ nltb y x = true \/ x = y.
Proof.
  intros Nx Ny. destruct x as [a| | |], y as [b| | |]; cbn; auto; try easy.
  destruct (Qclt_le_dec a b) as [L|L]; auto. destruct (Qclt_le_dec b a) as [L'|L']; auto. right. right. f_equal. now apply Qcle_antisym.
Qed.

Lemma tends_nan s x : tends s x -> x <> NaN.
Proof. now destruct x. Qed.

Lemma tends_unique s x y : tends s x -> tends s y -> x = y.
Proof.
  intros Hx Hy. destruct (trichotomy x y (tends_nan _ _ Hx) (tends_nan _ _ Hy)) as [L|[L|E]]; auto; exfalso.
  - exact (tends_lt s x y Hx Hy L).
  - exact (tends_lt s y x Hy Hx L).
Qed.

Definition nq (n : nat) : Qc := Q2Qc (inject_Z (Z.of_nat (S n))).

Lemma nq_pos n : 0 < nq n.
Proof.
  unfold nq, Qclt. cbn [this Q2Qc]. rewrite Qred_correct. rewrite (Qred_correct (inject_Z _)). unfold Qlt, inject_Z. cbn. lia.
Qed.

Lemma nq_big M : eventually (fun n => M < nq n).
Proof.
  destruct M as [[p d] C]. exists (Z.to_nat p). intros n L. unfold Qclt, nq. cbn [this Q2Qc]. rewrite (Qred_correct (inject_Z _)).
  unfold Qlt, inject_Z. cbn [Qnum Qden]. assert (Z1 : (p <= Z.of_nat n)%Z) by lia. assert (Z2 : (1 <= Zpos d)%Z) by lia. nia.
Qed.

Lemma tends_const q : tends (fun _ => q) (Fin q).
Proof. intros e P. exists 0%nat. intros n _. split; qclra. Qed.
Lemma tends_nq : tends nq PInf.
Proof. exact nq_big. Qed.

Lemma tends_opp s x : tends s x -> tends (fun n => - s n) (nopp x).
Proof.
  destruct x as [q| | |]; cbn; auto.
  - intros H e P. apply (ev_imp _ _ (H e P)). intros n [A B]. split; qclra.
  - intros H M. apply (ev_imp _ _ (H (- M))). intros n A. qclra.
  - intros H M. apply (ev_imp _ _ (H (- M))). intros n A. qclra.
Qed.

Lemma reached x : x <> NaN -> exists s, tends s x.
Proof.
  destruct x as [q| | |]; intros N; [|easy| |].
  - exists (fun _ => q). apply tends_const.
  - exists nq. apply tends_nq.
  - exists (fun n => - nq n). apply (tends_opp nq PInf tends_nq).
Qed.

Lemma tends_ext s t x : (forall n, s n = t n) -> tends s x -> tends t x.
Proof.
  intros E. destruct x as [q| | |]; cbn; auto; intros H.
  - intros e P. apply (ev_imp _ _ (H e P)). intros n. now rewrite E.
  - intros M. apply (ev_imp _ _ (H M)). intros n. now rewrite E.
  - intros M. apply (ev_imp _ _ (H M)). intros n. now rewrite E.
Qed.

Lemma tends_tail s t x : eventually (fun n => s n = t n) -> tends s x -> tends t x.
Proof.
  intros E. destruct x as [q| | |]; cbn; auto; intros H.
  - intros e P. apply (ev_imp _ _ (ev_and _ _ E (H e P))). intros n [<- K]. exact K.
  - intros M. apply (ev_imp _ _ (ev_and _ _ E (H M))). intros n [<- K]. exact K.
  - intros M. apply (ev_imp _ _ (ev_and _ _ E (H M))). intros n [<- K]. exact K.
Qed.

(** ** Sum *)
Lemma add_limit x y : nadd x y <> NaN -> limit_of Qcplus x y (nadd x y).
Proof.
  intros N s t Hs Ht. destruct x as [a| | |], y as [b| | |]; cbn in *; try easy.
  - intros e P. assert (P2 := half_pos e P). assert (T2 := half_two e). revert P2 T2. generalize (e / Q2Qc 2). intros h P2 T2.
    apply (ev_imp _ _ (ev_and _ _ (Hs h P2) (Ht h P2))). intros n [[A B] [C D]]. split; qclra.
  - intros M. apply (ev_imp _ _ (ev_and _ _ (Hs 1 eq_refl) (Ht (M - a + 1)))). intros n [[A B] C]. qclra.
  - intros M. apply (ev_imp _ _ (ev_and _ _ (Hs 1 eq_refl) (Ht (M - a - 1)))). intros n [[A B] C]. qclra.
  - intros M. apply (ev_imp _ _ (ev_and _ _ (Ht 1 eq_refl) (Hs (M - b + 1)))). intros n [[A B] C]. qclra.
  - intros M. apply (ev_imp _ _ (ev_and _ _ (Hs M) (Ht 0))). intros n [A B]. qclra.
  - intros M. apply (ev_imp _ _ (ev_and _ _ (Ht 1 eq_refl) (Hs (M - b - 1)))). intros n [[A B] C]. qclra.
  - intros M. apply (ev_imp _ _ (ev_and _ _ (Hs M) (Ht 0))). intros n [A B]. qclra.
Qed.

(** two pairs of sequences with different limits *)
Lemma no_limit op x y s t s' t' c c' : tends s x -> tends t y -> tends s' x -> tends t' y -> c <> c' ->
  (forall n, op (s n) (t n) = c) -> (forall n, op (s' n) (t' n) = c') -> ~ exists z, limit_of op x y z.
Proof.
  intros A B A' B' N E E' (z & H). apply N.
  assert (Z1 := tends_unique _ _ _ (tends_ext _ _ _ E (H s t A B)) (tends_const c)).
  assert (Z2 := tends_unique _ _ _ (tends_ext _ _ _ E' (H s' t' A' B')) (tends_const c')). congruence.
Qed.

Lemma tends_nq1 : tends (fun n => nq n + 1) PInf.
Proof. exact (add_limit PInf (Fin 1) ltac:(discriminate) nq (fun _ => 1) tends_nq (tends_const 1)). Qed.
Lemma tends_mq : tends (fun n => - nq n) NInf.
Proof. exact (tends_opp nq PInf tends_nq). Qed.

Lemma nan_dec (x : num) : x = NaN \/ x <> NaN.
Proof. destruct x; auto; right; discriminate. Qed.

Lemma by_limit_intro (L : num -> num -> num -> Prop) x y r : (x = NaN \/ y = NaN -> r = NaN) -> (x <> NaN -> y <> NaN -> r <> NaN -> L x y r) ->
  (x <> NaN -> y <> NaN -> r = NaN -> ~ exists z, L x y z) -> by_limit L x y r.
Proof.
  intros A B C. unfold by_limit. destruct (nan_dec x) as [X|X]; [left; auto|]. destruct (nan_dec y) as [Y|Y]; [left; auto|].
  destruct (nan_dec r) as [R|R]; [right; right|right; left]; auto.
Qed.

Lemma add_by_limit x y : by_limit (limit_of Qcplus) x y (nadd x y).
Proof.
  apply by_limit_intro.
  - intros [->| ->]; [reflexivity|now destruct x].
  - intros _ _ R. now apply add_limit.
  - intros X Y R. destruct x as [a| | |], y as [b| | |]; try discriminate; try easy.
    + apply (no_limit Qcplus PInf NInf nq (fun n => - nq n) (fun n => nq n + 1) (fun n => - nq n) 0 1);
        [exact tends_nq|exact tends_mq|exact tends_nq1|exact tends_mq|discriminate|intros n; ring|intros n; ring].
    + apply (no_limit Qcplus NInf PInf (fun n => - nq n) nq (fun n => - nq n) (fun n => nq n + 1) 0 1);
        [exact tends_mq|exact tends_nq|exact tends_mq|exact tends_nq1|discriminate|intros n; ring|intros n; ring].
Qed.

Lemma sub_by_limit x y : by_limit (limit_of Qcminus) x y (nsub x y).
Proof.
  assert (Nn : forall z, nopp z = NaN <-> z = NaN) by (intros [q| | |]; cbn; split; easy).
  assert (In : forall z, nopp (nopp z) = z) by (intros [q| | |]; cbn; auto; now rewrite Qcopp_involutive).
  assert (Lim : forall z, limit_of Qcplus x (nopp y) z <-> limit_of Qcminus x y z).
  { intros z. split; intros H s t Hs Ht.
    - exact (H s (fun n => - t n) Hs (tends_opp _ _ Ht)).
    - apply tends_opp in Ht. rewrite In in Ht. apply (tends_ext (fun n => s n - - t n)); [intros n; ring|]. exact (H s _ Hs Ht). }
  unfold nsub. destruct (add_by_limit x (nopp y)) as [[A B]|[(A & B & C & D)|(A & B & C & D)]].
  - left. rewrite Nn in A. auto.
  - right. left. rewrite Nn in B. rewrite Lim in D. auto.
  - right. right. rewrite Nn in B. split; [auto|]. split; [auto|]. split; [auto|]. intros (z & K). apply D. exists z. now apply Lim.
Qed.

(** ** Product *)
Lemma pos_pos x y : 0 < x -> 0 < y -> 0 < x * y.
Proof. intros A B. qcnra. Qed.
Lemma pos_nonneg x y : 0 <= x -> 0 < y -> 0 <= x * y.
Proof. intros A B. qcnra. Qed.

Lemma prod_bound a v d : - d < v -> v < d -> - ((a * a + 1) * d) < a * v /\ a * v < (a * a + 1) * d.
Proof.
  intros A B. assert (D : 0 < d) by qclra. assert (K1 : 0 < a * a + 1 - a) by qcnra. assert (K2 : 0 < a * a + 1 + a) by qcnra.
  assert (P1 := pos_pos _ _ K1 D). assert (P2 := pos_pos _ _ K2 D). assert (V1 : 0 < v + d) by qclra. assert (V2 : 0 < d - v) by qclra.
  destruct (Qclt_le_dec 0 a) as [P|P].
  - assert (Q1 := pos_pos _ _ P V1). assert (Q2 := pos_pos _ _ P V2). clear K1 K2. split; qclra.
  - assert (P' : 0 <= - a) by qclra. assert (Q1 := pos_nonneg _ _ P' V1). assert (Q2 := pos_nonneg _ _ P' V2). clear K1 K2. split; qclra.
Qed.

Lemma mul_limit_fin a b s t : tends s (Fin a) -> tends t (Fin b) -> tends (fun n => s n * t n) (Fin (a * b)).
Proof.
  intros Hs Ht e P. set (K := a * a + b * b + Q2Qc 3). assert (KP : 0 < K) by (unfold K; assert (T : 0 < Q2Qc 3) by reflexivity; revert T; generalize (Q2Qc 3); intros c T; qcnra).
  set (d := e / (K + e)). assert (KE : 0 < K + e) by qclra. assert (N0 : K + e <> 0) by (intros Z; rewrite Z in KE; discriminate).
  assert (dE : d * (K + e) = e) by (unfold d; field; auto).
  assert (dP : 0 < d) by (destruct (Qclt_le_dec 0 d) as [Q|Q]; auto; exfalso; qcnra).
  assert (d1 : d < 1) by (destruct (Qclt_le_dec d 1) as [Q|Q]; auto; exfalso; qcnra).
  assert (dK : d * K < e) by qcnra.
  assert (KK : K = (a * a + 1) + (b * b + 1) + 1).
  { unfold K. replace (Q2Qc 3) with (1 + 1 + 1) by (apply Qc_is_canon; vm_compute; reflexivity). ring. }
  rewrite KK in dK. clearbody d. clear dE KE N0 KP K KK.
  apply (ev_imp _ _ (ev_and _ _ (Hs d dP) (Ht d dP))). intros n [[A B] [C D]].
  destruct (prod_bound a (t n - b) d) as [E1 E2]; [qclra|qclra|]. destruct (prod_bound b (s n - a) d) as [F1 F2]; [qclra|qclra|].
  assert (G : - d < (s n - a) * (t n - b) /\ (s n - a) * (t n - b) < d).
  { assert (U1 : - d < s n - a) by qclra. assert (U2 : s n - a < d) by qclra. assert (V1 : - d < t n - b) by qclra. assert (V2 : t n - b < d) by qclra.
    revert U1 U2 V1 V2. generalize (s n - a), (t n - b). intros u v U1 U2 V1 V2. assert (dd : d * d < d) by qcnra.
    split; destruct (Qclt_le_dec 0 u) as [Q|Q]; destruct (Qclt_le_dec 0 v) as [R|R]; qcnra. }
  destruct G as [G1 G2]. assert (Eq : s n * t n = a * b + a * (t n - b) + b * (s n - a) + (s n - a) * (t n - b)) by ring. rewrite Eq.
  revert dK E1 E2 F1 F2 G1 G2. generalize (a * (t n - b)), (b * (s n - a)), ((s n - a) * (t n - b)), (a * b), (a * a), (b * b). intros. clear - dK E1 E2 F1 F2 G1 G2.
  assert (X : (q3 + 1) * d + (q4 + 1) * d + d < e) by (replace ((q3 + 1) * d + (q4 + 1) * d + d) with (d * (q3 + 1 + (q4 + 1) + 1)) by ring; exact dK).
  revert X E1 E2 F1 F2. generalize ((q3 + 1) * d), ((q4 + 1) * d). intros. split; qclra.
Qed.

Lemma mul_limit_inf b s t : 0 < b -> tends s PInf -> eventually (fun n => b < t n) -> tends (fun n => s n * t n) PInf.
Proof.
  intros P Hs Ht M. set (c := (M * M + 1) / b). assert (bn : b <> 0) by (intros ->; discriminate).
  assert (cb : c * b = M * M + 1) by (unfold c; field; auto). clearbody c.
  assert (cP : 0 < c) by (destruct (Qclt_le_dec 0 c) as [Q|Q]; auto; exfalso; qcnra).
  apply (ev_imp _ _ (ev_and _ _ (Hs c) Ht)). intros n [A B]. assert (X : c * b < s n * t n) by qcnra. rewrite cb in X. qcnra.
Qed.

Lemma tends_above b t : 0 < b -> tends t (Fin b) -> eventually (fun n => b / Q2Qc 2 < t n).
Proof.
  intros P H. assert (Q := half_pos b P). assert (R := half_two b). revert Q R. generalize (b / Q2Qc 2). intros h Q R.
  apply (ev_imp _ _ (H h Q)). intros n [A _]. qclra.
Qed.

Lemma mul_opp_l x y : nmul (nopp x) y = nopp (nmul x y).
Proof.
  assert (I : forall p q, inf_times (negb p) q = nopp (inf_times p q)).
  { intros p q. unfold inf_times. destruct (qzero q); auto. now destruct p, (qpos q). }
  assert (J : forall p q, inf_times p (- q) = nopp (inf_times p q)).
  { intros p q. unfold inf_times, qzero, qpos. destruct (Qc_eq_dec (- q) 0) as [Z|Z], (Qc_eq_dec q 0) as [W|W]; auto.
    - exfalso. apply W. rewrite <- (Qcopp_involutive q), Z. reflexivity.
    - exfalso. apply Z. now rewrite W.
    - destruct (Qclt_le_dec 0 (- q)) as [A|A], (Qclt_le_dec 0 q) as [B|B]; try (exfalso; qclra); try (now destruct p).
      exfalso. apply W. apply Qcle_antisym; qclra. }
  destruct x as [a| | |], y as [b| | |]; cbn; auto; try (now rewrite J); try (apply (I true)); try (apply (I false)).
  f_equal. ring.
Qed.
Lemma mul_comm x y : nmul x y = nmul y x.
Proof. destruct x as [a| | |], y as [b| | |]; cbn; auto. f_equal. ring. Qed.
Lemma opp_nan x : nopp x = NaN <-> x = NaN.
Proof. now destruct x. Qed.
Lemma opp_opp x : nopp (nopp x) = x.
Proof. destruct x as [q| | |]; cbn; auto. f_equal. ring. Qed.
