(** Products, quotients and comparisons of limits (C76). *)

From Coq Require Import Arith ZArith QArith Qcanon Lqa Lia List.
From Verif Require Import Num NumFacts LimitSpec LimitFacts.
Import ListNotations.
Local Open Scope Qc_scope.

Lemma pos_mul s t y : tends s PInf -> tends t y -> (y = PInf \/ exists b, y = Fin b /\ 0 < b) -> tends (fun n => s n * t n) PInf.
Proof.
  intros Hs Ht [->|(b & -> & P)].
  - apply (mul_limit_inf 1); [reflexivity|exact Hs|exact (Ht 1)].
  - apply (mul_limit_inf (b / Q2Qc 2)); [now apply half_pos|exact Hs|now apply tends_above].
Qed.

Lemma pinf_mul s t y : tends s PInf -> tends t y -> nmul PInf y <> NaN -> tends (fun n => s n * t n) (nmul PInf y).
Proof.
  intros Hs Ht N. assert (Op : forall y', nopp y' = y -> (y' = PInf \/ exists b, y' = Fin b /\ 0 < b) -> tends (fun n => s n * t n) NInf).
  { intros y' E P. apply (tends_ext (fun n => - (s n * - t n))); [intros n; ring|].
    assert (Ht' := tends_opp _ _ Ht). rewrite <- E, opp_opp in Ht'. exact (tends_opp _ _ (pos_mul s _ y' Hs Ht' P)). }
  destruct y as [b| | |]; cbn in *; try easy.
  - unfold inf_times, qzero, qpos in *. destruct (Qc_eq_dec b 0) as [Z|Z]; [easy|]. destruct (Qclt_le_dec 0 b) as [P|P]; cbn in *.
    + apply (pos_mul s t (Fin b)); auto. right. eauto.
    + apply (Op (Fin (- b))); [cbn; f_equal; ring|]. right. exists (- b). split; auto.
      destruct (Qclt_le_dec 0 (- b)) as [Q|Q]; auto. exfalso. apply Z. apply Qcle_antisym; qclra.
  - apply (pos_mul s t PInf); auto.
  - apply (Op PInf); auto.
Qed.

Lemma mul_limit x y : nmul x y <> NaN -> limit_of Qcmult x y (nmul x y).
Proof.
  assert (Inf : forall x y, x = PInf \/ x = NInf -> nmul x y <> NaN -> limit_of Qcmult x y (nmul x y)).
  { clear. intros x y [->| ->] N s t Hs Ht; [now apply pinf_mul|].
    change NInf with (nopp PInf) in *. rewrite mul_opp_l in *. rewrite opp_nan in N. apply tends_opp in Hs. rewrite opp_opp in Hs.
    apply (tends_ext (fun n => - (- s n * t n))); [intros n; ring|]. apply tends_opp. now apply (pinf_mul (fun n => - s n)). }
  intros N. destruct x as [a| | |]; [|easy|apply Inf; auto|apply Inf; auto]. destruct y as [b| | |]; [| easy | |].
  - intros s t. exact (mul_limit_fin a b s t).
  - intros s t Hs Ht. rewrite mul_comm in *. apply (tends_ext (fun n => t n * s n)); [intros n; ring|]. apply Inf; auto.
  - intros s t Hs Ht. rewrite mul_comm in *. apply (tends_ext (fun n => t n * s n)); [intros n; ring|]. apply Inf; auto.
Qed.

(** ** Reciprocals *)
Lemma rec_mul t : t <> 0 -> t * / t = 1.
Proof. apply Qcmult_inv_r. Qed.
Lemma rec_pos t : 0 < t -> 0 < / t.
Proof.
  intros P. assert (E := rec_mul t). destruct (Qclt_le_dec 0 (/ t)) as [Q|Q]; auto. exfalso.
  assert (N : t <> 0) by (intros ->; discriminate). specialize (E N). revert E Q. generalize (/ t). intros r E Q. qcnra.
Qed.
Lemma pos_neq t : 0 < t -> t <> 0.
Proof. intros P ->. discriminate. Qed.

Lemma rec_big t : tends t PInf -> tends (fun n => / t n) (Fin 0).
Proof.
  intros H e P. assert (Pe := rec_pos e P). apply (ev_imp _ _ (H (/ e))). intros n L.
  assert (Pt : 0 < t n) by qclra. assert (Pr := rec_pos _ Pt). assert (E1 := rec_mul e (pos_neq _ P)). assert (E2 := rec_mul _ (pos_neq _ Pt)).
  revert Pt L Pe Pr E1 E2. generalize (t n), (/ e), (/ t n). intros u f r Pu L Pf Pr E1 E2. clear H. split; [clear - P Pr; qclra|].
  destruct (Qclt_le_dec r e) as [Q|Q]; [now rewrite Qcplus_0_l|]. exfalso. assert (X : e * f < r * u) by qcnra. rewrite E1, (Qcmult_comm r u), E2 in X. qclra.
Qed.

Lemma rec_small t : tends t (Fin 0) -> (forall n, 0 < t n) -> tends (fun n => / t n) PInf.
Proof.
  intros H Pt M. set (c := M * M + 1). assert (Pc : 0 < c) by (unfold c; qcnra). assert (Mc : M < c) by (unfold c; qcnra). clearbody c.
  assert (Pr := rec_pos c Pc). apply (ev_imp _ _ (H (/ c) Pr)). intros n [_ L]. assert (Pu := rec_pos _ (Pt n)).
  assert (E1 := rec_mul c (pos_neq _ Pc)). assert (E2 := rec_mul _ (pos_neq _ (Pt n))). assert (P := Pt n).
  revert L Pr Pu E1 E2 P. generalize (t n), (/ c), (/ t n). intros u f r L Pf Pr E1 E2 P.
  destruct (Qclt_le_dec M r) as [Q|Q]; auto. exfalso. assert (X : u * r < f * c) by qcnra. rewrite E2, (Qcmult_comm f c), E1 in X. qclra.
Qed.

Lemma rec_fin b t : 0 < b -> tends t (Fin b) -> tends (fun n => / t n) (Fin (/ b)).
Proof.
  intros P H e Pe. assert (Ph := half_pos b P). set (d := e * b * (b / Q2Qc 2)).
  assert (Pd : 0 < d) by (apply pos_pos; [now apply pos_pos|auto]).
  apply (ev_imp _ _ (ev_and _ _ (H d Pd) (tends_above b t P H))). intros n [[A B] C].
  assert (Pt : 0 < t n) by qclra. assert (Pr := rec_pos _ Pt). assert (Pp := rec_pos _ P).
  assert (E1 := rec_mul b (pos_neq _ P)). assert (E2 := rec_mul _ (pos_neq _ Pt)).
  unfold d in *. clear d. revert Ph Pd A B C E2 Pt Pr Pp E1. generalize (b / Q2Qc 2), (t n), (/ t n), (/ b). intros h u r p Ph Pd A B C E2 Pt Pr Pp E1.
  assert (D : r - p = (b - u) * (r * p)).
  { replace ((b - u) * (r * p)) with ((b * p) * r - (u * r) * p) by ring. rewrite E1, E2. ring. }
  assert (Prp := pos_pos _ _ Pr Pp).
  assert (X1 : (b - u) * (r * p) < (e * b * h) * (r * p)).
  { assert (Z : 0 < (e * b * h - (b - u)) * (r * p)) by (apply pos_pos; [qclra|auto]).
    replace ((e * b * h - (b - u)) * (r * p)) with ((e * b * h) * (r * p) - (b - u) * (r * p)) in Z by ring.
    revert Z. generalize ((e * b * h) * (r * p)), ((b - u) * (r * p)). intros. qclra. }
  assert (X2 : - ((e * b * h) * (r * p)) < (b - u) * (r * p)).
  { assert (Z : 0 < (e * b * h + (b - u)) * (r * p)) by (apply pos_pos; [qclra|auto]).
    replace ((e * b * h + (b - u)) * (r * p)) with ((e * b * h) * (r * p) + (b - u) * (r * p)) in Z by ring.
    revert Z. generalize ((e * b * h) * (r * p)), ((b - u) * (r * p)). intros. qclra. }
  assert (Y : (e * b * h) * (r * p) < e).
  { replace ((e * b * h) * (r * p)) with (e * (h * r) * (b * p)) by ring. rewrite E1, Qcmult_1_r.
    assert (W : 0 < (u - h) * r) by (apply pos_pos; [qclra|auto]). replace ((u - h) * r) with (u * r - h * r) in W by ring. rewrite E2 in W.
    assert (W' : 0 < e * (1 - h * r)) by (apply pos_pos; auto). replace (e * (1 - h * r)) with (e - e * (h * r)) in W' by ring.
    revert W'. generalize (e * (h * r)). intros. qclra. }
  rewrite <- D in X1, X2. revert X1 X2 Y. generalize ((e * b * h) * (r * p)). intros. split; qclra.
Qed.

(** the reciprocal of an extended number; 0 counts as the limit of positive
    numbers *)
Definition nrec (y : num) : num :=
  match y with
  | Fin b => if qzero b then PInf else Fin (/ b)
  | NaN => NaN
  | _ => Fin 0
  end.

Lemma rec_opp t : / - t = - / t.
Proof.
  destruct (Qc_eq_dec t 0) as [->|N]; [reflexivity|]. assert (N' : - t <> 0) by (intros Z; apply N; rewrite <- (Qcopp_involutive t), Z; reflexivity).
  assert (E1 := rec_mul t N). assert (E2 := rec_mul _ N'). replace (/ - t) with (t * / t * / - t) by (rewrite E1; ring).
  replace (t * / t * / - t) with (- / t * (- t * / - t)) by ring. rewrite E2. ring.
Qed.

Lemma rec_limit y t : y <> Fin 0 -> tends t y -> tends (fun n => / t n) (nrec y).
Proof.
  intros N H. destruct y as [b| | |]; cbn [nrec].
  - unfold qzero. destruct (Qc_eq_dec b 0) as [->|Nb]; [easy|]. destruct (Qclt_le_dec 0 b) as [P|P]; [now apply rec_fin|].
    assert (P' : 0 < - b) by (destruct (Qclt_le_dec 0 (- b)) as [Q|Q]; auto; exfalso; apply Nb; apply Qcle_antisym; qclra).
    apply tends_opp in H. assert (R := tends_opp _ _ (rec_fin _ _ P' H)). cbn [nopp] in R. rewrite rec_opp, Qcopp_involutive in R.
    apply (tends_ext (fun n => - / - t n)); auto. intros n. rewrite rec_opp. ring.
  - easy.
  - now apply rec_big.
  - apply tends_opp in H. assert (R := tends_opp _ _ (rec_big _ H)). cbn [nopp] in R. replace (- 0) with 0 in R by ring.
    apply (tends_ext (fun n => - / - t n)); auto. intros n. rewrite rec_opp. ring.
Qed.

Lemma div_mul x y : ndiv x y = nmul x (nrec y).
Proof.
  assert (Z0 : forall p, inf_times p 0 = NaN) by (intros p; unfold inf_times, qzero; destruct (Qc_eq_dec 0 0); easy).
  assert (S : forall p b, qzero b = false -> inf_times p (/ b) = inf_times p b).
  { intros p b Q. unfold inf_times. rewrite Q. unfold qzero in Q. destruct (Qc_eq_dec b 0) as [|N]; [discriminate|].
    assert (E := rec_mul b N). replace (qzero (/ b)) with false.
    - f_equal. f_equal. unfold qpos. destruct (Qclt_le_dec 0 b) as [P|P], (Qclt_le_dec 0 (/ b)) as [R|R]; auto; exfalso.
      + apply rec_pos in P. qclra.
      + revert E R. generalize (/ b). intros r E R. qcnra.
    - symmetry. unfold qzero. destruct (Qc_eq_dec (/ b) 0) as [Z|]; auto. rewrite Z in E. replace (b * 0) with 0 in E by ring. discriminate. }
  destruct x as [a| | |], y as [b| | |]; cbn; auto; try (destruct (qzero b) eqn:Q; cbn; auto; try now rewrite S); try now rewrite Z0.
  all: try (f_equal; ring).
  all: unfold inf_times; destruct (qzero a), (qpos a); reflexivity.
Qed.

Lemma nmul_nan x y : x = NaN \/ y = NaN -> nmul x y = NaN.
Proof. intros [->| ->]; [reflexivity|now destruct x]. Qed.
Lemma tends_rnq : tends (fun n => / nq n) (Fin 0).
Proof. exact (rec_big nq tends_nq). Qed.
Lemma nq_rec n : nq n * / nq n = 1.
Proof. apply rec_mul, pos_neq, nq_pos. Qed.

Lemma inf_times_nan p q : inf_times p q = NaN -> q = 0.
Proof. unfold inf_times, qzero. destruct (Qc_eq_dec q 0) as [Z|Z]; [auto|]. destruct (Bool.eqb p (qpos q)); discriminate. Qed.

Lemma mul_by_limit x y : by_limit (limit_of Qcmult) x y (nmul x y).
Proof.
  apply by_limit_intro; [apply nmul_nan|intros _ _ R; now apply mul_limit|]. intros X Y R.
  destruct x as [a| | |], y as [b| | |]; try discriminate; try easy; cbn in R; apply inf_times_nan in R; subst.
  - apply (no_limit Qcmult (Fin 0) PInf (fun _ => 0) nq (fun n => / nq n) nq 0 1);
      [apply tends_const|exact tends_nq|exact tends_rnq|exact tends_nq|discriminate|intros n; ring|intros n; rewrite Qcmult_comm; apply nq_rec].
  - apply (no_limit Qcmult (Fin 0) NInf (fun _ => 0) (fun n => - nq n) (fun n => / nq n) (fun n => - nq n) 0 (- (1)));
      [apply tends_const|exact tends_mq|exact tends_rnq|exact tends_mq|discriminate|intros n; ring|].
    intros n. replace (/ nq n * - nq n) with (- (nq n * / nq n)) by ring. now rewrite nq_rec.
  - apply (no_limit Qcmult PInf (Fin 0) nq (fun _ => 0) nq (fun n => / nq n) 0 1);
      [exact tends_nq|apply tends_const|exact tends_nq|exact tends_rnq|discriminate|intros n; ring|intros n; apply nq_rec].
  - apply (no_limit Qcmult NInf (Fin 0) (fun n => - nq n) (fun _ => 0) (fun n => - nq n) (fun n => / nq n) 0 (- (1)));
      [exact tends_mq|apply tends_const|exact tends_mq|exact tends_rnq|discriminate|intros n; ring|].
    intros n. replace (- nq n * / nq n) with (- (nq n * / nq n)) by ring. now rewrite nq_rec.
Qed.

(** ** Quotients *)
Lemma nrec_nan y : nrec y = NaN <-> y = NaN.
Proof. destruct y as [b| | |]; cbn; try easy. destruct (qzero b); easy. Qed.

Lemma div_by_limit x y : y <> Fin 0 -> by_limit (limit_of Qcdiv) x y (ndiv x y).
Proof.
  intros N. rewrite div_mul. apply by_limit_intro.
  - intros H. apply nmul_nan. now rewrite nrec_nan.
  - intros _ _ R s t Hs Ht. exact (mul_limit x (nrec y) R s _ Hs (rec_limit y t N Ht)).
  - intros X Y R.
    assert (C : forall (p q : Qc), p <> q -> forall s t s', tends s x -> tends t y -> tends s' x -> (forall n, s n / t n = p) -> (forall n, s' n / t n = q) -> ~ exists z, limit_of Qcdiv x y z).
    { intros p q Npq s t s' A B A' E E'. exact (no_limit Qcdiv x y s t s' t p q A B A' B Npq E E'). }
    assert (T2 : forall n, (nq n + nq n) / nq n = 1 + 1).
    { intros n. unfold Qcdiv. rewrite Qcmult_plus_distr_l. now rewrite nq_rec. }
    assert (P2 : tends (fun n => nq n + nq n) PInf) by exact (add_limit PInf PInf ltac:(discriminate) nq nq tends_nq tends_nq).
    assert (M2 : tends (fun n => - (nq n + nq n)) NInf) by exact (tends_opp _ _ P2).
    assert (O1 : forall n, - nq n / nq n = - (1)) by (intros n; unfold Qcdiv; replace (- nq n * / nq n) with (- (nq n * / nq n)) by ring; now rewrite nq_rec).
    assert (O2 : forall n, nq n / - nq n = - (1)) by (intros n; unfold Qcdiv; rewrite rec_opp; replace (nq n * - / nq n) with (- (nq n * / nq n)) by ring; now rewrite nq_rec).
    assert (O3 : forall n, - nq n / - nq n = 1) by (intros n; unfold Qcdiv; rewrite rec_opp; replace (- nq n * - / nq n) with (nq n * / nq n) by ring; now rewrite nq_rec).
    assert (O4 : forall n, - (nq n + nq n) / nq n = - (1 + 1)) by (intros n; unfold Qcdiv; replace (- (nq n + nq n) * / nq n) with (- ((nq n + nq n) / nq n)) by (unfold Qcdiv; ring); now rewrite T2).
    assert (O5 : forall n, (nq n + nq n) / - nq n = - (1 + 1)) by (intros n; unfold Qcdiv; rewrite rec_opp; replace ((nq n + nq n) * - / nq n) with (- ((nq n + nq n) / nq n)) by (unfold Qcdiv; ring); now rewrite T2).
    assert (O6 : forall n, - (nq n + nq n) / - nq n = 1 + 1) by (intros n; unfold Qcdiv; rewrite rec_opp; replace (- (nq n + nq n) * - / nq n) with ((nq n + nq n) / nq n) by (unfold Qcdiv; ring); now rewrite T2).
    destruct x as [a| | |], y as [b| | |]; try discriminate; try easy; cbn in R.
    + unfold qzero in R. destruct (Qc_eq_dec b 0) as [->|Nb]; [easy|]. discriminate.
    + unfold qzero in R. destruct (Qc_eq_dec b 0) as [->|Nb]; [easy|]. apply inf_times_nan in R.
      exfalso. assert (E := rec_mul b Nb). rewrite R in E. replace (b * 0) with 0 in E by ring. discriminate.
    + apply (C 1 (1 + 1) ltac:(discriminate) nq nq (fun n => nq n + nq n)); auto using tends_nq. intros n; apply nq_rec.
    + apply (C (- (1)) (- (1 + 1)) ltac:(discriminate) nq (fun n => - nq n) (fun n => nq n + nq n)); auto using tends_nq, tends_mq.
    + unfold qzero in R. destruct (Qc_eq_dec b 0) as [->|Nb]; [easy|]. apply inf_times_nan in R.
      exfalso. assert (E := rec_mul b Nb). rewrite R in E. replace (b * 0) with 0 in E by ring. discriminate.
    + apply (C (- (1)) (- (1 + 1)) ltac:(discriminate) (fun n => - nq n) nq (fun n => - (nq n + nq n))); auto using tends_nq, tends_mq.
    + apply (C 1 (1 + 1) ltac:(discriminate) (fun n => - nq n) (fun n => - nq n) (fun n => - (nq n + nq n))); auto using tends_nq, tends_mq.
Qed.

Lemma div_by_zero x : by_limit (limit_above Qcdiv) x (Fin 0) (ndiv x (Fin 0)).
Proof.
  assert (E0 : nrec (Fin 0) = PInf) by (cbn; unfold qzero; destruct (Qc_eq_dec 0 0); easy).
  rewrite div_mul, E0. apply by_limit_intro.
  - intros [->|]; [reflexivity|discriminate].
  - intros _ _ R s t Hs Ht Pt. exact (mul_limit x PInf R s _ Hs (rec_small t Ht Pt)).
  - intros X _ R (z & H). destruct x as [a| | |]; try discriminate; [|easy]. cbn in R. apply inf_times_nan in R. subst.
    assert (Pn : forall n, 0 < / nq n) by (intros n; apply rec_pos, nq_pos).
    assert (Z1 : tends (fun _ => 0) z).
    { apply (tends_ext (fun n => 0 / / nq n)); [intros n; unfold Qcdiv; ring|]. exact (H (fun _ => 0) _ (tends_const 0) tends_rnq Pn). }
    assert (Z2 : tends (fun _ => 1) z).
    { apply (tends_ext (fun n => / nq n / / nq n)); [intros n; exact (rec_mul _ (pos_neq _ (Pn n)))|]. exact (H _ _ tends_rnq tends_rnq Pn). }
    assert (A := tends_unique _ _ _ Z1 (tends_const 0)). assert (B := tends_unique _ _ _ Z2 (tends_const 1)).
    assert (W : (0 : Qc) <> 1) by discriminate. apply W. congruence.
Qed.

(** ** Comparison *)
Lemma less_limit x y : nltb x y = true <->
  x <> NaN /\ y <> NaN /\ forall s t, tends s x -> tends t y -> eventually (fun n => s n < t n).
Proof.
  split.
  - intros E. split; [intros ->; now destruct y|]. split; [intros ->; now destruct x|]. intros s t Hs Ht.
    destruct x as [a| | |], y as [b| | |]; cbn in E; try discriminate.
    + destruct (Qclt_le_dec a b) as [L|L]; [|discriminate]. assert (P : 0 < b - a) by qclra. assert (P2 := half_pos _ P). assert (T2 := half_two (b - a)).
      revert P2 T2. generalize ((b - a) / Q2Qc 2). intros h P2 T2. apply (ev_imp _ _ (ev_and _ _ (Hs h P2) (Ht h P2))). intros n [[_ A] [B _]]. qclra.
    + apply (ev_imp _ _ (ev_and _ _ (Hs 1 eq_refl) (Ht (a + 1)))). intros n [[_ A] B]. qclra.
    + apply (ev_imp _ _ (ev_and _ _ (Ht 1 eq_refl) (Hs (b - 1)))). intros n [[A _] B]. qclra.
    + apply (ev_imp _ _ (ev_and _ _ (Hs 0) (Ht 0))). intros n [A B]. qclra.
  - intros (X & Y & H). destruct (trichotomy x y X Y) as [L|[L|L]]; auto; exfalso.
    + destruct (reached x X) as (s & Hs), (reached y Y) as (t & Ht). assert (A := H s t Hs Ht).
      assert (B : eventually (fun n => t n < s n)).
      { clear - L Hs Ht. destruct x as [a| | |], y as [b| | |]; cbn in L; try discriminate.
        + destruct (Qclt_le_dec b a) as [Q|Q]; [|discriminate]. assert (P : 0 < a - b) by qclra. assert (P2 := half_pos _ P). assert (T2 := half_two (a - b)).
          revert P2 T2. generalize ((a - b) / Q2Qc 2). intros h P2 T2. apply (ev_imp _ _ (ev_and _ _ (Hs h P2) (Ht h P2))). intros n [[A _] [_ B]]. qclra.
        + apply (ev_imp _ _ (ev_and _ _ (Hs 1 eq_refl) (Ht (a - 1)))). intros n [[A _] B]. qclra.
        + apply (ev_imp _ _ (ev_and _ _ (Ht 1 eq_refl) (Hs (b + 1)))). intros n [[_ A] B]. qclra.
        + apply (ev_imp _ _ (ev_and _ _ (Hs 0) (Ht 0))). intros n [A B]. qclra. }
      destruct (ev_one _ (ev_and _ _ A B)) as (n & P & Q). qclra.
    + subst y. destruct (reached x X) as (s & Hs). destruct (ev_one _ (H s s Hs Hs)) as (n & Q). qclra.
Qed.

Lemma tends_larger s t x y : tends s x -> tends t y -> nltb x y = true -> tends (fun n => larger (s n) (t n)) y.
Proof.
  intros Hs Ht L. apply less_limit in L as (_ & _ & L). apply (tends_tail t); auto. apply (ev_imp _ _ (L s t Hs Ht)).
  intros n Q. unfold larger. destruct (Qclt_le_dec (s n) (t n)); [auto|]. exfalso. qclra.
Qed.

Lemma larger_same s t x : tends s x -> tends t x -> tends (fun n => larger (s n) (t n)) x.
Proof.
  intros Hs Ht. destruct x as [q| | |]; cbn in *; auto.
  - intros e P. apply (ev_imp _ _ (ev_and _ _ (Hs e P) (Ht e P))). intros n [A B]. unfold larger. now destruct (Qclt_le_dec (s n) (t n)).
  - intros M. apply (ev_imp _ _ (ev_and _ _ (Hs M) (Ht M))). intros n [A B]. unfold larger. now destruct (Qclt_le_dec (s n) (t n)).
  - intros M. apply (ev_imp _ _ (ev_and _ _ (Hs M) (Ht M))). intros n [A B]. unfold larger. now destruct (Qclt_le_dec (s n) (t n)).
Qed.

Lemma max_by_limit x y : by_limit (limit_of larger) x y (np_max x y).
Proof.
  assert (N : x <> NaN -> y <> NaN -> np_max x y = py_max x y) by (destruct x, y; easy).
  apply by_limit_intro.
  - intros [->| ->]; [reflexivity|now destruct x].
  - intros X Y _ s t Hs Ht. rewrite (N X Y). unfold py_max. destruct (nltb x y) eqn:L; [now apply (tends_larger s t x y)|].
    destruct (trichotomy x y X Y) as [Q|[Q|Q]]; [congruence| |subst y; now apply larger_same].
    apply (tends_tail (fun n => larger (t n) (s n))); [|now apply (tends_larger t s y x)].
    assert (Q' := Q). apply less_limit in Q' as (_ & _ & Q'). apply (ev_imp _ _ (Q' t s Ht Hs)). intros n W. unfold larger.
    destruct (Qclt_le_dec (t n) (s n)), (Qclt_le_dec (s n) (t n)); auto; exfalso; qclra.
  - intros X Y R. rewrite (N X Y) in R. unfold py_max in R. destruct (nltb x y); congruence.
Qed.

Lemma pymax_cases x y : (x <> NaN -> y <> NaN -> py_max x y = np_max x y) /\ py_max NaN y = NaN /\ py_max x NaN = x.
Proof. destruct x, y; cbn; auto; repeat split; auto; easy. Qed.

(** ** Repetition, and the numbers put for the special values *)
Lemma nq_S k : nq (S k) = nq k + 1.
Proof.
  unfold nq. apply Qc_is_canon. cbn [this Q2Qc]. unfold Qcplus. cbn [this Q2Qc]. rewrite !Qred_correct. unfold Qeq, Qplus, inject_Z. cbn. lia.
Qed.
Lemma scale_S x k : nscale x (S (S k)) = nadd (nscale x (S k)) x.
Proof.
  change (nmul x (Fin (nq (S k))) = nadd (nmul x (Fin (nq k))) x). assert (P := nq_pos k). assert (P' := nq_pos (S k)). rewrite nq_S in *. revert P P'. generalize (nq k). intros q P P'.
  destruct x as [a| | |]; cbn [nmul nadd]; auto.
  - change (Fin (a * (q + 1)) = Fin (a * q + a)). f_equal. ring.
  - unfold inf_times, qzero, qpos. destruct (Qc_eq_dec (q + 1) 0) as [Z|Z]; [rewrite Z in P'; discriminate|]. destruct (Qc_eq_dec q 0) as [W|W]; [rewrite W in P; discriminate|].
    destruct (Qclt_le_dec 0 (q + 1)); [|exfalso; qclra]. destruct (Qclt_le_dec 0 q); [reflexivity|exfalso; qclra].
  - unfold inf_times, qzero, qpos. destruct (Qc_eq_dec (q + 1) 0) as [Z|Z]; [rewrite Z in P'; discriminate|]. destruct (Qc_eq_dec q 0) as [W|W]; [rewrite W in P; discriminate|].
    destruct (Qclt_le_dec 0 (q + 1)); [|exfalso; qclra]. destruct (Qclt_le_dec 0 q); [reflexivity|exfalso; qclra].
Qed.
Lemma scale_sum x k : nscale x (S k) = nsum (repeat x (S k)).
Proof.
  assert (F : forall l a, fold_left nadd (l ++ [a])%list n0 = nadd (fold_left nadd l n0) a) by (intros l a; apply fold_left_app).
  induction k as [|k IH].
  - change (nmul x (Fin (Q2Qc (inject_Z 1))) = nadd n0 x). replace (Q2Qc (inject_Z 1)) with 1 by (apply Qc_is_canon; reflexivity).
    destruct x as [a| | |]; [change (Fin (a * 1) = Fin (0 + a)); f_equal; ring|reflexivity|vm_compute; reflexivity|vm_compute; reflexivity].
  - rewrite scale_S, IH. unfold nsum. change (repeat x (S (S k))) with (x :: repeat x (S k)). rewrite repeat_cons. rewrite F. reflexivity.
Qed.

Lemma nan_to_num_ok x : nan_to_num x =
  match x with
  | Fin q => Fin q
  | NaN => Fin 0
  | PInf => Fin (Q2Qc (inject_Z (2 ^ 1024 - 2 ^ 971)))
  | NInf => Fin (Q2Qc (inject_Z (- (2 ^ 1024 - 2 ^ 971))))
  end.
Proof.
  destruct x as [q| | |]; auto; cbn [nan_to_num]; f_equal; apply Qc_is_canon; vm_compute; reflexivity.
Qed.
