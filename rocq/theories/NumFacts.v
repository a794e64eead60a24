(** Algebra of the extended numbers. *)

From Coq Require Import List QArith Qcanon Bool Arith Permutation Lia Lqa.
From Verif Require Import Num.
Import ListNotations.
Local Open Scope Qc_scope.

Lemma qzero_spec q : qzero q = true <-> q = 0.
Proof. unfold qzero. destruct (Qc_eq_dec q 0); split; congruence. Qed.
Lemma qzero_false q : qzero q = false <-> q <> 0.
Proof. unfold qzero. destruct (Qc_eq_dec q 0); split; congruence. Qed.
Lemma qpos_spec q : qpos q = true <-> 0 < q.
Proof.
  unfold qpos. destruct (Qclt_le_dec 0 q); split; auto; try congruence.
  intros L. exfalso. apply (Qclt_not_le _ _ L). auto.
Qed.

Lemma nadd_comm x y : nadd x y = nadd y x.
Proof. destruct x, y; simpl; auto. f_equal. ring. Qed.

Lemma nadd_assoc x y z : nadd x (nadd y z) = nadd (nadd x y) z.
Proof. destruct x, y, z; simpl; auto. f_equal. ring. Qed.

Lemma nadd_0_l x : nadd n0 x = x.
Proof. destruct x; simpl; auto. f_equal. ring. Qed.

Lemma nadd_0_r x : nadd x n0 = x.
Proof. rewrite nadd_comm. apply nadd_0_l. Qed.

Lemma nmul_comm x y : nmul x y = nmul y x.
Proof. destruct x, y; simpl; auto. f_equal. ring. Qed.

Lemma nmul_1_l q : nmul n1 (Fin q) = Fin q.
Proof. simpl. f_equal. ring. Qed.

Lemma qzero_mul a b : qzero (a * b) = qzero a || qzero b.
Proof.
  destruct (qzero a) eqn:A, (qzero b) eqn:B; simpl;
    rewrite ?qzero_spec, ?qzero_false in *; subst; try ring.
  intros E. apply Qcmult_integral in E. tauto.
Qed.

(** ** Order reasoning: transfer to Q *)

Lemma this_plus (x y : Qc) : (this (x + y) == this x + this y)%Q.
Proof. apply Qred_correct. Qed.
Lemma this_mult (x y : Qc) : (this (x * y) == this x * this y)%Q.
Proof. apply Qred_correct. Qed.
Lemma this_opp (x : Qc) : (this (- x) == - this x)%Q.
Proof. apply Qred_correct. Qed.
Lemma this_minus (x y : Qc) : (this (x - y) == this x - this y)%Q.
Proof. unfold Qcminus. rewrite this_plus, this_opp. reflexivity. Qed.
Lemma this_inv (x : Qc) : (this (/ x) == / this x)%Q.
Proof. apply Qred_correct. Qed.
Lemma this_eq (x y : Qc) : x = y <-> (this x == this y)%Q.
Proof. split; [intros ->; reflexivity|apply Qc_is_canon]. Qed.
Lemma this_0 : (this 0 == 0)%Q. Proof. reflexivity. Qed.
Lemma this_1 : (this 1 == 1)%Q. Proof. reflexivity. Qed.

Ltac qc2q :=
  repeat match goal with
  | H : ?x = ?y :> Qc |- _ => apply (proj1 (this_eq x y)) in H
  | |- ?x = ?y :> Qc => apply (proj2 (this_eq x y))
  | |- ?x <> ?y :> Qc => intro
  end;
  unfold Qclt, Qcle in *;
  repeat (rewrite ?this_plus, ?this_mult, ?this_opp, ?this_minus, ?this_0, ?this_1 in *).

Ltac qclra := qc2q; lra.
Ltac qcnra := qc2q; nra.

Lemma qpos_false q : qpos q = false <-> q <= 0.
Proof.
  unfold qpos. destruct (Qclt_le_dec 0 q); split; intros H; auto; try congruence. exfalso. qclra.
Qed.

Lemma qpos_mul a b : qzero a = false -> qzero b = false ->
  qpos (a * b) = Bool.eqb (qpos a) (qpos b).
Proof.
  intros A B. apply qzero_false in A. apply qzero_false in B.
  assert (NZ : forall q : Qc, q <> 0 -> 0 < q \/ q < 0).
  { intros q N. destruct (Qc_dec 0 q) as [[|]|]; auto. congruence. }
  destruct (NZ a A) as [LA|LA], (NZ b B) as [LB|LB];
    destruct (qpos a) eqn:PA, (qpos b) eqn:PB, (qpos (a * b)) eqn:PM; simpl; auto; exfalso;
    rewrite ?qpos_spec, ?qpos_false in *; qcnra.
Qed.

Lemma nmul_assoc x y z : nmul x (nmul y z) = nmul (nmul x y) z.
Proof.
  destruct x as [a| | |], y as [b| | |], z as [c| | |]; cbn [nmul]; auto;
    try (f_equal; ring); unfold inf_times;
    repeat match goal with
    | q : Qc |- _ =>
      lazymatch goal with H : qzero q = _ |- _ => fail | _ => idtac end;
      destruct (qzero q) eqn:?, (qpos q) eqn:?
    end; cbn [nmul Bool.eqb orb]; unfold inf_times;
    rewrite ?qzero_mul;
    repeat match goal with H : qzero ?q = _ |- _ => rewrite ?H; revert H end; intros;
    cbn [orb]; auto;
    rewrite ?qpos_mul by auto;
    repeat match goal with H : qpos ?q = _ |- _ => rewrite ?H; revert H end; auto.
Qed.

(** ** sums *)

Lemma nsum_acc l x : fold_left nadd l x = nadd x (nsum l).
Proof.
  unfold nsum. revert x. induction l as [|y l IH]; intros x; cbn [fold_left]; [rewrite nadd_0_r; auto|].
  rewrite (IH (nadd x y)), (IH (nadd n0 y)), nadd_0_l, nadd_assoc. auto.
Qed.

Lemma nsum_cons x l : nsum (x :: l) = nadd x (nsum l).
Proof.
  change (nsum (x :: l)) with (fold_left nadd l (nadd n0 x)). rewrite nsum_acc, nadd_0_l. auto.
Qed.

#[global] Arguments nsum : simpl never.
#[global] Arguments nadd : simpl never.
Lemma nsum_nil : nsum [] = n0. Proof. reflexivity. Qed.

Lemma nsum_app l1 l2 : nsum (l1 ++ l2) = nadd (nsum l1) (nsum l2).
Proof.
  induction l1 as [|x l1 IH]; simpl; [rewrite nsum_nil, nadd_0_l; auto|].
  rewrite !nsum_cons, IH, nadd_assoc. auto.
Qed.

Lemma nsum_perm l1 l2 : Permutation l1 l2 -> nsum l1 = nsum l2.
Proof.
  induction 1; auto.
  - rewrite !nsum_cons. congruence.
  - rewrite !nsum_cons, !nadd_assoc. f_equal. apply nadd_comm.
  - congruence.
Qed.

Lemma nsum_flat_map {A} (f : A -> list num) l : nsum (flat_map f l) = nsum (map (fun x => nsum (f x)) l).
Proof.
  induction l as [|x l IH]; simpl; auto. rewrite nsum_app, nsum_cons, IH. auto.
Qed.

Lemma nsum_add {A} (f g : A -> num) l :
  nsum (map (fun x => nadd (f x) (g x)) l) = nadd (nsum (map f l)) (nsum (map g l)).
Proof.
  induction l as [|x l IH]; simpl; [rewrite nsum_nil, nadd_0_l; auto|].
  rewrite !nsum_cons, IH. rewrite <- !nadd_assoc. f_equal. rewrite !nadd_assoc. f_equal. apply nadd_comm.
Qed.

Lemma nsum_swap {A B} (f : A -> B -> num) l1 l2 :
  nsum (map (fun x => nsum (map (f x) l2)) l1) = nsum (map (fun y => nsum (map (fun x => f x y) l1)) l2).
Proof.
  induction l1 as [|x l1 IH]; simpl.
  - induction l2 as [|y l2 IH2]; simpl; auto.
  - rewrite nsum_cons, IH. rewrite <- nsum_add. f_equal. apply map_ext. intros y.
    rewrite nsum_cons. auto.
Qed.

(** finite values *)
Fixpoint qsum (l : list Qc) : Qc := match l with [] => 0 | x :: r => x + qsum r end.

Lemma nsum_Fin l : nsum (map Fin l) = Fin (qsum l).
Proof. induction l as [|x l IH]; simpl; auto. rewrite nsum_cons, IH. auto. Qed.

#[global] Arguments flt_max : simpl never.
