(** Sums over sequences of independent outcomes: the mean and the variance of
    the number of outcomes in an event, and Chebyshev's inequality. *)

From Coq Require Import Bool Arith ZArith QArith Qcanon Lqa Lia List.
From Verif Require Import PyBase Num NumFacts BigSum FactorFacts FactorFacts3 NetSem EmMath.
From Coq Require Import List.
Import ListNotations.
Local Open Scope Qc_scope.

Lemma sum_flat {A B} (f : B -> Qc) (h : A -> list B) l : qsum (map f (flat_map h l)) = qsum (map (fun x => qsum (map f (h x))) l).
Proof. induction l as [|x l IH]; [reflexivity|]. cbn [flat_map map]. rewrite map_app, qsum_app, IH. reflexivity. Qed.
Lemma sum_filter {A} (w : A -> Qc) (p : A -> bool) l : qsum (map w (filter p l)) = qsum (map (fun u => if p u then w u else 0) l).
Proof. induction l as [|u l IH]; [reflexivity|]. cbn [filter map]. destruct (p u); cbn [map qsum]; cbn; rewrite IH; ring. Qed.
Lemma sum_ext {A} (f g : A -> Qc) l : (forall x, In x l -> f x = g x) -> qsum (map f l) = qsum (map g l).
Proof. intros H. f_equal. now apply map_ext_in. Qed.

Section Seqs.
  Context {A : Type}.
  Variables (os : list A) (w : A -> Qc) (b : A -> bool).
  Hypothesis One : qsum (map w os) = 1.
  Hypothesis Nn : forall o, In o os -> 0 <= w o.

  Fixpoint seqs (n : nat) : list (list A) :=
    match n with O => [[]] | S k => flat_map (fun o => map (cons o) (seqs k)) os end.
  Definition wt (rs : list A) : Qc := fold_right Qcmult 1 (map w rs).
  Definition p : Qc := qsum (map w (filter b os)).
  Definition cnt (rs : list A) : Qc := qn (length (filter b rs)).
  Definition dev (rs : list A) : Qc := cnt rs - qn (length rs) * p.
  Definition d (o : A) : Qc := (if b o then 1 else 0) - p.

  Lemma wt_cons o rs : wt (o :: rs) = w o * wt rs.
  Proof. reflexivity. Qed.
  Lemma dev_cons o rs : dev (o :: rs) = d o + dev rs.
  Proof.
    unfold dev, cnt, d. cbn [length filter]. destruct (b o); cbn [length]; rewrite ?qn_S; ring.
  Qed.
  Lemma seqs_len n rs : In rs (seqs n) -> length rs = n.
  Proof.
    revert rs. induction n as [|k IH]; intros rs J; cbn [seqs] in J; [destruct J as [<-|[]]; reflexivity|].
    apply in_flat_map in J as (o & _ & J). apply in_map_iff in J as (t & <- & J). cbn. now rewrite (IH t).
  Qed.
  Lemma seqs_in n rs : In rs (seqs n) -> forall o, In o rs -> In o os.
  Proof.
    revert rs. induction n as [|k IH]; intros rs J; cbn [seqs] in J; [destruct J as [<-|[]]; intros o []|].
    apply in_flat_map in J as (o & Jo & J). apply in_map_iff in J as (t & <- & J). intros x [<-|Jx]; [auto|]. now apply (IH t).
  Qed.
  Lemma wt_nonneg rs : (forall o, In o rs -> In o os) -> 0 <= wt rs.
  Proof.
    induction rs as [|o rs IH]; intros H; [discriminate|]. rewrite wt_cons. assert (0 <= w o) by (apply Nn, H; now left).
    assert (0 <= wt rs) by (apply IH; intros; apply H; now right). clear - H0 H1. qcnra.
  Qed.
  Lemma step n (g : list A -> Qc) :
    qsum (map (fun rs => wt rs * g rs) (seqs (S n))) = qsum (map (fun o => w o * qsum (map (fun rs => wt rs * g (o :: rs)) (seqs n))) os).
  Proof.
    cbn [seqs]. rewrite sum_flat. apply sum_ext. intros o _. rewrite map_map, <- qsum_scale. apply sum_ext. intros rs _. rewrite wt_cons. ring.
  Qed.

  Lemma wt_one n : qsum (map wt (seqs n)) = 1.
  Proof.
    induction n as [|n IH]; [reflexivity|].
    rewrite (sum_ext wt (fun rs => wt rs * 1)) by (intros; ring). rewrite step.
    rewrite (sum_ext _ w); [exact One|]. intros o _. rewrite (sum_ext (fun rs => wt rs * 1) wt) by (intros; ring). rewrite IH. ring.
  Qed.
  Lemma p_le : 0 <= p /\ p <= 1.
  Proof.
    split; unfold p.
    - apply qsum_nn. intros x J. apply in_map_iff in J as (o & <- & J). apply filter_In in J as [J _]. auto.
    - rewrite sum_filter, <- One. apply qsum_le. intros o J. destruct (b o); [apply Qcle_refl|auto].
  Qed.
  Lemma sum_d : qsum (map (fun o => w o * d o) os) = 0.
  Proof.
    rewrite (sum_ext _ (fun o => (if b o then w o else 0) + (- p) * w o)) by (intros o _; unfold d; destruct (b o); ring).
    rewrite qsum_add, qsum_scale, One, <- sum_filter. fold p. ring.
  Qed.
  Lemma sum_dd : qsum (map (fun o => w o * (d o * d o)) os) = p * (1 - p).
  Proof.
    rewrite (sum_ext _ (fun o => (1 - (1 + 1) * p) * (if b o then w o else 0) + (p * p) * w o)) by (intros o _; unfold d; destruct (b o); ring).
    rewrite qsum_add, !qsum_scale, One, <- sum_filter. fold p. ring.
  Qed.
  Lemma mean n : qsum (map (fun rs => wt rs * dev rs) (seqs n)) = 0.
  Proof.
    induction n as [|n IH]; [unfold dev, cnt; cbn; rewrite !qn_0; ring|]. rewrite step.
    rewrite (sum_ext _ (fun o => w o * d o)); [exact sum_d|]. intros o _.
    rewrite (sum_ext _ (fun rs => d o * wt rs + wt rs * dev rs)) by (intros rs _; rewrite dev_cons; ring).
    rewrite qsum_add, qsum_scale, wt_one, IH. ring.
  Qed.
  Lemma variance n : qsum (map (fun rs => wt rs * (dev rs * dev rs)) (seqs n)) = qn n * (p * (1 - p)).
  Proof.
    induction n as [|n IH]; [unfold dev, cnt; cbn; rewrite !qn_0; ring|]. rewrite step.
    rewrite (sum_ext _ (fun o => w o * (d o * d o) + (qn n * (p * (1 - p))) * w o)).
    - rewrite qsum_add, qsum_scale, One, sum_dd, qn_S. ring.
    - intros o _.
      rewrite (sum_ext _ (fun rs => ((d o * d o) * wt rs + ((1 + 1) * d o) * (wt rs * dev rs)) + wt rs * (dev rs * dev rs)))
        by (intros rs _; rewrite dev_cons; ring).
      rewrite !qsum_add, !qsum_scale, wt_one, mean, IH. ring.
  Qed.
  Lemma quarter x : x * (1 - x) <= 1 / (1 + 1 + 1 + 1).
  Proof.
    apply Qcmult_lt_0_le_reg_r with (1 + 1 + 1 + 1); [reflexivity|]. replace (1 / (1 + 1 + 1 + 1) * (1 + 1 + 1 + 1)) with 1 by (field; discriminate).
    assert (0 <= (1 - (1 + 1) * x) * (1 - (1 + 1) * x)) by (generalize (1 - (1 + 1) * x); intros y; qcnra).
    replace (x * (1 - x) * (1 + 1 + 1 + 1)) with (1 - (1 - (1 + 1) * x) * (1 - (1 + 1) * x)) by ring.
    set (y := (1 - (1 + 1) * x) * (1 - (1 + 1) * x)) in *. clearbody y. qclra.
  Qed.
  (** the outcomes whose number differs from its mean by [c] or more *)
  Lemma chebyshev n c (E : list A -> bool) : 0 < c -> (forall rs, In rs (seqs n) -> E rs = true -> c * c <= dev rs * dev rs) ->
    qsum (map wt (filter E (seqs n))) * (c * c) <= qn n * (p * (1 - p)).
  Proof.
    intros C HE. rewrite <- variance, sum_filter, Qcmult_comm, <- qsum_scale. apply qsum_le. intros rs J.
    assert (W : 0 <= wt rs) by (apply wt_nonneg; now apply (seqs_in n)).
    destruct (E rs) eqn:Er.
    - assert (Q := HE rs J Er). replace (c * c * wt rs) with (wt rs * (c * c)) by ring. clear - W Q. set (x := c * c) in *. set (y := dev rs * dev rs) in *. clearbody x y. set (z := wt rs) in *. clearbody z. qcnra.
    - replace (c * c * 0) with 0 by ring. assert (0 <= dev rs * dev rs) by (generalize (dev rs); intros y; clear; qcnra). set (y := dev rs * dev rs) in *. clearbody y. set (z := wt rs) in *. clearbody z. clear - W H. qcnra.
  Qed.
End Seqs.
