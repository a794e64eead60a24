(** Proofs about the lower-casing of state names (C47). *)

From Coq Require Import String Ascii Bool Arith ZArith List.
From Verif Require Import PyBase DomainModel CaseSpec.
Import ListNotations.
Local Open Scope nat_scope.
Local Open Scope string_scope.

Fixpoint find_char (c : ascii) (s : string) (k : nat) : option nat :=
  match s with EmptyString => None | String a r => if Ascii.eqb a c then Some k else find_char c r (S k) end.
Lemma find_none c s k : find_char c s k = None -> forall j, get j s <> Some c.
Proof.
  revert k. induction s as [|a s IH]; intros k E j; [destruct j; discriminate|]. cbn in E. destruct (Ascii.eqb a c) eqn:Q; [discriminate|].
  destruct j as [|j]; cbn; [intros [= ->]; rewrite Ascii.eqb_refl in Q; discriminate|eauto].
Qed.
Definition lower_check (c : ascii) : bool :=
  match find_char c capitals 0 with
  | Some k => match get k capitals, get k small_letters with Some a, Some b => Ascii.eqb a c && Ascii.eqb b (lower_ascii c) | _, _ => false end
  | None => Ascii.eqb (lower_ascii c) c
  end.
Lemma lower_all : forall c, lower_check c = true.
Proof. intros [[] [] [] [] [] [] [] []]; vm_compute; reflexivity. Qed.
Lemma lower_char c : lowers_to c (lower_ascii c).
Proof.
  assert (B := lower_all c). unfold lower_check in B. destruct (find_char c capitals 0) as [k|] eqn:E.
  - destruct (get k capitals) as [a|] eqn:Ga; [|discriminate]. destruct (get k small_letters) as [b|] eqn:Gb; [|discriminate].
    apply andb_true_iff in B as [B1 B2]. apply Ascii.eqb_eq in B1, B2. left. exists k. split; congruence.
  - right. split; [exact (find_none c _ 0 E)|]. now apply Ascii.eqb_eq in B.
Qed.
Lemma lower_string : forall s, String.length (lower s) = String.length s /\
  forall i c, get i s = Some c -> exists c', get i (lower s) = Some c' /\ lowers_to c c'.
Proof.
  induction s as [|a s [L IH]]; cbn [lower String.length]; [split; [reflexivity|intros [|i] c E; discriminate]|]. split; [now rewrite L|].
  intros [|i] c E; cbn in *; [injection E as ->; eauto using lower_char|eauto].
Qed.
