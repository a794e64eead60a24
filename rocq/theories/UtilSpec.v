(** Vocabulary for the utilities: sub-lists, strides, positions in row-major
    and column-major order.  Nothing here models code. *)

From Coq Require Import String List ZArith Arith.
From Verif Require Import PyBase Spec.
Import ListNotations.
Local Open Scope nat_scope.

(** [s] is obtained from [l] by deleting some of its elements. *)
Inductive sublist {A} : list A -> list A -> Prop :=
| sub_nil : sublist [] []
| sub_keep : forall x s l, sublist s l -> sublist (x :: s) (x :: l)
| sub_skip : forall x s l, sublist s l -> sublist s (x :: l).

(** The position of the state that [o] gives to [v] among the states of [v]. *)
Definition digit (d : domain) (o : obs) (v : var) : nat :=
  match dget v d, dget v o with
  | Some l, Some s => match index_of s l with Some i => i | None => 0 end
  | _, _ => 0
  end.

(** A multi-index inside a shape. *)
Definition inside (shape idx : list nat) : Prop := Forall2 (fun n i => i < n) shape idx.

(** Number of cells of a shape. *)
Definition cells (shape : list nat) : nat := fold_right Nat.mul 1 shape.

(** Position of a multi-index when the last index changes fastest. *)
Fixpoint last_fastest (shape idx : list nat) : nat :=
  match shape, idx with
  | _ :: sh, i :: r => i * cells sh + last_fastest sh r
  | _, _ => 0
  end.

(** Position of a multi-index when the first index changes fastest: the
    position of the reversed multi-index in the reversed shape. *)
Definition first_fastest (shape idx : list nat) : nat := last_fastest (rev shape) (rev idx).
