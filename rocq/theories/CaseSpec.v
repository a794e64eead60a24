(** What lower-casing a string means (used by C47). *)

From Coq Require Import String Ascii.
Local Open Scope string_scope.

(** The capital letters and their small letters, in the same order. *)
Definition capitals : string := "ABCDEFGHIJKLMNOPQRSTUVWXYZ".
Definition small_letters : string := "abcdefghijklmnopqrstuvwxyz".
(** [c'] is what lower-casing makes of [c]: the small letter of a capital, and
    every other character itself. *)
Definition lowers_to (c c' : ascii) : Prop :=
  (exists k, get k capitals = Some c /\ get k small_letters = Some c') \/ ((forall k, get k capitals <> Some c) /\ c' = c).
