(** Limits of sequences of rationals, as the meaning of the infinite values and
    of NaN (used by C76). *)

From Coq Require Import Arith QArith Qcanon List.
From Verif Require Import Num.
Local Open Scope Qc_scope.

Definition eventually (P : nat -> Prop) : Prop := exists N, forall n, (N <= n)%nat -> P n.

(** [s] tends to [x]; nothing tends to NaN. *)
Definition tends (s : nat -> Qc) (x : num) : Prop :=
  match x with
  | Fin q => forall e, 0 < e -> eventually (fun n => q - e < s n /\ s n < q + e)
  | PInf => forall M, eventually (fun n => M < s n)
  | NInf => forall M, eventually (fun n => s n < M)
  | NaN => False
  end.

(** Whatever sequences tend to [x] and [y], the values of [op] tend to [z]. *)
Definition limit_of (op : Qc -> Qc -> Qc) (x y z : num) : Prop :=
  forall s t, tends s x -> tends t y -> tends (fun n => op (s n) (t n)) z.

(** The same for sequences of positive numbers on the right. *)
Definition limit_above (op : Qc -> Qc -> Qc) (x y z : num) : Prop :=
  forall s t, tends s x -> tends t y -> (forall n, 0 < t n) -> tends (fun n => op (s n) (t n)) z.

(** [r] is the result that a limit defines: NaN if an operand is NaN or the
    limit depends on the sequences. *)
Definition by_limit (limit : num -> num -> num -> Prop) (x y r : num) : Prop :=
  ((x = NaN \/ y = NaN) /\ r = NaN) \/
  (x <> NaN /\ y <> NaN /\ r <> NaN /\ limit x y r) \/
  (x <> NaN /\ y <> NaN /\ r = NaN /\ ~ exists z, limit x y z).

(** The larger of two numbers. *)
Definition larger (a b : Qc) : Qc := if Qclt_le_dec a b then b else a.
