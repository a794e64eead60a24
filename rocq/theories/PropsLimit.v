(** Property C76: arithmetic with infinite values and NaN is arithmetic of
    limits. *)

From Coq Require Import Arith ZArith QArith Qcanon List.
From Verif Require Import Num NumFacts LimitSpec LimitFacts LimitFacts2.
Import ListNotations.
Local Open Scope Qc_scope.

(** ** C76 *)
(** Limits are unique, and every value but NaN is one. *)
Theorem C76_unique : forall s x y, tends s x -> tends s y -> x = y.
Proof. exact tends_unique. Qed.
Print Assumptions C76_unique.

Theorem C76_reached : forall x, x <> NaN -> exists s, tends s x.
Proof. exact reached. Qed.
Print Assumptions C76_reached.

Theorem C76_add : forall x y, by_limit (limit_of Qcplus) x y (nadd x y).
Proof. exact add_by_limit. Qed.
Print Assumptions C76_add.

Theorem C76_subtract : forall x y, by_limit (limit_of Qcminus) x y (nsub x y).
Proof. exact sub_by_limit. Qed.
Print Assumptions C76_subtract.

Theorem C76_multiply : forall x y, by_limit (limit_of Qcmult) x y (nmul x y).
Proof. exact mul_by_limit. Qed.
Print Assumptions C76_multiply.

(** Quotients: for a divisor 0 the limit is taken from above. *)
Theorem C76_divide : forall x y, y <> Fin 0 -> by_limit (limit_of Qcdiv) x y (ndiv x y).
Proof. exact div_by_limit. Qed.
Print Assumptions C76_divide.

Theorem C76_divide_zero : forall x, by_limit (limit_above Qcdiv) x (Fin 0) (ndiv x (Fin 0)).
Proof. exact div_by_zero. Qed.
Print Assumptions C76_divide_zero.

(** x < y when all sequences with these limits are so from some point on. *)
Theorem C76_less : forall x y, nltb x y = true <->
  x <> NaN /\ y <> NaN /\ forall s t, tends s x -> tends t y -> eventually (fun n => s n < t n).
Proof. exact less_limit. Qed.
Print Assumptions C76_less.

Theorem C76_maximum : forall x y, by_limit (limit_of larger) x y (np_max x y).
Proof. exact max_by_limit. Qed.
Print Assumptions C76_maximum.

(** python's max agrees with it but for NaN, where the first operand stays. *)
Theorem C76_python_max : forall x y,
  (x <> NaN -> y <> NaN -> py_max x y = np_max x y) /\ py_max NaN y = NaN /\ py_max x NaN = x.
Proof. exact pymax_cases. Qed.
Print Assumptions C76_python_max.

(** The product with a positive integer is the repeated sum. *)
Theorem C76_scale : forall x k, nscale x (S k) = nsum (repeat x (S k)).
Proof. exact scale_sum. Qed.
Print Assumptions C76_scale.

(** 2^1024 - 2^971 is the largest finite double. *)
Theorem C76_nan_to_num : forall x, nan_to_num x =
  match x with
  | Fin q => Fin q
  | NaN => Fin 0
  | PInf => Fin (Q2Qc (inject_Z (2 ^ 1024 - 2 ^ 971)))
  | NInf => Fin (Q2Qc (inject_Z (- (2 ^ 1024 - 2 ^ 971))))
  end.
Proof. exact nan_to_num_ok. Qed.
Print Assumptions C76_nan_to_num.

Example C76_case :
  nadd PInf NInf = NaN /\ nsub PInf PInf = NaN /\ nadd PInf (Fin 1) = PInf /\ nmul (Fin 0) PInf = NaN /\ nmul NInf (Fin (- (1))) = PInf /\
  ndiv (Fin 0) (Fin 0) = NaN /\ ndiv (Fin 1) (Fin 0) = PInf /\ ndiv (Fin (- (1))) (Fin 0) = NInf /\ ndiv (Fin 1) PInf = Fin 0 /\
  ndiv PInf PInf = NaN /\ nltb NInf (Fin 0) = true /\ nltb NaN NaN = false /\ np_max NaN (Fin 1) = NaN /\ py_max (Fin 1) NaN = Fin 1.
Proof. repeat split; vm_compute; reflexivity. Qed.

(** Two sequences tending to +inf whose difference tends to 0 or to 1. *)
Example C76_sequences_case : tends nq PInf /\ tends (fun n => nq n + 1) PInf /\
  tends (fun n => nq n - nq n) (Fin 0) /\ tends (fun n => nq n + 1 - nq n) (Fin 1).
Proof.
  split; [exact tends_nq|]. split; [exact tends_nq1|].
  split; [apply (tends_ext (fun _ => 0)); [intros n; ring|apply tends_const]|].
  apply (tends_ext (fun _ => 1)); [intros n; ring|apply tends_const].
Qed.
