(** Numbers: exact rationals extended with the IEEE special values that numpy
    division can produce.  Rounding, overflow and signed zeros are not
    modelled. *)

From Coq Require Import List QArith Qcanon Bool Arith.
Import ListNotations.
Local Open Scope Qc_scope.

(** A float of the code: a finite value, NaN, +inf or -inf
    (np.float64 as used by bcause/factors/values). (numpyops.py:85-99) *)
Inductive num : Type :=
| Fin (q : Qc)
| NaN
| PInf
| NInf.

(** mulitnomial.py:63 [n0] *)
Definition n0 : num := Fin 0.
(** mulitnomial.py:64 [n1] *)
Definition n1 : num := Fin 1.

(** Sign test used for infinities. (numpyops.py:87, 99, inside the float operations) *)
Definition qpos (q : Qc) : bool := if Qclt_le_dec 0 q then true else false.
(** numpyops.py:87, 99, inside the float operations [qzero] *)
Definition qzero (q : Qc) : bool := if Qc_eq_dec q 0 then true else false.

(** float `+` (listops.py:59, numpyops.py:91, operations.py:88, treedictops.py:97). *)
Definition nadd (x y : num) : num :=
  match x, y with
  | Fin a, Fin b => Fin (a + b)
  | NaN, _ | _, NaN => NaN
  | PInf, NInf | NInf, PInf => NaN
  | PInf, _ | _, PInf => PInf
  | NInf, _ | _, NInf => NInf
  end.

(** unary minus (mulitnomial.py:225, numpyops.py:95) *)
Definition nopp (x : num) : num :=
  match x with Fin a => Fin (- a) | NaN => NaN | PInf => NInf | NInf => PInf end.

(** float `-` (listops.py:63, numpyops.py:95, operations.py:92, treedictops.py:101). *)
Definition nsub (x y : num) : num := nadd x (nopp y).

(** finite times infinite (numpyops.py:87) *)
Definition inf_times (pos : bool) (q : Qc) : num :=
  if qzero q then NaN
  else if Bool.eqb pos (qpos q) then PInf else NInf.

(** float `*` (listops.py:55, numpyops.py:87, operations.py:84, treedictops.py:93). *)
Definition nmul (x y : num) : num :=
  match x, y with
  | Fin a, Fin b => Fin (a * b)
  | NaN, _ | _, NaN => NaN
  | PInf, Fin q | Fin q, PInf => inf_times true q
  | NInf, Fin q | Fin q, NInf => inf_times false q
  | PInf, PInf | NInf, NInf => PInf
  | PInf, NInf | NInf, PInf => NInf
  end.

(** float `/` on np.float64 (no exception; 0/0 is NaN, x/0 is +-inf;
    the sign of zero divisors is not modelled) (listops.py:67, operations.py:96,
    treedictops.py:105). *)
Definition ndiv (x y : num) : num :=
  match x, y with
  | NaN, _ | _, NaN => NaN
  | Fin a, Fin b =>
      if qzero b then (if qzero a then NaN else if qpos a then PInf else NInf)
      else Fin (a / b)
  | Fin _, _ => Fin 0
  | PInf, Fin b => if qzero b then PInf else inf_times true b
  | NInf, Fin b => if qzero b then NInf else inf_times false b
  | _, _ => NaN
  end.

(** The largest finite double, (2^53 - 1) * 2^971. (numpyops.py:99, the value of nan_to_num for inf) *)
Definition flt_max : Qc := Q2Qc (inject_Z ((2 ^ 53 - 1) * 2 ^ 971)).

(** `np.nan_to_num` (numpyops.py:99). *)
Definition nan_to_num (x : num) : num :=
  match x with
  | Fin a => Fin a
  | NaN => Fin 0
  | PInf => Fin flt_max
  | NInf => Fin (- flt_max)
  end.

(** `np.nan_to_num(x / y)` (numpyops.py:99). *)
Definition np_div (x y : num) : num := nan_to_num (ndiv x y).

(** python `x < y` on floats (comparisons with NaN are false). (listops.py:32, treedictops.py:28) *)
Definition nltb (x y : num) : bool :=
  match x, y with
  | NaN, _ | _, NaN => false
  | Fin a, Fin b => if Qclt_le_dec a b then true else false
  | NInf, NInf => false | NInf, _ => true
  | _, NInf => false
  | PInf, _ => false
  | _, PInf => true
  end.

(** python `max(x, y)` and `max([..])`: keeps the first maximal element
    (listops.py:32, treedictops.py:28). *)
Definition py_max (x y : num) : num := if nltb x y then y else x.

(** `np.maximum`: NaN propagates (used by np.max, numpyops.py:26). *)
Definition np_max (x y : num) : num :=
  match x, y with
  | NaN, _ | _, NaN => NaN
  | _, _ => py_max x y
  end.

(** `sum(l)` / `np.sum` of a 1-d list: left fold from 0. (listops.py:17-24, numpyops.py:19) *)
Definition nsum (l : list num) : num := fold_left nadd l n0.

(** `x * k` for a python int k (treedictops.py:68). *)
Definition nscale (x : num) (k : nat) : num := nmul x (Fin (Q2Qc (inject_Z (Z.of_nat k)))).
