(** Small utilities of bcause/util: building a domain from sizes, strides by
    name, numeric state spaces, subsets, reordering of flat arrays. *)

From Coq Require Import String List ZArith Arith.
From Verif Require Import PyBase DomainModel NdArray CausalModel UaiModel.
Import ListNotations.
Local Open Scope nat_scope.

(** `list(range(first, first+size))`, bcause/util/domainutils.py:21; a size that
    is not positive gives the empty range *)
Definition py_range (first size : Z) : list Z :=
  map (fun i => (first + Z.of_nat i)%Z) (seq 0 (Z.to_nat size)).

(** bcause/util/domainutils.py:17-25 [create_domain]; line 19 raises IndexError
    on an empty dictionary *)
Definition create_domain (varsizes : dict var Z) (first : Z) (str_values : bool) : res domain :=
  let* _ := py_nth varsizes 0 in
  Ok (fold_left (fun dom vs =>
        dset (fst vs)
          (map (fun s => if str_values then SStr (append (lower (fst vs)) (z_str s)) else SInt s)
             (py_range first (snd vs)))
          dom) varsizes []).

(** bcause/util/domainutils.py:35-36 [steps_dict] *)
Definition steps_dict {A} (dom : dict var (list A)) : dict var nat := combine (keys dom) (steps dom).

(** bcause/util/domainutils.py:67-68 [numeric_state_space] *)
Definition numeric_state_space {A} (dom : dict var (list A)) : list (list nat) :=
  state_space (to_numeric_domains dom).

(** bcause/util/domainutils.py:70-71 [numeric_assignment_space] *)
Definition numeric_assignment_space {A} (dom : dict var (list A)) : list (dict var nat) :=
  assignment_space (to_numeric_domains dom).

(** `itertools.combinations(s, r)`, used at bcause/util/arrayutils.py:17: the
    sub-lists of length r in lexicographic order of their positions *)
Fixpoint combinations {A} (s : list A) (r : nat) : list (list A) :=
  match r, s with
  | 0, _ => [[]]
  | S _, [] => []
  | S r', x :: s' => map (cons x) (combinations s' r') ++ combinations s' r
  end.

(** bcause/util/arrayutils.py:15-17 [powerset] *)
Definition powerset {A} (s : list A) : list (list A) :=
  flat_map (combinations s) (seq 0 (length s + 1)).

(** Offset of a multi-index in column-major (Fortran) order, the meaning of
    `order="F"` at bcause/util/arrayutils.py:38 *)
Fixpoint ravel_f (sh idx : list nat) : nat :=
  match sh, idx with
  | n :: sh', i :: idx' => i + n * ravel_f sh' idx'
  | _, _ => 0
  end.

(** bcause/util/arrayutils.py:37-38 [change_shape_order] on a flat list and a
    shape of non-negative sizes; `reshape` raises ValueError when the number of
    values differs.  The result is read in row-major order (`ravel`). *)
Definition change_shape_order {A} (values : list A) (shape : list nat) : res (list A) :=
  if length values =? prodl shape
  then mapM (fun idx => py_nth values (ravel_f shape idx)) (indices shape)
  else Raise ValueError.

(** An argument of [as_lists]: a string or another iterable of names (arrayutils.py:28-35) *)
Inductive names_arg := OneName (s : string) | ManyNames (l : list string).

(** bcause/util/arrayutils.py:29-31, the inner function [as_list] *)
Definition as_list (a : names_arg) : list string :=
  match a with OneName s => [s] | ManyNames l => l end.

(** bcause/util/arrayutils.py:28-35 [as_lists]: one argument gives one list,
    several arguments a list of lists, no argument an IndexError *)
Definition as_lists (args : list names_arg) : res (list string + list (list string)) :=
  if 1 <? length args then Ok (inr (map as_list args))
  else let* a := py_nth args 0 in Ok (inl (as_list a)).
