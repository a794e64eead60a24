(** The store operations on numbers (bcause/factors/values/store.py:113-132 and
    the operation sets), and [all_equal] / [sum_all]. *)

From Coq Require Import String Bool Arith QArith Qcanon List.
From Verif Require Import PyBase Num DomainModel NdArray StoreModel.
Import ListNotations.

(** np.sum / built-in sum over the gathered entries (numpyops.py:19, listops.py:23) *)
Definition red_sum (l : list num) : res num := Ok (nsum l).
(** np.max over the gathered entries (ValueError on a zero-size reduction) (numpyops.py:26) *)
Definition red_npmax (l : list num) : res num :=
  match l with [] => Raise ValueError | x :: r => Ok (fold_left np_max r x) end.
(** built-in max (ValueError on an empty list), listops.py:32 *)
Definition red_pymax (l : list num) : res num :=
  match l with [] => Raise ValueError | x :: r => Ok (fold_left py_max r x) end.

(** listops.py:53-55, numpyops.py:85-87, operations.py:82-84, treedictops.py:91-93 *)
Definition st_multiply (s1 s2 : store num) : res (store num) := st_combine n0 nmul s1 s2.
(** listops.py:57-59, numpyops.py:89-91, operations.py:86-88, treedictops.py:95-97 *)
Definition st_addition (s1 s2 : store num) : res (store num) := st_combine n0 nadd s1 s2.
(** listops.py:61-63, numpyops.py:93-95, operations.py:90-92, treedictops.py:99-101 *)
Definition st_subtract (s1 s2 : store num) : res (store num) := st_combine n0 nsub s1 s2.
(** listops.py:65-67, operations.py:94-96, treedictops.py:103-105 use `/`;
    numpyops.py:97-99 uses np.nan_to_num(x / y) *)
Definition div_op (vt : vtype) : num -> num -> num :=
  match vt with VNumpy => np_div | _ => ndiv end.
(** numpyops.py:97-99, listops.py:65-67, treedictops.py:103-105 [st_divide] *)
Definition st_divide (s1 s2 : store num) : res (store num) :=
  st_combine n0 (div_op (st_type s1)) s1 s2.

(** store.py:113-114 dispatching to numpyops.py:16-21, listops.py:17-24,
    operations.py:55-59, treedictops.py:16-22 *)
Definition st_marginalize (s : store num) (vs : list var) : res (store num) :=
  match s with
  | StNumpy d a => np_marg red_sum d a vs
  | StNp1 _ _ => generic_marg n0 nadd s vs
  | StList d l => list_marg red_sum d l vs
  | StTree d t => tree_marg true nscale nadd d t vs
  end.

(** store.py:116-117 dispatching to numpyops.py:23-28, listops.py:26-33,
    operations.py:61-63, treedictops.py:24-30 *)
Definition st_maxmarginalize (s : store num) (vs : list var) : res (store num) :=
  match s with
  | StNumpy d a => np_marg red_npmax d a vs
  | StNp1 _ _ => Raise NotImplementedError
  | StList d l => list_marg red_pymax d l vs
  | StTree d t => tree_marg false nscale py_max d t vs
  end.

(** store.py:166-167 *)
Definition st_sum_all (s : store num) : res num :=
  let* l := values_list s in Ok (nsum l).
