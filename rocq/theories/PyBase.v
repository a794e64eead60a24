(** Python primitives used by the model: exceptions as values, variable names,
    states, ordered dictionaries.  No file of /repo is modelled here; each
    definition says which construct of the source language it stands for and
    where that construct is used. *)

From Coq Require Import String Ascii Bool Arith ZArith Lia List.
Import ListNotations.
Local Open Scope string_scope.
Local Open Scope list_scope.

(** ** Exceptions *)

(** Exception classes raised by the modelled code (python built-ins, numpy,
    networkx), e.g. `raise ValueError` at bcause/factors/values/store.py:23.
    [NotScalar] is not a python exception: it marks a call that returns a
    non-scalar where the model's result type is a scalar (see [get_value]).
    [PlainException] is `raise Exception(...)`, bcause/learning/parameter/gradient.py:147.
    [Unmodelled] marks argument shapes outside the model. *)
Inductive err : Type :=
| ValueError | KeyError | IndexError | TypeError | AttributeError
| NotImplementedError | ZeroDivisionError | StopIteration
| NetworkXError | NodeNotFound | NotScalar | AssertionError | OverflowError
| NameError | RecursionError | PlainException | FileNotFoundError | OSError | Unmodelled.

(** A python call either returns or raises. (raise statements as at factor.py:78, store.py:23) *)
Inductive res (A : Type) : Type :=
| Ok (a : A)
| Raise (e : err).
Arguments Ok {A} a.
Arguments Raise {A} e.

(** Sequencing: the rest of a function body after a call that may raise. (functions as at mulitnomial.py:70-74) *)
Definition bind {A B} (m : res A) (k : A -> res B) : res B :=
  match m with Ok a => k a | Raise e => Raise e end.

Notation "'let*' x ':=' m 'in' k" := (bind m (fun x => k))
  (at level 200, x pattern, m at level 100, k at level 200, right associativity).

(** List comprehension `[f(x) for x in l]` whose body may raise (evaluation
    stops at the first exception). (comprehensions as at mulitnomial.py:135) *)
Fixpoint mapM {A B} (f : A -> res B) (l : list A) : res (list B) :=
  match l with
  | [] => Ok []
  | x :: r => let* y := f x in let* ys := mapM f r in Ok (y :: ys)
  end.

(** `for x in l: acc = f(acc, x)` with a body that may raise. (loops as at datautils.py:26-29, treedictops.py:19-20) *)
Fixpoint foldM {A B} (f : A -> B -> res A) (l : list B) (acc : A) : res A :=
  match l with
  | [] => Ok acc
  | x :: r => let* acc' := f acc x in foldM f r acc'
  end.

(** `functools.reduce(f, l)` without initial value (TypeError on an empty
    sequence); used at bcause/factors/factor.py:69,
    bcause/factors/values/operations.py:59, treedictops.py:71. *)
Definition reduceM {A} (f : A -> A -> res A) (l : list A) : res A :=
  match l with
  | [] => Raise TypeError
  | x :: r => foldM f r x
  end.

(** `l[i]` on a python list / 1-d array. (indexing as at pgmodel.py:65-70, numpyops.py:109) *)
Definition py_nth {A} (l : list A) (i : nat) : res A :=
  match nth_error l i with Some x => Ok x | None => Raise IndexError end.

(** ** Decidable equality (python `==` on keys) *)

(** comparisons as at datautils.py:28, numpyops.py:112 [EqD] *)
Class EqD (K : Type) : Type := eqd : forall a b : K, {a = b} + {a <> b}.

#[export] Instance EqD_string : EqD string := string_dec.
#[export] Instance EqD_nat : EqD nat := Nat.eq_dec.

(** States of a variable: the domain entries accepted by
    bcause/factors/factor.py:73-81 (strings, ints, bools).  Equality is
    Leibniz equality; python's cross-type `True == 1` is not modelled. *)
Inductive state : Type :=
| SStr (s : string)
| SInt (z : Z)
| SBool (b : bool).

#[export] Instance EqD_state : EqD state.
Proof. intros a b. decide equality. apply string_dec. apply Z.eq_dec. apply bool_dec. Defined.

#[export] Instance EqD_prod {A B} `{EqD A} `{EqD B} : EqD (A * B).
Proof. intros a b. decide equality; apply eqd. Defined.

#[export] Instance EqD_list {A} `{EqD A} : EqD (list A) := list_eq_dec eqd.

(** python `x in l`. (tests as at factor.py:135, mulitnomial.py:60) *)
Definition mem {K} `{EqD K} (x : K) (l : list K) : bool :=
  existsb (fun y => if eqd x y then true else false) l.

(** `l.index(x)` / `np.where(np.array(l) == x)[0][0]`: first position. (used as at mulitnomial.py:64, numpyops.py:63, 112) *)
Fixpoint index_of {K} `{EqD K} (x : K) (l : list K) : option nat :=
  match l with
  | [] => None
  | y :: r => if eqd x y then Some 0
              else match index_of x r with Some i => Some (S i) | None => None end
  end.

(** ** Dictionaries: association lists in insertion order *)

(** the dictionaries of store.py:26, pgmodel.py:25-26 [dict] *)
Definition dict (K V : Type) : Type := list (K * V).

Section Dict.
  Context {K V : Type} `{EqD K}.

  (** `d.keys()` (used as at mulitnomial.py:33, store.py:38) *)
  Definition keys (d : dict K V) : list K := map fst d.
  (** `d.values()` (used as at mulitnomial.py:27, store.py:50) *)
  Definition vals (d : dict K V) : list V := map snd d.
  (** `d.get(k)` (used as at pgmodel.py:65-70) *)
  Fixpoint dget (k : K) (d : dict K V) : option V :=
    match d with
    | [] => None
    | (k', v) :: r => if eqd k k' then Some v else dget k r
    end.
  (** `d[k]` (used as at mulitnomial.py:55, numpyops.py:67) *)
  Definition dlook (k : K) (d : dict K V) : res V :=
    match dget k d with Some v => Ok v | None => Raise KeyError end.
  (** `d[k] = v`: overwrite in place or append. (used as at numpyops.py:117, 120, treedictstore.py:49) *)
  Fixpoint dset (k : K) (v : V) (d : dict K V) : dict K V :=
    match d with
    | [] => [(k, v)]
    | (k', v') :: r => if eqd k k' then (k', v) :: r else (k', v') :: dset k v r
    end.
  (** `{**d1, **d2}` (used as at numpyops.py:36, 79) *)
  Definition dmerge (d1 d2 : dict K V) : dict K V :=
    fold_left (fun d kv => dset (fst kv) (snd kv) d) d2 d1.
  (** `dict(pairs)` (used as at factor.py:104, numpyops.py:67) *)
  Definition dict_of (l : list (K * V)) : dict K V := dmerge [] l.
  (** `k in d` (used as at treedictops.py:53, factor.py:117) *)
  Definition dmem (k : K) (d : dict K V) : bool := mem k (keys d).
  (** `{k: v for k, v in d.items() if p(k)}` (used as at factor.py:139, 143) *)
  Definition dfilter (p : K -> bool) (d : dict K V) : dict K V :=
    filter (fun kv => p (fst kv)) d.
  (** `{v: s for v, s in d.items() if v != k}` (used as at treedictops.py:60, treedictstore.py:53) *)
  Definition dremove (k : K) (d : dict K V) : dict K V :=
    dfilter (fun k' => if eqd k' k then false else true) d.
End Dict.

(** Variables are python strings; a domain maps variables to state lists
    (bcause/factors/values/store.py:20-29). *)
Definition var := string.
(** store.py:26, 40-42 [domain] *)
Definition domain := dict var (list state).
(** An observation / assignment dictionary. (factor.py:87-88, store.py:113-132) *)
Definition obs := dict var state.
