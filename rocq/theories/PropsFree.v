(** Further statements on C04: observations that leave variables of the store
    free. The four store types then do different things: a tree writes every
    matching entry, a numpy store raises, the flat stores write the first
    matching entry. *)

From Coq Require Import String Bool Arith ZArith QArith Qcanon List.
From Verif Require Import PyBase Num DomainModel NdArray StoreModel NumStore Spec StoreSpec
  StorePartial Checks FactorChecks.
Import ListNotations.
Local Open Scope nat_scope.

(** * C04, a tree *)
Theorem C04_free_tree : forall (V : Type) (d : domain) (t : tree V) (o : obs) (x : V),
  wf_store (StTree d t) -> Spec.known d o ->
  exists s', st_set_value (StTree d t) x o = Ok s' /\ st_type s' = VTree /\ st_domain s' = d /\
    forall o', full d o' ->
      ((forall v s, In v (keys d) -> dget v o = Some s -> dget v o' = Some s) -> get_value s' o' = Ok x) /\
      (forall v s, In v (keys d) -> dget v o = Some s -> dget v o' <> Some s ->
         get_value s' o' = get_value (StTree d t) o').
Proof. exact @set_partial_tree. Qed.
Print Assumptions C04_free_tree.

(** * C04, a numpy store *)
Theorem C04_free_numpy : forall (V : Type) (d : domain) (a : nd V) (o : obs) (x : V) v,
  wf_store (StNumpy d a) -> Spec.known d o -> In v (keys d) -> ~ In v (keys o) ->
  st_set_value (StNumpy d a) x o = Raise KeyError.
Proof. exact @set_partial_numpy. Qed.
Print Assumptions C04_free_numpy.

(** * C04, the flat stores *)
Theorem C04_free_flat : forall (V : Type) (d : domain) (l : list V) (o : obs) (x : V),
  wf_store (StList d l) -> Spec.known d o ->
  exists i a l', nth_error (assignment_space d) i = Some a /\ consistent o a = true /\
    (forall j b, j < i -> nth_error (assignment_space d) j = Some b -> consistent o b = false) /\
    st_set_value (StList d l) x o = Ok (StList d l') /\ st_set_value (StNp1 d l) x o = Ok (StNp1 d l') /\
    length l' = length l /\ nth_error l' i = Some x /\ (forall j, j <> i -> nth_error l' j = nth_error l j).
Proof. exact @set_partial_list. Qed.
Print Assumptions C04_free_flat.

(** One table, an observation of one of its two variables, and an empty one. *)
Example C04_free_case :
  let s vt := tab vt dAB [1; 2; 3; 4; 5; 6]%Q in
  let o := [("B", SInt 1)]%string in
  (forall vt, wf_store (s vt) /\ Spec.known (st_domain (s vt)) o) /\
  listing (st_set_value (s VTree) (q 9) o) = Ok (map q [1; 9; 3; 4; 9; 6]%Q) /\
  listing (st_set_value (s VTree) (q 9) []) = Ok (map q [9; 9; 9; 9; 9; 9]%Q) /\
  listing (st_set_value (s VList) (q 9) o) = Ok (map q [1; 9; 3; 4; 5; 6]%Q) /\
  listing (st_set_value (s VNumpy1D) (q 9) o) = Ok (map q [1; 9; 3; 4; 5; 6]%Q) /\
  listing (st_set_value (s VList) (q 9) []) = Ok (map q [9; 2; 3; 4; 5; 6]%Q) /\
  st_set_value (s VNumpy) (q 9) o = Raise KeyError.
Proof.
  cbv zeta. split.
  - intros vt. destruct (tab_wf vt dAB [1; 2; 3; 4; 5; 6]%Q eq_refl eq_refl) as (W & D & _). split; [exact W|].
    rewrite D. intros v l s I E. cbn in I, E. destruct I as [I|[I|[]]]; injection I as <- <-; vm_compute in E; [discriminate|].
    injection E as <-. cbn. auto.
  - repeat split; try (apply listing_ok; vm_compute; reflexivity).
Qed.

(** * C04, reading with free variables: a tree gives no number, ... *)
Theorem C04_free_read_tree : forall (V : Type) (d : domain) (t : tree V) (o : obs) v,
  wf_store (StTree d t) -> Spec.known d o -> In v (keys d) -> ~ In v (keys o) ->
  get_value (StTree d t) o = Raise NotScalar.
Proof. exact @get_partial_tree. Qed.
Print Assumptions C04_free_read_tree.

(** ... a numpy store gives the value at the first state of the free variable,
    and no number if there are more, ... *)
Theorem C04_free_read_numpy : forall (V : Type) (d : domain) (a : nd V) (o : obs),
  wf_store (StNumpy d a) -> Spec.known d o ->
  (forall v s l, drop (keys o) d = [(v, s :: l)] ->
     exists x, get_value (StNumpy d a) o = Ok x /\ get_value (StNumpy d a) (o ++ [(v, s)]) = Ok x) /\
  (2 <= length (drop (keys o) d) -> get_value (StNumpy d a) o = Raise NotScalar).
Proof. exact @get_partial_numpy. Qed.
Print Assumptions C04_free_read_numpy.

(** ... and the flat stores give the value of the first matching assignment. *)
Theorem C04_free_read_flat : forall (V : Type) (d : domain) (l : list V) (o : obs),
  wf_store (StList d l) -> Spec.known d o ->
  exists i a x, nth_error (assignment_space d) i = Some a /\ consistent o a = true /\
    (forall j b, j < i -> nth_error (assignment_space d) j = Some b -> consistent o b = false) /\
    nth_error l i = Some x /\ get_value (StList d l) o = Ok x /\ get_value (StNp1 d l) o = Ok x.
Proof. exact @get_partial_list. Qed.
Print Assumptions C04_free_read_flat.

(** Reading with a free variable: with one free variable a numpy store gives
    the first of the values, as the flat stores do whatever is free; with more
    it gives an array, and a tree gives a subtree. *)
Example C04_free_read_case :
  let s vt := tab vt dAB [1; 2; 3; 4; 5; 6]%Q in
  let o := [("B", SInt 1)]%string in
  (forall vt, vt <> VTree -> okb (get_value (s vt) o) (q 2) = true) /\
  get_value (s VTree) o = Raise NotScalar /\
  get_value (s VNumpy) [] = Raise NotScalar /\
  get_value (s VTree) [] = Raise NotScalar /\
  okb (get_value (s VList) []) (q 1) = true /\
  okb (get_value (s VNumpy1D) []) (q 1) = true.
Proof.
  cbv zeta. split; [intros [] N; try (destruct N; reflexivity); vm_compute; reflexivity|].
  repeat split; vm_compute; reflexivity.
Qed.
