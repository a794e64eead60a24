(** Witnesses for the statements in PropsStores2. *)

From Coq Require Import String Bool Arith ZArith QArith Qcanon List.
From Verif Require Import PyBase Num DomainModel NdArray StoreModel NumStore Spec StoreSpec TreePruned Checks.
Import ListNotations.
Local Open Scope nat_scope.

(** A: a0 -> 5 whatever B; a1 -> 1, 2, 3 by B. *)
Definition pruned : tree num :=
  Node "A"%string [(SStr "a0"%string, Leaf (q 5));
    (SStr "a1"%string, Node "B"%string [(SInt 0, Leaf (q 1)); (SInt 1, Leaf (q 2)); (SInt 2, Leaf (q 3))])].

Lemma pruned_tprun d : In ("A", [SStr "a0"; SStr "a1"])%string d -> In ("B", [SInt 0; SInt 1; SInt 2])%string (dremove "A"%string d) ->
  tprun d pruned.
Proof.
  intros A B. apply tp_node with (l := [SStr "a0"; SStr "a1"]%string); [auto|apply nodupb_sound; reflexivity|simpl; tauto|].
  intros s c [E|[E|[]]]; injection E as <- <-; [constructor|].
  apply tp_node with (l := [SInt 0; SInt 1; SInt 2]); [auto|apply nodupb_sound; reflexivity|simpl; tauto|].
  intros s c [E|[E|[E|[]]]]; injection E as <- <-; constructor.
Qed.

Lemma pruned_case : wf_dom dAB /\ tprun dAB pruned /\ ~ tcomp dAB pruned /\
  listing (st_marginalize (StTree dAB pruned) ["B"%string]) = Ok (map q [15; 6]%Q).
Proof.
  split; [apply wf_domb_sound; reflexivity|]. split; [apply pruned_tprun; simpl; auto|]. split.
  - intros T. inversion T; subst. specialize (H5 _ _ (or_introl eq_refl)). inversion H5.
  - apply listing_ok. vm_compute. reflexivity.
Qed.

Lemma pruned_restrict :
  exists (d : domain) (t : tree num) (o : obs) s,
    wf_dom d /\ tprun d t /\ (forall v l x, In (v, l) d -> dget v o = Some x -> In x l) /\
    st_restrict (StTree d t) o = Ok s /\
    exists o', full (drop (keys o) d) o' /\ get_value (StTree d t) (o ++ o') = Ok (q 5) /\
               get_value s o' = Raise KeyError.
Proof.
  exists dAB, pruned, [("A", SStr "a0")]%string. eexists.
  split; [apply wf_domb_sound; reflexivity|]. split; [apply pruned_tprun; simpl; auto|].
  split; [intros v l x [E|[E|[]]] G; injection E as <- <-; cbn in G; [injection G as <-; simpl; auto|discriminate]|].
  split; [reflexivity|]. exists [("B", SInt 1)]%string.
  split; [apply fullb_sound; reflexivity|]. split; [apply okb_sound; reflexivity|reflexivity].
Qed.

Lemma pruned_restrict_raises :
  exists (d : domain) (t : tree num) (o : obs),
    wf_dom d /\ tprun d t /\ (forall v l x, In (v, l) d -> dget v o = Some x -> In x l) /\
    st_restrict (StTree d t) o = Raise TypeError.
Proof.
  exists [("A", [SStr "a0"; SStr "a1"]); ("B", [SInt 0; SInt 1; SInt 2]); ("C", [SBool false; SBool true])]%string,
    pruned, [("A", SStr "a0")]%string.
  split; [apply wf_domb_sound; reflexivity|]. split; [apply pruned_tprun; simpl; auto|].
  split; [intros v l x [E|[E|[E|[]]]] G; injection E as <- <-; cbn in G; [injection G as <-; simpl; auto|discriminate|discriminate]|].
  reflexivity.
Qed.

Lemma duplicate_disagree : exists (d : domain) (l : list Q) (vs : list var),
  wf_dom d /\ length l = size d /\ incl vs (keys d) /\
  listing (st_marginalize (tab VList d l) vs) = Ok (map q [5; 7; 9]%Q) /\
  listing (st_marginalize (tab VTree d l) vs) = Ok (map q [10; 14; 18]%Q) /\
  st_marginalize (tab VNumpy d l) vs = Raise ValueError.
Proof.
  exists dAB, [1; 2; 3; 4; 5; 6]%Q, ["A"; "A"]%string.
  split; [apply wf_domb_sound; reflexivity|]. split; [reflexivity|]. split; [apply inclb_sound; reflexivity|].
  split; [apply listing_ok; vm_compute; reflexivity|]. split; [apply listing_ok; vm_compute; reflexivity|reflexivity].
Qed.

Lemma absent_disagree : exists (d : domain) (l : list Q) (vs : list var),
  wf_dom d /\ length l = size d /\
  listing (st_marginalize (tab VList d l) vs) = Ok (map q l) /\
  st_marginalize (tab VTree d l) vs = Raise KeyError /\
  st_marginalize (tab VNumpy d l) vs = Raise ValueError.
Proof.
  exists dAB, [1; 2; 3; 4; 5; 6]%Q, ["Z"]%string.
  split; [apply wf_domb_sound; reflexivity|]. split; [reflexivity|].
  split; [apply listing_ok; vm_compute; reflexivity|]. split; reflexivity.
Qed.

Lemma state_order_disagree : exists (d1 d2 : domain) (l1 l2 : list Q),
  wf_dom d1 /\ wf_dom d2 /\ length l1 = size d1 /\ length l2 = size d2 /\
  (forall v m1 m2, In (v, m1) d1 -> In (v, m2) d2 -> forall s, In s m1 <-> In s m2) /\
  listing (st_multiply (tab VList d1 l1) (tab VList d2 l2)) = Ok (map q [10; 20]%Q) /\
  listing (st_multiply (tab VTree d1 l1) (tab VTree d2 l2)) = Ok (map q [10; 20]%Q) /\
  listing (st_multiply (tab VNumpy d1 l1) (tab VNumpy d2 l2)) = Ok (map q [5; 40]%Q).
Proof.
  exists dA, [("A", [SStr "a1"; SStr "a0"])]%string, [1; 2]%Q, [5; 20]%Q.
  split; [apply wf_domb_sound; reflexivity|]. split; [apply wf_domb_sound; reflexivity|]. split; [reflexivity|]. split; [reflexivity|].
  split; [intros v m1 m2 [E1|[]] [E2|[]]; injection E1 as <- <-; injection E2 as <-; simpl; tauto|].
  repeat split; apply listing_ok; vm_compute; reflexivity.
Qed.

Lemma list_value : exists (d : domain) (l : list Q) (v : var) (xs : list state) s,
  wf_dom d /\ length l = size d /\ (forall m, In (v, m) d -> incl xs m) /\
  st_restrict_ext (tab VNumpy d l) [(v, Many xs)] = Ok s /\
  get_value s [(v, SStr "a0"%string)] = Ok (q 2) /\
  get_value (tab VNumpy d l) [(v, SStr "a0"%string)] = Ok (q 1).
Proof.
  exists dA, [1; 2]%Q, "A"%string, [SStr "a1"; SStr "a0"]%string. eexists.
  split; [apply wf_domb_sound; reflexivity|]. split; [reflexivity|].
  split; [intros m [E|[]]; injection E as <-; apply inclb_sound; reflexivity|].
  split; [reflexivity|]. split; apply okb_sound; vm_compute; reflexivity.
Qed.

Definition dABC : domain := [("Z", [SInt 0; SInt 1]); ("A", [SInt 0; SInt 1]); ("B", [SInt 0; SInt 1]); ("C", [SInt 0; SInt 1; SInt 2])]%string.
Lemma list_and_state : exists (d : domain) (l : list Q) (o : dict var oval) s,
  wf_dom d /\ length l = size d /\ o = [("A", One (SInt 1)); ("C", Many [SInt 0; SInt 1])]%string /\
  st_restrict_ext (tab VNumpy d l) o = Ok s /\
  get_value s [("Z", SInt 1); ("B", SInt 0); ("C", SInt 0)]%string = Ok (q 8) /\
  get_value (tab VNumpy d l) [("Z", SInt 1); ("A", SInt 1); ("B", SInt 0); ("C", SInt 0)]%string = Ok (q 19).
Proof.
  exists dABC, [1; 2; 3; 4; 5; 6; 7; 8; 9; 10; 11; 12; 13; 14; 15; 16; 17; 18; 19; 20; 21; 22; 23; 24]%Q. eexists. eexists.
  split; [apply wf_domb_sound; reflexivity|]. split; [reflexivity|]. split; [reflexivity|].
  split; [reflexivity|]. split; apply okb_sound; vm_compute; reflexivity.
Qed.

Lemma missing_state : exists (d1 d2 : domain) (l1 l2 : list Q) e,
  wf_dom d1 /\ wf_dom d2 /\ length l1 = size d1 /\ length l2 = size d2 /\
  (forall v m1 m2, In (v, m1) d1 -> In (v, m2) d2 -> incl m1 m2) /\
  st_multiply (tab VList d1 l1) (tab VList d2 l2) = Raise e /\
  listing (st_multiply (tab VNumpy d1 l1) (tab VNumpy d2 l2)) = Ok (map q [5; 20]%Q) /\
  st_multiply (tab VNumpy d2 l2) (tab VNumpy d1 l1) = Raise ValueError.
Proof.
  exists [("A", [SStr "a0"])]%string, dA, [5]%Q, [1; 4]%Q. eexists.
  split; [apply wf_domb_sound; reflexivity|]. split; [apply wf_domb_sound; reflexivity|]. split; [reflexivity|]. split; [reflexivity|].
  split; [intros v m1 m2 [E1|[]] [E2|[]]; injection E1 as <- <-; injection E2 as <-; apply inclb_sound; reflexivity|].
  split; [vm_compute; reflexivity|]. split; [apply listing_ok; vm_compute; reflexivity|reflexivity].
Qed.
