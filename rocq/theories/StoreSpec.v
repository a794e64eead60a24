(** Well-formed stores: the objects that the constructors and operations of the
    library produce (see the C03-C09 theorems: constructors establish and
    operations preserve [wf_store]). *)

From Coq Require Import String List.
From Verif Require Import PyBase DomainModel NdArray StoreModel Spec.
Import ListNotations.

(** A complete tree over a domain: every path from the root to a leaf branches
    once on each variable, with one child per state (children may be stored in
    any order, and different paths may use different variable orders). *)
Inductive tcomp {V} : domain -> tree V -> Prop :=
| tc_leaf x : tcomp [] (Leaf x)
| tc_node d v l ch :
    In (v, l) d ->
    NoDup (map fst ch) ->
    (forall s, In s (map fst ch) <-> In s l) ->
    (forall s c, In (s, c) ch -> tcomp (dremove v d) c) ->
    tcomp d (Node v ch).

(** Table size matches the domain; the domain is usable. *)
Definition wf_store {V} (s : store V) : Prop :=
  wf_dom (st_domain s) /\
  match s with
  | StNumpy d a => shape a = card d /\ length (flat a) = prodl (card d)
  | StNp1 d l | StList d l => length l = prodl (card d)
  | StTree d t => tcomp d t
  end.

(** Pruned trees: a leaf stands for a constant in all remaining variables. *)
Inductive tprun {V} : domain -> tree V -> Prop :=
| tp_leaf d x : tprun d (Leaf x)
| tp_node d v l ch :
    In (v, l) d ->
    NoDup (map fst ch) ->
    (forall s, In s (map fst ch) <-> In s l) ->
    (forall s c, In (s, c) ch -> tprun (dremove v d) c) ->
    tprun d (Node v ch).
