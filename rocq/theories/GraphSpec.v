(** What the statements about graphs mean: arcs, walks, acyclicity, links. *)

From Coq Require Import String Ascii Bool Arith List.
From Verif Require Import PyBase GraphModel.
Import ListNotations.

(** What every networkx DiGraph guarantees. *)
Definition wf_graph (g : digraph) : Prop :=
  NoDup (nodes g) /\ NoDup (edges g) /\ (forall x y, In (x, y) (edges g) -> In x (nodes g) /\ In y (nodes g)).

Definition arc (g : digraph) (x y : var) : Prop := In (x, y) (edges g).

(** [walk g x y]: from x to y along at least one arc *)
Inductive walk (g : digraph) : var -> var -> Prop :=
| walk_one : forall x y, arc g x y -> walk g x y
| walk_step : forall x y z, arc g x y -> walk g y z -> walk g x z.

(** [reach g x y]: along any number of arcs *)
Definition reach (g : digraph) (x y : var) : Prop := x = y \/ walk g x y.

Definition acyclic (g : digraph) : Prop := forall x, ~ walk g x x.

Definition same_graph (g h : digraph) : Prop :=
  (forall v, In v (nodes g) <-> In v (nodes h)) /\ (forall x y, arc g x y <-> arc h x y).

(** [order] lists exactly the nodes of g, sources of arcs before their targets *)
Definition topological (g : digraph) (order : list var) : Prop :=
  NoDup order /\ (forall v, In v order <-> In v (nodes g)) /\
  (forall x y l1 l2, order = l1 ++ y :: l2 -> arc g x y -> In x l1).

(** [linked R x y]: a path of [R]-arcs taken in either direction *)
Inductive linked (R : var -> var -> Prop) : var -> var -> Prop :=
| linked_refl : forall x, linked R x x
| linked_fwd : forall x y z, R x y -> linked R y z -> linked R x z
| linked_bwd : forall x y z, R y x -> linked R y z -> linked R x z.

(** arcs out of exogenous variables *)
Definition exo_arc (g : digraph) (endo : list var) (x y : var) : Prop := arc g x y /\ ~ In x endo.
Definition touches_exo (g : digraph) (endo : list var) (v : var) : Prop :=
  exists x y, exo_arc g endo x y /\ (v = x \/ v = y).

(** names that may be used in the string notation *)
Definition delimiter_free (s : string) : Prop :=
  forall c, In c (list_ascii_of_string s) -> c <> "["%char /\ c <> "]"%char /\ c <> "|"%char /\ c <> ":"%char.
