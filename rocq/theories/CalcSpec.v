(** Spec vocabulary for the calculus of interventions. *)

From Coq Require Import QArith Qcanon List.
From Verif Require Import PyBase Num FactorModel GraphModel ModelModel InferModel CausalModel Spec GraphSpec ModelSpec NetSpec SepSpec LawSpec.
Import ListNotations.

(** no trail between [X] and [Y] is active given [Z] *)
Definition apart (g : digraph) (Z X Y : list var) : Prop := forall x y, In x X -> In y Y -> ~ d_connected g Z x y.
(** no directed path leads from [X] to [Y] *)
Definition upstream (g : digraph) (X Y : list var) : Prop := forall x y, In x X -> In y Y -> ~ reach g x y.
(** states for some variables of the model *)
Definition states_for (g : digraph) (D : domain) (d : obs) : Prop := known D d /\ NoDup (keys d) /\ incl (keys d) (nodes g).
(** both are tables, and they say the same about the variables [T] *)
Definition agree (D : domain) (T : list var) (r1 r2 : res mfactor) : Prop :=
  forall t, assigns D T t -> exists p, answer r1 t p /\ answer r2 t p.
