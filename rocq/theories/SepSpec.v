(** Vocabulary of the statements about d-separation. *)

From Coq Require Import String ZArith QArith Qcanon List.
From Verif Require Import PyBase Num DomainModel NdArray StoreModel FactorModel GraphModel Spec FactorSpec GraphSpec ModelSpec NetSpec.
Import ListNotations.

(** How a trail arrives at its last node: it is there from the start, along an
    arc into it, or along an arc out of it. *)
Inductive arrival := AtStart | Into | OutOf.
(** [active g Z x d y]: there is a trail of arcs (in either direction) from [x]
    to [y], arriving as [d], that is not blocked by [Z]: where two arcs meet
    head to head the node is in [Z] or has a descendant in it, and no other
    node that the trail leaves is in [Z]. *)
Inductive active (g : digraph) (Z : list var) (x : var) : arrival -> var -> Prop :=
| act_start : active g Z x AtStart x
| act_down d y z : active g Z x d y -> ~ In y Z -> arc g y z -> active g Z x Into z
| act_up d y z : active g Z x d y -> d <> Into -> ~ In y Z -> arc g z y -> active g Z x OutOf z
| act_collider y z : active g Z x Into y -> (exists s, In s Z /\ reach g y s) -> arc g z y -> active g Z x OutOf z.
Definition d_connected (g : digraph) (Z : list var) (x y : var) : Prop := exists d, active g Z x d y.
(** The evidence nodes other than [w]. *)
Definition all_but (w : var) (E : list var) : list var := filter (fun x => if eqd x w then false else true) E.

(** In the joint distribution of the tables [F], the variables [X] and [Y] are
    independent given [Z]: P(x,y,z) P(z) = P(x,z) P(y,z) for all their states. *)
Definition independent_in (D : domain) (F : var -> mfactor) (X Y Z : list var) : Prop :=
  forall tx ty tz, assigns D X tx -> assigns D Y ty -> assigns D Z tz ->
    (mass D F (tx ++ ty ++ tz) * mass D F tz = mass D F (tx ++ tz) * mass D F (ty ++ tz))%Qc.
