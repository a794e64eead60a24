(** Vocabulary for the relations between the answers of counterfactual queries. *)

From Coq Require Import String Bool Arith ZArith QArith Qcanon List.
From Verif Require Import PyBase Num DomainModel FactorModel GraphModel ModelModel InferModel CausalModel Spec GraphSpec NetSpec CausalSpec CalcSpec.
Import ListNotations.
Local Open Scope nat_scope.

(** The counterfactual query for the targets [ti] in the worlds made by the
    interventions [dos], with the evidence [e], has an answer: the interventions
    are on endogenous variables with a child that is left alone, the targets are
    endogenous variables that are left alone in their world, and the evidence is
    possible. *)
Definition well_posed (g : digraph) (D : domain) (F : var -> mfactor) (X : list var) (dos : list obs) (e : obs) (ti : list (var * nat)) : Prop :=
  interventions g D dos /\ fresh_names g X dos /\ incl (keys e) (nodes g) /\ targets_ok g X dos ti /\
  (forall d v, In d dos -> In v (keys d) -> ~ In v X /\ keeps_child g d v) /\ mass D F e <> 0%Qc.

(** The two assignments say the same, perhaps in another order. *)
Definition same_obs (d d' : obs) : Prop := forall v, dget v d = dget v d'.

(** The intervention [d'] is [d] and more, and nothing of what it adds acts on
    [y]: under [d], no directed path leads from there to [y]. *)
Definition idle_for (g : digraph) (y : var) (d d' : obs) : Prop :=
  exists z, same_obs d' (z ++ d) /\ upstream (remove_ingoing_edges g (keys d)) (keys z) [y].

(** The targets are the same variables, one by one, and the intervention of the
    world of the one is related by [R] to that of the other. *)
Definition moved (R : var -> obs -> obs -> Prop) (dos dos' : list obs) (ti ti' : list (var * nat)) : Prop :=
  Forall2 (fun a b => fst a = fst b /\ exists d d', In (snd a, d) (worlds dos) /\ In (snd b, d') (worlds dos') /\ R (fst a) d d') ti ti'.
