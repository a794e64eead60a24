(** Spec vocabulary for the laws that answers of causal queries obey. *)

From Coq Require Import QArith Qcanon List.
From Verif Require Import PyBase Num FactorModel GraphModel ModelModel InferModel CausalModel Spec ModelSpec.
Import ListNotations.

(** [r] is a table that says [p] of [t] *)
Definition answer (r : res mfactor) (t : obs) (p : Qc) : Prop :=
  exists f, r = Ok f /\ mf_get_value f t = Ok (Fin p).

(** [v] has exactly the states [t] and [f] *)
Definition two_states (D : domain) (v : var) (t f : state) : Prop :=
  exists l, In (v, l) D /\ same_set l [t; f] /\ t <> f.
