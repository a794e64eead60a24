(** Vocabulary for the statements about generated tables and interval factors. *)

From Coq Require Import String Bool Arith QArith Qcanon List.
From Verif Require Import PyBase Num DomainModel NdArray StoreModel NumStore FactorModel GenModel Spec StoreSpec FactorSpec.
Import ListNotations.

(** The variables of a call of canonical_deterministic: the child [x], with
    states [l], is the only variable of the domain besides the exogenous
    variable [exo], with states [lu], and the endogenous parents. *)
Definition canon_vars (dom : domain) (x exo : var) (endo : list var) (l lu : list state) : Prop :=
  wf_dom dom /\ In (x, l) dom /\ In (exo, lu) dom /\ NoDup (exo :: endo) /\ incl endo (keys dom) /\
  x <> exo /\ ~ In x endo /\ forall v, In v (keys dom) -> v = x \/ v = exo \/ In v endo.

(** The domain of the variables [r], in the given order. *)
Definition order_dom (dom : domain) (r : list var) : domain :=
  map (fun v => (v, match dget v dom with Some l => l | None => [] end)) r.

(** The interval factor [g] has bounds [lo] and [hi] at the observation [o]. *)
Definition interval (g : ifactor) (o : obs) (lo hi : Qc) : Prop :=
  exists sl su, store_low g = Ok sl /\ store_up g = Ok su /\
    get_value sl o = Ok (Fin lo) /\ get_value su o = Ok (Fin hi).

(** Every entry of the factor is a number. *)
Definition all_finite (f : mfactor) : Prop :=
  forall o, full (mf_domain f) o -> exists q, mf_get_value f o = Ok (Fin q).
