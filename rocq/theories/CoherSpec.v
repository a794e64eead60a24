(** When two tables answer alike. *)

From Coq Require Import String QArith Qcanon List.
From Verif Require Import PyBase Num DomainModel NdArray StoreModel NumStore FactorModel Spec StoreSpec NetSpec.
Import ListNotations.

(** The tables [r1] and [r2] have the same finite value for every choice of
    states of the variables [T]. *)
Definition same_table (D : domain) (T : list var) (r1 r2 : mfactor) : Prop :=
  forall t, assigns D T t -> exists q, mf_get_value r1 t = Ok (Fin q) /\ mf_get_value r2 t = Ok (Fin q).
