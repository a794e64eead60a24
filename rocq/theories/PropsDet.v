(** Property C58: which causal models have deterministic factors. *)

From Coq Require Import String Bool Arith ZArith QArith Qcanon List.
From Verif Require Import PyBase Num DomainModel NdArray StoreModel NumStore FactorModel GraphModel ModelModel
  Spec ModelSpec CausalChecks ConvDet.
Import ListNotations.
Local Open Scope string_scope.
Local Open Scope list_scope.

(** `has_deterministic` looks at the factors of the endogenous variables only. *)
Theorem C58_has_deterministic : forall m endo cast, m_kind m = KScm endo cast ->
  (forall v, In v endo -> exists f, dget v (m_factors m) = Some f) ->
  exists b, scm_has_deterministic m = Ok b /\ (b = true <-> exists v f, In v endo /\ stored m v (FD f)).
Proof. exact has_deterministic_ok. Qed.
Print Assumptions C58_has_deterministic.

(** An endogenous variable that is not a node of the model. *)
Theorem C58_has_deterministic_raises : forall m endo cast v, m_kind m = KScm endo cast -> In v endo ->
  dget v (m_factors m) = None -> scm_has_deterministic m = Raise KeyError.
Proof. exact has_deterministic_raises. Qed.
Print Assumptions C58_has_deterministic_raises.

(** Z is the only deterministic factor of the model; after to_multinomial there
    is none. *)
Example C58_has_deterministic_case : forall vt,
  scm_has_deterministic (m_cf vt) = Ok true /\
  (let* m := scm_to_multinomial (m_cf vt) in scm_has_deterministic m) = Ok false /\
  (let m := m_cf vt in
   scm_has_deterministic (mkPgm (m_graph m) (m_factors m) (m_domains m) (m_check m) (KScm ["X"; "Y"] false)) = Ok false /\
   scm_has_deterministic (mkPgm (m_graph m) (m_factors m) (m_domains m) (m_check m) (KScm ["Z"; "W"] false)) = Raise KeyError).
Proof. intros []; cbv zeta; repeat split; vm_compute; reflexivity. Qed.
