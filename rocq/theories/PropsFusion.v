(** Property C65: models joined at common root nodes. *)

From Coq Require Import String Ascii Bool Arith ZArith QArith Qcanon List.
From Verif Require Import PyBase PyFacts Num DomainModel NdArray StoreModel NumStore FactorModel GraphModel ModelModel InferModel CausalModel
  Spec StoreSpec FactorSpec GraphSpec ModelSpec NetSpec SepSpec FusionSpec FusionFacts FusionFacts2 FusionFacts3 Checks GraphChecks InferChecks CausalChecks
  FusionChecks.
Import ListNotations.
Local Open Scope nat_scope.
Local Open Scope string_scope.
Local Open Scope list_scope.

(** Networks that have just the nodes [on] in common, all of them roots, are
    joined to one network with the arcs and tables of all, and the tables of
    the first one at [on].  The endogenous variables of the result are the given
    ones, or those of the first model; if there are none, the nodes with
    parents. *)
Theorem C65_fusion : forall vt on p0 ps so endo, fusable vt on p0 ps -> is_set_order so -> one_class endo p0 ps ->
  (forall p x, In p ps -> ~ lonely on p x) ->
  exists m D F, fusion_roots so (map p_model (p0 :: ps)) on endo = Ok m /\ network m D F vt /\ united on p0 ps m D F /\
    (m_kind (p_model p0) = KBn -> m_kind m = KBn) /\
    (forall e0 c0, m_kind (p_model p0) = KScm e0 c0 -> exists e, m_kind m = KScm e c0 /\
       forall x, In x e <-> match (match endo with Some l => l | None => e0 end) with [] => exists y, arc (m_graph m) y x | l => In x l end).
Proof. exact fusion_ok. Qed.
Print Assumptions C65_fusion.

(** The joint network gives the variables of each model the distribution that
    the model gives them with the tables of the first model at [on]. *)
Theorem C65_marginal : forall vt on p0 ps, fusable vt on p0 ps -> forall m D F, network m D F vt -> united on p0 ps m D F ->
  forall p, In p (p0 :: ps) -> forall o, Spec.known (p_dom p) o -> incl (keys o) (keys (p_dom p)) ->
  mass D F o = mass (p_dom p) (with_roots on p0 p) o.
Proof. exact marginal. Qed.
Print Assumptions C65_marginal.

(** Given [on], the variables of different models are independent. *)
Theorem C65_independent : forall vt on p0 ps, fusable vt on p0 ps -> forall m D F, network m D F vt -> united on p0 ps m D F ->
  forall p q X Y, In p (p0 :: ps) -> In q (p0 :: ps) ->
  (forall x, In x X -> p_node p x /\ ~ p_node q x) -> (forall y, In y Y -> p_node q y /\ ~ p_node p y) ->
  independent_in D F X Y on.
Proof. exact parts_independent. Qed.
Print Assumptions C65_independent.

(** Bayesian networks A -> B and A -> C <- E. *)
Example C65_case : fusable VNumpy ["A"] p_ab [p_ac] /\ one_class None p_ab [p_ac] /\ (forall p x, In p [p_ac] -> ~ lonely ["A"] p x) /\
  answered (fusion_roots plain_order [m_ab; m_ac] ["A"] None) D_abc [("B", SInt 0); ("C", SInt 0)] = Some (43 # 120)%Q /\
  answered (fusion_roots plain_order [m_ab; m_ac] ["A"] None) D_abc [("C", SInt 0)] = Some (3 # 4)%Q /\
  answered (Ok m_ac) D_ac [("C", SInt 0)] = Some (19 # 30)%Q.
Proof. exact (conj bn_fusable (conj bn_class (conj bn_attached (conj bn_answer bn_marginal)))). Qed.
(** Causal models U -> X and U -> Y; without the argument `endogenous` only X is
    endogenous in the result. *)
Example C65_causal_case : fusable VNumpy ["U"] p_ux [p_uy] /\ one_class (Some ["X"; "Y"]) p_ux [p_uy] /\
  answered (fusion_roots plain_order [m_ux; m_uy] ["U"] (Some ["X"; "Y"])) [("U", l01); ("X", l01); ("Y", l01)] [("X", SInt 0); ("Y", SInt 0)] = Some (3 # 4)%Q /\
  answered (fusion_roots plain_order [m_ux; m_uy] ["U"] (Some ["X"; "Y"])) [("U", l01); ("X", l01); ("Y", l01)] [("X", SInt 0); ("Y", SInt 1)] = Some 0%Q /\
  endogenous_of (fusion_roots plain_order [m_ux; m_uy] ["U"] None) = ["X"].
Proof. exact scm_case. Qed.

(** A node of a later model that is not common and has no arcs is not a node of
    the new graph, and its factor is rejected. *)
Theorem C65_lonely_raises : forall vt on p0 ps, fusable vt on p0 ps -> forall so, is_set_order so -> forall endo, one_class endo p0 ps ->
  forall p x, In p ps -> lonely on p x -> fusion_roots so (map p_model (p0 :: ps)) on endo = Raise NetworkXError.
Proof. exact fused_lonely. Qed.
Print Assumptions C65_lonely_raises.
(** It does not matter in the first model. *)
Example C65_lonely_case : fusable VNumpy ["A"] p_ab [part_of m_lone D_ac] /\ one_class None p_ab [part_of m_lone D_ac] /\
  lonely ["A"] (part_of m_lone D_ac) "E" /\ fusion_roots plain_order [m_ab; m_lone] ["A"] None = Raise NetworkXError /\
  answered (fusion_roots plain_order [m_lone; m_ab] ["A"] None) D_abc [("E", SInt 0)] = Some (1 # 5)%Q.
Proof. exact lone_case. Qed.

(** The k-th common node is checked in the k-th model only: there it must be a
    node ... *)
Theorem C65_unknown_raises : forall so models on endo k x m, nth_error on k = Some x -> nth_error models k = Some m -> ~ In x (nodes (m_graph m)) ->
  (forall j y mj, j < k -> nth_error on j = Some y -> nth_error models j = Some mj -> In y (nodes (m_graph mj)) /\ forall z, ~ arc (m_graph mj) z y) ->
  fusion_roots so models on endo = Raise NetworkXError.
Proof. exact not_node. Qed.
Print Assumptions C65_unknown_raises.
(** ... without parents. *)
Theorem C65_not_root_raises : forall so models on endo k x m, nth_error on k = Some x -> nth_error models k = Some m -> In x (nodes (m_graph m)) ->
  (exists y, arc (m_graph m) y x) ->
  (forall j y mj, j < k -> nth_error on j = Some y -> nth_error models j = Some mj -> In y (nodes (m_graph mj))) ->
  fusion_roots so models on endo = Raise ValueError.
Proof. exact not_root. Qed.
Print Assumptions C65_not_root_raises.
(** So a common node may have parents in one of the models: R -> S and
    R -> T <- S are joined at R and S, but not at S and R. *)
Theorem C65_roots_refuted : exists so m1 m2 on x, is_set_order so /\ In x on /\ (exists y, arc (m_graph m1) y x) /\ In x (nodes (m_graph m2)) /\
  arcs_of (fusion_roots so [m1; m2] on None) = [("R", "S"); ("R", "T"); ("S", "T")] /\
  fusion_roots so [m1; m2] (rev on) None = Raise ValueError.
Proof.
  exists plain_order, m_rs, m_st, ["R"; "S"], "S". exact (conj plain_order_ok (conj (or_intror (or_introl eq_refl))
    (conj (ex_intro _ "R" (proj1 unchecked_root)) (proj2 unchecked_root)))).
Qed.
Print Assumptions C65_roots_refuted.
(** Common nodes that are not listed are not noticed: the table of the model
    listed last is kept. *)
Theorem C65_common_refuted : exists so m1 m2 q1 q2, is_set_order so /\ q1 <> q2 /\
  answered (Ok m1) D_ab [("B", SInt 0)] = Some q1 /\ answered (Ok m2) D_ab [("B", SInt 0)] = Some q2 /\
  answered (fusion_roots so [m1; m2] ["A"] None) D_ab [("B", SInt 0)] = Some q2 /\
  answered (fusion_roots so [m2; m1] ["A"] None) D_ab [("B", SInt 0)] = Some q1.
Proof.
  exists plain_order, m_ab, m_ab', (11 # 24)%Q, (1 # 4)%Q. split; [exact plain_order_ok|]. split; [discriminate|]. exact common_variable.
Qed.
Print Assumptions C65_common_refuted.
(** Models of different classes, or none, are rejected. *)
Theorem C65_classes_raises : forall so models on endo m1 m2,
  (forall k x m, nth_error on k = Some x -> nth_error models k = Some m -> In x (nodes (m_graph m)) /\ forall y, ~ arc (m_graph m) y x) ->
  In m1 models -> In m2 models -> m_kind m1 = KBn -> (exists e c, m_kind m2 = KScm e c) ->
  fusion_roots so models on endo = Raise ValueError.
Proof. exact mixed. Qed.
Print Assumptions C65_classes_raises.
Theorem C65_none_raises : forall so on endo, fusion_roots so [] on endo = Raise ValueError.
Proof. exact no_models. Qed.
Print Assumptions C65_none_raises.
(** Bayesian networks have no endogenous variables. *)
Theorem C65_endogenous_raises : forall vt on p0 ps so e, fusable vt on p0 ps -> is_set_order so ->
  (forall p, In p (p0 :: ps) -> m_kind (p_model p) = KBn) -> fusion_roots so (map p_model (p0 :: ps)) on (Some e) = Raise TypeError.
Proof. exact bn_endogenous. Qed.
Print Assumptions C65_endogenous_raises.
Example C65_raises_case : fusion_roots plain_order [m_ab; m_ux] ["A"; "U"] None = Raise ValueError /\
  fusion_roots plain_order [m_ab; m_ac] ["B"] None = Raise ValueError /\ fusion_roots plain_order [m_ab; m_ac] ["A"; "B"] None = Raise NetworkXError /\
  fusion_roots plain_order [m_ab; m_ac] ["A"] (Some ["B"]) = Raise TypeError.
Proof. repeat split; vm_compute; reflexivity. Qed.
