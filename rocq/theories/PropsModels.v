(** Properties C21, C23, C24, C51: model objects. *)

From Coq Require Import String Ascii Bool Arith ZArith QArith Qcanon List.
From Verif Require Import PyBase Num DomainModel NdArray StoreModel NumStore FactorModel GraphModel ModelModel
  Spec StoreSpec FactorSpec GraphSpec GraphChecks ModelSpec ModelFacts Checks FactorChecks ModelChecks.
Import ListNotations.
Local Open Scope nat_scope.
Local Open Scope string_scope.

(** ** C21 *)
Theorem C21_bayesian_network : forall g check, wf_graph g ->
  (acyclic g -> exists m, bn_init (GDag g) None check = Ok m /\ m_graph m = g /\ m_check m = check /\ is_fresh m) /\
  (~ acyclic g -> bn_init (GDag g) None check = Raise ValueError).
Proof. exact bn_init_ok. Qed.
Print Assumptions C21_bayesian_network.

(** The endogenous variables are the given ones, or the nodes with a parent. *)
Theorem C21_causal_model : forall g endo cast check, wf_graph g ->
  (acyclic g -> exists m endo', scm_init (GDag g) None endo cast check = Ok m /\ m_graph m = g /\ m_check m = check /\
     is_fresh m /\ m_kind m = KScm endo' cast /\
     (forall v r, endo = Some (v :: r) -> endo' = v :: r) /\
     (endo = None \/ endo = Some [] -> forall v, In v endo' <-> In v (nodes g) /\ exists p, arc g p v)) /\
  (~ acyclic g -> scm_init (GDag g) None endo cast check = Raise ValueError).
Proof. exact scm_init_ok. Qed.
Print Assumptions C21_causal_model.

Theorem C21_other_arguments : forall check cast endo,
  bn_init GOther None check = Raise ValueError /\ scm_init GOther None endo cast check = Raise ValueError.
Proof. exact init_other. Qed.
Print Assumptions C21_other_arguments.

(** The string form of a graph works for a Bayesian network but never for a
    causal model without given endogenous variables. *)
Theorem C21_string_scm_refuted : forall s g cast check, str2dag s = Ok g -> wf_graph g -> acyclic g ->
  scm_init (GStr s) None None cast check = Raise AttributeError /\
  exists m, bn_init (GStr s) None check = Ok m /\ m_graph m = g.
Proof. exact scm_init_str. Qed.
Print Assumptions C21_string_scm_refuted.

Example C21_case : wf_graph g_fork /\ acyclic g_fork /\
  bn_init (GDag g_fork) None true = Ok m_fork /\
  (let c := graph_of [("A", "B"); ("B", "C"); ("C", "A")] in wf_graph c /\ bn_init (GDag c) None true = Raise ValueError) /\
  (let c := mkG ["A"] [("A", "A")] in wf_graph c /\ scm_init (GDag c) None None true true = Raise ValueError) /\
  str2dag "[A][B|A]" = Ok (mkG ["A"; "B"] [("A", "B")]) /\
  scm_init (GStr "[A][B|A]") None None true true = Raise AttributeError.
Proof.
  destruct (dagb_sound g_fork) as [W A]; [vm_compute; reflexivity|]. split; [exact W|]. split; [exact A|].
  split; [vm_compute; reflexivity|]. split; [split; [apply graphb_sound|]; vm_compute; reflexivity|].
  split; [split; [apply graphb_sound|]; vm_compute; reflexivity|]. split; vm_compute; reflexivity.
Qed.

(** ** C23 *)
(** Whatever calls were made, successful or not: a stored factor has its node
    as only left variable, the parents as right variables, and for the node
    the states recorded in the model. *)
Theorem C23_structure : forall m calls, is_fresh m -> m_check m = true ->
  let m' := run_calls m calls in
  m_graph m' = m_graph m /\
  forall v f, stored m' v f -> exists d l r dv rv,
    is_factor f d l r /\ In v (nodes (m_graph m)) /\
    same_set [v] l /\ (forall p, In p r <-> arc (m_graph m) p v) /\
    dget v d = Some dv /\ has_domain m' v rv /\ same_set rv dv.
Proof. exact structure_of_run. Qed.
Print Assumptions C23_structure.

(** A call that raises leaves the model as it was, with checks on or off. *)
Theorem C23_unchanged : forall m v f m' e, set_factor m v f = (m', Some e) -> m' = m.
Proof. exact set_factor_raise. Qed.
Print Assumptions C23_unchanged.

(** In a causal model the endogenous variables only get functions. *)
Theorem C23_functions : forall m calls endo cast, is_fresh m -> m_check m = true -> m_kind m = KScm endo cast ->
  (forall v f, In (v, f) calls -> wf_fobj f) ->
  forall v f, In v endo -> stored (run_calls m calls) v f ->
    (exists g, f = FM g /\ zero_one g) \/ (cast = false /\ exists g, f = FD g).
Proof. exact functional_of_run. Qed.
Print Assumptions C23_functions.

Example C23_case : is_fresh m_fork /\ m_check m_fork = true /\
  (let calls := [("B", fB_bad); ("A", fA); ("B", FObj); ("Q", fA); ("B", fB); ("C", fC_other)] in
   map (fun k => snd (set_factor (run_calls m_fork (firstn k calls)) (fst (nth k calls ("", FObj))) (snd (nth k calls ("", FObj)))))
       (seq 0 6) = [Some ValueError; None; Some ValueError; Some NetworkXError; None; Some ValueError] /\
   stored (run_calls m_fork calls) "A" fA /\ stored (run_calls m_fork calls) "B" fB /\
   dget "C" (m_factors (run_calls m_fork calls)) = Some None /\
   has_domain (run_calls m_fork calls) "A" lA) /\
  is_fresh m_scm /\ wf_fobj dX /\ wf_fobj fX_soft /\
  snd (set_factor m_scm "X" fX_soft) = Some ValueError /\ snd (set_factor m_scm "X" dX) = None.
Proof.
  destruct fork_fresh as [F C]. split; [exact F|]. split; [exact C|]. split.
  { cbv zeta. split; [vm_compute; reflexivity|]. split; [vm_compute; reflexivity|]. split; [vm_compute; reflexivity|].
    split; vm_compute; reflexivity. }
  split; [apply fresh_is_fresh|].
  split. { split; [|apply usableb_sound; vm_compute; reflexivity]. exists "X", lA. apply dfac_wf; [vm_compute; reflexivity|right; left; reflexivity]. }
  split; [apply fac_wf; vm_compute; reflexivity|]. split; vm_compute; reflexivity.
Qed.

(** ** C24 *)
(** When the parents' domains are recorded before a child is set, all factors
    have the same set of states for a shared variable. *)
Theorem C24_agreement : forall m calls, is_fresh m -> m_check m = true -> parents_first m calls ->
  forall v1 f1 d1 l1 r1 v2 f2 d2 l2 r2 w s1 s2,
    stored (run_calls m calls) v1 f1 -> stored (run_calls m calls) v2 f2 ->
    is_factor f1 d1 l1 r1 -> is_factor f2 d2 l2 r2 ->
    dget w d1 = Some s1 -> dget w d2 = Some s2 -> same_set s1 s2.
Proof. exact agreement_of_run. Qed.
Print Assumptions C24_agreement.

(** In other orders two factors can have no state in common ... *)
Theorem C24_disagreement_refuted : exists m calls, is_fresh m /\ m_check m = true /\ all_succeed m calls /\
  exists v1 f1 d1 l1 r1 v2 f2 d2 l2 r2 w s1 s2,
    stored (run_calls m calls) v1 f1 /\ stored (run_calls m calls) v2 f2 /\
    is_factor f1 d1 l1 r1 /\ is_factor f2 d2 l2 r2 /\
    dget w d1 = Some s1 /\ dget w d2 = Some s2 /\ (forall x, In x s1 -> ~ In x s2).
Proof. exact disagree. Qed.
Print Assumptions C24_disagreement_refuted.
(** ... and the order of the states is never checked. *)
Theorem C24_order_refuted : exists m calls, is_fresh m /\ m_check m = true /\ all_succeed m calls /\ parents_first m calls /\
  exists v1 f1 d1 l1 r1 v2 f2 d2 l2 r2 w s1 s2,
    stored (run_calls m calls) v1 f1 /\ stored (run_calls m calls) v2 f2 /\
    is_factor f1 d1 l1 r1 /\ is_factor f2 d2 l2 r2 /\
    dget w d1 = Some s1 /\ dget w d2 = Some s2 /\ s1 <> s2.
Proof. exact swapped. Qed.
Print Assumptions C24_order_refuted.

Example C24_case : is_fresh m_fork /\ m_check m_fork = true /\
  parents_first m_fork [("A", fA); ("B", fB); ("C", fC)] /\ all_succeed m_fork [("A", fA); ("B", fB); ("C", fC)] /\
  stored (run_calls m_fork [("A", fA); ("B", fB); ("C", fC)]) "C" fC.
Proof.
  destruct fork_fresh as [F C]. split; [exact F|]. split; [exact C|]. split.
  { split; [intros p K; exfalso; vm_compute in K; intuition discriminate|].
    split; [intros p K; assert (p = "A") as -> by (vm_compute in K; intuition congruence); exists lA; vm_compute; reflexivity|].
    split; [intros p K; assert (p = "A") as -> by (vm_compute in K; intuition congruence); exists lA; vm_compute; reflexivity|exact I]. }
  split; [split; [vm_compute; reflexivity|split; [vm_compute; reflexivity|split; [vm_compute; reflexivity|exact I]]]|vm_compute; reflexivity].
Qed.

(** ** C51 *)
(** submodel passes positional arguments to a builder that takes none. *)
Theorem C51_submodel_refuted : forall m ns, m_submodel m ns = Raise TypeError.
Proof. exact submodel_raises. Qed.
Print Assumptions C51_submodel_refuted.
Example C51_case : nodes (subgraph (m_graph m_fork) ["A"; "B"]) = ["A"; "B"] /\ m_submodel m_fork ["A"; "B"] = Raise TypeError.
Proof. split; vm_compute; reflexivity. Qed.
