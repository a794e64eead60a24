(** Proofs about the fusion of models at common roots (C65): the calls that
    raise. *)

From Coq Require Import String Bool Arith ZArith QArith Qcanon Permutation Lia List.
From Verif Require Import PyBase PyFacts Num DomainModel NdArray StoreModel NumStore FactorModel GraphModel ModelModel InferModel CausalModel
  Spec StoreSpec FactorSpec GraphSpec ModelSpec NetSpec CausalSpec SepSpec FusionSpec
  BigSum FactorSem NetSem NetFacts GraphFacts FactorFacts BuildFacts BuildFacts2 CausalFacts CfFacts CfFacts2 CfFacts3 FusionFacts.
Import ListNotations.
Local Open Scope nat_scope.
Local Arguments eqd : simpl never.

Lemma predecessors_in m x : In x (nodes (m_graph m)) -> predecessors (m_graph m) x = Ok (preds (m_graph m) x).
Proof. intros I. unfold predecessors. now rewrite (proj2 (mem_In x _) I). Qed.
Lemma predecessors_out m x : ~ In x (nodes (m_graph m)) -> predecessors (m_graph m) x = Raise NetworkXError.
Proof. intros I. unfold predecessors. now rewrite (proj2 (mem_nIn x _) I). Qed.
Lemma no_preds m x : (forall y, ~ arc (m_graph m) y x) -> preds (m_graph m) x = [].
Proof. intros N. destruct (preds (m_graph m) x) as [|y r] eqn:E; [reflexivity|]. exfalso. apply (N y). apply in_preds. rewrite E. now left. Qed.

Lemma not_root so models on endo k x m : nth_error on k = Some x -> nth_error models k = Some m -> In x (nodes (m_graph m)) ->
  (exists y, arc (m_graph m) y x) ->
  (forall j y mj, j < k -> nth_error on j = Some y -> nth_error models j = Some mj -> In y (nodes (m_graph mj))) ->
  fusion_roots so models on endo = Raise ValueError.
Proof.
  intros Eo Em I (y & A) B. unfold fusion_roots.
  assert (E : all_roots (combine on models) = Ok false); [|now rewrite E].
  revert models on Eo Em B. induction k as [|k IH]; intros [|m0 models] [|x0 on] Eo Em B; try discriminate.
  - injection Eo as ->. injection Em as ->. cbn [combine all_roots]. rewrite predecessors_in by auto. cbn [bind].
    destruct (preds (m_graph m) x) as [|z r] eqn:Ep; [|reflexivity]. exfalso. apply in_preds in A. rewrite Ep in A. destruct A.
  - cbn [combine all_roots]. rewrite predecessors_in by (apply (B 0 x0 m0); [lia|reflexivity|reflexivity]). cbn [bind].
    destruct (length (preds (m_graph m0) x0) =? 0); [|reflexivity]. apply IH; auto. intros j z mj L E1 E2. apply (B (S j) z mj); [lia|auto|auto].
Qed.

Lemma not_node so models on endo k x m : nth_error on k = Some x -> nth_error models k = Some m -> ~ In x (nodes (m_graph m)) ->
  (forall j y mj, j < k -> nth_error on j = Some y -> nth_error models j = Some mj -> In y (nodes (m_graph mj)) /\ forall z, ~ arc (m_graph mj) z y) ->
  fusion_roots so models on endo = Raise NetworkXError.
Proof.
  intros Eo Em I B. unfold fusion_roots.
  assert (E : all_roots (combine on models) = Raise NetworkXError); [|now rewrite E].
  revert models on Eo Em B. induction k as [|k IH]; intros [|m0 models] [|x0 on] Eo Em B; try discriminate.
  - injection Eo as ->. injection Em as ->. cbn [combine all_roots]. now rewrite predecessors_out.
  - cbn [combine all_roots]. destruct (B 0 x0 m0) as [B1 B2]; [lia|reflexivity|reflexivity|]. rewrite predecessors_in, no_preds by auto. cbn [bind length Nat.eqb].
    apply IH; auto. intros j z mj L E1 E2. apply (B (S j) z mj); [lia|auto|auto].
Qed.

Lemma roots_pass models on : (forall k x m, nth_error on k = Some x -> nth_error models k = Some m -> In x (nodes (m_graph m)) /\ forall y, ~ arc (m_graph m) y x) ->
  all_roots (combine on models) = Ok true.
Proof.
  revert models. induction on as [|x on IH]; intros [|m models] B; try reflexivity. cbn [combine all_roots].
  destruct (B 0 x m) as [B1 B2]; [reflexivity|reflexivity|]. rewrite predecessors_in, no_preds by auto. cbn [bind length Nat.eqb].
  apply IH. intros k y mk E1 E2. apply (B (S k) y mk); auto.
Qed.
Lemma mixed so models on endo m1 m2 :
  (forall k x m, nth_error on k = Some x -> nth_error models k = Some m -> In x (nodes (m_graph m)) /\ forall y, ~ arc (m_graph m) y x) ->
  In m1 models -> In m2 models -> m_kind m1 = KBn -> (exists e c, m_kind m2 = KScm e c) ->
  fusion_roots so models on endo = Raise ValueError.
Proof.
  intros B I1 I2 K1 (e & c & K2). unfold fusion_roots. rewrite (roots_pass models on B). cbn [bind negb].
  destruct models as [|m0 ms]; [reflexivity|].
  destruct (forallb (fun m => Bool.eqb (is_scm m) (is_scm m0)) ms) eqn:E; [|reflexivity]. exfalso.
  assert (A : forall m, In m (m0 :: ms) -> is_scm m = is_scm m0).
  { intros m [<-|I]; [reflexivity|]. rewrite forallb_forall in E. apply E in I. now apply eqb_prop in I. }
  apply A in I1. apply A in I2. unfold is_scm in *. rewrite K1 in I1. rewrite K2 in I2. congruence.
Qed.
Lemma no_models so on endo : fusion_roots so [] on endo = Raise ValueError.
Proof. unfold fusion_roots. destruct on; reflexivity. Qed.

Lemma bn_endogenous vt on p0 ps so e : fusable vt on p0 ps -> is_set_order so ->
  (forall p, In p (p0 :: ps) -> m_kind (p_model p) = KBn) -> fusion_roots so (map p_model (p0 :: ps)) on (Some e) = Raise TypeError.
Proof.
  intros H Hs K. unfold fusion_roots. rewrite (all_roots_ok vt on p0 ps H).
  2:{ intros x m I. split; [eapply in_combine_l; eauto|eapply in_combine_r; eauto]. }
  cbn [bind negb map].
  assert (E1 : forallb (fun m => Bool.eqb (is_scm m) (is_scm (p_model p0))) (map p_model ps) = true).
  { apply forallb_forall. intros m I. apply in_map_iff in I as (p & <- & I). unfold is_scm.
    rewrite (K p (or_intror I)), (K p0 (or_introl eq_refl)). reflexivity. }
  rewrite E1. cbn [negb].
  assert (St : forall p x, In p (p0 :: ps) -> p_node p x -> exists f, dlook x (m_factors (p_model p)) = Ok f).
  { intros p x I J. destruct (f_net vt on p0 ps H p I) as (_ & _ & _ & _ & _ & _ & S). destruct (S x J) as [S' _]. unfold stored in S'. unfold dlook. rewrite S'. eauto. }
  destruct (mapM_total (fun v => dlook v (m_factors (p_model p0))) on) as (f0 & E2).
  { intros x I. apply St; [now left|]. apply (f_on vt on p0 ps H p0 x (or_introl eq_refl) I). }
  unfold get_factors at 1. rewrite E2. cbn [bind].
  destruct (mapM_total (fun m => get_factors m (so [filter (fun v => negb (mem v on)) (nodes (m_graph m))])) (p_model p0 :: map p_model ps)) as (fs & E3).
  { intros m I. change (In m (map p_model (p0 :: ps))) in I. apply in_map_iff in I as (p & <- & I). apply mapM_total. intros x J.
    apply St; [auto|]. apply (proj2 (Hs _)) in J. cbn [concat] in J. rewrite app_nil_r in J. apply filter_In in J as [J _]. exact J. }
  rewrite E3. cbn [bind]. now rewrite (K p0 (or_introl eq_refl)).
Qed.

(** ** The result *)
Lemma fused_class vt on p0 ps endo m e0 c0 : fusable vt on p0 ps -> m_graph m = gt p0 ps -> m_kind m = kt p0 ps endo ->
  (m_kind (p_model p0) = KBn -> m_kind m = KBn) /\
  (m_kind (p_model p0) = KScm e0 c0 -> exists e, m_kind m = KScm e c0 /\
     forall x, In x e <-> match (match endo with Some l => l | None => e0 end) with [] => exists y, arc (m_graph m) y x | l => In x l end).
Proof.
  intros H Gm Km. unfold kt in Km. split; intros K; rewrite K in Km; [exact Km|]. eexists. split; [exact Km|]. intros x.
  assert (Q : In x (filter (fun v => 0 <? length (preds (gt p0 ps) v)) (nodes (gt p0 ps))) <-> exists y, arc (m_graph m) y x).
  { rewrite filter_In, Gm. split.
    - intros [_ L]. destruct (preds (gt p0 ps) x) as [|y r] eqn:E; [discriminate L|]. exists y. apply in_preds. rewrite E. now left.
    - intros (y & A). split; [apply (gt_wf vt on p0 ps H) in A; apply A|]. apply in_preds in A.
      destruct (preds (gt p0 ps) x); [destruct A|reflexivity]. }
  unfold scm_endo, given. destruct endo as [[|v r]|]; [exact Q|tauto|]. destruct e0 as [|v r]; [exact Q|tauto].
Qed.

Lemma fusion_ok vt on p0 ps so endo : fusable vt on p0 ps -> is_set_order so -> one_class endo p0 ps -> (forall p x, In p ps -> ~ lonely on p x) ->
  exists m D F, fusion_roots so (map p_model (p0 :: ps)) on endo = Ok m /\ network m D F vt /\ united on p0 ps m D F /\
    (m_kind (p_model p0) = KBn -> m_kind m = KBn) /\
    (forall e0 c0, m_kind (p_model p0) = KScm e0 c0 -> exists e, m_kind m = KScm e c0 /\
       forall x, In x e <-> match (match endo with Some l => l | None => e0 end) with [] => exists y, arc (m_graph m) y x | l => In x l end).
Proof.
  intros H Hs Hc Ch. destruct (fused_ok vt on p0 ps H so Hs endo Hc Ch) as (m & E & K & Gm & Net & U).
  exists m, (Dt on p0 ps), (Ft p0 ps). split; [exact E|]. split; [exact Net|]. split; [exact U|]. split.
  - apply (fused_class vt on p0 ps endo m [] true H Gm K).
  - intros e0 c0. apply (fused_class vt on p0 ps endo m e0 c0 H Gm K).
Qed.
