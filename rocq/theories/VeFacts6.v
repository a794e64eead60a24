(** Variable elimination where a target has a deterministic factor. *)

From Coq Require Import String Bool Arith QArith Qcanon Permutation List.
From Verif Require Import PyBase Num DomainModel NdArray StoreModel NumStore FactorModel GraphModel ModelModel InferModel PyFacts Spec StoreSpec FactorSpec GraphSpec GraphFacts
  ModelSpec NetSpec NetSem NetFacts CausalSpec FactorSem BuildFacts VeFacts VeFacts2 ConvFacts.
Import ListNotations.
Local Open Scope nat_scope.

Lemma mapM_one {A B} (f : A -> res B) l e x : In x l -> f x = Raise e -> (forall y, In y l -> (exists z, f y = Ok z) \/ f y = Raise e) -> mapM f l = Raise e.
Proof.
  induction l as [|y l IH]; [intros []|]. intros J E H. cbn [mapM].
  destruct (H y (or_introl eq_refl)) as [(z & Ez) | Ez]; rewrite Ez; cbn [bind]; [|reflexivity].
  destruct J as [-> | J]; [congruence|]. rewrite IH; auto. intros w K. apply H. now right.
Qed.

Lemma deterministic_target m D F vt endo cast e T v d heur so : causal m D F vt endo cast -> known D e ->
  NoDup T -> incl T (nodes (m_graph m)) -> incl (keys e) (nodes (m_graph m)) -> (forall w, In w T -> ~ In w (keys e)) ->
  In v T -> stored m v (FD d) -> ve_query heur so m T None e = Raise NotImplementedError.
Proof.
  intros (_ & Wg & Ac & WD & SD & NF & SF & Hs & _) Ke NT IT Ie Dj Jv Sv. unfold ve_query, ve_compile.
  replace (length (nodup eqd T) =? length T) with true.
  2:{ symmetry. apply Nat.eqb_eq. f_equal. now apply nodup_fixed_point. }
  cbn [negb]. replace (existsb (fun w => mem w (keys e)) T) with false.
  2:{ symmetry. apply not_true_iff_false. intros E. apply existsb_exists in E as (w & J & E). apply mem_In in E. now apply (Dj w). }
  replace (forallb (fun w => mem w (nodes (m_graph m))) (T ++ keys e)) with true.
  2:{ symmetry. apply forallb_forall. intros w J. apply mem_In. apply in_app_or in J as [J|J]; auto. }
  cbn [negb]. unfold minimalize, barren_nodes.
  destruct (barren_ok (m_graph m) (T ++ keys e) Wg Ac) as (b & Eb & Hb). rewrite Eb.
  destruct (remove_outgoing_ok (m_graph m) (keys e) Wg) as (N1 & W1 & A1). set (g1 := remove_outgoing_edges (m_graph m) (keys e)) in *.
  destruct (remove_nodes_ok g1 b W1) as (W2 & N2 & A2). set (g2 := remove_nodes g1 b) in *.
  assert (Tb : forall w, In w T -> ~ In w b).
  { intros w J J'. apply Hb in J' as [_ J']. apply J'. exists w. split; [apply in_or_app; auto|now left]. }
  assert (T2 : incl T (nodes g2)) by (intros w J; apply N2; rewrite N1; split; auto).
  destruct (disconnected_ok g2 T W2 T2) as (c & Ec & Nc & Hc). rewrite Ec. cbn [bind].
  set (irr := filter (fun w => negb (mem w T)) (b ++ c)).
  match goal with |- context [mapM ?f ?l] => set (mf := f); set (kept := l) end.
  assert (K : forall w f, In (w, f) kept <-> In (w, f) (m_factor_dict m) /\ ~ In w irr).
  { intros w f. unfold kept, dfilter. rewrite filter_In. cbn [fst]. now rewrite negb_true_iff, mem_nIn. }
  assert (E : mapM mf kept = Raise NotImplementedError).
  { apply (mapM_one mf kept NotImplementedError (v, FD d)).
    - apply K. split; [|unfold irr; rewrite filter_In, negb_true_iff, mem_nIn; tauto]. unfold m_factor_dict. apply in_map_iff.
      exists (v, Some (FD d)). split; [reflexivity|]. apply dget_In. exact Sv.
    - reflexivity.
    - intros [w f] J. apply K in J as [J _]. apply factor_dict_In in J as [Iw Sw]; [|exact NF|].
      2:{ intros u Iu. apply SF in Iu. destruct (Hs u Iu) as (f' & Sf & _). eauto. }
      destruct (Hs w (proj1 (SF w) Iw)) as (f' & Sf & Tf & Cf & _). unfold stored in Sw, Sf. assert (f' = f) by congruence. subst f'.
      destruct f as [g|g|]; [left|right; reflexivity|destruct Tf]. cbn in Tf. subst g. unfold mf, set_observed. cbn [fst snd fo_right bind fo_restrict].
      assert (Gd : good D vt (F w)) by (exact (cpt_good D vt w _ _ Cf)).
      destruct (good_restrict D vt (F w) (dfilter (fun u => mem u (mf_right (F w))) e) Gd) as (h & Eh & _).
      { intros u l s J Es. rewrite dget_dfilter in Es. destruct (mem u (mf_right (F w))); [|discriminate]. eapply Ke; eauto. }
      rewrite Eh. cbn [bind]. eauto. }
  rewrite E. reflexivity.
Qed.
