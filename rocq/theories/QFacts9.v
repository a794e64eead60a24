(** The maximal log-likelihood. *)

From Coq Require Import String Bool Arith ZArith QArith Qcanon Lia Permutation List.
From Verif Require Import PyBase PyFacts Num NumFacts DomainModel NdArray StoreModel NumStore FactorModel GraphModel ModelModel InferModel DataModel
  Spec DomainFacts StoreSpec StoreFacts FactorSpec FactorFacts BigSum GraphSpec GraphFacts GraphFacts2 PropFacts3 ModelSpec ModelFacts
  NetSpec NetSem FactorSem NetFacts VeFacts2 VeFacts3 VeFacts4 CfFacts CfFacts3 BuildFacts CausalFacts PropFacts4 GenFacts3
  LearnModel DataSpec DataFacts3 DataFacts4 EmSpec EmMath EmFacts2 EmFacts5 QModel QSpec QFacts2 QFacts3 QFacts4 QFacts5 QFacts6 QFacts7 QFacts8.
From Coq Require Import List.
Import ListNotations.
Local Open Scope nat_scope.
Local Arguments eqd : simpl never.

(** ** The states of the rows as assignments *)
Section Rows.
  Variables (D : domain) (data : frame) (endo : list var).
  Hypothesis WD : wf_dom D.
  Hypothesis HD : full_data D data endo.
  Hypothesis IE : incl endo (keys D).
  Variable a0 : asg.
  Hypothesis V0 : valid D a0.
  Notation ro := (row_obs data).
  Definition row_asg (r : list (option state)) : asg := over (part endo (ro r)) a0.

  Lemma row_get r v : In r (f_rows data) -> In v endo -> dget v (ro r) = Some (row_asg r v).
  Proof.
    intros Jr J. apply IE in J as K. apply keys_In in K as (l & K).
    destruct (row_full D data endo r HD Jr (proj1 WD) v l) as (s & E & _); [apply filter_In; split; [auto|now apply mem_In]|].
    unfold row_asg, over. rewrite part_get. apply mem_In in J. rewrite J, E. reflexivity.
  Qed.
  Lemma row_valid r : In r (f_rows data) -> valid D (row_asg r).
  Proof.
    intros Jr v l J. unfold row_asg, over. rewrite part_get. destruct (mem v endo) eqn:M; [|now apply V0].
    destruct (row_full D data endo r HD Jr (proj1 WD) v l) as (s & E & K); [apply filter_In; split; [auto|exact M]|]. now rewrite E.
  Qed.
  Lemma row_shows r v s : In r (f_rows data) -> In v endo -> (shows data r v s = true <-> row_asg r v = s).
  Proof.
    intros Jr J. rewrite (shows_cell data r v s (proj1 HD) Jr). rewrite <- (known_get _ v s (row_dict_NoDup _ _)).
    change (LearnModel.known (row_dict (f_cols data) r)) with (ro r). rewrite (row_get r v Jr J). split; [now intros [= ->]|now intros ->].
  Qed.
  (** the rows that agree with [r] on [l] *)
  Definition like (l : list var) (r r' : list (option state)) : bool := forallb (fun w => if eqd (row_asg r' w) (row_asg r w) then true else false) l.
  Lemma like_iff l r r' : like l r r' = true <-> forall w, In w l -> row_asg r' w = row_asg r w.
  Proof.
    unfold like. rewrite forallb_forall. split; intros A w J; specialize (A w J); destruct (eqd (row_asg r' w) (row_asg r w)); auto; discriminate.
  Qed.
  Lemma count_like l r : In r (f_rows data) -> incl l endo -> count data (obs_of l (row_asg r)) = length (filter (like l r) (f_rows data)).
  Proof.
    intros Jr I. unfold count. f_equal. apply filter_ext_in. intros r' J'. apply Bool.eq_iff_eq_true. rewrite like_iff, forallb_forall. split.
    - intros A w J. apply (row_shows r' w _ J' (I w J)). apply (A (w, row_asg r w)). unfold obs_of. apply in_map_iff. eauto.
    - intros A [w s] J. unfold obs_of in J. apply in_map_iff in J as (w' & [= -> <-] & J). apply (row_shows r' w _ J' (I w J)). now apply A.
  Qed.
  Lemma part_members l r : In r (f_rows data) -> incl l endo -> forall p, In p (part l (ro r)) <-> In p (obs_of l (row_asg r)).
  Proof.
    intros Jr I [w s]. unfold part, obs_of. rewrite filter_In, in_map_iff. cbn [fst]. rewrite mem_In. split.
    - intros [J M]. exists w. split; [|exact M]. apply (In_dget w s _ (row_obs_NoDup data r)) in J. rewrite (row_get r w Jr (I w M)) in J. congruence.
    - intros (w' & [= -> <-] & M). split; [|exact M]. apply dget_In. apply row_get; auto.
  Qed.
  Lemma count_part l r : In r (f_rows data) -> incl l endo -> count data (part l (ro r)) = length (filter (like l r) (f_rows data)).
  Proof. intros Jr I. rewrite <- (count_like l r Jr I). apply count_same. now apply part_members. Qed.
  Lemma like_refl l r : like l r r = true.
  Proof. apply like_iff. reflexivity. Qed.
  Lemma count_pos l r : In r (f_rows data) -> incl l endo -> 0 < count data (part l (ro r)).
  Proof.
    intros Jr I. rewrite count_part by auto. assert (K : In r (filter (like l r) (f_rows data))) by (apply filter_In; split; [auto|apply like_refl]).
    destruct (filter _ _); [destruct K|cbn; lia].
  Qed.

  (** ** The likelihood under any tables is bounded by that of the frequencies *)
  Variables (m : pgm) (F : var -> mfactor) (vt : vtype).
  Hypothesis HC : causal_tables m D F vt endo.
  Variable q : digraph.
  Hypothesis Pq : forall x, In x endo -> NoDup (preds q x) /\ incl (preds q x) endo /\ ~ In x (preds q x).
  Notation H := (ct_net m D F vt endo HC).
  Notation NN := (ct_nn m D F vt endo HC).

  Lemma obs_same l a b : (forall w, In w l -> a w = b w) -> obs_of l a = obs_of l b.
  Proof. intros E. unfold obs_of. apply map_ext_in. intros w J. now rewrite E. Qed.
  Lemma cond_sum v ps l a : In (v, l) D -> ~ In v ps -> valid D a ->
    (qsum (map (fun s => mass D F (obs_of (v :: ps) (upd a v s)) / mass D F (obs_of ps a)) l) <= 1)%Qc.
  Proof.
    intros Jv Nv Va. assert (Ko : Spec.known D (obs_of ps a)) by (eapply assigns_known; now apply assigns_obs).
    assert (E : qsum (map (fun s => mass D F (obs_of (v :: ps) (upd a v s))) l) = mass D F (obs_of ps a)).
    { rewrite <- (mass_total m D F vt H [v] (obs_of ps a) a Ko Va) by (intros w [<- | []]; now rewrite keys_obs_of).
      rewrite (sm_one D WD v l); [| |exact Jv].
      - f_equal. apply map_ext. intros s. f_equal. cbn. f_equal. unfold obs_of. apply map_ext_in. intros w J. unfold upd. rewrite eqd_neq by congruence. reflexivity.
      - intros b c Ebc. f_equal. f_equal. apply obs_same. intros; apply Ebc. }
    destruct (Qc_eq_dec (mass D F (obs_of ps a)) 0) as [Z|Z].
    - rewrite qsum_zeros; [discriminate|]. intros s _. rewrite Z. unfold Qcdiv. change (/ 0)%Qc with 0%Qc. ring.
    - rewrite (map_ext _ (fun s => (/ mass D F (obs_of ps a) * mass D F (obs_of (v :: ps) (upd a v s)))%Qc)) by (intros; unfold Qcdiv; ring).
      rewrite qsum_scale, E. rewrite Qcmult_comm, Qcmult_inv_r by auto. apply Qcle_refl.
  Qed.
  Lemma bound_one v : In v endo ->
    (qprod (map (fun r => cond D F q (ro r) v) (f_rows data)) <=
     qprod (map (fun r => ratio (count data (part (v :: preds q v) (ro r))) (count data (part (preds q v) (ro r)))) (f_rows data)))%Qc.
  Proof.
    intros Jv. destruct (Pq v Jv) as (N1 & I1 & N2). apply IE in Jv as K. apply keys_In in K as (l & Kl).
    assert (I2 : incl (v :: preds q v) endo) by (intros w [<- | J]; auto).
    set (th := fun r s => (mass D F (obs_of (v :: preds q v) (upd (row_asg r) v s)) / mass D F (obs_of (preds q v) (row_asg r)))%Qc).
    assert (Q := frequencies_maximise (list (option state)) state (f_rows data) l eqd (fun r => row_asg r v) (like (preds q v))).
    specialize (Q (proj1 (proj2 WD v l Kl))). specialize (Q (fun r J => row_valid r J v l Kl)). specialize (Q (fun r _ => like_refl (preds q v) r)).
    assert (Q1 := Q). clear Q.
    assert (Q := Q1 (fun r r' _ _ A => proj2 (like_iff _ r' r) (fun w J => eq_sym (proj1 (like_iff _ r r') A w J)))). clear Q1.
    assert (Q1 : forall r r' r'', In r (f_rows data) -> In r' (f_rows data) -> In r'' (f_rows data) -> like (preds q v) r r' = true -> like (preds q v) r' r'' = true -> like (preds q v) r r'' = true).
    { intros r r' r'' _ _ _ A B. apply like_iff. intros w J. rewrite (proj1 (like_iff _ _ _) B w J). now apply (proj1 (like_iff _ _ _) A). }
    specialize (Q Q1 th). clear Q1.
    assert (Q1 : forall r s, In r (f_rows data) -> In s l -> (0 <= th r s)%Qc).
    { intros r s Jr Js. unfold th, Qcdiv. assert (Va : valid D (upd (row_asg r) v s)).
      { intros w lw Jw. unfold upd. destruct (eqd w v) as [-> | Nw]; [|now apply (row_valid r Jr)].
        assert (lw = l) as -> by (apply (In_dget v lw D (proj1 WD)) in Jw; apply (In_dget v l D (proj1 WD)) in Kl; congruence). exact Js. }
      apply nn_mul; [|apply inv_nn]; apply (mass_nonneg m D F vt H _ NN); eapply assigns_known; apply assigns_obs; [exact Va|now apply row_valid]. }
    specialize (Q Q1). clear Q1.
    assert (Q1 : forall r r' s, In r (f_rows data) -> In r' (f_rows data) -> In s l -> like (preds q v) r r' = true -> th r s = th r' s).
    { intros r r' s _ _ _ A. unfold th. assert (A' := proj1 (like_iff _ _ _) A).
      rewrite (obs_same (preds q v) (row_asg r) (row_asg r')) by (intros w J; symmetry; now apply A').
      rewrite (obs_same (v :: preds q v) (upd (row_asg r) v s) (upd (row_asg r') v s)); [reflexivity|].
      intros w [<- | J]; unfold upd; [now rewrite !eqd_refl|]. rewrite !eqd_neq by congruence. symmetry. now apply A'. }
    specialize (Q Q1). clear Q1.
    assert (Q1 : forall r, In r (f_rows data) -> (qsum (map (th r) l) <= 1)%Qc).
    { intros r Jr. apply cond_sum; [exact Kl|exact N2|now apply row_valid]. }
    specialize (Q Q1). clear Q1.
    rewrite (map_ext_in _ (fun r => th r (row_asg r v))).
    - rewrite (map_ext_in (fun r => ratio _ _) (fun r => (qn (state_n _ _ (f_rows data) eqd (fun r => row_asg r v) (like (preds q v)) r (row_asg r v)) / qn (total_n _ (f_rows data) (like (preds q v)) r))%Qc)); [exact Q|].
      intros r Jr. unfold ratio. fold (qn (count data (part (v :: preds q v) (ro r)))). fold (qn (count data (part (preds q v) (ro r)))).
      f_equal.
      + f_equal. rewrite count_part by auto. unfold state_n. f_equal. apply filter_ext. intros r'. unfold like at 1. cbn [forallb]. fold (like (preds q v) r r').
        rewrite andb_comm. reflexivity.
      + f_equal. f_equal. now rewrite count_part.
    - intros r Jr. unfold cond, th.
      rewrite (part_mass D F endo (row_asg r) (ro r) (v :: preds q v) (fun w J => row_get r w Jr J) I2), (part_mass D F endo (row_asg r) (ro r) (preds q v) (fun w J => row_get r w Jr J) I1).
      f_equal. f_equal. apply obs_same. intros w J. unfold upd. destruct (eqd w v) as [-> | ]; reflexivity.
  Qed.

  Variable topo : digraph -> list var.
  Hypothesis Hto : sorts topo.
  Hypothesis Hq : m_qgraph topo m = Ok q.
  Hypothesis Wq : wf_graph q.
  Hypothesis Nq : forall v, In v (nodes q) <-> In v endo.
  Hypothesis Ac : acyclic q.
  Lemma bound_all : (likelihood_of D F data endo <= empirical q data)%Qc.
  Proof.
    unfold likelihood_of, empirical.
    rewrite (map_ext_in _ (fun r => product_of (map (cond D F q (ro r)) (nodes q)))).
    - change product_of with qprod.
      rewrite (qprod_swap (fun r => cond D F q (ro r)) (f_rows data) (nodes q)),
        (qprod_swap (fun r v => ratio (count data (part (v :: preds q v) (ro r))) (count data (part (preds q v) (ro r)))) (f_rows data) (nodes q)).
      apply qprod_le. intros v J. apply Nq in J. split; [|now apply bound_one].
      apply qprod_nonneg. intros y K. apply in_map_iff in K as (r & <- & K). unfold cond, Qcdiv. destruct (Pq v J) as (N1 & I1 & N2).
      assert (I2 : incl (v :: preds q v) endo) by (intros w [<- | Jw]; auto).
      apply nn_mul; [|apply inv_nn]; apply (part_nonneg m D F vt endo HC); auto; apply (row_full D data endo r HD K (proj1 WD)).
    - intros r J. symmetry. apply (cond_product topo Hto m D F vt endo HC q Hq Wq Nq Pq Ac). apply (row_full D data endo r HD J (proj1 WD)).
  Qed.
End Rows.
