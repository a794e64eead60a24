(** Runs of EM that end because nothing changes. *)

From Coq Require Import String Bool Arith ZArith QArith Qcanon Lia Permutation List.
From Verif Require Import PyBase PyFacts Num DomainModel DomainFacts NdArray StoreModel NumStore FactorModel GraphModel ModelModel InferModel
  LearnModel Spec StoreSpec FactorSpec GraphSpec ModelSpec NetSpec EmSpec QSpec GradSpec LearnSpec PipeSpec
  StoreFacts FactorFacts NumFacts BigSum FactorSem NetSem NetFacts GraphFacts GraphFacts2 PropFacts1 ModelFacts BuildFacts EmMath EmFacts2 EmFacts3 EmFacts4 EmFacts5
  EmFacts6 EmFacts7 VeFacts4 LearnFacts LearnFacts2 UaiFacts QFacts5 QFacts6 GradFacts1 GradFacts2 GradFacts3 GradFacts4 OptSpec OptFacts1 OptFacts2 OptFacts3.
From Coq Require Import List.
Import ListNotations.
Local Open Scope nat_scope.
Local Arguments eqd : simpl never.

Section Runs.
  Variables (query : pgm -> list var -> obs -> res mfactor) (set_iter : list var -> list var) (no_divergence : list num -> list num -> res bool) (vt : vtype).
  Hypothesis Hq : exact_query query.
  Hypothesis Hs : iterates set_iter.
  Hypothesis Hd : divergence_test no_divergence.
  Variables (prior : pgm) (D : domain) (F : var -> mfactor) (endo E : list var) (data : frame).
  Hypothesis HC : causal_tables prior D F vt endo.
  Hypothesis Dp : describes D prior.
  Hypothesis OD : observes D data E.
  Hypothesis IE : incl endo E.
  Hypothesis Hr : f_rows data <> [].
  Hypothesis Mr : forall r, In r (f_rows data) -> mass D F (row_obs data r) <> 0%Qc.
  Notation g := (m_graph prior).
  Notation data' := (add_missing prior data).
  Let H : network prior D F vt := proj1 HC.
  Let WG : wf_graph g := net_wg prior D F vt H.
  Let NC : NoDup (f_cols data) := proj1 OD.

  Lemma all_trained v : ~ In v E /\ (In v (nodes g) \/ In v (f_cols data)) -> In v (incomplete_columns data').
  Proof.
    assert (data_cols : forall v, In v (nodes g) -> In v (f_cols data')).
    { intros w J. cbn [add_missing f_cols]. apply in_or_app. destruct (in_dec eqd w (f_cols data)) as [I | N]; [now left|]. right.
      apply filter_In. split; [exact J|]. apply negb_true_iff. now apply mem_nIn. }
    intros [NE K]. unfold incomplete_columns. apply filter_In. split.
    - destruct K as [K | K]; [now apply data_cols|]. cbn [add_missing f_cols]. apply in_or_app. now left.
    - destruct (f_rows data') as [|r rows] eqn:Q.
      { cbn [add_missing f_rows] in Q. apply map_eq_nil in Q. contradiction. }
      apply existsb_exists. exists r. split; [now left|].
      assert (Jr : In r (f_rows data')) by (rewrite Q; now left).
      destruct (observes_added prior data WG NC D E OD) as (_ & _ & OR). destruct (OR r Jr) as (Lr & Kr & _).
      destruct (dget v (row_dict (f_cols data') r)) as [[s|]|] eqn:Qv; [|reflexivity|].
      + exfalso. apply NE. rewrite <- Kr. apply dget_keys. exists s. unfold row_obs. apply known_get; [apply row_dict_NoDup|exact Qv].
      + exfalso. assert (Kc : forall (cs : list var) (rs : list (option state)), length rs = length cs -> keys (combine cs rs) = cs).
        { induction cs as [|c cs IH]; intros [|x rs] Q'; cbn in *; try discriminate; [auto|]. f_equal. apply IH. congruence. }
        unfold row_dict in Qv. rewrite dict_of_id in Qv by (rewrite Kc by exact Lr; exact (cols_NoDup prior data WG NC)).
        apply dget_None in Qv. apply Qv. rewrite Kc by exact Lr.
        destruct K as [K | K]; [now apply data_cols|]. cbn [add_missing f_cols]. apply in_or_app. now left.
  Qed.

  Lemma rules_added G v : rules_nothing_out D G data v -> rules_nothing_out D G data' v.
  Proof.
    intros R r' p Jr Jp C. apply rows_added in Jr as (r & Jr & ->). rewrite row_obs_added in C; [|exact WG|exact NC|apply OD, Jr]. now apply (R r p).
  Qed.
  Lemma best_added G v : best_table D vt g data' G v -> best_table D vt g data G v.
  Proof. intros B X Rt. assert (Q := B X Rt). now rewrite !(likelihood_added prior data WG NC D E OD) in Q. Qed.
  Lemma sole_learnable U : sole_cause g F endo U -> ~ In U E -> learnable D F g data E U.
  Proof.
    intros HU NU. assert (R := U_root prior D F vt endo HC U HU). split; [apply HU|]. split; [exact NU|]. split.
    - intros x A. apply in_preds in A. rewrite R in A. destruct A.
    - rewrite R. intros t (Kt & _). destruct t; [|discriminate Kt].
      assert (Ex : exists r, In r (f_rows data)) by (clear - Hr; destruct (f_rows data) as [|r rows]; [congruence|exists r; now left]).
      destruct Ex as (r & Jr). exists r. split; [exact Jr|]. now apply Mr.
  Qed.

  Theorem run_top tr fuel max l' o m' F' : (forall U, to_train tr g data E U -> sole_cause g F endo U /\ ~ In U E /\ rules_nothing_out D F data U) ->
    em_run query set_iter no_divergence vt fuel (em_init prior tr) data max = (l', o) -> l_model l' = Some m' -> network m' D F' vt ->
    (forall U, has_converged l' U -> best_table D vt g data F' U) /\
    ((forall u, exogenous prior endo u -> has_converged l' u) -> forall m2 G, keeps_equations prior D F vt endo m2 G ->
       (likelihood D G data <= likelihood D F' data)%Qc) /\
    (max = None -> o = Done -> forall U, to_train tr g data E U -> has_converged l' U).
  Proof.
    intros Ht Er Em' Net'.
    unfold em_run, run, initialize in Er. cbn [l_prior em_init] in Er. destruct (m_copy prior) as [m0|e] eqn:Ec.
    2:{ injection Er as <- <-. discriminate Em'. }
    destruct (copy_network _ _ _ _ _ H Ec) as [G0 Net0].
    unfold em_process_data in Er. cbn [l_model l_prior l_sub l_evo em_trainable em_converged em_data em_init with_sub] in Er.
    set (tr' := match tr with Some (v :: r) => v :: r | _ => incomplete_columns data' end) in *.
    assert (OD' := observes_added prior data WG NC D E OD).
    assert (Htr : forall v, In v tr' -> to_train tr g data E v).
    { intros v J. unfold to_train, tr' in *. destruct tr as [[|x r]|]; [|exact J|]; now apply (incomplete_ok _ _ WG NC D E OD). }
    assert (Htr' : forall v, to_train tr g data E v -> In v tr').
    { intros v J. unfold to_train, tr' in *. destruct tr as [[|x r]|]; [|exact J|]; now apply all_trained. }
    set (l0 := MkL prior (Some m0) None (MkE (Some tr') [] (Some (m_graph m0, data')))) in *.
    assert (T0 : forall v, trains l0 v <-> In v tr').
    { intros v. split; [intros (t & Q & J); cbn in Q; injection Q as <-; exact J|intros J; exists tr'; split; [reflexivity|exact J]]. }
    assert (Rd : ready D vt E data' l0 m0 F).
    { split; [split; [reflexivity|]; split; [auto|]; split; [apply HC|]; split; [symmetry; exact G0|]; split; [exact Dp|]; split; [reflexivity|]; split|].
      - intros r' J. apply rows_added in J as (r & J & ->). rewrite row_obs_added; auto. apply OD, J.
      - exists tr'. split; [reflexivity|]. rewrite G0. intros v J. destruct (Ht v (Htr v J)) as (HU & _). apply HU.
      - intros v Tv _. apply T0 in Tv. rewrite G0. apply (learnable_added _ _ WG NC D E OD). destruct (Ht v (Htr v Tv)) as (HU & NU & _). now apply sole_learnable. }
    assert (Lk : like prior D F vt endo F).
    { split; [auto|]. split; [|apply HC]. intros v J. apply (net_cpt prior D F vt H). now apply (net_nodes prior D F vt H). }
    assert (St : settled_at prior D F vt endo data' E l0 m0 F).
    { split; [exact G0|]. split; [exact Lk|]. split; [|split].
      - exists [], prior. split; [reflexivity|]. split; [exact H|reflexivity].
      - intros U TU. apply T0 in TU. destruct (Ht U (Htr U TU)) as (HU & NU & Ro). split; [exact HU|]. split; [exact NU|]. now apply rules_added.
      - intros U []. }
    destruct (loop_top prior D F vt endo HC data' E OD' IE query set_iter no_divergence Hq Hs Hd fuel max 0%Z l0 m0 F l' o Rd St Er)
      as (m1 & F1 & Rd1 & St1 & Dn).
    assert (Rd1' := Rd1). destruct Rd1' as ((El1 & Net1 & NN1 & _) & _). assert (m1 = m') as -> by congruence.
    assert (Eq : forall v, In v (keys D) -> F' v = F1 v).
    { intros v J. apply (net_nodes m' D F1 vt Net1) in J.
      assert (S1 := proj1 (proj2 (proj2 (proj2 (proj2 (proj2 (proj2 Net'))))) v J)).
      assert (S2 := proj1 (proj2 (proj2 (proj2 (proj2 (proj2 (proj2 Net1))))) v J)). unfold stored in S1, S2. congruence. }
    destruct St1 as (Gm & Lk1 & _ & Tr1 & Co1).
    assert (Lk2 : like prior D F vt endo F').
    { destruct Lk1 as (A1 & A2 & A3). assert (I := ct_endo prior D F vt endo HC). split; [|split].
      - intros v J. rewrite Eq; [now apply A1|]. apply (net_nodes prior D F vt H), I, J.
      - intros v J. rewrite Eq; [now apply A2|]. now apply (net_nodes prior D F vt H).
      - intros v x J. rewrite Eq by auto. now apply A3. }
    assert (Tp : forall U, has_converged l' U -> sole_cause g F endo U /\ ~ In U E /\ top prior D F data' U (params D F' U)).
    { intros U C. destruct (Co1 U C) as (TU & Q). destruct (Tr1 U TU) as (HU & NU & _). split; [exact HU|]. split; [exact NU|].
      unfold params in *. rewrite Eq; [exact Q|]. apply (net_nodes prior D F vt H), HU. }
    split; [|split].
    - intros U C. destruct (Tp U C) as (HU & NU & Q). apply best_added. now apply (top_best prior D F vt endo HC data' E OD' IE F' U).
    - intros All m2 G (Gg & _ & (HCg & _) & Ge). rewrite <- !(likelihood_added prior data WG NC D E OD).
      apply (tops_global prior D F vt endo HC data' E OD' IE F' Lk2).
      + intros U J1 J2. apply Tp, All. split; auto.
      + split; [exact Ge|]. split; [|apply HCg]. intros v J. assert (Hg := proj1 HCg). rewrite <- Gg. apply (net_cpt m2 D G vt Hg).
        apply (net_nodes prior D F vt H). exact J.
    - intros Q1 Q2 U TU. apply Dn; auto. now apply T0, Htr'.
  Qed.
End Runs.
