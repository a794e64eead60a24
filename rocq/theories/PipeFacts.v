(** What one run of EM or of the gradient learner on a randomised model gives. *)

From Coq Require Import String Bool Arith ZArith QArith Qcanon Lia Permutation List.
From Verif Require Import PyBase PyFacts Num DomainModel NdArray StoreModel NumStore FactorModel GenModel GenSpec Spec StoreSpec DomainFacts StoreFacts
  NumFacts PropFacts1 FactorSpec FactorFacts FactorFacts2 FactorFacts3 GenFacts2 GraphModel GraphSpec GraphFacts
  ModelModel ModelSpec ModelFacts NetSpec NetSem FactorSem NetFacts VeFacts4 BuildFacts InferModel InferChecks CausalModel CausalSpec
  CausalFacts BigSum UaiModel LearnModel LearnSpec LearnFacts EmSpec EmMath EmFacts1 EmFacts3 EmFacts6 EmFacts7 EmFacts8 AggModel AggFacts2 ConvModel ConvSpec ConvFacts
  ConvFacts2 ConvFacts3 GradModel QSpec QFacts5 GradSpec GradFacts2 GradFacts3 GradFacts4 PipeModel PipeSpec.
From Coq Require Import List.
Import ListNotations.
Local Open Scope nat_scope.
Local Arguments eqd : simpl never.

Lemma structural_causal m D F vt endo : structural m D F vt endo -> exists cast, m_kind m = KScm endo cast /\ causal m D F vt endo cast.
Proof.
  intros [HC Z]. destruct (ct_kind m D F vt endo HC) as (cast & Ek). exists cast. split; [exact Ek|].
  destruct HC as (Net & _ & _ & Ie & Ar). assert (Net' := Net). destruct Net' as (W & A & WD & SD & NF & SF & St).
  split; [exact Ek|]. do 6 (split; [assumption|]). split; [|exact Ar].
  intros v J. destruct (St v J) as [Sv C]. exists (FM (F v)). split; [exact Sv|]. split; [reflexivity|]. split; [exact C|]. auto.
Qed.

Section Start.
  Variables (m : pgm) (D : domain) (F : var -> mfactor) (vt : vtype) (endo : list var).
  Hypothesis HS : structural m D F vt endo.
  Notation g := (m_graph m).
  Notation exo := (agg_trainable m None).
  Let HC : causal_tables m D F vt endo := proj1 HS.
  Let Net : network m D F vt := proj1 HC.
  Let WD : wf_dom D := net_wd m D F vt Net.

  Lemma exo_In u : In u exo <-> exogenous m endo u.
  Proof.
    unfold agg_trainable, scm_exogenous, exogenous. rewrite (ct_scm m D F vt endo HC), filter_In, negb_true_iff, mem_nIn. tauto.
  Qed.
  Lemma exo_root u : exogenous m endo u -> preds g u = [].
  Proof.
    intros [_ N]. destruct (preds g u) as [|x r] eqn:Q; [reflexivity|]. exfalso. apply N, (ct_root m D F vt endo HC x u). apply in_preds. rewrite Q. now left.
  Qed.
  Lemma zero_one_finite v o : In v endo -> full (mf_domain (F v)) o -> (0 <= entry (F v) o)%Qc.
  Proof.
    intros J Fo. unfold entry. destruct (proj2 HS v J o Fo) as [-> | ->]; discriminate.
  Qed.

  Variable draw : nat -> var -> list num.
  Hypothesis HD : drawn_exogenous m D endo draw.

  (** The randomised model: the exogenous tables have positive entries. *)
  Lemma start_ok i : exists prior F0, randomize_factors vt m exo false (draw i) = Ok prior /\
    keeps_equations m D F vt endo prior F0 /\ describes D prior /\ keys (m_domains prior) = nodes g /\
    forall u o, exogenous m endo u -> full (mf_domain (F0 u)) o -> (0 < entry (F0 u) o)%Qc.
  Proof.
    destruct (structural_causal m D F vt endo HS) as (cast & Ek & Ca).
    assert (Hdr : forall x, In x exo -> drawn_for (order_dom D (preds g x ++ [x])) (preds g x) false (draw i x)).
    { intros x J. apply exo_In in J. rewrite (exo_root x J). cbn [app order_dom map]. now apply HD. }
    destruct (randomize_copy_ok m D F vt endo cast Ca exo false (draw i)) as (prior & F0 & Er & C0 & G0 & Keep & KeepS & New & Pr).
    { intros x J. apply exo_In in J. apply J. } { exact Hdr. } { intros x J. apply exo_In in J. apply J. }
    assert (KE : forall v, In v endo -> F0 v = F v).
    { intros v J. apply Keep; [now apply (ct_endo m D F vt endo HC)|]. intros K. apply exo_In in K. now apply K. }
    assert (Pos : forall u o, exogenous m endo u -> full (mf_domain (F0 u)) o -> (0 < entry (F0 u) o)%Qc).
    { intros u o Hu Fo. assert (J := proj2 (exo_In u) Hu). destruct (New u J) as [_ Ef]. rewrite (exo_root u Hu) in Ef. cbn [app order_dom map] in Ef.
      assert (Iu : In (u, states_of D u) D).
      { unfold states_of. assert (K := proj2 (net_nodes m D F vt Net u) (proj1 Hu)). apply dget_keys in K as (l & Q). rewrite Q. now apply dget_In. }
      destruct (HD i u Hu) as (Ld & Hx & _).
      destruct (random_multinomial_ok [(u, states_of D u)] [] vt false (draw i u)) as (f & Ef' & _ & Df & _ & _ & _ & Hf).
      - apply (usable_one u _ D); [apply (causal_usable m D F vt endo cast Ca)|exact Iu].
      - constructor.
      - intros x [].
      - exact Ld.
      - exact Hx.
      - intros X; exfalso; clear -X; congruence.
      - assert (Q : F0 u = f) by (unfold states_of in Ef'; rewrite Ef' in Ef; now injection Ef). rewrite Q in *. rewrite Df in Fo. destruct (Hf o Fo) as (q & Gq & _ & Pq). unfold entry. rewrite Gq. now apply Pq. }
    assert (St0 : forall v, In v (nodes (m_graph prior)) -> stored prior v (FM (F0 v))).
    { intros v J. rewrite G0 in J. destruct (in_dec eqd v exo) as [K | K]; [apply (New v K)|]. rewrite (Keep v J K). apply KeepS; [|exact K].
      now apply (proj2 (proj2 (proj2 (proj2 (proj2 (proj2 Net)))))). }
    assert (Net0 := causal_network prior D F0 vt endo cast C0 St0).
    exists prior, F0. split; [exact Er|]. split; [|split; [|split; [|exact Pos]]].
    - split; [exact G0|]. split; [rewrite (proj1 C0); auto|]. split; [|exact KE]. split.
      + split; [exact Net0|]. split; [|split; [exists cast; apply C0|split; [rewrite G0; apply (ct_endo m D F vt endo HC)|apply C0]]].
        intros v o J Fo. destruct (in_dec eqd v endo) as [K | K]; [rewrite (KE v K) in *; now apply zero_one_finite|].
        apply Qclt_le_weak, Pos; [|exact Fo]. split; [now apply (net_nodes m D F vt Net)|exact K].
      + intros v J. rewrite (KE v J). now apply (proj2 HS).
    - destruct Pr as (Wp & _ & _ & Kd & Hp). split; [rewrite Kd; apply Wp|]. intros v l J.
      assert (Jn : In v (nodes (m_graph prior))) by (rewrite G0; apply (net_nodes m D F vt Net), keys_In; eauto).
      destruct (Hp v Jn) as [[Q _] | (f & l' & _ & Hl & J')].
      { specialize (St0 v Jn). unfold stored in St0. congruence. }
      assert (l' = l) by (apply (In_dget _ _ _ (proj1 WD)) in J', J; congruence). now subst.
    - destruct Pr as (_ & _ & _ & Kd & _). now rewrite Kd, G0.
  Qed.

  (** Explained data has a positive probability. *)
  Lemma explained_mass prior F0 data E : keeps_equations m D F vt endo prior F0 ->
    (forall u o, exogenous m endo u -> full (mf_domain (F0 u)) o -> (0 < entry (F0 u) o)%Qc) ->
    observes D data E -> explained D F endo data -> forall r, In r (f_rows data) -> (0 < mass D F0 (row_obs data r))%Qc.
  Proof.
    intros (G0 & _ & (C0 & _) & KE) Pos OD Ex r Jr. assert (N0 := ct_net prior D F0 vt endo C0).
    destruct (Ex r Jr) as (o & Fo & Ag & Eq).
    assert (Fin_full : forall v p, In v (keys D) -> full D p -> full (mf_domain (F0 v)) p).
    { intros v p J Fp. eapply good_full; [|exact Fp]. now apply (net_good prior D F0 vt N0). }
    destruct (canonical D o (proj1 WD) Fo) as [Jp Sp]. set (p := obs_of (keys D) (asg_of o)) in *.
    assert (Fp : full D p) by (apply (all_assignments_In_full D p (proj1 WD)); exact Jp).
    assert (Cp : consistent (row_obs data r) p = true).
    { unfold consistent. apply forallb_forall. intros (v & s) J. cbn [fst snd]. destruct (dget v (row_obs data r)) as [x|] eqn:Q; [|reflexivity].
      apply dget_In, Ag in Q.
      assert (Kp : keys p = keys D) by (apply (all_assignments_In_full D p (proj1 WD)); exact Jp).
      assert (Kv : In v (keys D)) by (rewrite <- Kp; apply keys_In; eauto).
      assert (Qp : dget v p = Some s) by (apply In_dget; [rewrite Kp; apply WD|exact J]).
      rewrite Sp in Qp by exact Kv. assert (x = s) as -> by congruence. now rewrite eqd_refl. }
    assert (Jnt : (0 < joint F0 (keys D) p)%Qc).
    { unfold joint. rewrite product_qprod. apply qprod_pos. intros x Jx. apply in_map_iff in Jx as (v & <- & Jv).
      destruct (in_dec eqd v endo) as [K | K].
      - rewrite (KE v K). unfold entry.
        assert (Q : mf_get_value (F v) p = mf_get_value (F v) o).
        { assert (Cv := net_cpt m D F vt Net v Jv). apply get_value_agree; [apply Cv|eapply good_full; [|exact Fo]; now apply (net_good m D F vt Net)|].
          intros w Jw. apply Sp. apply keys_In in Jw as (l & Jw). apply keys_In. exists l. now apply Cv. }
        rewrite Q, (Eq v K). reflexivity.
      - apply Pos; [|now apply Fin_full]. split; [now apply (net_nodes m D F vt Net)|exact K]. }
    unfold mass. rewrite total_qsum.
    assert (Nn : forall x, In x (map (joint F0 (keys D)) (filter (consistent (row_obs data r)) (all_assignments D))) -> (0 <= x)%Qc).
    { intros x Jx. apply in_map_iff in Jx as (q & <- & Jq). apply filter_In in Jq as [Jq _].
      unfold joint. rewrite product_qprod. apply qprod_nonneg. intros y Jy. apply in_map_iff in Jy as (v & <- & Jv).
      apply (ct_nn prior D F0 vt endo C0); [exact Jv|]. apply Fin_full; [exact Jv|]. apply (all_assignments_In_full D q (proj1 WD)); exact Jq. }
    assert (Ip : In (joint F0 (keys D) p) (map (joint F0 (keys D)) (filter (consistent (row_obs data r)) (all_assignments D)))).
    { apply in_map, filter_In. auto. }
    apply qsum_pos; [exact Nn|]. exists (joint F0 (keys D) p). auto.
  Qed.

  Lemma explained_likelihood prior F0 data E : keeps_equations m D F vt endo prior F0 ->
    (forall u o, exogenous m endo u -> full (mf_domain (F0 u)) o -> (0 < entry (F0 u) o)%Qc) ->
    observes D data E -> explained D F endo data -> (0 < likelihood D F0 data)%Qc.
  Proof.
    intros K P OD Ex. unfold likelihood. rewrite product_qprod. apply qprod_pos. intros x Jx. apply in_map_iff in Jx as (r & <- & Jr).
    eapply explained_mass; eauto.
  Qed.

  (** ** The two learners *)

  Variables (data : frame) (E : list var).
  Hypothesis HA : about m D endo data E.
  Hypothesis HU : exists u, exogenous m endo u.
  Let OD : observes D data E := proj1 HA.

  Lemma exo_nonempty : exo <> [].
  Proof. destruct HU as (u & J). apply exo_In in J. intros Q. rewrite Q in J. destruct J. Qed.

  Section EM.
    Variables (query : pgm -> list var -> obs -> res mfactor) (set_iter : list var -> list var) (no_divergence : list num -> list num -> res bool).
    Hypothesis Hq : exact_query query.
    Hypothesis Hs : iterates set_iter.
    Hypothesis Hd : decides no_divergence.
    Hypothesis Hx : explained D F endo data.
    Hypothesis Hc : forall u, exogenous m endo u -> exists v, arc g u v.

    Lemma child_informs u : exogenous m endo u -> informed g E u.
    Proof.
      intros Hu. destruct (Hc u Hu) as (v & A). exists v. destruct (id HA) as (_ & Ie & Nx & _).
      assert (Jv : In v E) by (apply Ie, (ct_root m D F vt endo HC u v A)). split; [exact Jv|]. exists v. split; [now left|].
      apply linked_fwd with (y := v); [|apply linked_refl]. split; [exact A|]. split; [now apply Nx|].
      exists v. split; [now right|]. now left.
    Qed.

    Lemma em_generate_ok max_iter i : exists l m' F' prior F0,
      em_generate query set_iter no_divergence vt m data None max_iter draw i = Ok (l, m') /\
      keeps_equations m D F vt endo m' F' /\ l_prior l = prior /\ l_model l = Some m' /\
      random_start m D F vt endo (draw i) prior F0 /\
      (0 < likelihood D F0 data)%Qc /\ (likelihood D F0 data <= likelihood D F' data)%Qc.
    Proof.
      destruct (start_ok i) as (prior & F0 & Er & KE & Dp & Kd & Pos). assert (KE' := KE). destruct KE' as (G0 & K0 & (C0 & Z0) & E0).
      assert (Net0 := ct_net prior D F0 vt endo C0).
      assert (Mr : forall r, In r (f_rows data) -> mass D F0 (row_obs data r) <> 0%Qc).
      { intros r Jr Q. assert (X := explained_mass prior F0 data E KE Pos OD Hx r Jr). rewrite Q in X. now apply Qclt_irrefl0 in X. }
      destruct (copy_ok prior D F0 vt endo C0 Z0) as (m0 & Ec & Gc & Nc & Bk).
      unfold em_generate. rewrite Er. cbn [bind].
      destruct (em_run query set_iter no_divergence vt (Z.to_nat max_iter) (em_init prior (Some exo)) data (Some max_iter)) as (l & o) eqn:Run.
      edestruct (run_done query set_iter no_divergence vt Hq Hs Hd D E data prior exo F0) as (No & m' & F' & X1 & X2 & X3 & X4 & X5 & X6 & X7 & X8);
        [exact Net0|exact (ct_nn prior D F0 vt endo C0)|exact Dp|exact OD|exact Mr|exact exo_nonempty|..|exact Run|].
      - intros v J. apply exo_In in J. rewrite G0. split; [|now apply child_informs]. destruct (id HA) as (_ & Ie & Nx & Nr).
        split; [apply J|]. split; [now apply Nx|]. split.
        + intros x A. exfalso. apply (proj2 J), (ct_root m D F vt endo HC x v A).
        + intros t At. rewrite (exo_root v J) in At. destruct At as [Kt _]. destruct t; [|discriminate].
          assert (X : exists r, In r (f_rows data)) by (clear - Nr; destruct (f_rows data) as [|r rows]; [congruence|exists r; now left]).
          destruct X as (r & Jr). exists r. split; [exact Jr|]. now apply Mr.
      - exists m0. split; [exact Ec|]. split; [congruence|].
        assert (NF : NoDup (keys (m_factor_dict prior))).
        { unfold m_factor_dict, keys. rewrite map_map. cbn [fst]. apply Net0. }
        unfold m_copy in Ec. apply builder_keeps in Ec as (_ & Km & _); [|exact NF]. rewrite Km. unfold built_kind.
        destruct (ct_kind prior D F0 vt endo C0) as (cast & Ek). rewrite Ek. f_equal. apply (kept_endo prior D F0 vt endo C0).
      - assert (o = Done) as ->.
        { destruct o as [|e|]; [reflexivity|now destruct (No e)|]. exfalso. eapply em_finishes; [exact Hs|exact Run|reflexivity]. }
        rewrite X1. exists l, m', F', prior, F0. split; [reflexivity|]. split; [|split; [exact X2|split; [exact X1|split; [split; [exact Er|split; [exact KE|exact Pos]]|split; [|exact X7]]]]].
        + split; [congruence|]. split; [congruence|].
          assert (E' : forall v, In v endo -> F' v = F v).
          { intros v J. rewrite X8; [now apply E0|]. intros K. apply exo_In in K. now apply K. }
          split; [|exact E']. split.
          * split; [exact X5|]. split; [exact X6|]. rewrite X3, X4. apply C0.
          * intros v J. rewrite (E' v J). now apply (proj2 HS).
        + eapply explained_likelihood; eauto.
    Qed.
  End EM.

  Section GD.
    Context {L : Type} (l0 : L) (ladd : L -> L -> L) (lopp : L -> L) (lg : Qc -> L) (lnan : L).
    Hypothesis LG : logarithm l0 ladd lg.
    Variable minimize : option Z -> (list Qc -> res (option L)) -> list num -> res (list Qc).
    Hypothesis SF : stays_feasible minimize.
    Hypothesis Hc : forall u, exogenous m endo u -> sole_cause g F endo u /\ distinct_name g u.

    Lemma gd_generate_ok k i : exists l m' F' prior F0,
      gd_generate L l0 ladd lopp lg lnan minimize vt m data None k draw i = Ok (l, m') /\
      keeps_equations m D F vt endo m' F' /\ l_prior l = prior /\ model_evolution l = [prior; m'] /\
      random_start m D F vt endo (draw i) prior F0 /\
      fitted lopp lg minimize k D g data (exogenous m endo) F0 F' /\
      (explained D F endo data -> 0 < likelihood D F0 data)%Qc /\
      forall lle, orders lopp lg lle -> descends lle minimize -> (likelihood D F0 data <= likelihood D F' data)%Qc.
    Proof.
      destruct (start_ok i) as (prior & F0 & Er & KE & Dp & Kd & Pos). assert (KE' := KE). destruct KE' as (G0 & K0 & (C0 & Z0) & E0).
      assert (TT : forall v, to_train (Some exo) (m_graph prior) data E v <-> exogenous m endo v).
      { intros v. rewrite <- exo_In. unfold to_train. assert (X := exo_nonempty). destruct exo; [congruence|tauto]. }
      unfold gd_generate. rewrite Er. cbn [bind].
      destruct (run_ok l0 ladd lopp lg lnan LG minimize SF D F0 vt endo E (gr_init prior (Some exo)) data k C0 Z0 Dp OD)
        as (l & m' & F' & X1 & X2 & X3 & X4 & X5 & X6 & X7 & X8 & X9).
      - apply HA.
      - cbn [gr_init l_sub gr_trainable l_prior]. intros v J. apply TT in J. destruct (Hc v J) as ((S1 & S2 & S3 & S4) & Nm). rewrite G0.
        split; [|split; [now apply HA|]].
        + split; [exact S1|]. split; [exact S2|]. split; [exact S3|]. intros w A. rewrite (E0 w (ct_root m D F vt endo HC v w A)). now apply S4.
        + intros w a b Jw. rewrite Kd in Jw. now apply Nm.
      - apply HA.
      - rewrite X1, X3. cbn [gr_init l_sub gr_trainable l_prior] in *. exists l, m', F', prior, F0. split; [reflexivity|].
        split; [|split; [exact X2|split; [exact X4|split; [split; [exact Er|split; [exact KE|exact Pos]]|split; [|split; [|exact X9]]]]]].
        + split; [congruence|]. split; [congruence|].
          assert (E' : forall v, In v endo -> F' v = F v).
          { intros v J. rewrite (proj1 X8); [now apply E0|]. intros K. apply TT in K. now apply K. }
          split; [|exact E']. split; [exact X7|]. intros v J. rewrite (E' v J). now apply (proj2 HS).
        + rewrite G0 in X8. destruct X8 as [Y1 Y2]. split.
          * intros v Nv. apply Y1. intros K. apply Nv. rewrite G0 in TT. now apply TT.
          * intros U JU. rewrite G0 in TT. apply Y2. now apply TT.
        + intros Ex. eapply explained_likelihood; eauto.
    Qed.
  End GD.
End Start.
