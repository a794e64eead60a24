(** Where EM stops for exogenous variables that share no children. *)

From Coq Require Import String Bool Arith ZArith QArith Qcanon Lia Permutation List.
From Verif Require Import PyBase PyFacts Num DomainModel DomainFacts NdArray StoreModel NumStore FactorModel GraphModel ModelModel InferModel
  LearnModel Spec StoreSpec FactorSpec GraphSpec ModelSpec NetSpec EmSpec QSpec GradSpec LearnSpec
  StoreFacts FactorFacts NumFacts BigSum FactorSem NetSem NetFacts GraphFacts GraphFacts2 PropFacts1 ModelFacts BuildFacts EmMath EmFacts2 EmFacts3 EmFacts4 EmFacts5
  EmFacts6 EmFacts7 VeFacts4 LearnFacts LearnFacts2 QFacts5 QFacts6 GradFacts1 GradFacts2 GradFacts3 GradFacts4 OptSpec OptFacts1 OptFacts2.
From Coq Require Import List.
Import ListNotations.
Local Open Scope nat_scope.
Local Arguments eqd : simpl never.

Lemma nsum_fins (l : list Qc) : nsum (map Fin l) = Fin (total l).
Proof. induction l as [|x l IH]; [reflexivity|]. cbn [map]. rewrite nsum_cons, IH. reflexivity. Qed.

Section Top.
  Variables (m : pgm) (D : domain) (F0 : var -> mfactor) (vt : vtype) (endo : list var).
  Hypothesis HC : causal_tables m D F0 vt endo.
  Variables (data : frame) (E : list var).
  Hypothesis OD : observes D data E.
  Hypothesis IE : incl endo E.
  Notation g := (m_graph m).
  Let H : network m D F0 vt := proj1 HC.
  Let WD : wf_dom D := net_wd m D F0 vt H.

  (** tables with the same equations *)
  Definition like (F : var -> mfactor) : Prop :=
    (forall v, In v endo -> F v = F0 v) /\ (forall v, In v (nodes g) -> cpt D vt v (preds g v) (F v)) /\ nonnegative D F.
  (** parameters of [U] that are as good as any *)
  Definition top (U : var) (theta0 : list Qc) : Prop :=
    forall theta, distribution (length (states_of D U)) theta -> (mixtures D F0 g U theta data <= mixtures D F0 g U theta0 data)%Qc.

  Lemma like_ct F : like F -> causal_tables (with_tables m F) D F vt endo.
  Proof. intros (_ & Cp & NN). now apply (with_tables_ct m D F0 F vt endo HC). Qed.
  Lemma like_sole F U : like F -> sole_cause g F0 endo U -> sole_cause (m_graph (with_tables m F)) F endo U.
  Proof.
    intros (Le & _) (H1 & H2 & H3 & H4). split; [exact H1|]. split; [exact H2|]. split; [exact H3|]. intros v A. cbn [with_tables m_graph] in A.
    rewrite Le; [now apply H4|]. now apply (arc_endo m D F0 vt endo HC) in A.
  Qed.
  Lemma like_mixtures F U theta : like F -> mixtures D F g U theta data = mixtures D F0 g U theta data.
  Proof.
    intros (Le & _). unfold mixtures. f_equal. apply map_ext. intros r. unfold mixture. f_equal. apply map_ext. intros st. do 2 f_equal.
    apply map_ext_in. intros v J. apply in_succs in J. rewrite Le; [reflexivity|]. now apply (arc_endo m D F0 vt endo HC) in J.
  Qed.
  Lemma like_cpt F U : like F -> sole_cause g F0 endo U -> cpt D vt U [] (F U).
  Proof.
    intros (_ & Cp & _) HU. rewrite <- (U_root m D F0 vt endo HC U HU). apply Cp. apply HU.
  Qed.
  Lemma like_nn F U : like F -> sole_cause g F0 endo U -> forall o, full (mf_domain (F U)) o -> (0 <= entry (F U) o)%Qc.
  Proof. intros (_ & _ & NN) HU o Fo. apply NN; [|exact Fo]. apply (net_nodes m D F0 vt H). apply HU. Qed.
  Lemma like_replaces F U : like F -> sole_cause g F0 endo U -> replaces D vt U (F U).
  Proof. intros L HU. split; [now apply like_cpt|now apply like_nn]. Qed.
  Lemma like_retabled F U G : like F -> sole_cause g F0 endo U -> retabled D vt g F U G -> like G.
  Proof.
    intros (Le & Cp & NN) HU (Go & Cg & Ng). split; [|split].
    - intros v J. rewrite Go; [auto|]. intros ->. now apply HU.
    - intros v J. destruct (eqd v U) as [-> | N]; [exact Cg|]. rewrite Go by auto. now apply Cp.
    - intros v o J Fo. destruct (eqd v U) as [-> | N]; [now apply Ng|]. rewrite Go in * by auto. now apply NN.
  Qed.

  Lemma share_of F U : like F -> sole_cause g F0 endo U -> ~ In U E ->
    exists c, (0 <= c)%Qc /\ forall G, (forall v, v <> U -> G v = F v) -> replaces D vt U (G U) ->
      likelihood D G data = (mixtures D F0 g U (params D G U) data * c)%Qc.
  Proof.
    intros L HU NU. destruct (likelihood_share (with_tables m F) D F vt endo (like_ct F L) data E OD IE U (like_sole F U L HU) NU) as (c & Cn & Q).
    exists c. split; [exact Cn|]. intros G Go Rg. rewrite (Q G Go Rg). cbn [with_tables m_graph]. now rewrite (like_mixtures F U _ L).
  Qed.

  Lemma best_top F U : like F -> sole_cause g F0 endo U -> ~ In U E -> (0 < likelihood D F data)%Qc -> best_table D vt g data F U -> top U (params D F U).
  Proof.
    intros L HU NU Lp B theta Ht. destruct (share_of F U L HU NU) as (c & Cn & Q).
    destruct (table_made m D F0 vt endo HC U HU theta Ht) as (f & _ & Rf & Pf).
    set (G := fun w => if eqd w U then f else F w).
    assert (GU : G U = f) by (unfold G; now rewrite eqd_refl).
    assert (Go : forall v, v <> U -> G v = F v) by (intros v N; unfold G; now rewrite eqd_neq).
    assert (Rg : replaces D vt U (G U)) by now rewrite GU.
    assert (Eg := Q G Go Rg). assert (Ef := Q F (fun _ _ => eq_refl) (like_replaces F U L HU)).
    rewrite (Pf G GU) in Eg. assert (Lg : (likelihood D G data <= likelihood D F data)%Qc).
    { apply B. split; [exact Go|]. rewrite (U_root m D F0 vt endo HC U HU). exact Rg. }
    rewrite Eg, Ef in Lg. rewrite Ef in Lp. set (a := mixtures D F0 g U theta data) in *. set (b := mixtures D F0 g U (params D F U) data) in *.
    clearbody a b. clear - Lg Lp Cn. destruct (Qclt_le_dec b a) as [C|C]; [|exact C]. exfalso.
    assert (Cp : (0 < c)%Qc). { apply Qcle_lt_or_eq in Cn as [X|X]; [exact X|]. rewrite <- X, Qcmult_0_r in Lp. discriminate Lp. }
    qcnra.
  Qed.

  Lemma top_best F U : like F -> sole_cause g F0 endo U -> ~ In U E -> top U (params D F U) -> best_table D vt g data F U.
  Proof.
    intros L HU NU Tp G Rt. assert (LG := like_retabled F U G L HU Rt). destruct (share_of F U L HU NU) as (c & Cn & Q).
    rewrite (Q G (proj1 Rt) (like_replaces G U LG HU)), (Q F (fun _ _ => eq_refl) (like_replaces F U L HU)).
    assert (T := Tp (params D G U) (params_distribution m D F0 vt endo HC U HU G (like_cpt G U LG HU) (like_nn G U LG HU))).
    set (a := mixtures D F0 g U (params D G U) data) in *. set (b := mixtures D F0 g U (params D F U) data) in *. clearbody a b. qcnra.
  Qed.

  Lemma tops_global F : like F ->
    (forall U, In U (nodes g) -> ~ In U endo -> sole_cause g F0 endo U /\ ~ In U E /\ top U (params D F U)) ->
    forall G, like G -> (likelihood D G data <= likelihood D F data)%Qc.
  Proof.
    intros L Ht G LG. set (tr := filter (fun v => negb (mem v endo)) (nodes g)).
    assert (Htr : forall U, In U tr <-> In U (nodes g) /\ ~ In U endo) by (intros U; unfold tr; rewrite filter_In, negb_true_iff, mem_nIn; tauto).
    assert (S := swap_likelihood (with_tables m G) D G vt endo (like_ct G LG) data E OD IE F tr).
    eapply Qcle_trans; [apply S|].
    - intros U J. apply Htr in J as [J1 J2]. destruct (Ht U J1 J2) as (HU & NU & Tp). split; [now apply like_sole|].
      split; [now apply like_replaces|]. split; [exact NU|]. cbn [with_tables m_graph]. rewrite !(like_mixtures G U _ LG).
      apply Tp. apply (params_distribution m D F0 vt endo HC U HU G (like_cpt G U LG HU) (like_nn G U LG HU)).
    - rewrite (likelihood_keys D F (swap G F tr)); [apply Qcle_refl|]. intros v J. apply (net_nodes m D F0 vt H) in J.
      destruct (in_dec eqd v tr) as [K|K]; [now apply swap_in|]. rewrite swap_out by auto.
      assert (Je : In v endo). { destruct (in_dec eqd v endo) as [Y|Y]; [exact Y|]. exfalso. apply K. apply Htr. auto. }
      rewrite (proj1 LG v Je), (proj1 L v Je). reflexivity.
  Qed.

  (** the table of a root is given by its parameters *)
  Lemma params_entries F F' U o : like F -> like F' -> sole_cause g F0 endo U -> params D F' U = params D F U -> In o (all_assignments D) ->
    entry (F' U) o = entry (F U) o.
  Proof.
    intros L L' HU Q Io.
    assert (Ev : forall s, In s (states_of D U) -> entry (F' U) [(U, s)] = entry (F U) [(U, s)]).
    { unfold params in Q. clear - Q. induction (states_of D U) as [|x l IH]; intros s J; [destruct J|]. cbn [map] in Q. injection Q as Q1 Q2.
      destruct J as [<- | J]; [exact Q1|now apply IH]. }
    assert (Gf := cpt_good D vt U _ _ (like_cpt F U L HU)). assert (Gf' := cpt_good D vt U _ _ (like_cpt F' U L' HU)).
    destruct (some_valid D WD) as (a & Va). assert (Vo := over_all_valid m D F0 vt H o a Io). 
    assert (Iu : In U (keys D)) by (apply (net_nodes m D F0 vt H), HU).
    rewrite (entry_over m D F0 vt H (F U) o a Gf Io), (entry_over m D F0 vt H (F' U) o a Gf' Io). set (b := over o a) in *.
    rewrite <- (entry_fv D vt (F U) b [(U, b U)] Gf Vo), <- (entry_fv D vt (F' U) b [(U, b U)] Gf' Vo).
    - apply Ev. unfold GradSpec.states_of. apply keys_In in Iu as (l & Iu). rewrite (In_dget U l D (proj1 WD) Iu). now apply Vo.
    - intros w J. apply (cpt_vars D vt U _ _ w (like_cpt F' U L' HU)) in J. destruct J as [-> | []]. cbn. now rewrite eqd_refl.
    - intros w J. apply (cpt_vars D vt U _ _ w (like_cpt F U L HU)) in J. destruct J as [-> | []]. cbn. now rewrite eqd_refl.
  Qed.

  (** ** Runs *)
  Variables (query : pgm -> list var -> obs -> res mfactor) (set_iter : list var -> list var) (no_divergence : list num -> list num -> res bool).
  Hypothesis Hq : exact_query query.
  Hypothesis Hs : iterates set_iter.
  Hypothesis Hd : divergence_test no_divergence.

  Lemma checked p q Fp Fq evo vs : network p D Fp vt -> network q D Fq vt -> m_graph p = g -> m_graph q = g -> like Fp -> like Fq ->
    (forall U, In U vs -> sole_cause g F0 endo U) ->
    forall conv, exists conv', check_converged no_divergence (evo ++ [p; q]) vs conv = (conv', Ok tt) /\
      forall U, In U conv' -> In U conv \/ (In U vs /\ params D Fp U = params D Fq U).
  Proof.
    intros Np Nq Gp Gq Lp Lq. induction vs as [|v vs IH]; intros Hv conv; cbn [check_converged].
    { exists conv. split; [reflexivity|auto]. }
    assert (Hv' : forall U, In U vs -> sole_cause g F0 endo U) by (intros U J; apply Hv; now right).
    assert (Weak : forall conv, exists conv', check_converged no_divergence (evo ++ [p; q]) vs conv = (conv', Ok tt) /\
      forall U, In U conv' -> In U conv \/ (In U (v :: vs) /\ params D Fp U = params D Fq U)).
    { intros c0. destruct (IH Hv' c0) as (c1 & Q & R). exists c1. split; [exact Q|]. intros U J. destruct (R U J) as [X|[X Y]]; [auto|]. right. split; [now right|exact Y]. }
    destruct (mem v conv); [apply Weak|].
    assert (HU : sole_cause g F0 endo v) by (apply Hv; now left). assert (Jv : In v (nodes g)) by apply HU.
    unfold last_two. rewrite rev_app_distr. cbn [rev app bind].
    assert (Sp := proj1 (proj2 (proj2 (proj2 (proj2 (proj2 (proj2 Np))))) v ltac:(now rewrite Gp))).
    assert (Sq := proj1 (proj2 (proj2 (proj2 (proj2 (proj2 (proj2 Nq))))) v ltac:(now rewrite Gq))).
    unfold stored in Sp, Sq. unfold dlook. cbn [fst snd]. rewrite Sp, Sq. cbn [bind fo_values].
    rewrite (values_params m D F0 vt endo HC v HU Fp (like_cpt Fp v Lp HU)), (values_params m D F0 vt endo HC v HU Fq (like_cpt Fq v Lq HU)).
    cbn [bind].
    assert (Dp := params_distribution m D F0 vt endo HC v HU Fp (like_cpt Fp v Lp HU) (like_nn Fp v Lp HU)).
    assert (Dq := params_distribution m D F0 vt endo HC v HU Fq (like_cpt Fq v Lq HU) (like_nn Fq v Lq HU)).
    assert (Fins : forall theta, distribution (length (states_of D v)) theta -> Forall (fun x => exists q, x = Fin q /\ (0 <= q)%Qc) (map Fin theta)).
    { intros theta (_ & N & _). apply Forall_forall. intros x J. apply in_map_iff in J as (y & <- & J). exists y. auto. }
    destruct (Hd (map Fin (params D Fp v)) (map Fin (params D Fq v)) (Fins _ Dp) (Fins _ Dq)) as (A & B).
    { rewrite !nsum_fins. f_equal. rewrite (proj2 (proj2 Dp)), (proj2 (proj2 Dq)). reflexivity. }
    destruct (list_eq_dec Qc_eq_dec (params D Fp v) (params D Fq v)) as [Q|Q].
    - rewrite A by now rewrite Q. destruct (IH Hv' (conv ++ [v])) as (c1 & Q1 & R). exists c1. split; [exact Q1|]. intros U J.
      destruct (R U J) as [X|[X Y]].
      + apply in_app_iff in X as [X | [<- | []]]; [auto|]. right. split; [now left|exact Q].
      + right. split; [now right|exact Y].
    - rewrite B; [apply Weak|]. intros Q'. apply Q. clear - Q'. revert Q'. generalize (params D Fq v). induction (params D Fp v) as [|x l IH]; intros [|y k] Q'; try discriminate Q'; auto.
      cbn in Q'. injection Q' as Q1 Q2. f_equal; auto.
  Qed.

  Definition settled_at (l : learner em_state) (mc : pgm) (F : var -> mfactor) : Prop :=
    m_graph mc = g /\ like F /\ (exists evo p, model_evolution l = evo ++ [p] /\ network p D F vt /\ m_graph p = g) /\
    (forall U, trains l U -> sole_cause g F0 endo U /\ ~ In U E /\ rules_nothing_out D F data U) /\
    (forall U, has_converged l U -> trains l U /\ top U (params D F U)).

  Lemma loop_top : forall fuel max i l mc F l' o, ready D vt E data l mc F -> settled_at l mc F ->
    run_loop em_process_data (em_calculate query set_iter vt) (em_stop no_divergence) fuel max i l = (l', o) ->
    exists m' F', ready D vt E data l' m' F' /\ settled_at l' m' F' /\ (max = None -> o = Done -> forall U, trains l U -> has_converged l' U).
  Proof.
    induction fuel as [|fuel IH]; intros max i l mc F l' o Rd St Er; cbn [run_loop] in Er.
    - destruct max as [k|].
      + destruct (i <? k)%Z; injection Er as <- <-; exists mc, F; (split; [exact Rd|]; split; [exact St|]; discriminate).
      + injection Er as <- <-. exists mc, F. split; [exact Rd|]. split; [exact St|]. discriminate.
    - destruct (match max with Some k => (i <? k)%Z | None => true end) eqn:Go.
      2:{ injection Er as <- <-. exists mc, F. split; [exact Rd|]. split; [exact St|]. intros ->. discriminate. }
      destruct (em_step query set_iter vt l None) as [l1 oe] eqn:Es.
      assert (Es' := Es). unfold em_step in Es'. rewrite Es' in Er. clear Es'.
      destruct (step_most query set_iter vt Hq Hs D E data OD l mc F Rd) as [A B].
      assert (Cases : (forall v, trains l v -> ~ has_converged l v -> informed (m_graph mc) E v) \/
                      (exists v, trains l v /\ ~ has_converged l v /\ ~ informed (m_graph mc) E v)).
      { destruct Rd as (Rs & Lr). assert (Rs' := Rs). destruct Rs' as (El & Net & NN & _ & _ & _ & _ & (tr & Et & It)).
        assert (Q : forall vs, incl vs tr -> (forall v, In v vs -> ~ has_converged l v -> informed (m_graph mc) E v) \/
                      (exists v, In v vs /\ ~ has_converged l v /\ ~ informed (m_graph mc) E v)).
        { induction vs as [|v vs IHv]; intros Iv; [left; intros ? []|].
          destruct IHv as [X | (w & X1 & X2)]; [intros x J; apply Iv; now right| |right; exists w; split; [now right|exact X2]].
          destruct (in_dec eqd v (em_converged (l_sub l))) as [C|C]; [left; intros w [<- | J] N; [contradiction|auto]|].
          destruct (informed_or mc D F vt Net E data OD v) as [I | I]; [apply Lr; [exists tr; split; [exact Et|apply Iv; now left]|exact C]| |].
          - left. intros w [<- | J] N; auto.
          - right. exists v. split; [now left|]. split; auto. }
        destruct (Q tr (incl_refl _)) as [X | (w & X1 & X2 & X3)].
        - left. intros v (tr' & Q' & J) C. rewrite Et in Q'. injection Q' as <-. auto.
        - right. exists w. split; [exists tr; auto|auto]. }
      destruct Cases as [Inf | Ni].
      2:{ rewrite (B Ni) in Es. injection Es as <- <-. injection Er as <- <-. exists mc, F. split; [exact Rd|]. split; [exact St|]. discriminate. }
      destruct (A Inf) as (m1 & F1 & l2 & Es2 & P1 & P2 & P3 & P4 & Rd1 & L1 & Un & _ & Nt & Cv). rewrite Es in Es2. injection Es2 as -> ->.
      destruct St as (Gm & Lk & (evo & p & Ev & Np & Gp) & Tr & Co).
      assert (Rd' := Rd1). destruct Rd' as ((El1 & Net1 & NN1 & Gp1 & Dp1 & Ed1 & Mr1 & (tr & Et & It)) & Lr1).
      assert (Tl : forall U, trains l2 U <-> trains l U) by (intros U; unfold trains; rewrite P2; tauto).
      assert (Cl : forall U, has_converged l2 U <-> has_converged l U) by (intros U; unfold has_converged; rewrite P2; tauto).
      assert (Un' : forall v, ~ trains l v \/ has_converged l v -> F1 v = F v) by (intros v [N|C]; auto).
      assert (Lk1 : like F1).
      { split; [|split; [|exact NN1]].
        - intros v J. rewrite Un; [now apply Lk|]. intros Tv. destruct (Tr v Tv) as ((_ & N & _) & _). auto.
        - intros v J. assert (C := net_cpt m1 D F1 vt Net1 v). rewrite P4, Gm in C. apply C. apply (net_nodes m D F0 vt H). exact J. }
      assert (Ro1 : forall U, trains l U -> rules_nothing_out D F1 data U).
      { intros U TU. destruct (Tr U TU) as (HU & NU & Ro). apply (kept_new vt D E data OD l mc F F1 Rd Nt Un' U); [|exact Ro].
        apply (net_nodes m D F0 vt H), HU. }
      assert (Hv : forall U, In U tr -> trains l U). { intros U J. apply Tl. exists tr. auto. }
      destruct (em_stop no_divergence l2) as (s1 & r1) eqn:Est. unfold em_stop, trainable_list in Est. rewrite Et in Est.
      assert (E1 : model_evolution l2 = evo ++ [p; m1]) by (rewrite P3, Ev, <- app_assoc; reflexivity).
      destruct (checked p m1 F F1 evo tr Np Net1 Gp ltac:(congruence) Lk Lk1 (fun U J => proj1 (Tr U (Hv U J))) (em_converged (l_sub l2))) as (conv & Ecc & Cc).
      rewrite E1, Ecc in Est. cbn [bind] in Est. injection Est as <- <-.
      set (s1 := MkE (Some tr) conv (em_data (l_sub l2))) in *.
      assert (Gr : incl (em_converged (l_sub l2)) conv) by (apply check_converged_grows in Ecc as [Y _]; exact Y).
      assert (Rd2 : ready D vt E data (with_sub l2 s1) m1 F1).
      { split; [|intros v (tr2 & Q & J) C; cbn in Q; apply Lr1; [exists tr; split; [exact Et|congruence]|]; intros C'; apply C; apply Gr; exact C'].
        split; [exact El1|]. split; [auto|]. split; [auto|]. split; [exact Gp1|]. split; [exact Dp1|]. split; [exact Ed1|]. split; [auto|].
        exists tr. split; [reflexivity|auto]. }
      assert (Tt : forall v, trains (with_sub l2 s1) v <-> trains l v).
      { intros v. rewrite <- Tl. unfold trains. cbn [with_sub l_sub s1 em_trainable]. now rewrite Et. }
      assert (St2 : settled_at (with_sub l2 s1) m1 F1).
      { split; [congruence|]. split; [exact Lk1|]. split; [|split].
        - exists (evo ++ [p]), m1. split; [cbn; rewrite <- app_assoc; exact E1|]. split; [exact Net1|congruence].
        - intros U TU. apply Tt in TU. destruct (Tr U TU) as (X1 & X2 & _). auto.
        - intros U CU. rewrite Tt. unfold has_converged in CU. cbn [with_sub l_sub s1 em_converged] in CU. destruct (Cc U CU) as [Old | [JU Pu]].
          + apply Cl in Old. destruct (Co U Old) as [TU Tp]. split; [exact TU|]. unfold params in *. rewrite (Un' U) by auto. exact Tp.
          + assert (TU := Hv U JU). split; [exact TU|]. rewrite <- Pu.
            destruct (in_dec eqd U (em_converged (l_sub l))) as [C|C]; [now apply Co|].
            destruct (Tr U TU) as (HU & NU & Ro). apply (best_top F U Lk HU NU).
            * destruct Rd as ((_ & Net & NN & _ & _ & _ & Mr & _) & _). unfold likelihood. rewrite product_qprod. apply qprod_pos.
              intros x J. apply in_map_iff in J as (r & <- & J). destruct (proj2 (proj2 OD) r J) as (_ & _ & Kn).
              assert (N := mass_nonneg mc D F vt Net _ NN Kn). apply Qcle_lt_or_eq in N as [N|N]; [exact N|]. destruct (Mr r J). auto.
            * intros G Rt. rewrite <- (Qcmult_1_l (likelihood D F data)).
              assert (P1' : power 1 (length (f_rows data)) = 1%Qc) by (rewrite power_pw; apply pw_1). rewrite <- P1'.
              apply (gap_new vt D E data OD l mc F U (F1 U) 1 Rd TU C (Nt U TU C) Ro); [|rewrite Gm; exact Rt].
              intros o' Io. rewrite (params_entries F F1 U o' Lk Lk1 HU (eq_sym Pu) Io), Qcmult_1_l. apply Qcle_refl. }
      destruct (set_eqb tr conv) eqn:Eb.
      { injection Er as <- <-. exists m1, F1. split; [exact Rd2|]. split; [exact St2|]. intros _ _ U TU.
        apply set_eqb_iff in Eb. apply Eb. apply Tt in TU. destruct TU as (tr2 & Q & J). cbn in Q. congruence. }
      destruct (IH max (i + 1)%Z (with_sub l2 s1) m1 F1 l' o Rd2 St2 Er) as (m' & F' & X1 & X2 & X3). exists m', F'.
      split; [exact X1|]. split; [exact X2|]. intros Q1 Q2 U TU. apply X3; auto. now apply Tt.
  Qed.
End Top.
