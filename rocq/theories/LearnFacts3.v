(** Expectation maximization over a history of calls. *)

From Coq Require Import String Bool Arith ZArith QArith Qcanon Lia List.
From Verif Require Import PyBase Num DomainModel NdArray StoreModel NumStore FactorModel GraphModel ModelModel InferModel
  LearnModel PyFacts Spec StoreSpec FactorSpec GraphSpec ModelSpec ModelFacts BuildFacts LearnSpec LearnFacts LearnFacts2.
Import ListNotations.
Local Open Scope nat_scope.
Local Arguments eqd : simpl never.

Section EmHistory.
  Variable query : pgm -> list var -> obs -> res mfactor.
  Variable set_iter : list var -> list var.
  Variable no_divergence : list num -> list num -> res bool.
  Variable dflt : vtype.
  Hypothesis IT : iterates set_iter.
  Variable prior : pgm.
  Hypothesis SP : settled prior.
  Hypothesis NP : NoDup (keys (m_factors prior)).

  Notation calc := (em_calculate query set_iter dflt).
  Notation stop := (em_stop no_divergence).
  Notation estep := (em_step query set_iter dflt).
  Notation erun := (em_run query set_iter no_divergence dflt).

  (** The models added to the evolution have the prior factor of every variable
      that is not trainable or is in [vs], where all of [vs] have converged. *)
  Definition agrees (vs : list var) (ms : list pgm) (l : learner em_state) : Prop :=
    l_prior l = prior /\ (forall m, l_model l = Some m -> fits prior m) /\
    incl vs (em_converged (l_sub l)) /\
    (exists ms', model_evolution l = ms ++ ms' /\
       forall v f, In v (nodes (m_graph prior)) -> stored prior v f -> ~ trains l v \/ In v vs ->
       forall m, In m ms' \/ l_model l = Some m -> stored m v f) /\
    forall v, has_converged l v -> trains l v.

  Variable vs : list var.

  Lemma agrees_sub ms l s : agrees vs ms l ->
    (forall v, trains l v -> exists tr, em_trainable s = Some tr /\ In v tr) ->
    incl (em_converged (l_sub l)) (em_converged s) ->
    (forall v, In v (em_converged s) -> has_converged l v \/ trains l v) -> agrees vs ms (with_sub l s).
  Proof.
    intros (P & F & W & (ms' & V & A) & C) T I D. split; auto. split; auto. split.
    { intros v Iv. apply I. auto. }
    split.
    - exists ms'. split; auto. intros v f Iv St K. apply A; auto. destruct K as [K|]; auto. left. intros X. apply K. apply T. auto.
    - intros v Cv. apply T. apply D in Cv as [Cv|]; auto.
  Qed.

  Lemma agrees_process ms l d s e : agrees vs ms l -> em_process_data l d = (s, e) -> agrees vs ms (with_sub l s).
  Proof.
    intros A E. apply em_process_keeps in E as (C & T & _). apply agrees_sub; auto.
    - rewrite C. apply incl_refl.
    - intros v. rewrite C. auto.
  Qed.

  Lemma agrees_step0 ms l l' e : agrees vs ms l -> estep l None = (l', e) -> agrees vs ms l'.
  Proof.
    intros A E. destruct e as [e|].
    - unfold em_step, step in E. cbn [em_calculate] in E.
      destruct (let* pcounts := expectation query set_iter dflt l in maximization set_iter (l_sub l) pcounts) as [probs|e1].
      + apply update_raises in E as ->. destruct l. exact A.
      + injection E as <- _. destruct l. exact A.
    - pose proof A as (P & F & W & (ms' & V & H) & C).
      assert (M : exists m, l_model l = Some m).
      { unfold em_step in E. apply (step_ok _ _ (em_dicts _ _ _ IT)) in E as (m & _ & _ & _ & Em & _). eauto. }
      destruct M as (m & Em).
      destruct (em_step_keeps query set_iter dflt IT l None l' m) as (m' & Em' & F' & P' & Su & V' & St); auto;
        rewrite ?P; auto.
      rewrite P in *.
      split; auto. split; [intros m1 E1; rewrite Em' in E1; injection E1 as <-; auto|]. split; [rewrite Su; auto|]. split.
      + exists (ms' ++ [m']). split; [rewrite V', V, app_assoc; auto|].
        intros v f I Sv K m1 I1. unfold trains in K. rewrite Su in K. fold (trains l v) in K.
        assert (Hm : stored m' v f).
        { apply St; auto. destruct K; auto. right. apply W. auto. }
        destruct I1 as [I1|I1].
        * apply in_app_or in I1 as [I1|[<-|[]]]; auto.
        * rewrite Em' in I1. injection I1 as <-. auto.
      + intros v Cv. unfold trains, has_converged in *. rewrite Su in *. auto.
  Qed.

  Lemma agrees_step ms l data l' e : agrees vs ms l -> estep l data = (l', e) -> agrees vs ms l'.
  Proof.
    destruct data as [d|]; [|apply agrees_step0].
    intros A E. unfold em_step, step in E. destruct (em_process_data l d) as [s [e1|]] eqn:Ep.
    - injection E as <- _. eapply agrees_process; eauto.
    - eapply agrees_step0; [eapply agrees_process; eauto|exact E].
  Qed.

  Lemma agrees_loop fuel max ms : forall i l l' o, agrees vs ms l ->
    run_loop em_process_data calc stop fuel max i l = (l', o) -> agrees vs ms l'.
  Proof.
    induction fuel as [|fuel IH]; intros i l l' o A E; cbn [run_loop] in E.
    - destruct (match max with Some k => Z.ltb i k | None => true end); injection E as <- _; auto.
    - destruct (match max with Some k => Z.ltb i k | None => true end); [|injection E as <- _; auto].
      destruct (step em_process_data calc l None) as [l1 [e|]] eqn:Es.
      + injection E as <- _. eapply agrees_step; eauto.
      + apply (agrees_step ms) in Es; auto. destruct (stop l1) as [s r] eqn:Et.
        pose proof Et as Et'. apply em_stop_keeps in Et' as (T & I & D).
        assert (A2 : agrees vs ms (with_sub l1 s)).
        { apply agrees_sub; auto. unfold trains. rewrite T. auto. }
        destruct r as [[|]|e]; try (injection E as <- _; auto). eapply IH; eauto.
  Qed.

  (** A run: the part of the evolution that it adds. *)
  Lemma agrees_initialize ms l data l0 e : agrees vs ms l -> initialize em_process_data l data = (l0, e) ->
    agrees vs ms l0.
  Proof.
    intros A. unfold initialize. destruct (m_copy (l_prior l)) as [m|e1] eqn:Em; [|intros E; injection E as <- _; auto].
    destruct (em_process_data _ data) as [s e1] eqn:Ep. intros E. injection E as <- _.
    eapply agrees_process; [|exact Ep]. destruct A as (P & F & W & (ms' & V & H) & C). rewrite P in Em.
    destruct (copy_fits _ _ SP NP Em) as (Fm & St).
    split; auto. split; [intros m1 E1; injection E1 as <-; auto|]. split; auto. split; [|exact C].
    exists ms'. split; auto. intros v f I Sv K m1 [I1|I1].
    - apply (H v f I Sv K). auto.
    - injection I1 as <-. auto.
  Qed.

  Lemma agrees_run fuel ms l data max l' o : agrees vs ms l -> erun fuel l data max = (l', o) -> agrees vs ms l'.
  Proof.
    unfold em_run, run. intros A E. destruct (initialize em_process_data l data) as [l0 [e|]] eqn:Ei.
    - injection E as <- _. eapply agrees_initialize; eauto.
    - eapply agrees_loop; [|exact E]. eapply agrees_initialize; eauto.
  Qed.

  Lemma agrees_history ms cs : forall l, agrees vs ms l ->
    agrees vs ms (history em_process_data calc stop l cs).
  Proof.
    induction cs as [|c cs IH]; intros l A; auto.
    change (agrees vs ms (history em_process_data calc stop (perform em_process_data calc stop l c) cs)).
    apply IH. destruct c as [fuel data max|data]; cbn [perform].
    - destruct (run em_process_data calc stop fuel l data max) as [l' o] eqn:E. eapply agrees_run; eauto.
    - destruct (step em_process_data calc l data) as [l' e] eqn:E. eapply agrees_step; eauto.
  Qed.
End EmHistory.

Section EmResults.
  Variable query : pgm -> list var -> obs -> res mfactor.
  Variable set_iter : list var -> list var.
  Variable no_divergence : list num -> list num -> res bool.
  Variable dflt : vtype.
  Hypothesis IT : iterates set_iter.

  Notation calc := (em_calculate query set_iter dflt).
  Notation stop := (em_stop no_divergence).
  Notation estep := (em_step query set_iter dflt).
  Notation erun := (em_run query set_iter no_divergence dflt).
  Notation after := (history em_process_data calc stop).

  Lemma em_start prior tr : agrees prior [] [] (em_init prior tr).
  Proof.
    split; auto. split; [discriminate|]. split; [apply incl_nil_l|]. split.
    - exists [prior]. split; auto. intros v f I St _ m [[<-|[]]|E]; auto. discriminate.
    - intros v [].
  Qed.

  Lemma em_untrained prior tr cs v f : settled prior -> NoDup (keys (m_factors prior)) ->
    let l := after (em_init prior tr) cs in
    In v (nodes (m_graph prior)) -> stored prior v f -> ~ trains l v ->
    forall m, In m (model_evolution l) \/ l_model l = Some m -> stored m v f.
  Proof.
    intros S N l I St T m Im.
    destruct (agrees_history query set_iter no_divergence dflt IT prior S N [] [] cs _ (em_start prior tr))
      as (_ & _ & _ & (ms' & V & H) & _).
    fold l in V, H. cbn [app] in V. rewrite V in Im. eapply H; eauto.
  Qed.

  Lemma trains_dec l v : trains l v \/ ~ trains l v.
  Proof.
    unfold trains. destruct (em_trainable (l_sub l)) as [tr|].
    - destruct (in_dec eqd v tr) as [I|I].
      + left. exists tr. auto.
      + right. intros (tr' & E & I'). congruence.
    - right. intros (tr' & E & I'). discriminate.
  Qed.

  Lemma em_initialized prior l data l0 : settled prior -> NoDup (keys (m_factors prior)) -> l_prior l = prior ->
    (forall v, has_converged l v -> trains l v) -> initialize em_process_data l data = (l0, None) ->
    agrees prior (em_converged (l_sub l)) (model_evolution l) l0.
  Proof.
    intros S N P C E. subst prior. apply em_initialize_fits in E as (P & (m & Em & F) & Cv & T & _ & V & H); auto.
    rewrite P in F. split; auto. split; [intros m1 E1; rewrite Em in E1; injection E1 as <-; auto|].
    split; [rewrite Cv; apply incl_refl|]. split.
    - exists []. rewrite app_nil_r. split; auto. intros v f I St _ m1 [[]|E1].
      destruct (H v f St) as (m2 & E2 & St2). congruence.
    - intros v Iv. apply T. apply C. unfold has_converged in *. rewrite <- Cv. auto.
  Qed.

  (** A run started after some variables have converged. *)
  Lemma em_converged_run prior tr cs fuel data max l' o : settled prior -> NoDup (keys (m_factors prior)) ->
    let l := after (em_init prior tr) cs in
    erun fuel l data max = (l', o) ->
    exists ms, model_evolution l' = model_evolution l ++ ms /\
      forall v f, In v (nodes (m_graph prior)) -> stored prior v f -> has_converged l v ->
      forall m, In m ms -> stored m v f.
  Proof.
    intros S N l E.
    pose proof (agrees_history query set_iter no_divergence dflt IT prior S N [] [] cs _ (em_start prior tr))
      as (P & _ & _ & _ & C). fold l in P, C.
    unfold em_run, run in E. destruct (initialize em_process_data l data) as [l0 [e|]] eqn:Ei.
    - injection E as <- _. apply initialize_keeps in Ei as (_ & V & _). exists []. rewrite app_nil_r. split; auto.
      intros v f _ _ _ m [].
    - pose proof (em_initialized _ _ _ _ S N P C Ei) as A.
      apply (agrees_loop query set_iter no_divergence dflt IT prior S) with (vs := em_converged (l_sub l)) (ms := model_evolution l) in E; auto.
      destruct E as (_ & _ & _ & (ms & V & H) & _). exists ms. split; auto.
  Qed.

  Lemma check_all_converged evo vs conv : (forall v, In v vs -> In v conv) ->
    check_converged no_divergence evo vs conv = (conv, Ok tt).
  Proof.
    induction vs as [|v vs IH]; intros H; auto. cbn [check_converged].
    rewrite (proj2 (mem_In v conv)) by (apply H; left; auto). apply IH. intros w I. apply H. right. auto.
  Qed.

  Lemma em_rerun prior tr cs fuel data max l' o : settled prior -> NoDup (keys (m_factors prior)) ->
    let l := after (em_init prior tr) cs in
    (exists v, trains l v) -> (forall v, trains l v -> has_converged l v) ->
    erun fuel l data max = (l', o) ->
    exists ms, model_evolution l' = model_evolution l ++ ms /\ length ms <= 1 /\
      forall v f, In v (nodes (m_graph prior)) -> stored prior v f -> forall m, In m ms -> stored m v f.
  Proof.
    intros S N l (v0 & T0) TC E.
    pose proof (agrees_history query set_iter no_divergence dflt IT prior S N [] [] cs _ (em_start prior tr))
      as (P & _ & _ & _ & C). fold l in P, C.
    unfold em_run, run in E. destruct (initialize em_process_data l data) as [l0 [e|]] eqn:Ei.
    - injection E as <- _. apply initialize_keeps in Ei as (_ & V & _). exists []. rewrite app_nil_r. split; auto. split; auto.
      intros v f _ _ m [].
    - pose proof (em_initialized _ _ _ _ S N P C Ei) as A.
      pose proof (agrees_loop query set_iter no_divergence dflt IT prior S (em_converged (l_sub l)) _ _ _ _ _ _ _ A E) as (_ & _ & _ & (ms & V & H) & _).
      assert (Tr : forall v, trains l0 v <-> trains l v).
      { apply em_initialize_fits in Ei as (_ & _ & _ & T1 & T2 & _); rewrite ?P; auto.
        intros v. split; auto. destruct (trains_dec l v) as [|X]; auto. intros Y. destruct (T2 v0 T0 v X Y). }
      assert (Cc : em_converged (l_sub l0) = em_converged (l_sub l)).
      { apply em_initialize_fits in Ei; rewrite ?P; tauto. }
      exists ms. split; auto.
      assert (L1 : length ms <= 1).
      { pose proof (loop_trace _ _ stop (em_dicts query set_iter dflt IT) _ _ _ _ _ _ E) as (ts & ms1 & G & F & _ & _ & V1 & _).
        assert (ms1 = ms).
        { apply initialize_keeps in Ei as (_ & V2 & _). rewrite V2, V in V1. apply app_inv_head in V1. auto. }
        subst ms1. pose proof (Forall2_length _ _ _ F) as L. rewrite <- L.
        destruct ts as [|t [|t1 ts]]; cbn; auto. exfalso.
        destruct G as (G1 & s & Gs & _).
        assert (Su : l_sub t = l_sub l0).
        { apply (step_ok _ _ (em_dicts query set_iter dflt IT)) in G1 as (m & s1 & probs & m' & _ & Ec & _ & _ & _ & ->).
          cbn. apply em_probs in Ec as (Es & _); auto. }
        unfold em_stop in Gs. rewrite Su in Gs. unfold trainable_list in Gs.
        destruct (em_trainable (l_sub l0)) as [tr0|] eqn:Et; [|discriminate].
        rewrite check_all_converged in Gs.
        2: { intros v I. rewrite Cc. apply TC. apply Tr. exists tr0. auto. }
        cbn [bind] in Gs. injection Gs as _ Gs.
        assert (X : set_eqb tr0 (em_converged (l_sub l0)) = true).
        { apply set_eqb_iff. intros v. rewrite Cc. split; intros I.
          - apply TC. apply Tr. exists tr0. auto.
          - apply C in I. apply Tr in I as (tr1 & E1 & I1). congruence. }
        congruence. }
      split; auto. intros v f I St m Im.
      apply (H v f I St); auto. destruct (trains_dec l v) as [X|X].
      + right. apply TC in X. auto.
      + left. intros Y. apply X.
        assert (Z : exists t, l_sub l' = t) by eauto. clear Z.
        assert (B : forall w, trains l' w -> trains l0 w).
        { clear - E IT. intros w. unfold trains.
          enough (B : em_trainable (l_sub l') = em_trainable (l_sub l0)) by (rewrite B; auto).
          revert l0 E. generalize 0%Z. induction fuel as [|fuel IH]; intros i l0 E; cbn [run_loop] in E.
          - destruct (match max with Some k => Z.ltb i k | None => true end); injection E as <- _; auto.
          - destruct (match max with Some k => Z.ltb i k | None => true end); [|injection E as <- _; auto].
            destruct (step em_process_data calc l0 None) as [l1 e] eqn:Es.
            assert (Su : l_sub l1 = l_sub l0).
            { destruct e as [e|].
              - unfold step in Es. cbn [em_calculate] in Es.
                destruct (let* pcounts := expectation query set_iter dflt l0 in maximization set_iter (l_sub l0) pcounts) as [probs|e1].
                + apply update_raises in Es as ->. auto.
                + injection Es as <- _. auto.
              - apply (step_ok _ _ (em_dicts query set_iter dflt IT)) in Es as (m & s1 & probs & m' & _ & Ec & _ & _ & _ & ->).
                cbn. apply em_probs in Ec as (Es & _); auto. }
            destruct e as [e|]; [injection E as <- _; rewrite Su; auto|].
            destruct (stop l1) as [s r] eqn:Et. apply em_stop_keeps in Et as (T & _).
            destruct r as [[|]|e]; try (injection E as <- _; cbn; rewrite T, Su; auto).
            apply IH in E. rewrite E. cbn. rewrite T, Su. auto. }
        apply Tr. apply B. auto.
  Qed.

  (** A step after convergence, outside run. *)
  Lemma em_frozen_step prior tr cs data l' v f : settled prior -> NoDup (keys (m_factors prior)) ->
    let l := after (em_init prior tr) cs in
    estep l data = (l', None) -> In v (nodes (m_graph prior)) -> has_converged l v \/ ~ trains l' v ->
    holds_factor l v f -> holds_factor l' v f.
  Proof.
    intros S N l E I C (m & Em & St).
    pose proof (agrees_history query set_iter no_divergence dflt IT prior S N [] [] cs _ (em_start prior tr))
      as (P & F & _). fold l in P, F.
    destruct (em_step_keeps query set_iter dflt IT l data l' m) as (m' & Em' & _ & _ & Su & _ & H); rewrite ?P; auto.
    exists m'. split; auto. apply H; auto; rewrite ?P; auto. destruct C as [C|C]; auto. left. unfold trains in *. rewrite <- Su. auto.
  Qed.
End EmResults.
