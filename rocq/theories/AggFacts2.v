(** Facts about randomised models and the aggregator of EM runs. *)

From Coq Require Import String Bool Arith ZArith QArith Qcanon Lia List.
From Verif Require Import PyBase Num DomainModel NdArray StoreModel NumStore FactorModel GenModel GraphModel ModelModel InferModel CausalModel UaiModel
  LearnModel AggModel PyFacts DomainFacts Spec StoreSpec FactorSpec GraphSpec ModelSpec ModelFacts BuildFacts LearnSpec LearnFacts LearnFacts2 LearnFacts3
  GraphFacts AggSpec AggFacts.
Import ListNotations.
Local Open Scope nat_scope.
Local Arguments eqd : simpl never.

Lemma foldM_inv {A B} (P : A -> Prop) (f : A -> B -> res A) l : forall a a', foldM f l a = Ok a' -> P a ->
  (forall a b a', In b l -> f a b = Ok a' -> P a -> P a') -> P a'.
Proof.
  induction l as [|b l IH]; intros a a' E Pa St; cbn [foldM] in E; [congruence|].
  apply bind_ok in E as (a1 & E1 & E). eapply IH; [exact E| |].
  - eapply St; [now left|exact E1|exact Pa].
  - intros x y z J. apply St. now right.
Qed.

Lemma set_nodup m v f m' : set_factor m v f = (m', None) -> NoDup (keys (m_factors m)) -> NoDup (keys (m_factors m')).
Proof. intros E N. apply set_factor_keeps in E as (_ & _ & _ & f' & _ & ->). now apply NoDup_dset. Qed.
Lemma set_or_raise_inv m v f m' : set_or_raise m v f = Ok m' -> set_factor m v f = (m', None).
Proof. unfold set_or_raise. destruct (set_factor m v f) as [m1 [e|]]; [discriminate|]. intros E. injection E as <-. reflexivity. Qed.

Lemma copy_nodup m m' : NoDup (nodes (m_graph m)) -> m_copy m = Ok m' -> NoDup (keys (m_factors m')).
Proof.
  intros N E. unfold m_copy, m_builder in E.
  assert (Fr : forall c k, NoDup (keys (m_factors (fresh (m_graph m) c k)))).
  { intros c k. cbn [fresh m_factors]. unfold keys. rewrite map_map. cbn [fst]. rewrite map_id. exact N. }
  assert (Go : forall c k, foldM (fun m vf => set_or_raise m (fst vf) (snd vf)) (m_factor_dict m) (fresh (m_graph m) c k) = Ok m' ->
    NoDup (keys (m_factors m'))).
  { intros c k E0. eapply (foldM_inv (fun m => NoDup (keys (m_factors m)))); [exact E0|apply Fr|].
    intros a (v & f) a' _ E1 Na. apply set_or_raise_inv in E1. eapply set_nodup; eauto. }
  destruct (m_kind m) as [|endo cast].
  - unfold bn_init in E. apply bind_ok in E as (g & Eg & E). apply initialize_same in Eg as ->. eapply Go, E.
  - unfold scm_init in E. apply bind_ok in E as (g & Eg & E). apply initialize_same in Eg as ->.
    destruct endo as [|e endo]; cbn [bind] in E; eapply Go, E.
Qed.

Section Randomize.
  Variables (dflt : vtype) (az : bool) (draw : var -> list num).

  (** the factor drawn for [x] in a model with the graph [g] *)
  Definition drawn (g : digraph) (x : var) (f : mfactor) : Prop :=
    exists dom, keys dom = preds g x ++ [x] /\
      random_multinomial dom (preds g x) dflt az (draw x) = Ok f.

  Lemma parents_keys dom g x d : wf_graph g -> acyclic g -> In x (nodes g) -> var_parents_domain dom g x = Ok d ->
    keys d = preds g x ++ [x].
  Proof.
    intros W A I E. unfold var_parents_domain, relevat_vars in E. apply bind_ok in E as (vs & Ev & E).
    apply bind_ok in Ev as (ps & Ep & Ev). injection Ev as <-. unfold predecessors in Ep.
    destruct (mem x (nodes g)); [|discriminate]. injection Ep as <-.
    apply bind_ok in E as (l & El & E). injection E as <-. apply mapM_ok in El.
    assert (K : keys l = preds g x ++ [x]).
    { clear - El. induction El as [|v (w & y) vs l E _ IH]; [reflexivity|]. cbn [keys map fst]. f_equal; [|exact IH].
      apply bind_ok in E as (z & _ & E). congruence. }
    rewrite dict_of_id; [exact K|]. rewrite K. apply NoDup_app_intro.
    - apply preds_NoDup, W.
    - repeat constructor. intros [].
    - intros v J [<-|[]]. apply in_preds in J. apply (A x). now apply walk_one.
  Qed.

  Lemma randomize_steps vars : forall m m', wf_graph (m_graph m) -> acyclic (m_graph m) ->
    foldM (fun m x =>
           let* vs := relevat_vars (m_graph m) x in
           if existsb (fun w => match dget w (m_domains m) with Some None => true | _ => false end) vs
           then Raise TypeError else
           let* dom := var_parents_domain (known_domains m) (m_graph m) x in
           let* f := random_multinomial dom (filter (fun v => if eqd x v then false else true) (keys dom)) dflt az (draw x) in
           match set_factor m x (FM f) with
           | (m, None) => Ok m
           | (_, Some e) => Raise e
           end) vars m = Ok m' ->
    m_graph m' = m_graph m /\ m_kind m' = m_kind m /\ m_check m' = m_check m /\
    (NoDup (keys (m_factors m)) -> NoDup (keys (m_factors m'))) /\
    (forall v, ~ In v vars -> dget v (m_factors m') = dget v (m_factors m)) /\
    (forall x, In x vars -> exists f, stored m' x (FM f) /\ drawn (m_graph m) x f).
  Proof.
    induction vars as [|x vars IH]; intros m m' W A E; cbn [foldM] in E.
    - injection E as <-. do 4 (split; [auto|]). split; [auto|]. intros x [].
    - apply bind_ok in E as (m1 & E1 & E).
      apply bind_ok in E1 as (vs & Ev & E1).
      assert (Ix : In x (nodes (m_graph m))).
      { unfold relevat_vars, predecessors in Ev. destruct (mem x (nodes (m_graph m))) eqn:M; [|discriminate]. now apply mem_In. }
      destruct (existsb _ vs); [discriminate|]. apply bind_ok in E1 as (dom & Ed & E1). apply bind_ok in E1 as (f & Ef & E1).
      destruct (set_factor m x (FM f)) as [m2 [e|]] eqn:Es; [discriminate|]. injection E1 as <-.
      assert (N1 := set_nodup _ _ _ _ Es). apply set_factor_keeps in Es as (G & K & C & f' & Kf & Fs).
      cbn [kept_as] in Kf. subst f'. destruct (IH m2 m') as (G' & K' & C' & N' & O' & S'); [now rewrite G|now rewrite G|exact E|].
      assert (Kd : keys dom = preds (m_graph m) x ++ [x]) by (eapply parents_keys; eauto).
      assert (Fl : filter (fun v => if eqd x v then false else true) (keys dom) = preds (m_graph m) x).
      { rewrite Kd, filter_app. cbn [filter]. rewrite eqd_refl, app_nil_r. 
        assert (H : forall l, ~ In x l -> filter (fun v => if eqd x v then false else true) l = l).
        { clear. intros l. induction l as [|y l IHl]; intros N; [reflexivity|]. cbn [filter]. rewrite eqd_neq; [|intros ->; apply N; now left].
          f_equal. apply IHl. intros J. apply N. now right. }
        apply H. intros J. apply in_preds in J. apply (A x). now apply walk_one. }
      split; [congruence|]. split; [congruence|]. split; [congruence|]. split; [auto|]. split.
      + intros v J. rewrite O' by (intros J'; apply J; now right). rewrite Fs, dget_dset, eqd_neq; [auto|]. intros ->. apply J. now left.
      + intros y J. destruct (in_dec eqd y vars) as [J'|N].
        * destruct (S' y J') as (fy & Sy & Dy). rewrite G in Dy. eauto.
        * destruct J as [<-|J]; [|contradiction]. exists f. split.
          -- unfold stored. rewrite O' by auto. now rewrite Fs, dget_dset, eqd_refl.
          -- exists dom. split; [auto|]. now rewrite <- Fl.
  Qed.

  Lemma randomize_ok m vars m' : wf_graph (m_graph m) -> acyclic (m_graph m) -> settled m -> NoDup (keys (m_factors m)) ->
    randomize_factors dflt m vars az draw = Ok m' ->
    m_graph m' = m_graph m /\ m_kind m' = m_kind m /\ settled m' /\ NoDup (keys (m_factors m')) /\
    (forall v f, stored m v f -> ~ In v vars -> stored m' v f) /\
    (forall x, In x vars -> exists f, stored m' x (FM f) /\ drawn (m_graph m) x f).
  Proof.
    intros W A S N E. unfold randomize_factors in E. apply bind_ok in E as (m0 & E0 & E).
    destruct (copy_fits m m0 S N E0) as ((G & K & Ne) & St).
    assert (N0 : NoDup (keys (m_factors m0))) by (eapply copy_nodup; [apply W|exact E0]).
    apply randomize_steps in E as (G' & K' & _ & N' & O & Dr); [|now rewrite G..].
    rewrite G in Dr. split; [congruence|]. split; [congruence|]. split; [|split; [auto|split]].
    - unfold settled in *. rewrite K', K, G', G. destruct (m_kind m) as [|endo cast] eqn:Ek; [exact Logic.I|]. split; [apply S|].
      intros -> v d J Sv. destruct (in_dec eqd v vars) as [Jv|Nv].
      + destruct (Dr v Jv) as (f & Sf & _). unfold stored in *. congruence.
      + apply (Ne endo v d); auto. unfold stored in *. now rewrite <- O.
    - intros v f Sv Nv. unfold stored in *. rewrite O by auto. now apply St.
    - auto.
  Qed.
End Randomize.

Section EmAggregator.
  Variable query : pgm -> list var -> obs -> res mfactor.
  Variable set_iter : list var -> list var.
  Variable no_divergence : list num -> list num -> res bool.
  Variable dflt : vtype.
  Hypothesis IT : iterates set_iter.

  Lemma run_trainable fuel prior tr data max l' o : tr <> [] ->
    em_run query set_iter no_divergence dflt fuel (em_init prior (Some tr)) data max = (l', o) -> em_trainable (l_sub l') = Some tr.
  Proof.
    intros Nt. destruct tr as [|t0 tr]; [congruence|]. unfold em_run, run.
    destruct (initialize em_process_data (em_init prior (Some (t0 :: tr))) data) as [l0 e] eqn:Ei. intros E.
    assert (T0 : em_trainable (l_sub l0) = Some (t0 :: tr)).
    { unfold initialize, em_init in Ei. cbn [l_prior] in Ei. destruct (m_copy prior); [|injection Ei as <- _; reflexivity].
      unfold em_process_data in Ei. cbn [l_sub l_model em_trainable] in Ei. injection Ei as <- _. reflexivity. }
    destruct e as [e|]; [injection E as <- _; exact T0|].
    clear Ei. revert E. generalize 0%Z. revert l0 T0. induction fuel as [|fuel IH]; intros l0 T0 i E; cbn [run_loop] in E;
      (destruct (match max with Some k => Z.ltb i k | None => true end); [|injection E as <- _; exact T0]); [injection E as <- _; exact T0|].
    destruct (step em_process_data (em_calculate query set_iter dflt) l0 None) as [l1 e1] eqn:Es.
    assert (T1 : em_trainable (l_sub l1) = Some (t0 :: tr)).
    { unfold step, em_calculate in Es. destruct (let* pcounts := expectation query set_iter dflt l0 in maximization set_iter (l_sub l0) pcounts) as [np|e2]; [|injection Es as <- _; exact T0].
      unfold update_model in Es. destruct (l_model _) as [mm|]; [|injection Es as <- _; exact T0].
      match type of Es with (match ?x with _ => _ end) = _ => destruct x; injection Es as <- _; exact T0 end. }
    destruct e1 as [e1|]; [injection E as <- _; exact T1|].
    destruct (em_stop no_divergence l1) as [s r] eqn:Eo. destruct (em_stop_keeps no_divergence l1 s r Eo) as (Ts & _).
    assert (T2 : em_trainable (l_sub (with_sub l1 s)) = Some (t0 :: tr)) by (cbn; congruence).
    destruct r as [[|]|e2]; [injection E as <- _; exact T2| |injection E as <- _; exact T2]. eapply IH; [exact T2|exact E].
  Qed.

  Lemma em_finishes l data max_iter l' o :
    em_run query set_iter no_divergence dflt (Z.to_nat max_iter) l data (Some max_iter) = (l', o) -> o <> Running.
  Proof.
    intros E ->. apply run_trace in E as (_ & ms & _ & _ & B & _ & R & _); [|apply (em_dicts query set_iter dflt IT)].
    destruct (R eq_refl) as (L & Q). specialize (Q max_iter eq_refl). specialize (B max_iter eq_refl). lia.
  Qed.

  Lemma em_generate_ok m data trainable max_iter draw i l m' :
    wf_graph (m_graph m) -> acyclic (m_graph m) -> settled m -> NoDup (keys (m_factors m)) ->
    em_generate query set_iter no_divergence dflt m data trainable max_iter draw i = Ok (l, m') ->
    l_model l = Some m' /\ m_graph m' = m_graph m /\
    (exists prior, randomize_factors dflt m (agg_trainable m trainable) false (draw i) = Ok prior /\ l_prior l = prior /\
       em_run query set_iter no_divergence dflt (Z.to_nat max_iter) (em_init prior (Some (agg_trainable m trainable))) data (Some max_iter) = (l, Done)) /\
    (agg_trainable m trainable <> [] ->
     forall v f, In v (nodes (m_graph m)) -> stored m v f -> ~ In v (agg_trainable m trainable) -> stored m' v f).
  Proof.
    intros W A S N E. unfold em_generate in E. apply bind_ok in E as (prior & Ep & E).
    destruct (em_run query set_iter no_divergence dflt (Z.to_nat max_iter) (em_init prior (Some (agg_trainable m trainable))) data (Some max_iter)) as [l1 o] eqn:Er.
    destruct o; try discriminate. destruct (l_model l1) as [m1|] eqn:El; [|discriminate]. injection E as -> ->.
    destruct (randomize_ok dflt false (draw i) m _ prior W A S N Ep) as (G & K & S' & N' & O & Dr).
    assert (Lp : l_prior l = prior) by (apply run_trace in Er as (P & _); [exact P|apply (em_dicts query set_iter dflt IT)]).
    split; [auto|]. split; [|split].
    - destruct (agrees_history query set_iter no_divergence dflt IT prior S' N' [] [] [CRun (Z.to_nat max_iter) data (Some max_iter)] _ (em_start prior (Some (agg_trainable m trainable))))
        as (_ & Fi & _). cbn [history fold_left perform] in Fi. unfold em_run in Er. rewrite Er in Fi. cbn [fst] in Fi.
      destruct (Fi m' El) as (Gm & _). congruence.
    - exists prior. auto.
    - intros Nt v f Iv Sv Nv.
      assert (Q := em_untrained query set_iter no_divergence dflt IT prior (Some (agg_trainable m trainable)) [CRun (Z.to_nat max_iter) data (Some max_iter)] v f S' N').
      cbn zeta in Q. cbn [history fold_left perform] in Q. assert (Er' := Er). unfold em_run in Er'. rewrite Er' in Q. cbn [fst] in Q. apply Q; auto.
      + now rewrite G.
      + intros (tr & Et & J). rewrite (run_trainable _ _ _ _ _ _ _ Nt Er) in Et. injection Et as <-. auto.
  Qed.

  Lemma em_generate_trains m data trainable max_iter draw i l m' :
    wf_graph (m_graph m) -> acyclic (m_graph m) -> settled m -> NoDup (keys (m_factors m)) ->
    em_generate query set_iter no_divergence dflt m data trainable max_iter draw i = Ok (l, m') ->
    exists tr, to_train m trainable tr /\
    l_model l = Some m' /\ m_graph m' = m_graph m /\
    (exists prior, randomize_factors dflt m tr false (draw i) = Ok prior /\ l_prior l = prior /\
       em_run query set_iter no_divergence dflt (Z.to_nat max_iter) (em_init prior (Some tr)) data (Some max_iter) = (l, Done)) /\
    (tr <> [] -> forall v f, In v (nodes (m_graph m)) -> stored m v f -> ~ In v tr -> stored m' v f).
  Proof.
    intros W A S N E. exists (agg_trainable m trainable). split; [|now apply em_generate_ok with (1 := W)].
    unfold to_train, agg_trainable, scm_exogenous. destruct trainable as [[|v r]|]; [|reflexivity|]; intros x; rewrite filter_In, negb_true_iff, mem_nIn; reflexivity.
  Qed.
End EmAggregator.
