(** Lemmas about which factors expectation maximization changes. *)

From Coq Require Import String Bool Arith ZArith QArith Qcanon Lia List.
From Verif Require Import PyBase Num DomainModel NdArray StoreModel NumStore FactorModel GraphModel ModelModel InferModel
  LearnModel PyFacts DomainFacts Spec StoreSpec FactorSpec GraphSpec ModelSpec ModelFacts BuildFacts LearnSpec LearnFacts.
Import ListNotations.
Local Open Scope nat_scope.
Local Arguments eqd : simpl never.

Lemma kept_same m v f f' : kept_as m v f f' -> (forall endo d, m_kind m = KScm endo true -> In v endo -> f <> FD d) -> f' = f.
Proof.
  unfold kept_as. intros K N. destruct f as [f|d|]; auto. destruct (m_kind m) as [|endo [|]]; auto.
  destruct K as (K1 & K2). destruct (in_dec eqd v endo) as [I|I]; auto.
  exfalso. eapply N; eauto.
Qed.

Lemma settled_kind m : settled m -> built_kind m = m_kind m.
Proof.
  unfold settled, built_kind. destruct (m_kind m) as [|endo cast]; auto. intros (H & _).
  destruct endo as [|e endo]; auto. cbn [scm_endo]. f_equal. specialize (H eq_refl).
  replace (filter _ (nodes (m_graph m))) with (@nil var); auto. symmetry.
  enough (X : forall l, filter (fun v => 0 <? length (preds (m_graph m) v)) l = []) by apply X.
  unfold preds. rewrite H. induction l; auto.
Qed.

Lemma settled_no_equations m : settled m -> no_equations m.
Proof. unfold settled. intros H endo v d K I. rewrite K in H. apply H; auto. Qed.

(** A model of the same graph and kind as the prior model. *)
Definition fits (prior m : pgm) : Prop :=
  m_graph m = m_graph prior /\ m_kind m = m_kind prior /\ no_equations m.

Lemma copy_fits prior m : settled prior -> NoDup (keys (m_factors prior)) -> m_copy prior = Ok m ->
  fits prior m /\ forall v f, stored prior v f -> stored m v f.
Proof.
  intros S ND E. unfold m_copy in E.
  assert (NF : NoDup (keys (m_factor_dict prior))).
  { unfold m_factor_dict, keys. rewrite map_map. cbn [fst]. exact ND. }
  pose proof (builder_no_equations _ _ _ _ E NF) as NE.
  apply builder_keeps in E as (G & K & A & _); auto.
  split; [split; auto; split; auto; rewrite K; apply settled_kind; auto|].
  intros v f St. destruct (A v f) as (f' & Kf & St').
  { unfold m_factor_dict. rewrite (dget_map_snd (fun _ o => as_fobj o)). unfold stored in St. rewrite St. reflexivity. }
  replace f with f'; auto. eapply kept_same; eauto.
  intros endo d Ek I ->. eapply settled_no_equations; eauto. rewrite <- Ek, K. symmetry. apply settled_kind; auto.
Qed.

Lemma updated_fits prior m probs m' : settled prior -> fits prior m -> updated m probs m' ->
  m_kind m' = built_kind m -> no_equations m' ->
  fits prior m' /\ forall v f, In v (nodes (m_graph prior)) -> dget v probs = None -> stored m v f -> stored m' v f.
Proof.
  intros S (G & K & N) (G' & U) K' N'.
  assert (BK : built_kind m = m_kind prior).
  { rewrite <- (settled_kind prior S). unfold built_kind. rewrite K, G. reflexivity. }
  split; [split; [congruence|]; split; [congruence|auto]|].
  intros v f I Nv St. destruct (U v f) as (f' & Kf & St').
  { rewrite G. auto. }
  { auto. }
  replace f with f'; auto. eapply kept_same; eauto.
  intros endo d Ek Iv ->. apply (N endo v d); auto. congruence.
Qed.

Lemma foldM_dset_keys {B} (f : var -> dict var B -> res B) l : forall d d',
  foldM (fun d v => let* x := f v d in Ok (dset v x d)) l d = Ok d' -> NoDup (keys d) ->
  NoDup (keys d') /\ forall v, In v (keys d') <-> In v (keys d) \/ In v l.
Proof.
  induction l as [|a l IH]; intros d d' E ND; cbn [foldM] in E.
  - injection E as <-. split; auto. intros v. cbn. tauto.
  - apply bind_ok in E as (d1 & E1 & E). apply bind_ok in E1 as (x & _ & E1). injection E1 as <-.
    apply IH in E as (N & K); [|apply NoDup_dset; auto]. split; auto.
    intros v. rewrite K. rewrite keys_dset. destruct (mem a (keys d)) eqn:Ea.
    + apply mem_In in Ea. cbn. split; [tauto|]. intros [|[<- | ]]; auto.
    + rewrite in_app_iff. cbn. tauto.
Qed.

(** The model of the learner stores [f] for [v]. *)
Definition holds_factor (t : learner em_state) (v : var) (f : fobj) : Prop :=
  exists m, l_model t = Some m /\ stored m v f.

Section EmFacts.
  Variable query : pgm -> list var -> obs -> res mfactor.
  Variable set_iter : list var -> list var.
  Variable no_divergence : list num -> list num -> res bool.
  Variable dflt : vtype.
  Hypothesis IT : iterates set_iter.

  Notation calc := (em_calculate query set_iter dflt).
  Notation stop := (em_stop no_divergence).
  Notation estep := (em_step query set_iter dflt).
  Notation erun := (em_run query set_iter no_divergence dflt).

  Lemma em_probs l s probs : calc l = (s, Ok probs) ->
    s = l_sub l /\ NoDup (keys probs) /\ forall v, In v (keys probs) <-> trains l v /\ ~ has_converged l v.
  Proof.
    intros E. apply pair_equal_spec in E as (E1 & E2). split; [congruence|].
    apply bind_ok in E2 as (pc & _ & E2). unfold maximization in E2. apply bind_ok in E2 as (act & Ea & E2).
    assert (E3 : foldM (fun d v => let* x := (let* joint := dlook v pc in let* p := maximize joint v in Ok (FM p)) in
                                   Ok (dset v x d)) act [] = Ok probs).
    { rewrite <- E2. clear. generalize (@nil (var * fobj)). induction act as [|a act IH]; intros d; auto.
      cbn [foldM]. destruct (dlook a pc) as [j|e]; auto. cbn [bind]. destruct (maximize j a) as [p|e]; auto. apply IH. }
    apply (foldM_dset_keys (fun v _ => let* joint := dlook v pc in let* p := maximize joint v in Ok (FM p))) in E3 as (N & K).
    2: constructor. split; auto. intros v. rewrite K. cbn [keys map In].
    unfold active_vars in Ea. apply bind_ok in Ea as (tr & Et & Ea). injection Ea as <-.
    destruct (IT (filter (fun v => negb (mem v (em_converged (l_sub l)))) tr)) as (_ & SS).
    rewrite (SS v), filter_In, negb_true_iff, mem_nIn.
    unfold trains, has_converged. unfold trainable_list in Et. destruct (em_trainable (l_sub l)) as [tr'|]; [|discriminate].
    injection Et as ->. split.
    - intros [[]|(A & B)]. split; auto. exists tr. auto.
    - intros ((tr' & E' & A) & B). injection E' as <-. auto.
  Qed.

  Lemma em_dicts l s probs : calc l = (s, Ok probs) -> NoDup (keys probs).
  Proof. intros E. apply em_probs in E. tauto. Qed.

  Lemma em_process_keeps l d s e : em_process_data l d = (s, e) ->
    em_converged s = em_converged (l_sub l) /\
    (forall v, trains l v -> exists tr, em_trainable s = Some tr /\ In v tr) /\
    (forall v, trains l v -> forall w, ~ trains l w -> ~ (exists tr, em_trainable s = Some tr /\ In w tr)).
  Proof.
    unfold em_process_data, trains. destruct (em_trainable (l_sub l)) as [[|t0 tr]|] eqn:Et.
    - intros E. split; [destruct (l_model l); injection E as <- _; auto|].
      split; intros v (tr & Ev & Iv); injection Ev as <-; destruct Iv.
    - intros E. split; [destruct (l_model l); injection E as <- _; auto|].
      assert (Es : em_trainable s = Some (t0 :: tr)) by (destruct (l_model l); injection E as <- _; auto).
      rewrite Es. auto.
    - intros E. split; [destruct (l_model l); injection E as <- _; auto|].
      split; intros v (tr & Ev & Iv); discriminate.
  Qed.

  Lemma check_converged_grows evo vs : forall conv conv' r, check_converged no_divergence evo vs conv = (conv', r) ->
    incl conv conv' /\ forall v, In v conv' -> In v conv \/ In v vs.
  Proof.
    induction vs as [|v vs IH]; intros conv conv' r E; cbn [check_converged] in E.
    - injection E as <- _. split; [apply incl_refl|auto].
    - destruct (mem v conv).
      + apply IH in E as (A & B). split; auto. intros w I. apply B in I as [|]; auto. right. right. auto.
      + match type of E with (match ?x with _ => _ end) = _ => destruct x as [[|]|e] end.
        * apply IH in E as (A & B). split.
          { intros w I. apply A. apply in_or_app. auto. }
          intros w I. apply B in I as [I|I]; [|right; right; auto].
          apply in_app_or in I as [I|[<-|[]]]; auto. right. left. auto.
        * apply IH in E as (A & B). split; auto. intros w I. apply B in I as [|]; auto. right. right. auto.
        * injection E as <- _. split; [apply incl_refl|auto].
  Qed.

  Lemma em_stop_keeps l s r : stop l = (s, r) ->
    em_trainable s = em_trainable (l_sub l) /\ incl (em_converged (l_sub l)) (em_converged s) /\
    forall v, In v (em_converged s) -> has_converged l v \/ trains l v.
  Proof.
    unfold em_stop, trainable_list, trains, has_converged. destruct (em_trainable (l_sub l)) as [tr|] eqn:Et.
    - destruct (check_converged no_divergence (model_evolution l) tr (em_converged (l_sub l))) as [conv u] eqn:Ec.
      intros E. injection E as <- _. cbn. apply check_converged_grows in Ec as (A & B). split; auto. split; auto.
      intros v I. apply B in I as [|]; auto. right. exists tr. auto.
    - intros E. injection E as <- _. split; auto. split; [apply incl_refl|]. auto.
  Qed.

  (** One step, on a learner whose model fits the prior model. *)
  Lemma em_step_keeps l data l' m : settled (l_prior l) -> l_model l = Some m -> fits (l_prior l) m ->
    estep l data = (l', None) ->
    let l1 := match data with None => l | Some d => with_sub l (fst (em_process_data l d)) end in
    exists m', l_model l' = Some m' /\ fits (l_prior l) m' /\ l_prior l' = l_prior l /\ l_sub l' = l_sub l1 /\
      model_evolution l' = model_evolution l ++ [m'] /\
      forall v f, In v (nodes (m_graph (l_prior l))) -> (~ trains l1 v \/ has_converged l v) -> stored m v f -> stored m' v f.
  Proof.
    intros S Em F E l1. unfold em_step in E.
    apply (step_ok _ _ em_dicts) in E as (m1 & s & probs & m' & Em1 & Ec & U & K & NE & ->).
    fold l1 in Ec. rewrite Em in Em1. injection Em1 as <-.
    destruct (em_probs _ _ _ Ec) as (-> & _ & Kp).
    destruct (updated_fits _ _ _ _ S F U K NE) as (F' & St).
    exists m'. do 5 (split; [auto|]).
    intros v f I N H. apply St; auto. apply dget_None. rewrite Kp. intros (A & B).
    destruct N as [N|N]; auto. apply B. unfold has_converged in *. subst l1. destruct data as [d|]; auto.
    destruct (em_process_data l d) as [s1 e1] eqn:Ep. apply em_process_keeps in Ep as (Cs & _). cbn. rewrite Cs. auto.
  Qed.

  Definition fit (l : learner em_state) : Prop := exists m, l_model l = Some m /\ fits (l_prior l) m.

  Lemma goes_on_prior ts : forall l, settled (l_prior l) -> fit l -> goes_on em_process_data calc stop l ts ->
    Forall (fun t => l_prior t = l_prior l /\ fit t) ts.
  Proof.
    induction ts as [|t ts IH]; intros l S (m & Em & F) G; constructor.
    - destruct G as (G & _). destruct (em_step_keeps _ _ _ _ S Em F G) as (m' & Em' & F' & P & _).
      split; auto. exists m'. rewrite P. auto.
    - destruct G as (G & G'). destruct (em_step_keeps _ _ _ _ S Em F G) as (m' & Em' & F' & P & _).
      destruct ts as [|t1 ts]; [constructor|]. destruct G' as (s & Gs & G').
      assert (X : Forall (fun u => l_prior u = l_prior (with_sub t s) /\ fit u) (t1 :: ts)).
      { apply IH; auto.
        - cbn. rewrite P. auto.
        - exists m'. cbn. rewrite P. auto. }
      cbn [with_sub l_prior] in X. rewrite P in X. exact X.
  Qed.

  Lemma goes_on_frozen ts v f : forall l, settled (l_prior l) -> fit l -> goes_on em_process_data calc stop l ts ->
    In v (nodes (m_graph (l_prior l))) -> has_converged l v -> holds_factor l v f ->
    Forall (fun t => holds_factor t v f /\ has_converged t v) ts.
  Proof.
    induction ts as [|t ts IH]; intros l S (m & Em & F) G I C (m0 & Em0 & H); [constructor|].
    rewrite Em in Em0. injection Em0 as <-.
    destruct G as (G & G'). destruct (em_step_keeps _ _ _ _ S Em F G) as (m' & Em' & F' & P & Su & _ & St).
    assert (Ht : holds_factor t v f) by (exists m'; split; auto).
    assert (Ct : has_converged t v) by (unfold has_converged; rewrite Su; auto).
    constructor; auto. destruct ts as [|t1 ts]; [constructor|]. destruct G' as (s & Gs & G').
    apply (IH (with_sub t s)); auto.
    - cbn. rewrite P. auto.
    - exists m'. cbn. rewrite P. auto.
    - cbn. rewrite P. auto.
    - unfold has_converged. cbn. apply em_stop_keeps in Gs as (_ & Gs & _). apply Gs. auto.
  Qed.

  Lemma goes_on_after ts1 t ts2 : forall l, goes_on em_process_data calc stop l (ts1 ++ t :: ts2) ->
    ts2 = [] \/ exists s, stop t = (s, Ok false) /\ goes_on em_process_data calc stop (with_sub t s) ts2.
  Proof.
    induction ts1 as [|t0 ts1 IH]; intros l G.
    - destruct G as (_ & G). destruct ts2; auto.
    - destruct G as (_ & G). destruct (ts1 ++ t :: ts2) as [|x xs] eqn:E.
      { destruct ts1; discriminate. }
      destruct G as (s & _ & G). apply (IH (with_sub t0 s)). exact G.
  Qed.

  Lemma em_initialize_fits l data l0 : settled (l_prior l) -> NoDup (keys (m_factors (l_prior l))) ->
    initialize em_process_data l data = (l0, None) ->
    l_prior l0 = l_prior l /\ fit l0 /\ em_converged (l_sub l0) = em_converged (l_sub l) /\
    (forall v, trains l v -> trains l0 v) /\
    (forall v, trains l v -> forall w, ~ trains l w -> ~ trains l0 w) /\
    model_evolution l0 = model_evolution l /\
    forall v f, stored (l_prior l) v f -> holds_factor l0 v f.
  Proof.
    intros S ND. unfold LearnModel.initialize. destruct (m_copy (l_prior l)) as [m|e] eqn:Em; [|discriminate].
    destruct (copy_fits _ _ S ND Em) as (F & St).
    destruct (em_process_data _ data) as [s e] eqn:Ep. intros E. injection E as <- ->.
    apply em_process_keeps in Ep as (C & T1 & T2). cbn in C.
    split; auto. split; [exists m; auto|]. split; [exact C|]. split; [exact T1|]. split; [exact T2|].
    split; auto. intros v f H. exists m. auto.
  Qed.

  (** Frozen after convergence, within a run. *)
  Lemma em_frozen l data l0 ts1 t ts2 s b v f : settled (l_prior l) -> NoDup (keys (m_factors (l_prior l))) ->
    initialize em_process_data l data = (l0, None) -> goes_on em_process_data calc stop l0 (ts1 ++ t :: ts2) ->
    stop t = (s, Ok b) -> In v (em_converged s) -> In v (nodes (m_graph (l_prior l))) -> holds_factor t v f ->
    Forall (fun t' => holds_factor t' v f) ts2.
  Proof.
    intros S ND Ei G Es C I H. apply em_initialize_fits in Ei as (P & F & _); auto.
    pose proof (goes_on_prior _ _ (eq_ind_r settled S P) F G) as Fs.
    apply Forall_app in Fs as (_ & Fs). inversion Fs as [|t' ts' (Pt & Ft) Fs']; subst.
    destruct (goes_on_after _ _ _ _ G) as [-> | (s' & Es' & G2)]; [constructor|].
    rewrite Es in Es'. injection Es' as <- ->.
    assert (X : Forall (fun t' => holds_factor t' v f /\ has_converged t' v) ts2).
    { apply (goes_on_frozen ts2 v f (with_sub t s)); auto; cbn; rewrite ?Pt, ?P; auto. }
    eapply Forall_impl; [|exact X]. intros t2 (A & _). exact A.
  Qed.
End EmFacts.
