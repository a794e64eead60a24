(** Lemmas about the learning loop. *)

From Coq Require Import String Bool Arith ZArith QArith Qcanon Lia List.
From Verif Require Import PyBase Num DomainModel NdArray StoreModel NumStore FactorModel GraphModel ModelModel InferModel
  LearnModel PyFacts Spec StoreSpec FactorSpec GraphSpec ModelSpec ModelFacts BuildFacts LearnSpec.
Import ListNotations.
Local Open Scope nat_scope.
Local Arguments eqd : simpl never.

(** ** Building a model from a dictionary of factors *)

Lemma set_factor_keeps m v f m' : set_factor m v f = (m', None) ->
  m_graph m' = m_graph m /\ m_kind m' = m_kind m /\ m_check m' = m_check m /\
  exists f', kept_as m' v f f' /\ m_factors m' = dset v (Some f') (m_factors m).
Proof.
  intros E. apply set_factor_done in E as (f' & B & KB & KS).
  apply set_factor_base_done in B as (G & C & K & F & _).
  do 3 (split; [assumption|]). exists f'. split; auto.
  unfold kept_as. rewrite K. destruct (m_kind m) as [|endo cast] eqn:Ek.
  - rewrite (KB eq_refl). destruct f; reflexivity.
  - specialize (KS endo cast eq_refl). unfold scm_prepare in KS.
    destruct (mem v endo) eqn:Ev.
    + apply bind_ok in KS as (ok & _ & KS). destruct ok; simpl in KS; try discriminate.
      apply mem_In in Ev.
      destruct f as [f|d|]; try congruence.
      destruct cast; [|congruence].
      apply bind_ok in KS as (g & Eg & KS). injection KS as <-. split; [|tauto]. intros _. exists g. auto.
    + apply mem_nIn in Ev. destruct f as [f|d|]; try congruence. destruct cast; [|congruence].
      split; [tauto|]. congruence.
Qed.

Lemma kept_as_kind m m' v f f' : m_kind m' = m_kind m -> kept_as m v f f' -> kept_as m' v f f'.
Proof. unfold kept_as. intros ->. auto. Qed.

Lemma set_all_keeps fs : forall m m', foldM (fun m vf => set_or_raise m (fst vf) (snd vf)) fs m = Ok m' ->
  NoDup (keys (fs : dict var fobj)) ->
  m_graph m' = m_graph m /\ m_kind m' = m_kind m /\ m_check m' = m_check m /\
  (forall v f, dget v fs = Some f -> exists f', kept_as m' v f f' /\ stored m' v f') /\
  (forall v, dget v fs = None -> dget v (m_factors m') = dget v (m_factors m)).
Proof.
  induction fs as [|[v f] fs IH]; intros m m' E ND.
  - injection E as <-. do 3 (split; auto). split; auto. intros v f A. discriminate.
  - cbn [foldM fst snd] in E. apply bind_ok in E as (m1 & E1 & E).
    unfold set_or_raise in E1. destruct (set_factor m v f) as [m2 [e|]] eqn:E2; [discriminate|]. injection E1 as ->.
    cbn in ND. apply NoDup_cons_iff in ND as (Nv & ND).
    destruct (IH m1 m' E ND) as (G & K & C & S & O).
    destruct (set_factor_keeps m v f m1 E2) as (G1 & K1 & C1 & f' & Kf & F1).
    do 3 (split; [congruence|]). split.
    + intros w h. cbn [dget]. destruct (eqd w v) as [-> | N].
      * intros A. injection A as <-. exists f'. split.
        { revert Kf. apply kept_as_kind. auto. }
        unfold stored. rewrite O by (apply dget_None; auto). rewrite F1, dget_dset, eqd_refl. reflexivity.
      * intros A. apply S; auto.
    + intros w. cbn [dget]. destruct (eqd w v) as [-> | N]; [discriminate|].
      intros A. rewrite O by auto. rewrite F1, dget_dset, (eqd_neq _ _ _ _ N). reflexivity.
Qed.

Lemma initialize_same g : forall g', ModelModel.initialize (GDag g) = Ok g' -> g' = g.
Proof. intros g' E. unfold ModelModel.initialize in E. cbn [bind] in E. destruct (0 <? _); congruence. Qed.

(** The kind of the model that `builder` makes. *)
Definition built_kind (m : pgm) : kind :=
  match m_kind m with KBn => KBn | KScm endo cast => KScm (scm_endo (m_graph m) (Some endo)) cast end.

Lemma builder_keeps m fs check m' : m_builder m (m_graph m) (Some (FsDict fs)) check = Ok m' -> NoDup (keys fs) ->
  m_graph m' = m_graph m /\ m_kind m' = built_kind m /\
  (forall v f, dget v fs = Some f -> exists f', kept_as m' v f f' /\ stored m' v f') /\
  (forall v f, dget v fs = None -> ~ stored m' v f).
Proof.
  assert (FR : forall c k v f, dget v (m_factors (fresh (m_graph m) c k)) <> Some (Some f)).
  { intros c k v f. cbn. rewrite dget_map_none. destruct (mem v _); congruence. }
  intros E ND. unfold m_builder in E. unfold built_kind. destruct (m_kind m) as [|endo cast].
  - unfold bn_init in E. apply bind_ok in E as (g & Eg & E). apply initialize_same in Eg as ->.
    apply set_all_keeps in E as (G & K & _ & S & O); auto.
    do 3 (split; [assumption|]). intros v f N St. apply (FR check KBn v f). rewrite <- O by auto. exact St.
  - unfold scm_init in E. apply bind_ok in E as (g & Eg & E). apply initialize_same in Eg as ->.
    destruct endo as [|e endo]; cbn [bind] in E; apply set_all_keeps in E as (G & K & _ & S & O); auto;
      (do 3 (split; [assumption|])); intros v f N St; eapply FR; rewrite <- O by apply N; exact St.
Qed.

(** No equation is left where the model stores tables. *)
Definition no_equations (m : pgm) : Prop :=
  forall endo v d, m_kind m = KScm endo true -> In v endo -> ~ stored m v (FD d).

Lemma builder_no_equations m fs check m' : m_builder m (m_graph m) (Some (FsDict fs)) check = Ok m' -> NoDup (keys fs) ->
  no_equations m'.
Proof.
  intros E ND endo v d K I St. apply builder_keeps in E as (_ & _ & A & B); auto.
  destruct (dget v fs) as [f|] eqn:Ef.
  - destruct (A v f Ef) as (f' & Kf & St'). assert (f' = FD d) by (unfold stored in *; congruence). subst f'.
    unfold kept_as in Kf. rewrite K in Kf. destruct f as [f|d'|]; try congruence.
    destruct Kf as (Kf & _). destruct (Kf I) as (g & _ & X). discriminate.
  - apply (B v _ Ef St).
Qed.

Lemma complete_probs_ok m probs fs : complete_probs m probs = Ok fs -> NoDup (keys probs) ->
  NoDup (keys fs) /\
  (forall v f, dget v probs = Some f -> dget v fs = Some f) /\
  (forall v f, In v (nodes (m_graph m)) -> dget v probs = None -> stored m v f -> dget v fs = Some f).
Proof.
  unfold complete_probs. generalize (nodes (m_graph m)) as ns. intros ns. revert probs fs.
  induction ns as [|n ns IH]; intros probs fs E ND; cbn [foldM] in E.
  - injection E as <-. split; auto. split; auto. intros v f [].
  - apply bind_ok in E as (d & Ed & E). destruct (mem n (keys probs)) eqn:En.
    + injection Ed as <-. destruct (IH probs fs E ND) as (A & B & C).
      split; auto. split; auto. intros v f [<- | I] N; [|auto].
      apply mem_In in En. apply dget_None in N. tauto.
    + apply bind_ok in Ed as (o & Eo & Ed). injection Ed as <-.
      apply mem_nIn in En.
      destruct (IH _ fs E (NoDup_dset _ _ _ ND)) as (A & B & C).
      split; auto. split.
      * intros v f Ev. apply B. rewrite dget_dset. destruct (eqd v n) as [-> | N]; auto.
        apply dget_None in En. congruence.
      * intros v f I N S. destruct (eqd v n) as [-> | Nv].
        -- apply B. rewrite dget_dset, eqd_refl. unfold stored in S. unfold dlook in Eo. rewrite S in Eo.
           injection Eo as <-. reflexivity.
        -- apply C; auto. { destruct I; congruence. } rewrite dget_dset, (eqd_neq _ _ _ _ Nv). auto.
Qed.

Section Loop.
  Context {S Data : Type}.
  Variable process_data : learner S -> Data -> S * option err.
  Variable calculate : learner S -> S * res (dict var fobj).
  Variable stop : learner S -> S * res bool.
  Hypothesis dicts : forall l s probs, calculate l = (s, Ok probs) -> NoDup (keys probs).

  Notation step := (step process_data calculate).
  Notation run := (run process_data calculate stop).
  Notation run_loop := (run_loop process_data calculate stop).
  Notation initialize := (initialize process_data).

  Lemma update_ok (l : learner S) probs l' : update_model l probs = (l', None) -> NoDup (keys probs) ->
    exists m m', l_model l = Some m /\ updated m probs m' /\ m_kind m' = built_kind m /\ no_equations m' /\
      l' = MkL (l_prior l) (Some m') (Some (model_evolution l ++ [m'])) (l_sub l).
  Proof.
    intros E ND. unfold update_model in E. destruct (l_model l) as [m|] eqn:Em; [|discriminate].
    match type of E with (match ?x with _ => _ end) = _ => destruct x as [m'|e] eqn:Eb; [|discriminate] end.
    apply bind_ok in Eb as (fs & Ef & Eb). exists m, m'. split; auto.
    destruct (complete_probs_ok m probs fs Ef ND) as (NF & A & B).
    destruct (builder_keeps m fs false m' Eb NF) as (G & K & St & Ot).
    split; [|split; [auto|split; [eapply builder_no_equations; eauto|]]].
    - split; auto. intros v f I [P|(P & S1)]; apply St; auto.
    - unfold record_model, model_evolution in E. cbn in E. injection E as <-. reflexivity.
  Qed.

  Lemma update_raises (l : learner S) probs l' e : update_model l probs = (l', Some e) -> l' = l.
  Proof.
    unfold update_model. destruct (l_model l) as [m|]; [|congruence].
    match goal with |- (match ?x with _ => _ end) = _ -> _ => destruct x as [m'|e'] end; [discriminate|congruence].
  Qed.

  Lemma step_ok l data l' : step l data = (l', None) ->
    exists m s probs m', l_model l = Some m /\
      calculate (match data with None => l | Some d => with_sub l (fst (process_data l d)) end) = (s, Ok probs) /\
      updated m probs m' /\ m_kind m' = built_kind m /\ no_equations m' /\
      l' = MkL (l_prior l) (Some m') (Some (model_evolution l ++ [m'])) s.
  Proof.
    unfold LearnModel.step. intros E.
    set (l1 := match data with None => l | Some d => with_sub l (fst (process_data l d)) end).
    assert (E1 : (let (s, r) := calculate l1 in
                  match r with Raise e => (with_sub l1 s, Some e) | Ok probs => update_model (with_sub l1 s) probs end)
                 = (l', None)).
    { destruct data as [d|]; [|exact E]. subst l1. destruct (process_data l d) as [s [e|]]; [discriminate|exact E]. }
    clear E. assert (M1 : l_model l1 = l_model l /\ model_evolution l1 = model_evolution l /\ l_prior l1 = l_prior l).
    { subst l1. destruct data; auto. }
    destruct (calculate l1) as [s r] eqn:Ec. destruct r as [probs|e]; [|discriminate].
    apply update_ok in E1 as (m & m' & Em & U & K & NE & ->); [|eapply dicts; eauto].
    exists m, s, probs, m'. cbn in Em. split; [destruct M1; congruence|]. split; auto. split; auto. split; auto. split; auto.
    destruct M1 as (_ & M2 & M3). unfold model_evolution in *. cbn in *. rewrite M3. f_equal.
    rewrite M3 in M2. rewrite M2. reflexivity.
  Qed.

  Lemma step_raises l data l' e : step l data = (l', Some e) ->
    l_prior l' = l_prior l /\ l_model l' = l_model l /\ model_evolution l' = model_evolution l.
  Proof.
    unfold LearnModel.step. destruct data as [d|].
    - destruct (process_data l d) as [s [e1|]].
      + intros E. injection E as <- <-. auto.
      + destruct (calculate (with_sub l s)) as [s1 [probs|e1]].
        * intros E. apply update_raises in E as ->. auto.
        * intros E. injection E as <- <-. auto.
    - destruct (calculate l) as [s1 [probs|e1]].
      * intros E. apply update_raises in E as ->. auto.
      * intros E. injection E as <- <-. auto.
  Qed.

  (** What the loop does: it goes through the states [ts], whose models [ms] it
      records. *)
  Lemma loop_trace fuel max : forall i l l' o, run_loop fuel max i l = (l', o) ->
    exists ts ms,
      goes_on process_data calculate stop l ts /\
      Forall2 (fun t m => l_model t = Some m) ts ms /\
      (forall j t, nth_error ts j = Some t -> model_evolution t = model_evolution l ++ firstn (j + 1) ms) /\
      l_prior l' = l_prior l /\
      model_evolution l' = model_evolution l ++ ms /\
      l_model l' = last (map Some ms) (l_model l) /\
      (forall k, max = Some k -> (i + Z.of_nat (length ms) <= Z.max i k)%Z) /\
      match o with
      | Done => (exists k, max = Some k /\ (k <= i + Z.of_nat (length ms))%Z) \/
                (exists t s, ts <> [] /\ last ts l = t /\ stop t = (s, Ok true))
      | Running => length ms = fuel /\ (forall k, max = Some k -> (i + Z.of_nat fuel < k)%Z)
      | Raised _ => True
      end.
  Proof.
    induction fuel as [|fuel IH]; intros i l l' o E; cbn [LearnModel.run_loop] in E.
    - exists [], []. destruct (match max with Some k => Z.ltb i k | None => true end) eqn:Eg.
      + injection E as <- <-. split; [exact I|]. split; [constructor|]. split; [intros [|j] t A; discriminate|].
        split; auto. split; [rewrite app_nil_r; auto|]. split; [auto|]. split; [intros; cbn; lia|].
        split; auto. intros k ->. apply Z.ltb_lt in Eg. cbn. lia.
      + injection E as <- <-. split; [exact I|]. split; [constructor|]. split; [intros [|j] t A; discriminate|].
        split; auto. split; [rewrite app_nil_r; auto|]. split; [auto|]. split; [intros; cbn; lia|].
        left. destruct max as [k|]; [|discriminate]. exists k. split; auto. apply Z.ltb_ge in Eg. cbn. lia.
    - destruct (match max with Some k => Z.ltb i k | None => true end) eqn:Eg.
      2: { exists [], []. injection E as <- <-. split; [exact I|]. split; [constructor|]. split; [intros [|j] t A; discriminate|].
           split; auto. split; [rewrite app_nil_r; auto|]. split; [auto|]. split; [intros; cbn; lia|].
           left. destruct max as [k|]; [|discriminate]. exists k. split; auto. apply Z.ltb_ge in Eg. cbn. lia. }
      destruct (step l None) as [l1 [e|]] eqn:Es.
      { injection E as <- <-. apply step_raises in Es as (P & M & V). exists [], [].
        split; [exact I|]. split; [constructor|]. split; [intros [|j] t A; discriminate|].
        split; auto. split; [rewrite app_nil_r; auto|]. split; [auto|]. split; [intros; cbn; lia|]. exact I. }
      pose proof (step_ok _ _ _ Es) as (m & s1 & probs & m1 & Em & Ec & U & K & NE & El1).
      assert (M1 : l_model l1 = Some m1) by (subst; auto).
      assert (V1 : model_evolution l1 = model_evolution l ++ [m1]) by (subst; auto).
      assert (P1 : l_prior l1 = l_prior l) by (subst; auto).
      assert (Lk : forall k, max = Some k -> (i < k)%Z).
      { intros k ->. apply Z.ltb_lt in Eg. auto. }
      clear Eg El1 Ec U K. destruct (stop l1) as [s2 r] eqn:Et.
      destruct r as [[|]|e].
      + injection E as <- <-. exists [l1], [m1]. split; [split; auto|]. split; [repeat constructor; auto|].
        split. { intros [|[|j]] t A; try discriminate. cbn in A. injection A as <-. exact V1. }
        split; auto. split; auto. split; auto. split; [intros k Ek; apply Lk in Ek; cbn; lia|].
        right. exists l1, s2. split; [discriminate|]. auto.
      + destruct (IH _ _ _ _ E) as (ts & ms & G & F & T & P & V & M & B & O).
        exists (l1 :: ts), (m1 :: ms). split.
        { split; auto. destruct ts; auto. exists s2. auto. }
        split; [constructor; auto|]. split.
        { intros [|j] t A; cbn in A.
          - injection A as <-. exact V1.
          - rewrite (T j t A). change (model_evolution (with_sub l1 s2)) with (model_evolution l1). rewrite V1.
            rewrite <- app_assoc. reflexivity. }
        split; [rewrite P; exact P1|]. split.
        { rewrite V. change (model_evolution (with_sub l1 s2)) with (model_evolution l1). rewrite V1.
          rewrite <- app_assoc. reflexivity. }
        split.
        { rewrite M. cbn [map]. change (l_model (with_sub l1 s2)) with (l_model l1). rewrite M1.
          destruct ms; auto. cbn [map]. cbn [last]. clear. revert p. induction ms; intros p; auto. cbn. auto. }
        split.
        { intros k Ek. specialize (B k Ek). pose proof (Lk k Ek). cbn [length]. lia. }
        destruct o; auto.
        * destruct O as [(k & Ek & O)|(t & s & N & L & O)].
          -- left. exists k. split; auto. cbn [length]. lia.
          -- right. exists t, s. split; [discriminate|]. split; auto.
             destruct ts as [|t0 ts]; [congruence|]. rewrite <- L.
             change (last (l1 :: t0 :: ts) l) with (last (t0 :: ts) l).
             clear. revert t0. induction ts; intros t0; auto. apply IHts.
        * destruct O as (O1 & O2). split; [cbn; congruence|]. intros k Ek. specialize (O2 k Ek). lia.
      + injection E as <- <-. exists [l1], [m1]. split; [split; auto|]. split; [repeat constructor; auto|].
        split. { intros [|[|j]] t A; try discriminate. cbn in A. injection A as <-. exact V1. }
        split; auto. split; auto. split; auto. split; [intros k Ek; apply Lk in Ek; cbn; lia|]. exact I.
  Qed.

  Lemma last_some (ms : list pgm) d o : ms <> [] -> last (map Some ms) o = Some (last ms d).
  Proof.
    induction ms as [|m ms IH]; [congruence|]. intros _. destruct ms as [|m2 ms]; auto.
    change (last (map Some (m2 :: ms)) o = Some (last (m2 :: ms) d)). apply IH. discriminate.
  Qed.

  Lemma initialize_keeps l data l0 e : initialize l data = (l0, e) ->
    l_prior l0 = l_prior l /\ model_evolution l0 = model_evolution l /\
    (e = None -> exists m0, m_copy (l_prior l) = Ok m0 /\ l_model l0 = Some m0).
  Proof.
    unfold LearnModel.initialize. destruct (m_copy (l_prior l)) as [m0|e0].
    - destruct (process_data _ data) as [s e1]. intros E. injection E as <- <-. split; auto. split; auto.
      intros _. exists m0. auto.
    - intros E. injection E as <- <-. split; auto. split; auto. discriminate.
  Qed.

  Lemma run_trace fuel l data max l' o : run fuel l data max = (l', o) ->
    l_prior l' = l_prior l /\
    exists ms, model_evolution l' = model_evolution l ++ ms /\
      (ms <> [] -> l_model l' = Some (last ms (l_prior l))) /\
      (forall k, max = Some k -> (Z.of_nat (length ms) <= Z.max 0 k)%Z) /\
      (o = Done -> (forall k, max = Some k -> (1 <= k)%Z) -> ms <> []) /\
      (o = Running -> length ms = fuel /\ forall k, max = Some k -> (Z.of_nat fuel < k)%Z) /\
      (o = Done -> exists l0 m0 ts,
         initialize l data = (l0, None) /\ m_copy (l_prior l) = Ok m0 /\ l_model l0 = Some m0 /\ l_model l' = Some (last ms m0) /\
         goes_on process_data calculate stop l0 ts /\
         Forall2 (fun t m => l_model t = Some m) ts ms /\
         (forall j t, nth_error ts j = Some t -> model_evolution t = model_evolution l ++ firstn (j + 1) ms) /\
         ((exists k, max = Some k /\ Z.of_nat (length ms) = Z.max 0 k) \/
          (ts <> [] /\ exists s, stop (last ts l0) = (s, Ok true)))).
  Proof.
    unfold LearnModel.run. destruct (initialize l data) as [l0 [e|]] eqn:Ei.
    - intros E. injection E as <- <-. apply initialize_keeps in Ei as (P & V & _). split; auto.
      exists []. rewrite app_nil_r. split; auto. split; [congruence|]. split; [intros; cbn; lia|].
      split; [discriminate|]. split; discriminate.
    - intros E. pose proof (initialize_keeps _ _ _ _ Ei) as (P & V & M0). destruct (M0 eq_refl) as (m0 & C0 & L0).
      apply loop_trace in E as (ts & ms & G & F & T & P' & V' & M & B & O).
      split; [congruence|]. exists ms. split; [congruence|]. split; [intros N; rewrite M; apply last_some; auto|].
      split; [intros k Ek; specialize (B k Ek); lia|].
      assert (LM : length ts = length ms) by (eapply Forall2_length; eauto).
      split.
      { intros -> K. destruct O as [(k & Ek & O)|(t & s & N & _)].
        - specialize (K k Ek). destruct ms; [cbn in O; lia|discriminate].
        - destruct ms; [|discriminate]. destruct ts; [congruence|discriminate]. }
      split.
      { intros ->. destruct O as (O1 & O2). split; auto. }
      intros ->. exists l0, m0, ts. do 3 (split; [auto|]).
      split. { rewrite M, L0. destruct ms as [|m1 ms]; auto. apply last_some. discriminate. }
      do 2 (split; [auto|]). split.
      { intros j t A. rewrite <- V. auto. }
      destruct O as [(k & Ek & O)|(t & s & N & L & O)].
      + left. exists k. split; auto. specialize (B k Ek). lia.
      + right. split; auto. exists s. rewrite L. auto.
  Qed.

  Lemma step_cases l data l' e : step l data = (l', e) ->
    l_prior l' = l_prior l /\
    match e with
    | None => exists m s probs m', l_model l = Some m /\ 
        calculate (match data with None => l | Some d => with_sub l (fst (process_data l d)) end) = (s, Ok probs) /\
        updated m probs m' /\ l_model l' = Some m' /\ model_evolution l' = model_evolution l ++ [m']
    | Some _ => l_model l' = l_model l /\ model_evolution l' = model_evolution l
    end.
  Proof.
    intros E. destruct e as [e|].
    - apply step_raises in E as (P & M & V). auto.
    - apply step_ok in E as (m & s & probs & m' & Em & Ec & U & _ & _ & ->). split; auto.
      exists m, s, probs, m'. auto 6.
  Qed.

  Lemma history_evolution cs : forall l, exists mss,
    Forall2 (fun c ms => allowed c (length ms)) cs mss /\
    model_evolution (history process_data calculate stop l cs) = model_evolution l ++ concat mss /\
    l_prior (history process_data calculate stop l cs) = l_prior l.
  Proof.
    induction cs as [|c cs IH]; intros l.
    - exists []. cbn. rewrite app_nil_r. auto.
    - destruct (IH (perform process_data calculate stop l c)) as (mss & F & V & P).
      change (history process_data calculate stop l (c :: cs))
        with (history process_data calculate stop (perform process_data calculate stop l c) cs).
      rewrite V, P. clear V P IH.
      assert (H : exists ms, allowed c (length ms) /\ model_evolution (perform process_data calculate stop l c) = model_evolution l ++ ms /\
                             l_prior (perform process_data calculate stop l c) = l_prior l).
      { destruct c as [fuel data max|data]; cbn [perform].
        - destruct (run fuel l data max) as [l' o] eqn:E. apply run_trace in E as (P & ms & V & _ & B & _).
          exists ms. split; auto. cbn. destruct max; auto.
        - destruct (step l data) as [l' e] eqn:E. apply step_cases in E as (P & C). destruct e as [e|].
          + exists []. cbn. rewrite app_nil_r. destruct C as (_ & C). auto with arith.
          + destruct C as (_ & _ & _ & m' & _ & _ & _ & _ & C). exists [m']. cbn. auto. }
      destruct H as (ms & A & V & P). exists (ms :: mss). split; [constructor; auto|]. split; auto.
      rewrite V. cbn [concat]. rewrite app_assoc. reflexivity.
  Qed.
End Loop.
