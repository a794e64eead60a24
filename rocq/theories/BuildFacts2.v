(** Building a model from factor objects of either kind, given as a dictionary
    or as a list. *)

From Coq Require Import String Bool Arith ZArith QArith Qcanon Lia Permutation List.
From Verif Require Import PyBase PyFacts Num DomainModel NdArray StoreModel NumStore FactorModel Spec StoreSpec DomainFacts StoreFacts
  NumFacts FactorSpec FactorFacts GraphModel GraphSpec GraphFacts ModelModel ModelSpec ModelFacts BuildFacts.
From Coq Require Import List.
Import ListNotations.
Local Open Scope nat_scope.
Local Arguments eqd : simpl never.

Section Build.
  Variable D : domain.
  Hypothesis ND : NoDup (keys D).
  Variable g : digraph.
  Hypothesis Wg : wf_graph g.
  Variable check : bool.
  Variable k : kind.

  (** The object [f], given for [v], is accepted and stored as [f']. *)
  Definition accepted (v : var) (f f' : fobj) : Prop :=
    match k with
    | KBn => f' = f
    | KScm endo cast => forall m, m_check m = check -> scm_prepare m endo cast v f = Ok f'
    end /\
    In v (nodes g) /\
    exists d l r, is_factor f' d l r /\ In v (keys d) /\ (forall w s, In (w, s) d -> In (w, s) D) /\
      (check = true -> same_set l [v] /\ same_set r (preds g v)).

  Definition partial (done : var -> option fobj) (m : pgm) : Prop :=
    m_graph m = g /\ m_check m = check /\ m_kind m = k /\
    keys (m_factors m) = nodes g /\ keys (m_domains m) = nodes g /\
    (forall v, In v (nodes g) -> dget v (m_factors m) = Some (done v)) /\
    (forall v, In v (nodes g) -> exists o, dget v (m_domains m) = Some o /\
        match done v with
        | Some _ => exists l, o = Some l /\ In (v, l) D
        | None => o = None
        end).

  Lemma partial_fresh : partial (fun _ => None) (fresh g check k).
  Proof.
    unfold fresh, partial. cbn [m_graph m_factors m_domains m_check m_kind].
    assert (K : forall A, keys (map (fun v => (v, @None A)) (nodes g)) = nodes g).
    { intros A. unfold keys. rewrite map_map. cbn. apply map_id. }
    do 3 (split; [reflexivity|]). split; [apply K|]. split; [apply K|]. split.
    - intros v I. rewrite dget_map_none. apply mem_In in I. now rewrite I.
    - intros v I. exists None. rewrite dget_map_none. apply mem_In in I. now rewrite I.
  Qed.

  Lemma partial_recorded done m v l : partial done m -> recorded m v = Some l -> In v (nodes g) /\ In (v, l) D /\ done v <> None.
  Proof.
    intros (_ & _ & _ & _ & Kd & _ & Hd) R. unfold recorded in R.
    destruct (dget v (m_domains m)) as [[l'|]|] eqn:E; try discriminate. injection R as ->.
    assert (I : In v (nodes g)) by (rewrite <- Kd; apply dget_keys; eauto). split; [auto|].
    destruct (Hd v I) as (o & E' & C). rewrite E in E'. injection E' as <-.
    destruct (done v); [destruct C as (l' & E2 & J); injection E2 as ->; split; congruence|discriminate].
  Qed.

  Lemma put_one done m v f f' : partial done m -> accepted v f f' ->
    exists m', set_or_raise m v f = Ok m' /\ partial (fun w => if eqd w v then Some f' else done w) m'.
  Proof.
    intros B (Pr & Iv & d & l & r & (Fd & Fl & Fr) & Ivd & Dom & Ck). assert (B0 := B).
    destruct B as (Eg & Ec & Ek & Kf & Kd & Hf & Hd).
    assert (Cf : (if m_check m then check_factor m v f' else Ok tt) = Ok tt).
    { rewrite Ec. destruct check eqn:Ech; auto. destruct (Ck eq_refl) as (L & R).
      unfold check_factor. rewrite Eg. destruct (get_parents_ok g [v]) as (ps & Ep & _ & Hp). { intros x [<-|[]]. auto. }
      rewrite Ep. cbn [bind]. rewrite Fd, Fl, Fr. cbn [bind].
      assert (E1 : set_eqb ps r = true).
      { apply set_eqb_iff. intros x. rewrite Hp, (R x), in_preds. split; [intros (w & [<-|[]] & A); auto|intros A; exists v; split; auto; now left]. }
      rewrite E1. cbn [negb].
      assert (E2 : set_eqb [v] l = true).
      { apply set_eqb_iff. intros x. rewrite (L x). tauto. }
      rewrite E2. cbn [negb].
      assert (E3 : forallb (fun wl => match recorded m (fst wl) with Some l => set_eqb l (snd wl) | None => true end) d = true).
      { apply forallb_forall. intros [w s] J. cbn. destruct (recorded m w) as [l'|] eqn:Er; auto.
        destruct (partial_recorded done m w l' B0 Er) as (_ & J' & _). apply Dom in J.
        apply (In_dget w s D ND) in J. apply (In_dget w l' D ND) in J'. assert (l' = s) by congruence. subst.
        apply set_eqb_iff. intros x. tauto. }
      rewrite E3. destruct f'; auto. discriminate. }
    assert (Ld : exists s, dget v d = Some s) by (apply dget_keys; exact Ivd). destruct Ld as (s & El).
    assert (JD : In (v, s) D) by (apply Dom, dget_In; auto).
    assert (Sb : exists m', set_factor_base m v f' = (m', None) /\ partial (fun w => if eqd w v then Some f' else done w) m').
    { unfold set_factor_base. rewrite Cf. destruct (recorded m v) as [l0|] eqn:Er.
      - eexists. split; [reflexivity|]. unfold partial. cbn [m_graph m_factors m_domains m_check m_kind]. do 3 (split; [solve [auto]|]). split; [|split; [solve [auto]|split]].
        + rewrite keys_dset, Kf. apply mem_In in Iv. now rewrite Iv.
        + intros w Iw. rewrite dget_dset. destruct (eqd w v); auto.
        + intros w Iw. destruct (Hd w Iw) as (o & E & C). exists o. split; auto.
          destruct (eqd w v) as [-> | N]; auto. destruct (partial_recorded done m v l0 B0 Er) as (_ & _ & Nn).
          destruct (done v); [auto|congruence].
      - rewrite Fd. cbn [bind]. unfold dlook. rewrite El. cbn [bind]. eexists. split; [reflexivity|].
        unfold partial. cbn [m_graph m_factors m_domains m_check m_kind].
        do 3 (split; [solve [auto]|]). split; [|split; [|split]].
        + rewrite keys_dset, Kf. apply mem_In in Iv. now rewrite Iv.
        + rewrite keys_dset, Kd. apply mem_In in Iv. now rewrite Iv.
        + intros w Iw. rewrite dget_dset. destruct (eqd w v); auto.
        + intros w Iw. rewrite dget_dset. destruct (eqd w v) as [-> | N]; eauto. }
    destruct Sb as (m' & Es & B'). exists m'. split; [|auto]. unfold set_or_raise, set_factor. rewrite Ek.
    destruct k as [|endo cast] eqn:Ekk; [subst f'; now rewrite Es|]. now rewrite (Pr m Ec), Es.
  Qed.

  (** what is stored after the factors [fs] were put in *)
  Fixpoint put (fs : list (var * fobj)) (done : var -> option fobj) : var -> option fobj :=
    match fs with
    | [] => done
    | (v, f) :: r => put r (fun w => if eqd w v then Some f else done w)
    end.
  Lemma put_other fs : forall done w, ~ In w (keys fs) -> put fs done w = done w.
  Proof.
    induction fs as [|[v f] fs IH]; intros done w N; [reflexivity|]. cbn [put]. rewrite IH; [|intros J; apply N; now right].
    destruct (eqd w v) as [-> | ]; auto. exfalso. apply N. now left.
  Qed.
  Lemma put_get fs (G : var -> fobj) : (forall v f, In (v, f) fs -> f = G v) ->
    forall done w, put fs done w = if mem w (keys fs) then Some (G w) else done w.
  Proof.
    induction fs as [|[v f] fs IH]; intros H done w; [reflexivity|]. cbn [put].
    rewrite IH by (intros; apply H; now right).
    change (keys ((v, f) :: fs)) with (v :: keys fs). unfold mem at 2. cbn [existsb].
    change (existsb (fun y => if eqd w y then true else false) (keys fs)) with (mem w (keys fs)).
    destruct (mem w (keys fs)); [now rewrite orb_true_r|]. destruct (eqd w v) as [-> | ]; auto.
    cbn. now rewrite (H v f (or_introl eq_refl)).
  Qed.

  Lemma put_dict : forall (fs fs' : dict var fobj), Forall2 (fun vf vf' => fst vf' = fst vf /\ accepted (fst vf) (snd vf) (snd vf')) fs fs' ->
    forall done m, partial done m ->
    exists m', foldM (fun m vf => set_or_raise m (fst vf) (snd vf)) fs m = Ok m' /\ partial (put fs' done) m'.
  Proof.
    induction 1 as [|[v f] [v' f'] fs fs' [E A] R IH]; intros done m B.
    - exists m. auto.
    - cbn [fst snd] in *. subst v'. destruct (put_one done m v f f' B A) as (m1 & E1 & B1).
      destruct (IH _ m1 B1) as (m' & E' & B'). exists m'. cbn [foldM fst snd]. rewrite E1. auto.
  Qed.
  Definition put_step (m : pgm) (f : fobj) : res pgm :=
    let* lv := fo_left f in
    if 1 <? length lv then Raise ValueError else
    let* v := py_nth lv 0 in
    set_or_raise m v f.
  Lemma put_list : forall (fs : list fobj) (fs' : dict var fobj),
    Forall2 (fun f vf' => fo_left f = Ok [fst vf'] /\ accepted (fst vf') f (snd vf')) fs fs' ->
    forall done m, partial done m ->
    exists m', foldM put_step fs m = Ok m' /\ partial (put fs' done) m'.
  Proof.
    induction 1 as [|f [v f'] fs fs' [E A] R IH]; intros done m B.
    - exists m. auto.
    - cbn [fst snd] in *. destruct (put_one done m v f f' B A) as (m1 & E1 & B1).
      destruct (IH _ m1 B1) as (m' & E' & B'). exists m'. cbn [foldM]. unfold put_step at 1.
      rewrite E. cbn [bind length Nat.ltb Nat.leb py_nth nth_error]. unfold py_nth. cbn [nth_error bind]. rewrite E1. auto.
  Qed.
End Build.

(** A complete model: every node has the object [G v]. *)
Definition complete (D : domain) (g : digraph) (G : var -> fobj) (m : pgm) : Prop :=
  m_graph m = g /\ keys (m_factors m) = nodes g /\ keys (m_domains m) = nodes g /\
  (forall v, In v (nodes g) -> stored m v (G v)) /\
  (forall v, In v (nodes g) -> exists l, has_domain m v l /\ In (v, l) D).

Lemma partial_complete D g check k G m fs : partial D g check k (put fs (fun _ => None)) m ->
  (forall v f, In (v, f) fs -> f = G v) ->
  (forall v, In v (nodes g) -> In v (keys (fs : dict var fobj))) -> complete D g G m.
Proof.
  intros (b1 & b2 & b3 & b4 & b5 & b6 & b7) HG C. unfold complete. repeat (split; [solve [auto]|]). split.
  - intros v I. unfold stored. rewrite (b6 v I), (put_get fs G HG). apply C, mem_In in I. now rewrite I.
  - intros v I. destruct (b7 v I) as (o & E & X). rewrite (put_get fs G HG) in X. apply C, mem_In in I. rewrite I in X.
    destruct X as (l & -> & J). exists l. auto.
Qed.

Lemma scm_endo_ok g endo : 
  (match endo with Some (v :: r) => Ok (v :: r) | _ => Ok (filter (fun v => 0 <? length (preds g v)) (nodes g)) end) = Ok (scm_endo g endo).
Proof. unfold scm_endo; destruct endo as [[|]|]; auto. Qed.

Lemma scm_complete D g check cast endo (fs fs' : dict var fobj) G : NoDup (keys D) -> wf_graph g -> acyclic g ->
  Forall2 (fun vf vf' => fst vf' = fst vf /\ accepted D g check (KScm (scm_endo g endo) cast) (fst vf) (snd vf) (snd vf')) fs fs' ->
  (forall v f, In (v, f) fs' -> f = G v) -> (forall v, In v (nodes g) -> In v (keys fs')) ->
  exists m, scm_init (GDag g) (Some (FsDict fs)) endo cast check = Ok m /\ complete D g G m /\ m_check m = check /\
    m_kind m = KScm (scm_endo g endo) cast.
Proof.
  intros ND Wg Ac Hs HG C. unfold scm_init. destruct (initialize_ok g Wg) as [E _]. rewrite (E Ac). cbn [bind].
  rewrite scm_endo_ok. cbn [bind].
  destruct (put_dict D ND g check _ fs fs' Hs _ _ (partial_fresh D g check _)) as (m & Em & B).
  exists m. cbn [set_factors]. split; [exact Em|]. split; [eapply partial_complete; eauto|]. destruct B as (_ & b2 & b3 & _). auto.
Qed.
Lemma scm_complete_list D g check cast endo (fs : list fobj) (fs' : dict var fobj) G : NoDup (keys D) -> wf_graph g -> acyclic g ->
  Forall2 (fun f vf' => fo_left f = Ok [fst vf'] /\ accepted D g check (KScm (scm_endo g endo) cast) (fst vf') f (snd vf')) fs fs' ->
  (forall v f, In (v, f) fs' -> f = G v) -> (forall v, In v (nodes g) -> In v (keys fs')) ->
  exists m, scm_init (GDag g) (Some (FsList fs)) endo cast check = Ok m /\ complete D g G m /\ m_check m = check /\
    m_kind m = KScm (scm_endo g endo) cast.
Proof.
  intros ND Wg Ac Hs HG C. unfold scm_init. destruct (initialize_ok g Wg) as [E _]. rewrite (E Ac). cbn [bind].
  rewrite scm_endo_ok. cbn [bind].
  destruct (put_list D ND g check _ fs fs' Hs _ _ (partial_fresh D g check _)) as (m & Em & B).
  exists m. cbn [set_factors]. split; [exact Em|]. split; [eapply partial_complete; eauto|]. destruct B as (_ & b2 & b3 & _). auto.
Qed.

Lemma scm_list_unfold g fs cast check endo : wf_graph g -> acyclic g ->
  scm_init (GDag g) (Some (FsList fs)) endo cast check = foldM put_step fs (fresh g check (KScm (scm_endo g endo) cast)).
Proof.
  intros Wg Ac. unfold scm_init. destruct (initialize_ok g Wg) as [E _]. rewrite (E Ac). cbn [bind].
  rewrite scm_endo_ok. reflexivity.
Qed.
