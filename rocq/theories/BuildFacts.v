(** Building a model from a dictionary of multinomial factors. *)

From Coq Require Import String Bool Arith ZArith QArith Qcanon Lia Permutation List.
From Verif Require Import PyBase PyFacts Num DomainModel NdArray StoreModel NumStore FactorModel Spec StoreSpec DomainFacts StoreFacts
  NumFacts FactorSpec FactorFacts GraphModel GraphSpec GraphFacts ModelModel ModelSpec ModelFacts.
From Coq Require Import List.
Import ListNotations.
Local Open Scope nat_scope.
Local Arguments eqd : simpl never.

Section Build.
  Variable D : domain.
  Hypothesis ND : NoDup (keys D).
  Variable g : digraph.
  Variable check : bool.
  Variable k : kind.

  (** The factor [f] may be stored for [v]. *)
  Definition storable (v : var) (f : mfactor) : Prop :=
    In v (nodes g) /\ In v (mf_vars f) /\ (forall w l, In (w, l) (mf_domain f) -> In (w, l) D) /\ NoDup (mf_vars f) /\
    (check = true -> same_set (mf_left f) [v] /\ same_set (mf_right f) (preds g v) /\
       forall endo cast, k = KScm endo cast -> In v endo -> mf_is_degenerate f = Ok true).

  (** The state while building: [done v] is the factor stored so far. *)
  Definition building (done : var -> option mfactor) (m : pgm) : Prop :=
    m_graph m = g /\ m_check m = check /\ m_kind m = k /\
    keys (m_factors m) = nodes g /\ keys (m_domains m) = nodes g /\
    (forall v, In v (nodes g) -> dget v (m_factors m) = Some (option_map FM (done v))) /\
    (forall v, In v (nodes g) -> exists o, dget v (m_domains m) = Some o /\
        match done v with
        | Some _ => exists l, o = Some l /\ In (v, l) D
        | None => o = None
        end).

  Lemma building_fresh : building (fun _ => None) (fresh g check k).
  Proof.
    unfold fresh, building. cbn [m_graph m_factors m_domains m_check m_kind].
    assert (K : forall A, keys (map (fun v => (v, @None A)) (nodes g)) = nodes g).
    { intros A. unfold keys. rewrite map_map. cbn. apply map_id. }
    do 3 (split; [reflexivity|]). split; [apply K|]. split; [apply K|]. split.
    - intros v I. rewrite dget_map_none. apply mem_In in I. now rewrite I.
    - intros v I. exists None. rewrite dget_map_none. apply mem_In in I. now rewrite I.
  Qed.

  Lemma building_recorded done m v l : building done m -> recorded m v = Some l -> In v (nodes g) /\ In (v, l) D /\ done v <> None.
  Proof.
    intros (_ & _ & _ & _ & Kd & _ & Hd) R. unfold recorded in R.
    destruct (dget v (m_domains m)) as [[l'|]|] eqn:E; try discriminate. injection R as ->.
    assert (I : In v (nodes g)) by (rewrite <- Kd; apply dget_keys; eauto). split; [auto|].
    destruct (Hd v I) as (o & E' & C). rewrite E in E'. injection E' as <-.
    destruct (done v); [destruct C as (l' & E2 & J); injection E2 as ->; split; congruence|discriminate].
  Qed.

  Lemma set_one done m v f : wf_graph g -> building done m -> storable v f ->
    exists m', set_or_raise m v (FM f) = Ok m' /\ building (fun w => if eqd w v then Some f else done w) m'.
  Proof.
    intros Wg B (Iv & Ivf & Dom & NF & Ck). assert (B0 := B). destruct B as (Eg & Ec & Ek & Kf & Kd & Hf & Hd).
    assert (Cf : (if m_check m then check_factor m v (FM f) else Ok tt) = Ok tt).
    { rewrite Ec. destruct check eqn:Ech; auto. destruct (Ck eq_refl) as (L & R & _).
      unfold check_factor. rewrite Eg. destruct (get_parents_ok g [v]) as (ps & Ep & _ & Hp). { intros x [<-|[]]. auto. }
      rewrite Ep. cbn [bind fo_right].
      assert (E1 : set_eqb ps (mf_right f) = true).
      { apply set_eqb_iff. intros x. rewrite Hp, (R x), in_preds. split; [intros (w & [<-|[]] & A); auto|intros A; exists v; split; auto; now left]. }
      rewrite E1. cbn [negb fo_left bind].
      assert (E2 : set_eqb [v] (mf_left f) = true).
      { apply set_eqb_iff. intros x. rewrite (L x). tauto. }
      rewrite E2. cbn [negb fo_domain bind].
      assert (E3 : forallb (fun wl => match recorded m (fst wl) with Some l => set_eqb l (snd wl) | None => true end) (mf_domain f) = true).
      { apply forallb_forall. intros [w l] J. cbn. destruct (recorded m w) as [l'|] eqn:Er; auto.
        destruct (building_recorded done m w l' B0 Er) as (_ & J' & _). apply Dom in J.
        apply (In_dget w l D ND) in J. apply (In_dget w l' D ND) in J'. assert (l' = l) by congruence. subst.
        apply set_eqb_iff. intros x. tauto. }
      now rewrite E3. }
    assert (Ivd : exists l, dget v (mf_domain f) = Some l) by (apply dget_keys; exact Ivf). destruct Ivd as (l & El).
    assert (JD : In (v, l) D) by (apply Dom, dget_In; auto).
    assert (Sb : exists m', set_factor_base m v (FM f) = (m', None) /\ building (fun w => if eqd w v then Some f else done w) m').
    { unfold set_factor_base. rewrite Cf. destruct (recorded m v) as [l0|] eqn:Er.
      - eexists. split; [reflexivity|]. unfold building. cbn [m_graph m_factors m_domains m_check m_kind]. do 3 (split; [solve [auto]|]). split; [|split; [solve [auto]|split]].
        + rewrite keys_dset, Kf. apply mem_In in Iv. now rewrite Iv.
        + intros w Iw. rewrite dget_dset. destruct (eqd w v); auto.
        + intros w Iw. destruct (Hd w Iw) as (o & E & C). exists o. split; auto.
          destruct (eqd w v) as [-> | N]; auto. destruct (building_recorded done m v l0 B0 Er) as (_ & _ & Nn).
          destruct (done v); [auto|congruence].
      - cbn [fo_domain bind]. unfold dlook. rewrite El. cbn [bind]. eexists. split; [reflexivity|]. unfold building. cbn [m_graph m_factors m_domains m_check m_kind].
        do 3 (split; [solve [auto]|]). split; [|split; [|split]].
        + rewrite keys_dset, Kf. apply mem_In in Iv. now rewrite Iv.
        + rewrite keys_dset, Kd. apply mem_In in Iv. now rewrite Iv.
        + intros w Iw. rewrite dget_dset. destruct (eqd w v); auto.
        + intros w Iw. rewrite dget_dset. destruct (eqd w v) as [-> | N]; eauto. }
    destruct Sb as (m' & Es & B'). exists m'. split; [|auto]. unfold set_or_raise, set_factor. rewrite Ek.
    destruct k as [|endo cast] eqn:Ekk; [now rewrite Es|]. unfold scm_prepare.
    destruct (mem v endo) eqn:Me; [|now rewrite Es]. rewrite Ec. apply mem_In in Me.
    destruct check eqn:Ech.
    - destruct (Ck eq_refl) as (_ & _ & Dg). rewrite (Dg endo cast eq_refl Me). cbn. now rewrite Es.
    - cbn. now rewrite Es.
  Qed.

  Lemma set_many (fs : dict var fobj) (G : var -> mfactor) : wf_graph g ->
    (forall v f, In (v, f) fs -> f = FM (G v) /\ storable v (G v)) ->
    forall done m, building done m ->
    exists m', foldM (fun m vf => set_or_raise m (fst vf) (snd vf)) fs m = Ok m' /\
      building (fun w => if mem w (keys fs) then Some (G w) else done w) m'.
  Proof.
    intros Wg. induction fs as [|[v f] fs IH]; intros Hs done m B.
    - exists m. split; [reflexivity|]. exact B.
    - destruct (Hs v f (or_introl eq_refl)) as [-> St]. destruct (set_one done m v (G v) Wg B St) as (m1 & E1 & B1).
      destruct (IH (fun w h I => Hs w h (or_intror I)) _ m1 B1) as (m' & E' & B').
      exists m'. cbn [foldM fst snd]. rewrite E1. cbn [bind]. split; [exact E'|].
      assert (Ef : forall w, (if mem w (keys fs) then Some (G w) else if eqd w v then Some (G v) else done w) =
                             (if mem w (keys ((v, FM (G v)) :: fs)) then Some (G w) else done w)).
      { intros w. change (keys ((v, FM (G v)) :: fs)) with (v :: keys fs). unfold mem at 2. cbn [existsb].
        change (existsb (fun y => if eqd w y then true else false) (keys fs)) with (mem w (keys fs)).
        destruct (mem w (keys fs)); [now rewrite orb_true_r|]. destruct (eqd w v) as [-> | ]; auto. }
      destruct B' as (b1 & b2 & b3 & b4 & b5 & b6 & b7). unfold building. repeat (split; [solve [auto]|]).
      split; intros w Iw; rewrite <- Ef; auto.
  Qed.
End Build.

(** A model whose every node [v] has the factor [G v], with states from [D]. *)
Definition built (D : domain) (g : digraph) (G : var -> mfactor) (m : pgm) : Prop :=
  m_graph m = g /\ keys (m_factors m) = nodes g /\ keys (m_domains m) = nodes g /\
  (forall v, In v (nodes g) -> stored m v (FM (G v))) /\
  (forall v, In v (nodes g) -> exists l, has_domain m v l /\ In (v, l) D).

Lemma building_built D g check k G m fs : building D g check k (fun w => if mem w (keys fs) then Some (G w) else None) m ->
  (forall v, In v (nodes g) -> In v (keys (fs : dict var fobj))) -> built D g G m.
Proof.
  intros (b1 & b2 & b3 & b4 & b5 & b6 & b7) C. unfold built. repeat (split; [solve [auto]|]). split.
  - intros v I. unfold stored. rewrite (b6 v I). apply C, mem_In in I. now rewrite I.
  - intros v I. destruct (b7 v I) as (o & E & X). apply C, mem_In in I. rewrite I in X. destruct X as (l & -> & J). exists l. auto.
Qed.

(** The constructor on a dictionary of factors for all nodes. *)
Lemma bn_build D g check (fs : dict var fobj) G : NoDup (keys D) -> wf_graph g -> acyclic g ->
  (forall v f, In (v, f) fs -> f = FM (G v) /\ storable D g check KBn v (G v)) ->
  (forall v, In v (nodes g) -> In v (keys fs)) ->
  exists m, bn_init (GDag g) (Some (FsDict fs)) check = Ok m /\ built D g G m /\ m_check m = check /\ m_kind m = KBn.
Proof.
  intros ND Wg Ac Hs C. unfold bn_init. destruct (initialize_ok g Wg) as [E _]. rewrite (E Ac). cbn [bind].
  destruct (set_many D ND g check KBn fs G Wg Hs _ _ (building_fresh D g check KBn)) as (m & Em & B).
  exists m. cbn [set_factors]. split; [exact Em|]. split; [eapply building_built; eauto|]. destruct B as (_ & b2 & b3 & _). auto.
Qed.

Definition scm_endo (g : digraph) (endo : option (list var)) : list var :=
  match endo with Some (v :: r) => v :: r | _ => filter (fun v => 0 <? length (preds g v)) (nodes g) end.
Lemma scm_build D g check cast endo (fs : dict var fobj) G : NoDup (keys D) -> wf_graph g -> acyclic g ->
  (forall v f, In (v, f) fs -> f = FM (G v) /\ storable D g check (KScm (scm_endo g endo) cast) v (G v)) ->
  (forall v, In v (nodes g) -> In v (keys fs)) ->
  exists m, scm_init (GDag g) (Some (FsDict fs)) endo cast check = Ok m /\ built D g G m /\ m_check m = check /\
    m_kind m = KScm (scm_endo g endo) cast.
Proof.
  intros ND Wg Ac Hs C. unfold scm_init. destruct (initialize_ok g Wg) as [E _]. rewrite (E Ac). cbn [bind].
  assert (Ee : (match endo with Some (v :: r) => Ok (v :: r) | _ => Ok (filter (fun v => 0 <? length (preds g v)) (nodes g)) end) =
               Ok (scm_endo g endo)) by (unfold scm_endo; destruct endo as [[|]|]; auto).
  rewrite Ee. cbn [bind].
  destruct (set_many D ND g check _ fs G Wg Hs _ _ (building_fresh D g check _)) as (m & Em & B).
  exists m. cbn [set_factors]. split; [exact Em|]. split; [eapply building_built; eauto|]. destruct B as (_ & b2 & b3 & _). auto.
Qed.
