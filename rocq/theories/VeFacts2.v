(** Minimalization and the whole query. *)

From Coq Require Import String Bool Arith ZArith QArith Qcanon Lia Permutation List.
From Verif Require Import PyBase PyFacts Num DomainModel NdArray StoreModel NumStore FactorModel Spec StoreSpec DomainFacts StoreFacts
  NumFacts PropFacts1 StoreMarg2 FactorSpec FactorFacts FactorFacts2 FactorFacts3 BigSum GraphModel GraphSpec GraphFacts GraphFacts2
  ModelModel ModelSpec ModelFacts BuildFacts InferModel NetSpec NetSem FactorSem NetFacts VeFacts.
From Coq Require Import List.
Import ListNotations.
Local Open Scope nat_scope.
Local Arguments eqd : simpl never.

(** ** Connectivity *)

Lemma connected_ok g T y : wf_graph g -> incl T (nodes g) -> In y (nodes g) ->
  exists b, connected g T y = Ok b /\ (b = true <-> exists t, In t T /\ linked (arc g) t y).
Proof.
  intros W IT Iy. unfold connected. destruct (mem y T) eqn:M.
  - exists true. split; [reflexivity|]. split; [|reflexivity]. intros _. exists y. split; [now apply mem_In|constructor].
  - destruct (mapM_spec _ _ (fun t => if mem t (nodes g) then match component g t with Some c => Ok (mem y c) | None => Raise Unmodelled end else Raise NetworkXError)
       (fun t b => b = true <-> linked (arc g) t y) T) as (bs & E & Fa).
    { intros t J. assert (Jt := IT t J). destruct (component_ok g t W Jt) as (c & Ec & _ & _ & Hc). apply mem_In in Jt. rewrite Jt, Ec.
      exists (mem y c). split; [reflexivity|]. rewrite mem_In. apply Hc. }
    rewrite E. cbn [bind]. eexists. split; [reflexivity|]. rewrite existsb_exists. clear - Fa. split.
    + intros (b & J & ->). induction Fa as [|t b T bs Ht Fa IH]; [destruct J|]. destruct J as [-> | J].
      * exists t. split; [now left|now apply Ht].
      * destruct (IH J) as (t' & A & B). exists t'. split; [now right|auto].
    + intros (t & J & L). induction Fa as [|t' b T bs Ht Fa IH]; [destruct J|]. destruct J as [-> | J].
      * exists b. split; [now left|now apply Ht].
      * destruct (IH J) as (b' & A & B). exists b'. split; [now right|auto].
Qed.

Lemma disconnected_ok g T : wf_graph g -> incl T (nodes g) ->
  exists l, disconnected_nodes g T = Ok l /\ NoDup l /\
    forall x, In x l <-> In x (nodes g) /\ ~ exists t, In t T /\ linked (arc g) t x.
Proof.
  intros W IT. unfold disconnected_nodes.
  destruct (mapM_spec _ _ (fun x => let* b := connected g T x in Ok (x, b))
     (fun x xb => fst xb = x /\ (snd xb = true <-> exists t, In t T /\ linked (arc g) t x)) (nodes g)) as (bs & E & Fa).
  { intros x J. destruct (connected_ok g T x W IT J) as (b & Eb & Hb). rewrite Eb. exists (x, b). split; [reflexivity|]. auto. }
  rewrite E. cbn [bind]. eexists. split; [reflexivity|].
  assert (Ef : map fst bs = nodes g).
  { clear - Fa. induction Fa as [|x b xs bs [A _] Fa IH]; cbn; congruence. }
  split.
  - assert (N : NoDup (map fst bs)) by (rewrite Ef; apply W). clear - N. induction bs as [|b bs IH]; cbn; [constructor|].
    cbn in N. inversion N; subst. destruct (negb (snd b)); cbn; auto. constructor; auto.
    intros J. apply H1. apply in_map_iff in J as (c & <- & J). apply filter_In in J as [J _]. now apply in_map.
  - intros x. rewrite in_map_iff. split.
    + intros (b & <- & J). apply filter_In in J as [J Nb]. split; [rewrite <- Ef; now apply in_map|].
      clear - Fa J Nb. induction Fa as [|y c xs bs [A B] Fa IH]; [destruct J|]. destruct J as [-> | J]; [|auto].
      intros X. subst. apply B in X. rewrite X in Nb. discriminate.
    + intros (J & N). clear - Fa J N. induction Fa as [|y c xs bs [A B] Fa IH]; [destruct J|]. destruct J as [-> | J].
      * exists c. split; [auto|]. apply filter_In. split; [now left|]. destruct (snd c) eqn:Ec; auto. exfalso. apply N, B. auto.
      * destruct (IH J) as (b & A' & J'). exists b. split; auto. apply filter_In. apply filter_In in J' as [J' Q]. split; [now right|auto].
Qed.

(** ** minimalize *)

Section Minimalize.
  Variables (m : pgm) (D : domain) (F : var -> mfactor) (vt : vtype).
  Hypothesis H : network m D F vt.
  Variable e : obs.
  Hypothesis Ke : known D e.
  Hypothesis Ie : incl (keys e) (keys D).
  Variable T : list var.
  Hypothesis IT : incl T (keys D).
  Hypothesis Dj : forall v, In v T -> ~ In v (keys e).
  Notation g := (m_graph m).
  Notation P := (P F).
  Notation fam := (fam F).
  Notation sm := (sm D).
  Notation prods := (prods P).
  Let WD : wf_dom D := net_wd m D F vt H.

  (** What is known about the kept nodes [R], the barren nodes [B] and the
      disconnected nodes [C]. *)
  Definition split_nodes (R B C : list var) : Prop :=
    Permutation (keys D) ((R ++ C) ++ B) /\ incl T R /\
    (forall n p, In n (R ++ C) -> In p (fam n) -> ~ In p B) /\
    (forall v, In v (keys e) -> ~ In v B) /\
    (forall n p, In n R -> In p (fam n) -> In p C -> In p (keys e)) /\
    (forall n p, In n C -> In p (fam n) -> In p R -> In p (keys e)).

  Lemma split_disj R B C x : split_nodes R B C -> (In x R -> In x C -> False) /\ (In x R -> In x B -> False) /\ (In x C -> In x B -> False).
  Proof.
    intros (Pm & _). assert (ND : NoDup ((R ++ C) ++ B)) by (eapply Permutation_NoDup; [exact Pm|apply WD]).
    split; [|split]; intros J J'.
    - exact (NoDup_app_disj _ _ x (NoDup_app_l _ _ ND) J J').
    - apply (NoDup_app_disj _ _ x ND); auto. apply in_or_app. auto.
    - apply (NoDup_app_disj _ _ x ND); auto. apply in_or_app. auto.
  Qed.

  Lemma split_closed R B C n p : split_nodes R B C -> In n R -> In p (fam n) -> ~ In p (keys e) -> In p R.
  Proof.
    intros (Pm & _ & Hb & _ & Hrc & _) Jn Jp Np.
    assert (ID : In n (keys D)) by (apply (Permutation_in (l := (R ++ C) ++ B)); [now symmetry|]; rewrite !in_app_iff; auto).
    assert (J : In p (keys D)) by (eapply fam_keys; eauto).
    apply (Permutation_in _ Pm) in J. rewrite !in_app_iff in J. destruct J as [[J|J]|J]; auto; exfalso.
    - apply Np. eauto.
    - apply (Hb n p); auto. apply in_or_app. auto.
  Qed.

  (** the answer, up to the constant contributed by the disconnected nodes *)
  Lemma posterior_masses R B C : split_nodes R B C ->
    forall a, valid D a -> exists c,
      mass D F e = (sm (minus R (keys e)) (prods R) (over e a) * c)%Qc /\
      forall t, assigns D T t ->
        mass D F (t ++ e) = (sm (minus (minus R T) (keys e)) (prods R) (over t (over e a)) * c)%Qc.
  Proof.
    intros S a Va. assert (S0 := S). destruct S as (Pm & ITR & Hb & He & Hrc & Hcr).
    exists (sm (minus C (keys e)) (prods C) (over e a)). split.
    - apply (mass_split m D F vt H R B C e a); auto.
    - intros t [Kt Ft].
      assert (Kn : known D (t ++ e)).
      { intros v l s J Es. rewrite dget_app in Es. destruct (dget v t) as [s'|] eqn:Et; [|eapply Ke; eauto]. injection Es as ->.
        destruct (Ft v l) as (s'' & Es'' & J'').
        - apply filter_In. split; auto. apply mem_In. cbn. rewrite <- Kt. apply dget_keys. eauto.
        - congruence. }
      assert (Kapp : keys (t ++ e) = keys t ++ keys e) by (unfold keys; apply map_app).
      assert (Hin : forall v, In v (keys (t ++ e)) <-> In v T \/ In v (keys e)) by (intros v; rewrite Kapp, in_app_iff, Kt; tauto).
      rewrite (mass_split m D F vt H R B C (t ++ e) a); auto.
      + assert (Eov : forall w, over (t ++ e) a w = over t (over e a) w) by (intros w; unfold over; rewrite dget_app; destruct (dget w t); auto).
        f_equal.
        * transitivity (sm (minus R (keys (t ++ e))) (prods R) (over t (over e a))).
          -- apply (sm_ext_fun D); auto. apply (prods_ext' m D F vt H). intros x J.
             apply (Permutation_in (l := (R ++ C) ++ B)); [now symmetry|]. rewrite !in_app_iff. auto.
          -- apply sm_set. intros v _. rewrite !minus_In, Hin. tauto.
        * assert (IC : incl C (keys D)).
          { intros x J. apply (Permutation_in (l := (R ++ C) ++ B)); [now symmetry|]. rewrite !in_app_iff. auto. }
          transitivity (sm (minus C (keys e)) (prods C) (over (t ++ e) a)).
          -- apply sm_set. intros v _. rewrite !minus_In, Hin. split; [tauto|]. intros [J N]. split; auto.
             intros [J'|J']; auto. apply (proj1 (split_disj R B C v S0)); auto.
          -- apply (sm_dep D (minus C (keys e)) (prods C) (flat_map fam C)); [now apply (prods_dep' m D F vt H)|].
             intros w J. apply filter_In in J as [J _]. apply in_flat_map in J as (n & Jn & Jw).
             rewrite Eov. unfold over at 1. destruct (dget w t) as [s|] eqn:Et; auto. exfalso.
             assert (JT : In w T) by (rewrite <- Kt; apply dget_keys; eauto).
             apply (Dj w JT). eapply Hcr; eauto.
      + intros v J. apply Hin in J as [J|J]; auto. intros J'. apply (proj1 (proj2 (split_disj R B C v S0))); auto.
      + intros n p Jn Jp Jc. apply Hin. right. eauto.
      + intros n p Jn Jp Jc. apply Hin. right. eauto.
  Qed.

  Lemma minimalize_ok : exists im R B C G,
    minimalize m T e = Ok im /\ split_nodes R B C /\ NoDup R /\
    built D (m_graph im) G im /\ wf_graph (m_graph im) /\ acyclic (m_graph im) /\
    (forall v, In v (nodes (m_graph im)) <-> In v R) /\
    (forall x y, arc (m_graph im) x y <-> arc g x y /\ ~ In x (keys e) /\ In x R /\ In y R) /\
    (forall v, In v R -> mf_restrict (F v) (dfilter (fun w => mem w (mf_right (F v))) e) = Ok (G v)).
  Proof.
    assert (Wg := net_wg m D F vt H). assert (Ac := net_ac m D F vt H).
    destruct (barren_ok g (T ++ keys e) Wg Ac) as (b & Eb & Hb).
    destruct (remove_outgoing_ok g (keys e) Wg) as (N1 & W1 & A1). set (g1 := remove_outgoing_edges g (keys e)) in *.
    destruct (remove_nodes_ok g1 b W1) as (W2 & N2 & A2). set (g2 := remove_nodes g1 b) in *.
    assert (Tb : forall v, In v T -> ~ In v b).
    { intros v J J'. apply Hb in J' as [_ J']. apply J'. exists v. split; [apply in_or_app; auto|now left]. }
    assert (eb : forall v, In v (keys e) -> ~ In v b).
    { intros v J J'. apply Hb in J' as [_ J']. apply J'. exists v. split; [apply in_or_app; auto|now left]. }
    assert (T2 : incl T (nodes g2)).
    { intros v J. apply N2. rewrite N1. split; [apply (net_nodes m D F vt H); auto|auto]. }
    destruct (disconnected_ok g2 T W2 T2) as (c & Ec & Nc & Hc).
    set (irr := filter (fun v => negb (mem v T)) (b ++ c)).
    set (g3 := remove_nodes g1 irr). destruct (remove_nodes_ok g1 irr W1) as (W3 & N3 & A3). fold g3 in W3, N3, A3.
    assert (cb : forall v, In v c -> ~ In v b) by (intros v J; apply Hc in J as [J _]; apply N2 in J; tauto).
    assert (cT : forall v, In v T -> ~ In v c).
    { intros v J J'. apply Hc in J' as [_ J']. apply J'. exists v. split; auto. constructor. }
    assert (Hirr : forall v, In v irr <-> In v b \/ In v c).
    { intros v. unfold irr. rewrite filter_In, in_app_iff, negb_true_iff, mem_nIn. split; [tauto|]. intros J. split; auto.
      intros JT. destruct J as [J|J]; [exact (Tb v JT J)|exact (cT v JT J)]. }
    set (R := nodes g3). set (B := filter (fun v => mem v b) (keys D)). set (C := filter (fun v => mem v c) (keys D)).
    assert (inB : forall v, In v B <-> In v b).
    { intros v. unfold B. rewrite filter_In, mem_In. split; [tauto|]. intros J. split; auto. apply (net_nodes m D F vt H). now apply Hb. }
    assert (inC : forall v, In v C <-> In v c).
    { intros v. unfold C. rewrite filter_In, mem_In. split; [tauto|]. intros J. split; auto. apply (net_nodes m D F vt H).
      apply Hc in J as [J _]. apply N2 in J as [J _]. rewrite N1 in J. auto. }
    assert (inR : forall v, In v R <-> In v (keys D) /\ ~ In v b /\ ~ In v c).
    { intros v. unfold R. rewrite N3, N1, Hirr, (net_nodes m D F vt H v). tauto. }
    assert (NR : NoDup R) by apply W3.
    assert (arc2 : forall p n, arc g p n -> ~ In p (keys e) -> ~ In n b -> arc g2 p n).
    { intros p n A Np Nn. apply A2. split; [apply A1; auto|]. split; auto. intros J. apply Hb in J as [_ J]. apply Nn. apply Hb.
      split; [apply Wg in A; tauto|]. intros (s & Js & Rs). apply J. exists s. split; auto. right. eapply arc_reach; eauto. }
    assert (Sp : split_nodes R B C).
    { split; [|split; [|split; [|split; [|split]]]].
      - apply NoDup_Permutation; [apply WD| |].
        + apply NoDup_app_intro; [apply NoDup_app_intro|..]; auto.
          * apply NoDup_filter, WD.
          * intros x J. rewrite inC. apply inR in J. tauto.
          * apply NoDup_filter, WD.
          * intros x J. rewrite inB. apply in_app_or in J as [J|J]; [apply inR in J; tauto|]. apply inC in J. auto.
        + intros x. rewrite !in_app_iff, inR, inC, inB. split.
          * intros J. destruct (in_dec eqd x b); auto. destruct (in_dec eqd x c); auto.
          * intros [[J|J]|J]; [tauto|now apply inC in J; unfold C in J; apply filter_In in J|now apply inB in J; unfold B in J; apply filter_In in J].
      - intros v J. apply inR. auto.
      - intros n p Jn Jp. rewrite inB. intros Jb.
        assert (Nn : In n (keys D) /\ ~ In n b).
        { apply in_app_or in Jn as [J|J]; [apply inR in J; tauto|]. split; [unfold C in J; now apply filter_In in J|]. apply inC in J. auto. }
        destruct Nn as [Dn Nn]. apply (fam_In m D F vt H n p Dn) in Jp as [-> | A]; [auto|].
        apply Hb in Jb as [_ Jb]. apply Nn. apply Hb. split; [now apply (net_nodes m D F vt H)|].
        intros (s & Js & Rs). apply Jb. exists s. split; auto. right. eapply arc_reach; eauto.
      - intros v J. rewrite inB. auto.
      - intros n p Jn Jp Jc. destruct (in_dec eqd p (keys e)) as [|Ne]; auto. exfalso.
        apply inR in Jn as (Dn & Nb & Ncn). apply inC in Jc. apply (fam_In m D F vt H n p Dn) in Jp as [-> | A]; [auto|].
        assert (A' := arc2 p n A Ne Nb). apply Ncn. apply Hc. split; [apply N2; rewrite N1; split; auto; now apply (net_nodes m D F vt H)|].
        intros (t & Jt & Lt). apply Hc in Jc as [_ Jc]. apply Jc. exists t. split; auto. eapply linked_trans; [exact Lt|].
        eapply linked_bwd; [exact A'|constructor].
      - intros n p Jn Jp Jr. destruct (in_dec eqd p (keys e)) as [|Ne]; auto. exfalso.
        apply inR in Jr as (Dp & Nb & Ncp). apply inC in Jn. assert (Dn : In n (keys D)) by (apply inC in Jn; unfold C in Jn; now apply filter_In in Jn).
        apply (fam_In m D F vt H n p Dn) in Jp as [-> | A]; [auto|].
        assert (A' := arc2 p n A Ne (cb n Jn)). apply Ncp. apply Hc. split; [apply N2; rewrite N1; split; auto; now apply (net_nodes m D F vt H)|].
        intros (t & Jt & Lt). apply Hc in Jn as [_ Jn]. apply Jn. exists t. split; auto. eapply linked_trans; [exact Lt|].
        eapply linked_fwd; [exact A'|constructor]. }
    (* the factors *)
    set (ob := fun v => dfilter (fun w => mem w (mf_right (F v))) e).
    assert (Kob : forall v, known D (ob v)).
    { intros v w l s J Es. unfold ob in Es. rewrite dget_dfilter in Es. destruct (mem w (mf_right (F v))); [|discriminate]. eapply Ke; eauto. }
    assert (HG : forall v, In v (keys D) -> exists f, mf_restrict (F v) (ob v) = Ok f).
    { intros v J. destruct (good_restrict D vt (F v) (ob v) (net_good m D F vt H v J) (Kob v)) as (h & E & _). eauto. }
    set (G := fun v => match mf_restrict (F v) (ob v) with Ok f => f | Raise _ => F v end).
    assert (EG : forall v, In v (keys D) -> mf_restrict (F v) (ob v) = Ok (G v)).
    { intros v J. unfold G. destruct (HG v J) as (f & E). now rewrite E. }
    assert (H0 := H). destruct H0 as (_ & _ & _ & _ & NK & SK & St).
    set (kept := dfilter (fun v => negb (mem v irr)) (m_factor_dict m)).
    assert (Kmf : keys (m_factor_dict m) = keys (m_factors m)) by (unfold m_factor_dict, keys; rewrite map_map; reflexivity).
    assert (Kk : forall v f, In (v, f) kept -> In v (keys D) /\ f = FM (F v) /\ ~ In v irr).
    { intros v f J.
      assert (NKk : NoDup (keys kept)) by (unfold kept; rewrite keys_dfilter, Kmf; now apply NoDup_filter).
      assert (Ed := In_dget v f kept NKk J). unfold kept in Ed. rewrite dget_dfilter in Ed.
      destruct (negb (mem v irr)) eqn:Mi; [|discriminate]. unfold m_factor_dict in Ed.
      assert (Jv : In v (keys (m_factors m))).
      { rewrite <- Kmf. apply dget_keys. exists f. exact Ed. }
      apply SK in Jv. split; [now apply (net_nodes m D F vt H)|]. destruct (St v Jv) as [S1 _]. unfold stored in S1.
      split; [|apply mem_nIn; now apply negb_true_iff].
      assert (Q : dget v (map (fun vf => (fst vf, as_fobj (snd vf))) (m_factors m)) = Some (FM (F v))).
      { clear - S1. induction (m_factors m) as [|[w o] l IH]; [discriminate|]. cbn in *. destruct (eqd v w); auto. now injection S1 as ->. }
      rewrite Q in Ed. congruence. }
    set (nf := map (fun vf => (fst vf, FM (G (fst vf)))) kept).
    assert (Enf : mapM (fun vf => let* f := set_observed e (snd vf) in Ok (fst vf, f)) kept = Ok nf).
    { apply mapM_map_ok. intros [v f] J. destruct (Kk v f J) as (Jd & -> & _). cbn [fst snd]. unfold set_observed. cbn [fo_right bind fo_restrict].
      fold (ob v). rewrite (EG v Jd). reflexivity. }
    assert (Knf : keys nf = keys kept) by (unfold nf, keys; rewrite map_map; reflexivity).
    assert (Ac3 : acyclic g3).
    { apply (acyclic_mono g); auto. intros x y A. apply A3 in A as [A _]. apply A1 in A. tauto. }
    assert (Stor : forall k v f, In (v, f) nf -> f = FM (G v) /\ storable D g3 false k v (G v)).
    { intros k v f J. apply in_map_iff in J as ([w h] & E & J). cbn in E. injection E as <- <-. destruct (Kk w h J) as (Jd & -> & Ni).
      split; [reflexivity|].
      destruct (good_restrict D vt (F w) (ob w) (net_good m D F vt H w Jd) (Kob w)) as (h & E & Gh & _ & Vh & _).
      rewrite (EG w Jd) in E. injection E as <-. split; [apply N3; rewrite N1; split; auto; now apply (net_nodes m D F vt H)|].
      split; [|split; [apply Gh|split; [apply Gh|discriminate]]].
      apply Vh. split.
      - apply (fam_In m D F vt H w w Jd). auto.
      - unfold ob. rewrite keys_dfilter, filter_In, mem_In. intros [_ J'].
        destruct (net_cpt m D F vt H w Jd) as (Wf & _ & Lf & _). destruct (wf_mf_partitioned (F w) Wf) as (_ & _ & _ & _ & Dis).
        apply (Dis w). split; auto. apply Lf. now left. }
    assert (Cov : forall v, In v (nodes g3) -> In v (keys nf)).
    { intros v J. rewrite Knf. unfold kept. rewrite keys_dfilter, filter_In, Kmf, negb_true_iff, mem_nIn.
      apply N3 in J as [J Ni]. rewrite N1 in J. split; auto. now apply SK. }
    assert (Bd : exists im, m_builder m g3 (Some (FsDict nf)) false = Ok im /\ built D g3 G im).
    { unfold m_builder. destruct (m_kind m) as [|endo cast].
      - destruct (bn_build D g3 false nf G (proj1 WD) W3 Ac3 (Stor KBn) Cov) as (im & E & Bm & _). eauto.
      - destruct (scm_build D g3 false cast (Some endo) nf G (proj1 WD) W3 Ac3 (Stor _) Cov) as (im & E & Bm & _). eauto. }
    destruct Bd as (im & Ei & Bi). assert (Egi : m_graph im = g3) by apply Bi.
    exists im, R, B, C, G. split.
    { unfold minimalize, barren_nodes. rewrite Eb. fold g1. fold g2. rewrite Ec. cbn [bind]. fold irr. fold g3. fold kept.
      rewrite Enf. cbn [bind]. exact Ei. }
    rewrite Egi. split; [exact Sp|]. split; [exact NR|]. split; [exact Bi|]. split; [exact W3|]. split; [exact Ac3|]. split; [reflexivity|].
    split.
    - intros x y. rewrite A3, A1, !Hirr. split.
      + intros ((A & Ne) & Nx & Ny). split; auto. split; auto. apply Wg in A as Wx. destruct Wx as [Wx Wy].
        apply (net_nodes m D F vt H) in Wx. apply (net_nodes m D F vt H) in Wy. split; apply inR; tauto.
      + intros (A & Ne & Jx & Jy). apply inR in Jx. apply inR in Jy. tauto.
    - intros v J. apply inR in J as [J _]. apply EG. auto.
  Qed.
End Minimalize.
