(** The network that remains after minimalization. *)

From Coq Require Import String Bool Arith ZArith QArith Qcanon Lia Permutation List.
From Verif Require Import PyBase PyFacts Num DomainModel NdArray StoreModel NumStore FactorModel Spec StoreSpec DomainFacts StoreFacts
  NumFacts PropFacts1 StoreMarg2 FactorSpec FactorFacts FactorFacts2 FactorFacts3 BigSum GraphModel GraphSpec GraphFacts GraphFacts2
  ModelModel ModelSpec ModelFacts BuildFacts InferModel NetSpec NetSem FactorSem NetFacts VeFacts VeFacts2 VeFacts3 VeFacts4.
From Coq Require Import List.
Import ListNotations.
Local Open Scope nat_scope.
Local Arguments eqd : simpl never.

Lemma extend D d o : wf_dom D -> full d o -> (forall v l, In (v, l) d -> In (v, l) D) ->
  exists b, valid D b /\ agrees o b (keys d).
Proof.
  intros WD Fo Sub. destruct (some_valid D WD) as (a0 & Va0). exists (over (obs_of (keys d) (over o a0)) a0).
  assert (Eb : forall v, In v (keys d) -> over (obs_of (keys d) (over o a0)) a0 v = over o a0 v)
    by (intros v J; unfold over at 1; now rewrite obs_of_get).
  split.
  - intros v l J. destruct (in_dec eqd v (keys d)) as [K|N].
    + rewrite (Eb v K). apply keys_In in K as (l' & K). rewrite (dom_unique D v l l' (proj1 WD) J (Sub _ _ K)).
      destruct (Fo v l' K) as (s & Es & Js). unfold over. now rewrite Es.
    + unfold over at 1. rewrite (proj2 (dget_None v (obs_of (keys d) (over o a0)))); [now apply Va0|]. now rewrite obs_of_In.
  - intros v K. rewrite (Eb v K). apply keys_In in K as (l & K). destruct (Fo v l K) as (s & Es & _). unfold over. now rewrite Es.
Qed.

Lemma good_normalised D vt f v : wf_dom D -> good D vt f -> same_set (mf_left f) [v] ->
  (forall a, valid D a -> sm D [v] (fv f) a = 1%Qc) -> normalised f.
Proof.
  intros WD G L One. assert (W := proj1 G). destruct (wf_mf_partitioned f W) as (NV & NL & NR & P & Dj).
  assert (Iv : In v (mf_vars f)) by (apply P; left; apply L; now left).
  assert (Hw : forall w l, In (w, l) (mf_domain f) -> mem w (mf_right f) = negb (mem w [v])).
  { intros w l J. assert (Jw : In w (mf_vars f)) by (unfold mf_vars, keys; apply (in_map fst) in J; auto).
    destruct (mem w (mf_right f)) eqn:M1; destruct (mem w [v]) eqn:M2; auto; cbn.
    - apply mem_In in M1. apply mem_In in M2. exfalso. apply (Dj w). split; [now apply L|auto].
    - apply mem_nIn in M1. apply mem_nIn in M2. exfalso. apply P in Jw. destruct Jw as [Jw|Jw]; [apply L in Jw|]; auto. }
  assert (Ed : drop (mf_right f) (mf_domain f) = pick [v] (mf_domain f)).
  { unfold drop, pick. apply filter_ext_in. intros [w l] J. cbn [fst]. rewrite (Hw w l J). now rewrite negb_involutive. }
  assert (Ep : pick (mf_right f) (mf_domain f) = drop [v] (mf_domain f)).
  { unfold drop, pick. apply filter_ext_in. intros [w l] J. cbn [fst]. now rewrite (Hw w l J). }
  intros o Fo. rewrite Ed. rewrite Ep in Fo.
  destruct (good_marg D WD vt f [v] G) as (h & Eh & Gh & Dh & _ & _ & Vh).
  { repeat constructor. intros []. } { intros w [<-|[]]. auto. }
  destruct (mf_marginalize_ok f [v] W) as (h' & E' & _ & _ & Dh' & _ & _ & Vm).
  { repeat constructor. intros []. } { intros w [<-|[]]. auto. }
  rewrite Eh in E'. injection E' as <-.
  destruct (Vm o Fo) as (xs & X & S). exists xs. split; [exact X|].
  destruct (extend D (mf_domain h) o WD) as (b & Vb & Ag); [now rewrite Dh|apply Gh|].
  rewrite (fv_get D vt h b o Gh Vb Ag), (Vh b Vb), (One b Vb) in S. now injection S.
Qed.

Lemma pick_pick (D : domain) S R : incl S R -> pick S (pick R D) = pick S D.
Proof.
  intros I. unfold pick. induction D as [|[w l] d IH]; [reflexivity|]. cbn [filter fst].
  destruct (mem w R) eqn:M1.
  - cbn [filter fst]. destruct (mem w S); now rewrite IH.
  - destruct (mem w S) eqn:M2; auto. exfalso. apply mem_In in M2. apply mem_nIn in M1. auto.
Qed.

Section Min.
  Variables (m : pgm) (D : domain) (F : var -> mfactor) (vt : vtype).
  Hypothesis H : network m D F vt.
  Variable e : obs.
  Hypothesis Ke : known D e.
  Variable T : list var.
  Hypothesis IT : incl T (keys D).
  Hypothesis Dj : forall v, In v T -> ~ In v (keys e).
  Let WD : wf_dom D := net_wd m D F vt H.

  Lemma minimal_network : exists im G, minimalize m T e = Ok im /\
    network im (pick (nodes (m_graph im)) D) G vt /\ incl T (nodes (m_graph im)) /\ incl (nodes (m_graph im)) (nodes (m_graph m)) /\
    (forall v o, In v (nodes (m_graph im)) -> full D o -> consistent o e = true -> entry (G v) o = entry (F v) o) /\
    (mass D F e <> 0%Qc -> mass (pick (nodes (m_graph im)) D) G e <> 0%Qc /\
      forall t, assigns D T t ->
        (mass (pick (nodes (m_graph im)) D) G (t ++ e) / mass (pick (nodes (m_graph im)) D) G e = mass D F (t ++ e) / mass D F e)%Qc).
  Proof.
    destruct (minimalize_ok m D F vt H e Ke T IT) as (im & R & B & C & G & Em & Sp & NR & Bi & Wi & Ai & Ni & Ar & HG).
    exists im, G. split; [exact Em|]. set (R' := nodes (m_graph im)). set (D' := pick R' D).
    assert (IR : incl R (keys D)).
    { intros x J. destruct Sp as (Pm & _). apply (Permutation_in _ (Permutation_sym Pm)). rewrite !in_app_iff. auto. }
    assert (closed : forall n p, In n R -> In p (fam F n) -> ~ In p (keys e) -> In p R)
      by (intros n p J1 J2 J3; exact (split_closed m D F vt H e T R B C n p Sp J1 J2 J3)).
    assert (KD' : forall v, In v (keys D') <-> In v R).
    { intros v. unfold D'. rewrite keys_pick. unfold R'. rewrite Ni. split; [tauto|]. intros J. split; auto. }
    assert (WD' : wf_dom D') by (apply wf_pick; exact WD).
    destruct Bi as (_ & Kf & Kd & St & Hd).
    assert (Rs := restricted m D F vt H e Ke R G IR HG).
    assert (Cpt : forall v, In v R -> cpt D' vt v (preds (m_graph im) v) (G v)).
    { intros v J. destruct (Rs v J) as (Gv & Vv & Lv & _). destruct (wf_mf_partitioned (G v) (proj1 Gv)) as (_ & _ & _ & Pt & Dis).
      assert (L : same_set (mf_left (G v)) [v]) by (intros w; rewrite (Lv w); cbn; split; [auto|intros [|[]]; auto]).
      split; [apply Gv|]. split; [apply Gv|]. split; [exact L|]. split.
      { intros p. rewrite in_preds, Ar.
        split.
        - intros K. assert (Kv : In p (mf_vars (G v))) by (apply Pt; auto). apply Vv in Kv as [Kv Ke'].
          assert (Np : p <> v) by (intros ->; apply (Dis v); split; auto; now apply Lv).
          destruct Ke' as [|Ne]; [contradiction|]. apply (fam_In m D F vt H v p (IR v J)) in Kv as Kv'. destruct Kv' as [|A]; [contradiction|].
          split; [auto|]. split; [auto|]. split; [|auto]. eapply closed; eauto.
        - intros (A & Ne & Jp & _). assert (Kv : In p (mf_vars (G v))).
          { apply Vv. split; [apply (fam_In m D F vt H v p (IR v J)); auto|auto]. }
          apply Pt in Kv as [K|K]; auto. exfalso. apply Lv in K. subst p. apply (net_ac m D F vt H v). constructor. exact A. }
      split. { intros w l K. assert (KD : In (w, l) D) by now apply Gv. apply filter_In. split; auto. cbn. apply mem_In. apply Ni.
        assert (Kw : In w (mf_vars (G v))) by (unfold mf_vars, keys; apply (in_map fst) in K; auto).
        apply Vv in Kw as [Kw [-> | Nw]]; auto. eapply closed; eauto. }
      split; [apply Gv|]. apply (good_normalised D vt (G v) v WD Gv L). intros a Va.
      set (ob := dfilter (fun w => mem w (mf_right (F v))) e).
      assert (Kob : known D ob).
      { intros w l s Jw Es. unfold ob in Es. rewrite dget_dfilter in Es. destruct (mem w (mf_right (F v))); [|discriminate]. eapply Ke; eauto. }
      assert (Gn := net_good m D F vt H v (IR v J)).
      destruct (good_restrict D vt (F v) ob Gn Kob) as (h & E & _ & _ & _ & _ & Xh).
      unfold ob in E. rewrite (HG v J) in E. injection E as <-. fold ob in Xh.
      rewrite (sm_ext D WD [v] (fv (G v)) (fun b => fv (F v) (over ob b)) a Va) by (intros b Vb _; now apply Xh).
      rewrite (sm_over D WD [v] (fv (F v)) ob a).
      - apply (P_one m D F vt H v _ (IR v J)). now apply over_valid.
      - apply (dep_ext (mf_vars (F v))). apply (fv_dep D vt); auto.
      - intros w [<-|[]] K. unfold ob in K. rewrite keys_dfilter in K. apply filter_In in K as [_ K]. apply mem_In in K.
        destruct (net_cpt m D F vt H v (IR v J)) as (Wf & _ & Lf & _). destruct (wf_mf_partitioned (F v) Wf) as (_ & _ & _ & _ & Dis').
        apply (Dis' v). split; auto. apply Lf. now left. }
    assert (Net : network im D' G vt).
    { split; [exact Wi|]. split; [exact Ai|]. split; [exact WD'|]. split; [intros v; rewrite KD'; symmetry; apply Ni|].
      split; [rewrite Kf; apply Wi|]. split; [intros v; rewrite Kf; tauto|]. intros v J. split; [now apply St|]. apply Cpt. now apply Ni. }
    split; [exact Net|]. split; [intros v J; apply Ni; now apply Sp|]. split.
    { intros v J. apply (net_nodes m D F vt H). apply IR. now apply Ni. }
    split.
    { intros v o J Fo Co. apply Ni in J. destruct (Rs v J) as (Gv & _ & _ & Xv).
      assert (Va : valid D (asg_of o)) by now apply full_valid.
      assert (Ag : agrees o (asg_of o) (keys D)) by now apply full_agrees.
      rewrite (entry_fv D vt (G v) (asg_of o) o Gv Va) by (intros w K; apply Ag; now apply (good_vars D vt (G v))).
      assert (Gn := net_good m D F vt H v (IR v J)).
      rewrite (entry_fv D vt (F v) (asg_of o) o Gn Va) by (intros w K; apply Ag; now apply (good_vars D vt (F v))).
      apply Xv. split; auto. intros w s Es K. specialize (Ag w K).
      unfold consistent in Co. rewrite forallb_forall in Co. apply dget_In in Es as Es'. specialize (Co (w, s) Es'). cbn in Co.
      rewrite Ag in Co. destruct (eqd (asg_of o w) s); [auto|discriminate]. }
    assert (PK : Permutation (keys D') R) by (apply NoDup_Permutation; [apply WD'|auto|auto]).
    assert (Pick : forall S, incl S R -> pick S D' = pick S D).
    { intros S I. apply pick_pick. intros v J. apply Ni. auto. }
    assert (Mass : forall o a, known D o -> valid D a -> (forall v s, dget v e = Some s -> dget v o = Some s) ->
      mass D' G o = sm D (minus R (keys o)) (prods (P F) R) (over o a)).
    { intros o a Ko Va Eo. assert (Ko' : known D' o). { intros v l s J. apply filter_In in J as [J _]. now apply Ko. }
      assert (Va' : valid D' a). { intros v l J. apply filter_In in J as [J _]. now apply Va. }
      rewrite (mass_sm im D' G vt Net o a Ko' Va').
      transitivity (sm D' (minus R (keys o)) (prods (P G) (keys D')) (over o a)).
      { apply sm_set. intros v J. rewrite !minus_In, (KD' v). tauto. }
      unfold sm at 1. rewrite Pick by (intros v J; now apply minus_In in J). fold (sm D (minus R (keys o)) (prods (P G) (keys D')) (over o a)).
      apply (sm_ext D WD); [now apply over_valid|]. intros b Vb Eb. rewrite (prods_perm (P G) _ _ b PK). unfold prods. f_equal.
      apply map_ext_in. intros n J. destruct (Rs n J) as (_ & _ & _ & Xn). apply Xn. split; auto.
      intros v s Es _. rewrite (Eb v).
      - unfold over. now rewrite (Eo v s Es).
      - rewrite minus_In. intros [_ N]. apply N. apply dget_keys. exists s. auto. }
    intros M0. destruct (some_valid D WD) as (a & Va). destruct (posterior_masses m D F vt H e Ke T Dj R B C Sp a Va) as (c & E1 & E2).
    rewrite (Mass e a Ke Va) by auto. rewrite E1 in M0.
    set (y := sm D (minus R (keys e)) (prods (P F) R) (over e a)) in *.
    assert (y0 : y <> 0%Qc) by (intros E; apply M0; rewrite E; ring).
    assert (c0 : c <> 0%Qc) by (intros E; apply M0; rewrite E; ring).
    split; [exact y0|]. intros t At. rewrite (E2 t At), E1.
    assert (Kte : forall v, In v (keys (t ++ e)) <-> In v T \/ In v (keys e)).
    { intros v. unfold keys at 1. rewrite map_app, in_app_iff. fold (keys t) (keys e). rewrite (proj1 At). tauto. }
    rewrite (Mass (t ++ e) a); auto.
    - replace (sm D (minus R (keys (t ++ e))) (prods (P F) R) (over (t ++ e) a)) with
        (sm D (minus (minus R T) (keys e)) (prods (P F) R) (over t (over e a))); [field; auto|].
      transitivity (sm D (minus R (keys (t ++ e))) (prods (P F) R) (over t (over e a))).
      + apply sm_set. intros v _. rewrite !minus_In, Kte. tauto.
      + apply (sm_ext_fun D); [now apply (prods_ext' m D F vt H)|]. intros w. unfold over. rewrite dget_app. destruct (dget w t); auto.
    - apply known_app; auto. eapply assigns_known; eauto.
    - intros v s Es. rewrite dget_app. destruct (dget v t) eqn:Et; auto. exfalso. apply (Dj v).
      + rewrite <- (proj1 At). apply dget_keys. eauto.
      + apply dget_keys. eauto.
  Qed.
End Min.
