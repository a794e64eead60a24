(** The network in which intervened variables keep their tables but their
    children see the intervention, and the calculus of interventions. *)

From Coq Require Import String Bool Arith Lia ZArith QArith Qcanon Permutation List.
From Verif Require Import PyBase Num NumFacts DomainModel DomainFacts NdArray StoreModel NumStore FactorModel GraphModel ModelModel InferModel LearnModel CausalModel
  PyFacts Spec StoreSpec StoreFacts FactorSpec FactorFacts FactorFacts2 GraphSpec GraphFacts GraphFacts2 ModelSpec ModelFacts NetSpec NetFacts NetSem FactorSem
  BigSum BuildFacts BuildFacts2 PropFacts1 VeFacts VeFacts2 VeFacts3 VeFacts4 VeFacts5 CausalSpec CausalFacts CausalFacts2 CfFacts SepSpec SepFacts1 SepFacts2.
From Coq Require Import List.
Import ListNotations.
Local Open Scope nat_scope.
Local Arguments eqd : simpl never.

Lemma mass_same D F o1 o2 : (forall x, dget x o1 = dget x o2) -> mass D F o1 = mass D F o2.
Proof.
  intros E. unfold mass. f_equal. f_equal. apply filter_ext. intros o. unfold consistent. induction o as [|a o IH]; [reflexivity|].
  cbn [forallb]. now rewrite IH, E.
Qed.
Lemma consistent_app s w o : consistent w o = true -> consistent (s ++ w) o = consistent s o.
Proof.
  unfold consistent. induction o as [|[v x] o IH]; [reflexivity|]. cbn [forallb fst snd]. intros C. apply andb_prop in C as [C1 C2].
  rewrite (IH C2), dget_app. destruct (dget v s); [reflexivity|]. now rewrite C1.
Qed.
Lemma consistent_both s w o : (forall v, In v (keys s) -> ~ In v (keys w)) -> consistent (s ++ w) o = consistent s o && consistent w o.
Proof.
  intros Dj. unfold consistent. induction o as [|[v x] o IH]; [reflexivity|]. cbn [forallb fst snd]. rewrite IH, dget_app.
  destruct (dget v s) as [y|] eqn:Es.
  - assert (N : ~ In v (keys w)) by (apply Dj, dget_keys; eauto). apply dget_None in N. rewrite N. cbn [andb].
    destruct (eqd y x); reflexivity.
  - cbn [andb]. destruct (dget v w) as [y|]; [|reflexivity]. destruct (eqd y x); cbn; [reflexivity|]. now rewrite andb_false_r.
Qed.

Section Cut.
  Variables (m : pgm) (D : domain) (F : var -> mfactor) (vt : vtype).
  Hypothesis H : network m D F vt.
  Notation g := (m_graph m).
  Variable d : obs.
  Hypothesis Kd : known D d.
  Let WD : wf_dom D := net_wd m D F vt H.

  Definition cut_table (v : var) : mfactor :=
    match mf_restrict (F v) (dfilter (fun w => mem w (mf_right (F v))) d) with Ok h => h | Raise _ => F v end.
  Notation G := cut_table.
  Definition cut_model : pgm :=
    mkPgm (remove_outgoing_edges g (keys d)) (map (fun v => (v, Some (FM (G v)))) (nodes g)) [] false KBn.

  Lemma cut_restrict v : In v (keys D) -> mf_restrict (F v) (dfilter (fun w => mem w (mf_right (F v))) d) = Ok (G v).
  Proof.
    intros J. set (ob := dfilter (fun w => mem w (mf_right (F v))) d).
    assert (Kob : known D ob).
    { intros w l s Jw Es. unfold ob in Es. rewrite dget_dfilter in Es. destruct (mem w (mf_right (F v))); [|discriminate]. eapply Kd; eauto. }
    destruct (good_restrict D vt (F v) ob (net_good m D F vt H v J) Kob) as (h & E & _). unfold cut_table. fold ob. now rewrite E.
  Qed.
  Let Rs := restricted m D F vt H d Kd (keys D) G (incl_refl _) cut_restrict.

  Lemma cut_network : network cut_model D G vt.
  Proof.
    assert (Wg := net_wg m D F vt H). assert (Ac := net_ac m D F vt H).
    destruct (remove_outgoing_ok g (keys d) Wg) as (N1 & W1 & A1).
    assert (Kf : keys (m_factors cut_model) = nodes g) by (unfold cut_model; cbn; unfold keys; rewrite map_map; apply map_id).
    split; [exact W1|]. split; [eapply acyclic_mono; [|exact Ac]; intros x y A; apply A1 in A; tauto|]. split; [exact WD|].
    split. { intros v. cbn [m_graph cut_model]. rewrite N1. apply (net_nodes m D F vt H). }
    split; [rewrite Kf; apply Wg|]. split. { intros v. rewrite Kf. cbn [m_graph cut_model]. rewrite N1. tauto. }
    intros v J. cbn [m_graph cut_model] in J. rewrite N1 in J. split.
    - unfold stored. cbn [m_factors cut_model]. apply In_dget.
      + unfold keys. rewrite map_map. cbn. rewrite map_id. apply Wg.
      + apply in_map_iff. now exists v.
    - apply (net_nodes m D F vt H) in J. destruct (Rs v J) as (Gv & Vv & Lv & _). destruct (wf_mf_partitioned (G v) (proj1 Gv)) as (_ & _ & _ & Pt & Dis).
      assert (L : same_set (mf_left (G v)) [v]) by (intros w; rewrite (Lv w); cbn; split; [auto|intros [|[]]; auto]).
      split; [apply Gv|]. split; [apply Gv|]. split; [exact L|]. split.
      { intros p. rewrite in_preds. cbn [m_graph cut_model]. rewrite A1. split.
        - intros K. assert (Kv : In p (mf_vars (G v))) by (apply Pt; auto). apply Vv in Kv as [Kv Ke'].
          assert (Np : p <> v) by (intros ->; apply (Dis v); split; auto; now apply Lv).
          destruct Ke' as [|Ne]; [contradiction|]. apply (fam_In m D F vt H v p J) in Kv as Kv'. destruct Kv' as [|A]; [contradiction|]. auto.
        - intros (A & Ne). assert (Kv : In p (mf_vars (G v))).
          { apply Vv. split; [apply (fam_In m D F vt H v p J); auto|auto]. }
          apply Pt in Kv as [K|K]; auto. exfalso. apply Lv in K. subst p. apply (net_ac m D F vt H v). constructor. exact A. }
      split; [apply Gv|]. split; [apply Gv|]. apply (good_normalised D vt (G v) v WD Gv L). intros a Va.
      set (ob := dfilter (fun w => mem w (mf_right (F v))) d).
      assert (Kob : known D ob).
      { intros w l s Jw Es. unfold ob in Es. rewrite dget_dfilter in Es. destruct (mem w (mf_right (F v))); [|discriminate]. eapply Kd; eauto. }
      assert (Gn := net_good m D F vt H v J).
      destruct (good_restrict D vt (F v) ob Gn Kob) as (h & E & _ & _ & _ & _ & Xh).
      unfold ob in E. rewrite (cut_restrict v J) in E. injection E as <-. fold ob in Xh.
      rewrite (sm_ext D WD [v] (fv (G v)) (fun b => fv (F v) (over ob b)) a Va) by (intros b Vb _; now apply Xh).
      rewrite (sm_over D WD [v] (fv (F v)) ob a).
      + apply (P_one m D F vt H v _ J). now apply over_valid.
      + apply (dep_ext (mf_vars (F v))). apply (fv_dep D vt); auto.
      + intros w [<-|[]] K. unfold ob in K. rewrite keys_dfilter in K. apply filter_In in K as [_ K]. apply mem_In in K.
        destruct (net_cpt m D F vt H v J) as (Wf & _ & Lf & _). destruct (wf_mf_partitioned (F v) Wf) as (_ & _ & _ & _ & Dis').
        apply (Dis' v). split; auto. apply Lf. now left.
  Qed.

  (** sums of the tables of some variables *)
  Lemma joint_sm S o a : incl S (keys D) -> known D o -> valid D a ->
    total (map (joint F S) (filter (consistent o) (all_assignments D))) = sm D (minus (keys D) (keys o)) (prods (P F) S) (over o a).
  Proof.
    intros IS K V. rewrite total_qsum. assert (Ex : ext_fun (prods (P F) S)) by now apply (prods_ext' m D F vt H).
    transitivity (sumdom 0%Qc Qcplus (drop (keys o) D) (prods (P F) S) (over o a)).
    - rewrite <- (filtered_sum D WD o (prods (P F) S) (over o a) K Ex).
      + f_equal. apply map_ext_in. intros p J. apply filter_In in J as [J _].
        apply (all_assignments_In_full D p (proj1 WD)) in J as [Kp Fp].
        rewrite (joint_prods m D F vt H) by auto.
        apply (prods_dep' m D F vt H S IS). intros w Jw. apply in_flat_map in Jw as (n & Jn & Jw).
        apply (fam_keys m D F vt H) in Jw; auto. rewrite <- Kp in Jw. apply dget_keys in Jw as (s & Es).
        unfold asg_of, over. now rewrite Es.
      + intros v s _ Es. unfold over. now rewrite Es.
    - unfold NetSem.sm. f_equal. unfold drop, pick. apply filter_ext_in. intros [v l] J. cbn [fst].
      assert (In v (keys D)) by (apply (in_map fst) in J; auto).
      destruct (mem v (keys o)) eqn:M1, (mem v (minus (keys D) (keys o))) eqn:M2; auto; exfalso.
      + apply mem_In in M1. apply mem_In, minus_In in M2. tauto.
      + apply mem_nIn in M1. apply mem_nIn in M2. apply M2, minus_In. auto.
  Qed.

  Notation R := (minus (keys D) (keys d)).
  Lemma known_both t : known D t -> known D (t ++ d).
  Proof. intros K v l s J E. rewrite dget_app in E. destruct (dget v t) eqn:Et; [injection E as <-; eapply K; eauto|eapply Kd; eauto]. Qed.

  Lemma do_sm t a : known D t -> valid D a -> (forall v, In v (keys t) -> ~ In v (keys d)) ->
    do_mass D F d t = sm D (minus R (keys t)) (prods (P F) R) (over t (over d a)).
  Proof.
    intros Kt Va Dj. transitivity (total (map (joint F R) (filter (consistent (t ++ d)) (all_assignments D)))).
    - unfold do_mass. rewrite !total_qsum. replace R with (keys (drop (keys d) D)) by apply keys_drop'.
      induction (all_assignments D) as [|o l IH]; [reflexivity|]. cbn [filter]. rewrite (consistent_both t d o Dj).
      destruct (consistent t o); cbn [andb]; [|exact IH].
      destruct (consistent d o) eqn:C.
      + cbn [map]. change (do_joint D F d o + qsum (map (do_joint D F d) (filter (consistent t) l)) =
          joint F (keys (drop (keys d) D)) o + qsum (map (joint F (keys (drop (keys d) D))) (filter (consistent (t ++ d)) l)))%Qc.
        rewrite IH. unfold do_joint. now rewrite C.
      + cbn [map]. change (do_joint D F d o + qsum (map (do_joint D F d) (filter (consistent t) l)) =
          qsum (map (joint F (keys (drop (keys d) D))) (filter (consistent (t ++ d)) l)))%Qc.
        rewrite IH. unfold do_joint. rewrite C. cbv iota. apply Qcplus_0_l.
    - rewrite (joint_sm R (t ++ d) a); [|intros v J; now apply minus_In in J|now apply known_both|auto].
      transitivity (sm D (minus R (keys t)) (prods (P F) R) (over (t ++ d) a)).
      + apply sm_set. intros v _. rewrite !minus_In. unfold keys at 2. rewrite map_app, in_app_iff. fold (keys t) (keys d). tauto.
      + apply (sm_ext_fun D); [apply (prods_ext' m D F vt H); intros v J; now apply minus_In in J|]. intros w. unfold over. rewrite dget_app. destruct (dget w t); auto.
  Qed.

  Lemma P_cut n a : In n (keys D) -> VeFacts.ok D d a -> P G n a = P F n a.
  Proof. intros J O. destruct (Rs n J) as (_ & _ & _ & X). now apply X. Qed.
  Lemma fam_cut n p : In n (keys D) -> In p (fam G n) <-> In p (fam F n) /\ (p = n \/ ~ In p (keys d)).
  Proof. intros J. destruct (Rs n J) as (_ & X & _). apply X. Qed.
  Lemma over_ok a : valid D a -> VeFacts.ok D d (over d a).
  Proof. intros V. split; [now apply over_valid|]. intros v s E _. unfold over. now rewrite E. Qed.

  (** the masses of an ancestral set of the original network, in the cut one *)
  Lemma cut_mass S t a : incl S (keys D) -> NoDup S -> (forall v, In v S -> ~ In v (keys d)) -> incl (keys t) S -> known D t -> valid D a ->
    (forall n p, In n S -> In p (fam G n) -> In p S) ->
    mass D G t = sm D (minus S (keys t)) (prods (P F) S) (over t (over d a)).
  Proof.
    intros IS NS Sd It Kt Va Cl. assert (Net := cut_network).
    assert (Pm : Permutation (keys D) ((S ++ []) ++ minus (keys D) S)).
    { rewrite app_nil_r. apply NoDup_Permutation; [apply WD| |].
      - apply NoDup_app_iff. split; [auto|]. split; [apply NoDup_minus, WD|]. intros x J J'. apply minus_In in J'. tauto.
      - intros x. rewrite in_app_iff, minus_In. split; [intros J; destruct (in_dec eqd x S); auto|intros [J|[J _]]; auto]. }
    rewrite (mass_split cut_model D G vt Net S (minus (keys D) S) [] t (over d a) Kt); auto.
    - replace (sm D (minus [] (keys t)) (prods (P G) []) (over t (over d a))) with 1%Qc.
      2:{ cbn [minus filter]. rewrite (sm_nil D). reflexivity. intros x y _. reflexivity. }
      rewrite Qcmult_1_r. apply (sm_ext D WD); [apply over_valid; auto; now apply over_valid|]. intros b Vb Eb.
      unfold prods. f_equal. apply map_ext_in. intros n J. apply P_cut; [auto|]. split; [auto|]. intros v s Es _.
      assert (Nv : ~ In v S) by (intros K; apply (Sd v K), dget_keys; eauto).
      rewrite (Eb v) by (rewrite minus_In; tauto). unfold over. rewrite (proj2 (dget_None v t)) by (intros K; auto). now rewrite Es.
    - now apply over_valid.
    - intros n p J K Q. rewrite app_nil_r in J. apply minus_In in Q as [_ Q]. apply Q. eapply Cl; eauto.
    - intros v J Q. apply minus_In in Q as [_ Q]. auto.
    - intros n p J K [].
    - intros n p [].
  Qed.

  (** the cut network has the interventional masses … *)
  Lemma cut_do t : known D t -> incl (keys t) (keys D) -> (forall v, In v (keys t) -> ~ In v (keys d)) -> mass D G t = do_mass D F d t.
  Proof.
    intros Kt It Dj. destruct (some_valid D WD) as (a & Va). rewrite (do_sm t a Kt Va Dj).
    apply cut_mass; auto.
    - intros v J. now apply minus_In in J.
    - apply NoDup_minus, WD.
    - intros v J. now apply minus_In in J.
    - intros v J. apply minus_In. auto.
    - intros n p J K. apply minus_In in J as [J Nn]. apply fam_cut in K as [K Np]; [|auto]. apply minus_In. split.
      + eapply (fam_keys m D F vt H); eauto.
      + destruct Np as [-> | Np]; auto.
  Qed.
  (** … and, where the intervened variables have their values, the original ones *)
  Lemma cut_see t : known D t -> (forall v, In v (keys t) -> ~ In v (keys d)) -> mass D G (t ++ d) = mass D F (t ++ d).
  Proof.
    intros Kt Dj. destruct (some_valid D WD) as (a & Va). assert (Net := cut_network).
    rewrite (mass_sm cut_model D G vt Net (t ++ d) a), (mass_sm m D F vt H (t ++ d) a) by (auto; now apply known_both).
    apply (sm_ext D WD); [apply over_valid; auto; now apply known_both|]. intros b Vb Eb. unfold prods. f_equal. apply map_ext_in. intros n J. apply P_cut; [auto|].
    split; [auto|]. intros v s Es _. rewrite (Eb v).
    - unfold over. rewrite dget_app. rewrite (proj2 (dget_None v t)); [now rewrite Es|]. intros K. apply (Dj v K), dget_keys. eauto.
    - rewrite minus_In. intros [_ N]. apply N. unfold keys. rewrite map_app, in_app_iff. right. apply dget_keys. eauto.
  Qed.
End Cut.
