(** The rules of the calculus of interventions, for networks. *)

From Coq Require Import String Bool Arith Lia ZArith QArith Qcanon Permutation List.
From Verif Require Import PyBase Num NumFacts DomainModel DomainFacts NdArray StoreModel NumStore FactorModel GraphModel ModelModel InferModel LearnModel CausalModel
  PyFacts Spec StoreSpec StoreFacts FactorSpec FactorFacts FactorFacts2 GraphSpec GraphFacts GraphFacts2 ModelSpec ModelFacts NetSpec NetFacts NetSem FactorSem
  BigSum BuildFacts BuildFacts2 PropFacts1 PropFacts3 VeFacts VeFacts2 VeFacts3 VeFacts4 VeFacts5 CausalSpec CausalFacts CausalFacts2 CfFacts SepSpec SepFacts1 SepFacts2 SepFacts3 CalcFacts1.
From Coq Require Import List.
Import ListNotations.
Local Open Scope nat_scope.
Local Arguments eqd : simpl never.

Lemma reach_sub g g' x y : (forall a b, arc g' a b -> arc g a b) -> reach g' x y -> reach g x y.
Proof. intros I [-> | W]; [now left|]. right. eapply walk_mono; eauto. Qed.
Lemma active_mono g g' Z x d y : (forall a b, arc g' a b -> arc g a b) -> active g' Z x d y -> active g Z x d y.
Proof.
  intros I A. induction A.
  - constructor.
  - eapply act_down; eauto.
  - eapply act_up; eauto.
  - eapply act_collider; eauto. destruct H as (s & Js & Rs). exists s. split; [auto|]. now apply reach_sub with g'.
Qed.
Lemma connected_mono g g' Z x y : (forall a b, arc g' a b -> arc g a b) -> d_connected g' Z x y -> d_connected g Z x y.
Proof. intros I (d & A). exists d. eapply active_mono; eauto. Qed.

Lemma connected_set g Z Z' x y : (forall v, In v Z <-> In v Z') -> d_connected g Z x y -> d_connected g Z' x y.
Proof.
  intros E (d & A). exists d. induction A.
  - constructor.
  - eapply act_down; eauto. now rewrite <- E.
  - eapply act_up; eauto. now rewrite <- E.
  - eapply act_collider; eauto. destruct H as (s & Js & Rs). exists s. split; [now apply E|auto].
Qed.
Lemma apart_independent m D F vt X Y Z : network m D F vt -> incl (X ++ Y ++ Z) (nodes (m_graph m)) ->
  (forall v, In v (X ++ Y) -> ~ In v Z) -> (forall x y, In x X -> In y Y -> ~ d_connected (m_graph m) Z x y) -> independent_in D F X Y Z.
Proof.
  intros H I Dj N. destruct (d_separated_trails (m_graph m) X Y Z (net_wg m D F vt H) (net_ac m D F vt H) I Dj) as (b & E & Hb).
  destruct b.
  - eapply separated_independent; eauto.
  - exfalso. destruct (proj1 Hb eq_refl) as (x & y & Jx & Jy & C). exact (N x y Jx Jy C).
Qed.

Lemma assigns_self D d : wf_dom D -> known D d -> incl (keys d) (keys D) -> assigns D (keys d) d.
Proof.
  intros WD K I. split; [reflexivity|]. intros v l J. apply filter_In in J as [J M]. cbn in M. apply mem_In, dget_keys in M as (s & Es).
  exists s. split; [auto|]. eapply K; eauto.
Qed.
Lemma assigns_kn D T t : wf_dom D -> assigns D T t -> known D t.
Proof.
  intros WD [Kt Ft] v l s J E. destruct (Ft v l) as (s' & E' & J').
  - apply filter_In. split; [auto|]. apply mem_In. cbn. rewrite <- Kt. apply dget_keys. eauto.
  - congruence.
Qed.
Lemma keys_app (t z : obs) : keys (t ++ z) = keys t ++ keys z.
Proof. unfold keys. apply map_app. Qed.
Lemma known_app2 D t z : known D t -> known D z -> known D (t ++ z).
Proof. intros A B v l s J E. rewrite dget_app in E. destruct (dget v t) eqn:Et; [injection E as <-; eapply A; eauto|eapply B; eauto]. Qed.
Lemma dget_swap (a b c : obs) x : (forall v, In v (keys b) -> ~ In v (keys c)) -> dget x (a ++ b ++ c) = dget x (a ++ c ++ b).
Proof.
  intros Dj. rewrite !dget_app. destruct (dget x a); [auto|]. destruct (dget x b) eqn:Eb, (dget x c) eqn:Ec; auto.
  exfalso. apply (Dj x); apply dget_keys; eauto.
Qed.

Section Rules.
  Variables (m : pgm) (D : domain) (F : var -> mfactor) (vt : vtype).
  Hypothesis H : network m D F vt.
  Notation g := (m_graph m).
  Let WD : wf_dom D := net_wd m D F vt H.

  (** summing out some variables *)
  Lemma mass_marginal Z t : known D t -> (forall v, In v Z -> ~ In v (keys t)) ->
    mass D F t = total (map (fun z => mass D F (t ++ z)) (all_assignments (pick Z D))).
  Proof.
    intros Kt Dj. destruct (some_valid D WD) as (a & Va). assert (Ex := prods_ext' m D F vt H (keys D) (incl_refl _)).
    rewrite (mass_sm m D F vt H t a Kt Va).
    transitivity (sm D (Z ++ minus (minus (keys D) (keys t)) Z) (prods (P F) (keys D)) (over t a)).
    { apply sm_set. intros v J. rewrite in_app_iff, !minus_In. split.
      - intros [_ N]. destruct (in_dec eqd v Z); auto.
      - intros [K|[K _]]; [split; auto|auto]. }
    rewrite (sm_app D WD); [|exact Ex|intros v J1 J2 _; apply minus_In in J2; tauto].
    unfold sm at 1. unfold sumdom. rewrite total_qsum.
    etransitivity; [apply bsum_qsum|]. apply (f_equal qsum). change (list (var * state)) with obs. apply (@map_ext_in obs Qc). intros z Jz.
    apply (all_assignments_In_full (pick Z D) z) in Jz as [Kz Fz]; [|apply wf_pick', WD].
    assert (Knz : known D z).
    { intros v l s J E. destruct (Fz v l) as (s' & E' & J').
      - apply filter_In. split; [auto|]. assert (K : In v (keys z)) by (apply dget_keys; eauto). rewrite Kz, keys_pick' in K. now apply filter_In in K.
      - congruence. }
    rewrite (mass_sm m D F vt H (t ++ z) a) by (auto; now apply known_app2).
    assert (Dz : forall v, In v (keys z) -> ~ In v (keys t)) by (intros v J; apply Dj; rewrite Kz, keys_pick' in J; apply filter_In in J as [_ J]; now apply mem_In in J).
    transitivity (sm D (minus (minus (keys D) (keys t)) Z) (prods (P F) (keys D)) (over (t ++ z) a)).
    - apply (sm_ext_fun D); [exact Ex|]. intros w. unfold over. rewrite dget_app. destruct (dget w z) eqn:Ez; [|destruct (dget w t); auto].
      rewrite (proj2 (dget_None w t)); [auto|]. apply Dz, dget_keys. eauto.
    - apply sm_set. intros v J. rewrite !minus_In, keys_app, in_app_iff, Kz, keys_pick', filter_In, mem_In. tauto.
  Qed.

End Rules.

Section Do.
  Variables (m : pgm) (D : domain) (F : var -> mfactor) (vt : vtype).
  Hypothesis H : network m D F vt.
  Notation g := (m_graph m).
  Let WD : wf_dom D := net_wd m D F vt H.
  Variable d : obs.
  Hypothesis Kd : known D d.
  Hypothesis Id : incl (keys d) (keys D).
  Notation G := (cut_table F d).
  Let Net := cut_network m D F vt H d Kd.

  Lemma picked Z z v : In z (all_assignments (pick Z D)) -> In v (keys z) -> In v Z /\ In v (keys D).
  Proof.
    intros Jz J. apply (all_assignments_In_full (pick Z D) z) in Jz as [Kz Fz]; [|apply wf_pick', WD].
    rewrite Kz, keys_pick' in J. apply filter_In in J as [J1 J2]. apply mem_In in J2. auto.
  Qed.
  Lemma picked_known Z z : In z (all_assignments (pick Z D)) -> known D z.
  Proof.
    intros Jz v l s J E. assert (K := picked Z z v Jz ltac:(apply dget_keys; eauto)).
    apply (all_assignments_In_full (pick Z D) z) in Jz as [Kz Fz]; [|apply wf_pick', WD]. destruct (Fz v l) as (s' & E' & J').
    - apply filter_In. split; [auto|]. apply mem_In. apply K.
    - congruence.
  Qed.

  Lemma do_marginal Z t : known D t -> incl (keys t) (keys D) -> (forall v, In v (keys t) -> ~ In v (keys d)) ->
    (forall v, In v Z -> ~ In v (keys t) /\ ~ In v (keys d)) ->
    do_mass D F d t = total (map (fun z => do_mass D F d (t ++ z)) (all_assignments (pick Z D))).
  Proof.
    intros Kt It Dt DZ. rewrite <- (cut_do m D F vt H d Kd) by auto.
    rewrite (mass_marginal (cut_model m F d) D G vt Net Z t Kt) by (intros v J; now apply DZ).
    apply total_ext. intros z Jz. apply (cut_do m D F vt H d Kd).
    - apply known_app2; [auto|]. eapply picked_known; eauto.
    - intros v J. rewrite keys_app in J. apply in_app_or in J as [J|J]; [auto|eapply picked; eauto].
    - intros v J. rewrite keys_app in J. apply in_app_or in J as [J|J]; [auto|apply DZ; eapply picked; eauto].
  Qed.

  (** action and observation *)
  Lemma act_observe T Z t z : incl (T ++ Z) (nodes g) -> (forall v, In v T -> ~ In v Z /\ ~ In v (keys d)) -> (forall v, In v Z -> ~ In v (keys d)) ->
    (forall x y, In x T -> In y (keys d) -> ~ d_connected (remove_outgoing_edges g (keys d)) Z x y) ->
    assigns D T t -> assigns D Z z ->
    (mass D F (t ++ z ++ d) * do_mass D F d z = do_mass D F d (t ++ z) * mass D F (z ++ d))%Qc.
  Proof.
    intros I DT DZ Sep At Az. assert (Kt := assigns_kn D T t WD At). assert (Kz := assigns_kn D Z z WD Az).
    destruct (remove_outgoing_ok g (keys d) (net_wg m D F vt H)) as (N1 & _ & _).
    assert (IT : forall v, In v (T ++ Z) -> In v (keys D)) by (intros v J; apply (net_nodes m D F vt H); auto).
    assert (Ind : independent_in D G T (keys d) Z).
    { apply (apart_independent (cut_model m F d) D G vt); auto.
      - cbn [m_graph cut_model]. rewrite N1. intros v J. apply (net_nodes m D F vt H). rewrite !in_app_iff in J. destruct J as [J|[J|J]]; auto; apply IT, in_or_app; auto.
      - intros v J. apply in_app_or in J as [J|J]; [now apply DT|]. intros K. exact (DZ v K J). }
    specialize (Ind t d z At (assigns_self D d WD Kd Id) Az).
    assert (Kzt : forall v, In v (keys z) -> ~ In v (keys d)) by (intros v J; rewrite (proj1 Az) in J; auto).
    assert (Ktd : forall v, In v (keys t) -> ~ In v (keys d)) by (intros v J; rewrite (proj1 At) in J; now apply DT).
    rewrite (mass_same D G (t ++ d ++ z) ((t ++ z) ++ d)) in Ind.
    2:{ intros x. rewrite <- app_assoc. apply dget_swap. intros v J K. exact (Kzt v K J). }
    rewrite (mass_same D G (d ++ z) (z ++ d)) in Ind.
    2:{ intros x. apply (dget_swap [] d z). intros v J K. exact (Kzt v K J). }
    assert (Dtz : forall v, In v (keys (t ++ z)) -> ~ In v (keys d)) by (intros v J; rewrite keys_app in J; apply in_app_or in J as [J|J]; auto).
    rewrite (cut_see m D F vt H d Kd (t ++ z)), (cut_see m D F vt H d Kd z) in Ind by (auto using known_app2).
    rewrite (cut_do m D F vt H d Kd z), (cut_do m D F vt H d Kd (t ++ z)) in Ind; auto using known_app2.
    - rewrite <- app_assoc in Ind. exact Ind.
    - intros v J. rewrite keys_app, (proj1 At), (proj1 Az) in J. auto.
    - intros v J. rewrite (proj1 Az) in J. apply IT, in_or_app. auto.
  Qed.

  (** interventions do not affect what is not below them *)
  Lemma no_effect t : known D t -> incl (keys t) (keys D) ->
    (forall x v, In x (keys d) -> In v (keys t) -> ~ reach g x v) -> do_mass D F d t = mass D F t.
  Proof.
    intros Kt It Nr. destruct (some_valid D WD) as (a & Va).
    assert (Dj : forall v, In v (keys t) -> ~ In v (keys d)) by (intros v J K; apply (Nr v v K J); now left).
    rewrite <- (cut_do m D F vt H d Kd) by auto.
    destruct (barren_removal_ok g (keys t) (net_wg m D F vt H) (net_ac m D F vt H)) as (h & _ & Wh & Hn & _). set (S := nodes h).
    assert (HS : forall v, In v S <-> In v (keys D) /\ exists s, In s (keys t) /\ reach g v s).
    { intros v. unfold S. rewrite Hn, (net_nodes m D F vt H). reflexivity. }
    assert (IS : incl S (keys D)) by (intros v J; now apply HS in J).
    assert (NS : NoDup S) by apply Wh.
    assert (Sd : forall v, In v S -> ~ In v (keys d)) by (intros v J K; apply HS in J as (_ & s & Js & Rs); exact (Nr v s K Js Rs)).
    assert (St : incl (keys t) S) by (intros v J; apply HS; split; [auto|]; exists v; split; [auto|now left]).
    assert (Cl : forall n p, In n S -> In p (fam F n) -> In p S).
    { intros n p J K. apply HS in J as (Jn & s & Js & Rs). apply (fam_In m D F vt H n p Jn) in K as K'. apply HS. split; [eapply (fam_keys m D F vt H); eauto|].
      exists s. split; [auto|]. destruct K' as [-> | A]; [auto|]. right. destruct Rs as [<- | W]; [now constructor|]. eapply walk_step; eauto. }
    rewrite (cut_mass m D F vt H d Kd S t a); auto.
    2:{ intros n p J K. apply (fam_cut m D F vt H d Kd) in K as [K _]; [|auto]. eapply Cl; eauto. }
    symmetry. assert (Pm : Permutation (keys D) ((S ++ []) ++ minus (keys D) S)).
    { rewrite app_nil_r. apply NoDup_Permutation; [apply WD| |].
      - apply NoDup_app_iff. split; [auto|]. split; [apply NoDup_minus, WD|]. intros x J J'. apply minus_In in J'. tauto.
      - intros x. rewrite in_app_iff, minus_In. split; [intros J; destruct (in_dec eqd x S); auto|intros [J|[J _]]; auto]. }
    rewrite (mass_split m D F vt H S (minus (keys D) S) [] t (over d a) Kt); auto.
    - replace (sm D (minus [] (keys t)) (prods (P F) []) (over t (over d a))) with 1%Qc; [apply Qcmult_1_r|].
      cbn [minus filter]. rewrite (sm_nil D). reflexivity. intros x y _. reflexivity.
    - now apply over_valid.
    - intros n p J K Q. rewrite app_nil_r in J. apply minus_In in Q as [_ Q]. apply Q. eapply Cl; eauto.
    - intros v J Q. apply minus_In in Q as [_ Q]. auto.
    - intros n p J K [].
    - intros n p [].
  Qed.

  (** adjusting for a back-door set *)
  Lemma back_door T Z t : incl (T ++ Z) (nodes g) -> (forall v, In v T -> ~ In v Z /\ ~ In v (keys d)) ->
    (forall x v, In x (keys d) -> In v Z -> ~ reach g x v) ->
    (forall x y, In x T -> In y (keys d) -> ~ d_connected (remove_outgoing_edges g (keys d)) Z x y) -> NoDup Z ->
    assigns D T t -> (forall z, In z (all_assignments (pick Z D)) -> mass D F (z ++ d) <> 0%Qc) ->
    do_mass D F d t = total (map (fun z => mass D F z * (mass D F (t ++ z ++ d) / mass D F (z ++ d)))%Qc (all_assignments (pick Z D))).
  Proof.
    intros I DT Nr Sep NZ At Pos. assert (Kt := assigns_kn D T t WD At).
    assert (IT : forall v, In v (T ++ Z) -> In v (keys D)) by (intros v J; apply (net_nodes m D F vt H); auto).
    assert (DZ : forall v, In v Z -> ~ In v (keys d)) by (intros v J K; apply (Nr v v K J); now left).
    rewrite (do_marginal Z t Kt).
    2:{ intros v J. rewrite (proj1 At) in J. apply IT, in_or_app. auto. }
    2:{ intros v J. rewrite (proj1 At) in J. now apply DT. }
    2:{ intros v J. rewrite (proj1 At). split; [intros K; exact (proj1 (DT v K) J)|auto]. }
    apply total_ext. intros z Jz.
    assert (Az : assigns D (keys z) z).
    { apply assigns_self; [apply WD|eapply picked_known; eauto|]. intros v J. eapply picked; eauto. }
    assert (Zz : forall v, In v (keys z) <-> In v Z).
    { intros v. split; [intros J; eapply picked; eauto|]. intros J. apply (all_assignments_In_full (pick Z D) z) in Jz as [Kz _]; [|apply wf_pick', WD].
      rewrite Kz, keys_pick'. apply filter_In. split; [apply IT, in_or_app; auto|now apply mem_In]. }
    assert (R2 : (mass D F (t ++ z ++ d) * do_mass D F d z = do_mass D F d (t ++ z) * mass D F (z ++ d))%Qc).
    { apply (act_observe T (keys z)); auto.
      - intros v J. apply I. apply in_app_or in J as [J|J]; apply in_or_app; [auto|]. right. now apply Zz.
      - intros v J. split; [intros K; apply Zz in K; exact (proj1 (DT v J) K)|now apply DT].
      - intros v J. apply DZ. now apply Zz.
      - intros x y Jx Jy C. apply (Sep x y Jx Jy). revert C. apply connected_set. intros v. apply Zz. }
    rewrite (no_effect z) in R2.
    - rewrite (Qcmult_comm (do_mass D F d (t ++ z))) in R2.
      assert (P := Pos z Jz). apply (f_equal (fun x => x / mass D F (z ++ d))%Qc) in R2.
      replace (mass D F (z ++ d) * do_mass D F d (t ++ z) / mass D F (z ++ d))%Qc with (do_mass D F d (t ++ z)) in R2 by (field; auto).
      rewrite <- R2. field. auto.
    - eapply picked_known; eauto.
    - intros v J. eapply picked; eauto.
    - intros x v J K. apply Nr; [auto|now apply Zz].
  Qed.
End Do.
