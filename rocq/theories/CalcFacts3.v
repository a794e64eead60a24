(** The rules of the calculus of interventions under a given intervention. *)

From Coq Require Import String Bool Arith Lia ZArith QArith Qcanon Permutation List.
From Verif Require Import PyBase Num NumFacts DomainModel DomainFacts NdArray StoreModel NumStore FactorModel GraphModel ModelModel InferModel LearnModel CausalModel
  PyFacts Spec StoreSpec StoreFacts FactorSpec FactorFacts FactorFacts2 GraphSpec GraphFacts GraphFacts2 ModelSpec ModelFacts NetSpec NetFacts NetSem FactorSem
  BigSum BuildFacts BuildFacts2 PropFacts1 VeFacts VeFacts2 VeFacts3 VeFacts4 VeFacts5 CausalSpec CausalFacts CausalFacts2 CfFacts SepSpec SepFacts1 SepFacts2 SepFacts3 CalcFacts1 CalcFacts2.
From Coq Require Import List.
Import ListNotations.
Local Open Scope nat_scope.
Local Arguments eqd : simpl never.

Lemma do_look D F d o1 o2 : (forall x, ~ In x (keys d) -> dget x o1 = dget x o2) ->
  (forall x s, dget x d = Some s -> (dget x o1 = None \/ dget x o1 = Some s) /\ (dget x o2 = None \/ dget x o2 = Some s)) ->
  do_mass D F d o1 = do_mass D F d o2.
Proof.
  intros E1 E2. unfold do_mass. apply total_filter. intros o I N. unfold do_joint. destruct (consistent d o) eqn:C; [|auto].
  exfalso. apply N. clear N I. unfold consistent in *. revert C. induction o as [|[v x] o IH]; [reflexivity|]. cbn [forallb fst snd].
  intros C. apply andb_prop in C as [C1 C2]. rewrite (IH C2). f_equal. destruct (dget v d) as [s|] eqn:Ed.
  - destruct (E2 v s Ed) as [[-> | ->] [-> | ->]]; auto.
  - rewrite (E1 v) by (now apply dget_None). reflexivity.
Qed.
Lemma do_same D F d1 d2 o : (forall x, dget x d1 = dget x d2) -> do_mass D F d1 o = do_mass D F d2 o.
Proof.
  intros E. unfold do_mass. apply total_ext. intros a _. unfold do_joint.
  assert (C : consistent d1 a = consistent d2 a) by (unfold consistent; apply forallb_ext_in'; intros v _; now rewrite E).
  rewrite C. destruct (consistent d2 a); [|auto]. f_equal. f_equal. apply filter_ext. intros v. f_equal.
  destruct (mem (fst v) (keys d1)) eqn:M1, (mem (fst v) (keys d2)) eqn:M2; auto.
  - apply mem_In, dget_keys in M1 as (s & Es). apply mem_nIn, dget_None in M2. rewrite E in Es. congruence.
  - apply mem_In, dget_keys in M2 as (s & Es). apply mem_nIn, dget_None in M1. rewrite E in M1. congruence.
Qed.
Lemma assigns_app D Z z W w : assigns D Z z -> assigns D W w -> assigns D (Z ++ W) (z ++ w).
Proof.
  intros [Kz Fz] [Kw Fw]. split; [now rewrite keys_app, Kz, Kw|]. intros v l J. apply filter_In in J as [J M]. cbn in M. apply mem_In, in_app_or in M.
  rewrite dget_app. destruct (dget v z) as [s|] eqn:Ez.
  - destruct (Fz v l) as (s' & E' & J'); [|exists s; split; [auto|congruence]]. apply filter_In. split; [auto|]. apply mem_In. cbn. rewrite <- Kz. apply dget_keys. eauto.
  - destruct M as [M|M]; [apply dget_None in Ez; rewrite Kz in Ez; tauto|]. destruct (Fw v l) as (s' & E' & J'); [|eauto]. apply filter_In. split; [auto|]. now apply mem_In.
Qed.

Section Base.
  Variables (m : pgm) (D : domain) (F : var -> mfactor) (vt : vtype) (endo : list var) (cast : bool).
  Hypothesis H : causal m D F vt endo cast.
  Hypothesis PR : plain_roots m.
  Notation g := (m_graph m).
  Let WD : wf_dom D := wd m D F vt endo cast H.
  Lemma node_keys v : In v (keys D) <-> In v (nodes g).
  Proof. apply H. Qed.

  Lemma base w : known D w -> exists mw Fw, network mw D Fw vt /\ m_graph mw = remove_ingoing_edges g (keys w) /\
    (forall t, mass D Fw t = do_mass D F w t) /\
    (forall d t, known D d -> (forall v, In v (keys d) -> ~ In v (keys w)) -> do_mass D Fw d t = do_mass D F (w ++ d) t).
  Proof.
    intros Kw. destruct (convert_ok m D F vt endo cast H PR) as (m1 & endo1 & E1 & H1 & G1 & _ & _ & _ & St1 & _ & EF).
    destruct (intervention_ok m1 D _ vt endo1 true H1 w Kw) as (m2 & E2 & H2 & G2 & _ & _ & _ & St2).
    set (F1 := table_of_object F m) in *. exists m2, (do_table F1 w).
    assert (EJ : forall d, known D d -> forall o, In o (all_assignments D) -> joint (do_table F1 d) (keys D) o = do_joint D F d o).
    { intros d Kd o I. rewrite (do_joint_ok m1 D F1 vt endo1 true H1 d Kd o I). unfold do_joint. destruct (consistent d o); [|auto].
      apply (joint_ext D); [|apply drop_keys_incl]. intros v Iv. apply EF; [auto|].
      apply (all_assignments_In_full D o (proj1 WD)) in I. apply I. }
    split.
    { eapply causal_network; [exact H2|]. intros v Iv. rewrite G2 in Iv. cbn [nodes remove_ingoing_edges] in Iv. rewrite G1 in Iv. eapply St2. apply St1. auto. }
    split; [now rewrite G2, G1|]. split.
    - intros t. unfold mass, do_mass. apply total_ext. intros o I. apply EJ; [auto|]. now apply filter_In in I.
    - intros d t Kd Dj. unfold do_mass. apply total_ext. intros o I. apply filter_In in I as [I _].
      rewrite <- (do_joint_ok m2 D (do_table F1 w) vt endo1 true H2 d Kd o I). rewrite <- (EJ (w ++ d)); [|now apply known_app2|auto].
      apply (joint_ext D); [|apply incl_refl]. intros v _. f_equal. unfold do_table. rewrite dget_app.
      destruct (dget v d) eqn:Ed; [|destruct (dget v w); reflexivity].
      rewrite (proj2 (dget_None v w)); [reflexivity|]. apply Dj, dget_keys. eauto.
  Qed.

  (** [T] and [E] are apart given [Z] and the intervened variables *)
  Variable w : obs.
  Hypothesis Kw : known D w.
  Hypothesis Iw : incl (keys w) (nodes g).
  Notation gw := (remove_ingoing_edges g (keys w)).

  Lemma rule1 T E Z t e z : incl (T ++ E ++ Z) (nodes g) -> (forall v, In v (T ++ E ++ Z) -> ~ In v (keys w)) -> (forall v, In v (T ++ E) -> ~ In v Z) ->
    (forall x y, In x T -> In y E -> ~ d_connected gw (Z ++ keys w) x y) -> assigns D T t -> assigns D E e -> assigns D Z z ->
    (do_mass D F w (t ++ e ++ z) * do_mass D F w z = do_mass D F w (t ++ z) * do_mass D F w (e ++ z))%Qc.
  Proof.
    intros I Dw Dz Sep At Ae Az. destruct (base w Kw) as (mw & Fw & Net & Gw & M & _).
    assert (Ind : independent_in D Fw T E (Z ++ keys w)).
    { apply (apart_independent mw D Fw vt); auto.
      - rewrite Gw. cbn [nodes remove_ingoing_edges]. intros v J. rewrite !in_app_iff in J. destruct J as [J|[J|[J|J]]]; [apply I|apply I|apply I|now apply Iw]; rewrite !in_app_iff; auto.
      - intros v J K. apply in_app_or in K as [K|K]; [exact (Dz v J K)|]. apply (Dw v); [|auto]. rewrite app_assoc, in_app_iff. auto.
      - rewrite Gw. auto. }
    assert (Ak : assigns D (Z ++ keys w) (z ++ w)).
    { apply assigns_app; [auto|]. apply assigns_self; auto. intros v J. now apply node_keys, Iw. }
    specialize (Ind t e (z ++ w) At Ae Ak). rewrite !M in Ind.
    assert (L : forall s, (forall v, In v (keys s) -> ~ In v (keys w)) -> do_mass D F w (s ++ w) = do_mass D F w s).
    { intros s Ds. apply do_look.
      - intros x N. rewrite dget_app. rewrite (proj2 (dget_None x w) N). now destruct (dget x s).
      - intros x y Ex. assert (N : dget x s = None) by (apply dget_None; intros J; apply (Ds x J), dget_keys; eauto). rewrite dget_app, N. auto. }
    assert (Kt := proj1 At). assert (Ke := proj1 Ae). assert (Kz := proj1 Az).
    rewrite !app_assoc in Ind. rewrite !L in Ind by (intros v J; rewrite ?keys_app, ?Kt, ?Ke, ?Kz in J; apply Dw; rewrite !in_app_iff in *; tauto).
    rewrite app_assoc. exact Ind.
  Qed.

  Variable d : obs.
  Hypothesis Kd : known D d.
  Hypothesis Id : incl (keys d) (nodes g).
  Hypothesis Dwd : forall v, In v (keys d) -> ~ In v (keys w).

  Lemma rule2 T Z t z : incl (T ++ Z) (nodes g) -> (forall v, In v (T ++ Z) -> ~ In v (keys w) /\ ~ In v (keys d)) -> (forall v, In v T -> ~ In v Z) ->
    (forall x y, In x T -> In y (keys d) -> ~ d_connected (remove_outgoing_edges gw (keys d)) (Z ++ keys w) x y) -> assigns D T t -> assigns D Z z ->
    (do_mass D F w (t ++ z ++ d) * do_mass D F (w ++ d) z = do_mass D F (w ++ d) (t ++ z) * do_mass D F w (z ++ d))%Qc.
  Proof.
    intros I Dw Dz Sep At Az. destruct (base w Kw) as (mw & Fw & Net & Gw & M & Md).
    assert (Ak : assigns D (Z ++ keys w) (z ++ w)).
    { apply assigns_app; [auto|]. apply assigns_self; auto. intros v J. now apply node_keys, Iw. }
    assert (A := act_observe mw D Fw vt Net d Kd ltac:(intros v J; now apply node_keys, Id) T (Z ++ keys w) t (z ++ w)).
    rewrite !M, !Md in A by auto.
    assert (Kt := proj1 At). assert (Kz := proj1 Az).
    assert (Nw : forall (s : obs) x y, (forall v, In v (keys s) -> ~ In v (keys w)) -> dget x w = Some y -> dget x s = None).
    { intros s x y Ds Ex. apply dget_None. intros J. apply (Ds x J), dget_keys. eauto. }
    assert (Dt : forall v, In v (keys t) -> ~ In v (keys w)) by (intros v J; rewrite Kt in J; apply Dw; apply in_or_app; auto).
    assert (Dzw : forall v, In v (keys z) -> ~ In v (keys w)) by (intros v J; rewrite Kz in J; apply Dw; apply in_or_app; auto).
    assert (Dzd : forall v, In v (keys z) -> ~ In v (keys d)) by (intros v J; rewrite Kz in J; apply Dw; apply in_or_app; auto).
    assert (Dtd : forall v, In v (keys t) -> ~ In v (keys d)) by (intros v J; rewrite Kt in J; apply Dw; apply in_or_app; auto).
    assert (LA : forall s : obs, (forall v, In v (keys s) -> ~ In v (keys w) /\ ~ In v (keys d)) -> do_mass D F w (s ++ w ++ d) = do_mass D F w (s ++ d)).
    { intros s Ds. apply do_look.
      - intros x N. rewrite !dget_app, (proj2 (dget_None x w) N). now destruct (dget x s).
      - intros x y Ex. rewrite !dget_app, Ex, (Nw s x y), (Nw d x y); auto. intros v J; now apply Ds. }
    assert (LB : forall s : obs, (forall v, In v (keys s) -> ~ In v (keys w) /\ ~ In v (keys d)) -> do_mass D F (w ++ d) (s ++ w) = do_mass D F (w ++ d) s).
    { intros s Ds. apply do_look.
      - intros x N. rewrite keys_app, in_app_iff in N. rewrite !dget_app, (proj2 (dget_None x w)) by tauto. now destruct (dget x s).
      - intros x y Ex. assert (J : In x (keys (w ++ d))) by (apply dget_keys; eauto). rewrite keys_app in J. apply in_app_or in J.
        assert (N : dget x s = None) by (apply dget_None; intros K; apply Ds in K; tauto). rewrite !dget_app, N. rewrite dget_app in Ex. destruct (dget x w); auto. }
    assert (DwT : forall v, In v T -> ~ In v (keys w) /\ ~ In v (keys d)) by (intros v J; apply Dw, in_or_app; auto).
    assert (DwZ : forall v, In v Z -> ~ In v (keys w) /\ ~ In v (keys d)) by (intros v J; apply Dw, in_or_app; auto).
    assert (A' := A ltac:(rewrite Gw; cbn [nodes remove_ingoing_edges]; intros v J; rewrite !in_app_iff in J; destruct J as [J|[J|J]]; [apply I|apply I|now apply Iw]; rewrite !in_app_iff; auto)
      ltac:(intros v J; split; [intros K; apply in_app_or in K as [K|K]; [exact (Dz v J K)|apply (proj1 (DwT v J)); exact K]|exact (proj2 (DwT v J))])
      ltac:(intros v J K; apply in_app_or in J as [J|J]; [exact (proj2 (DwZ v J) K)|exact (Dwd v K J)])
      ltac:(rewrite Gw; auto) At Ak). clear A.
    replace (t ++ (z ++ w) ++ d) with ((t ++ z) ++ w ++ d) in A' by (rewrite !app_assoc; reflexivity).
    replace (t ++ z ++ w) with ((t ++ z) ++ w) in A' by (rewrite !app_assoc; reflexivity).
    replace ((z ++ w) ++ d) with (z ++ w ++ d) in A' by (rewrite !app_assoc; reflexivity).
    rewrite !LA, !LB in A' by (intros v J; rewrite ?keys_app, ?in_app_iff in J; destruct J as [J|J] || idtac; split; auto).
    rewrite app_assoc. exact A'.
  Qed.

  Lemma rule3 t : known D t -> incl (keys t) (nodes g) ->
    (forall x v, In x (keys d) -> In v (keys t) -> ~ reach gw x v) -> do_mass D F (w ++ d) t = do_mass D F w t.
  Proof.
    intros Kt It Nr. destruct (base w Kw) as (mw & Fw & Net & Gw & M & Md). rewrite <- M, <- Md by auto.
    apply (no_effect mw D Fw vt Net d Kd); [auto|intros v J; apply node_keys; auto|]. rewrite Gw. exact Nr.
  Qed.
End Base.
