(** The Q-factorisation as a dict of tables and as a Bayesian network. *)

From Coq Require Import String Bool Arith ZArith QArith Qcanon Lia Permutation List.
From Verif Require Import PyBase PyFacts Num DomainModel NdArray StoreModel NumStore FactorModel GraphModel ModelModel InferModel DataModel
  Spec DomainFacts StoreSpec FactorSpec FactorFacts BigSum GraphSpec GraphFacts GraphFacts2 PropFacts3 ModelSpec ModelFacts
  NetSpec NetSem FactorSem NetFacts BuildFacts CausalFacts OrderFacts GenFacts3 LearnModel QModel QSpec.
From Coq Require Import List.
Import ListNotations.
Local Open Scope nat_scope.
Local Arguments eqd : simpl never.

Section Tables.
  Variables (topo : digraph -> list var) (so : list (list var) -> list var) (pop : list var -> var).
  Variables (heur : digraph -> list var -> dict var nat -> res (list var)) (dflt : vtype).
  Variables (m : pgm) (endo : list var) (cast : bool) (data : option frame) (q : digraph).
  Hypothesis Hs : is_set_order so.
  Hypothesis Hp : pops pop.
  Notation g := (m_graph m).
  Hypothesis WG : wf_graph g.
  Hypothesis Hk : m_kind m = KScm endo cast.
  Hypothesis Hi : incl endo (nodes g).
  Hypothesis Hq : m_qgraph topo m = Ok q.
  Hypothesis Wq : wf_graph q.
  Hypothesis Nq : forall v, In v (nodes q) <-> In v endo.
  Variable T : var -> mfactor.
  Hypothesis HT : forall v, In v endo -> q_query so heur dflt m data v (preds q v) = Ok (T v).

  Lemma endo_of : scm_endogenous m = endo.
  Proof. unfold scm_endogenous. now rewrite Hk. Qed.

  Lemma qfactors_ok v : touches_exo g endo v ->
    exists d, get_qfactors topo so heur dflt m data v = Ok d /\ NoDup (keys d) /\
      forall x f, In (x, f) d <-> In x endo /\ linked (exo_arc g endo) v x /\ f = FM (T x).
  Proof.
    intros Tv. unfold get_qfactors, get_endo_ccomponent. rewrite endo_of.
    destruct (proj1 (get_ccomponent_both g endo v WG) Tv) as (c & Ec & Nc & Mc). rewrite Ec. cbn [bind].
    set (e := filter (fun x => mem x endo) c). destruct (Hs [e]) as [Ns Ss]. set (l := so [e]) in *.
    assert (Ie : forall x, In x l <-> In x endo /\ linked (exo_arc g endo) v x).
    { intros x. rewrite (Ss x). cbn [concat]. rewrite app_nil_r. unfold e. rewrite filter_In, mem_In, Mc. tauto. }
    erewrite (mapM_map_ok _ (fun x => (x, FM (T x))) l).
    - cbn [bind]. eexists. split; [reflexivity|].
      destruct (dict_of_in (map (fun x => (x, FM (T x))) l)) as [A B].
      { intros k x y J K. apply in_map_iff in J as (? & [= <- <-] & _). apply in_map_iff in K as (? & [= -> <-] & _). reflexivity. }
      split; [exact B|]. intros x f. rewrite A, in_map_iff. split.
      + intros (y & [= -> <-] & J). apply Ie in J. tauto.
      + intros (J1 & J2 & ->). exists x. split; [reflexivity|]. apply Ie. auto.
    - intros x J. rewrite Hq. cbn [bind]. apply Ie in J as [J _]. unfold predecessors.
      assert (M : mem x (nodes q) = true) by (apply mem_In; now apply Nq). rewrite M. cbn [bind]. rewrite HT by auto. reflexivity.
  Qed.
  Lemma qfactors_raise v : ~ touches_exo g endo v -> get_qfactors topo so heur dflt m data v = Raise KeyError.
  Proof.
    intros Tv. unfold get_qfactors, get_endo_ccomponent. rewrite endo_of.
    now rewrite (proj2 (get_ccomponent_both g endo v WG) Tv).
  Qed.

  Lemma qfactorisation_ok :
    exists d, get_qfactorisation topo so pop heur dflt m data = Ok d /\ NoDup (keys d) /\
      forall x f, In (x, f) d <-> In x endo /\ touches_exo g endo x /\ f = FM (T x).
  Proof.
    unfold get_qfactorisation. rewrite endo_of.
    destruct (ccomponents_ok g endo WG) as (cs & E & C1 & C2 & C3 & C4). rewrite E.
    assert (Pc : forall c, In c cs -> In (pop c) c /\ touches_exo g endo (pop c)).
    { intros c J. assert (K : In (pop c) c) by (apply Hp; now apply C1). split; [exact K|]. apply C3. eauto. }
    destruct (mapM_spec _ _ (fun c => get_qfactors topo so heur dflt m data (pop c))
       (fun c d => forall x f, In (x, f) d <-> In x endo /\ linked (exo_arc g endo) (pop c) x /\ f = FM (T x)) cs) as (ds & Ed & Fd).
    { intros c J. destruct (qfactors_ok (pop c)) as (d & A & _ & B); [now apply Pc|]. eauto. }
    rewrite Ed. cbn [bind]. eexists. split; [reflexivity|].
    assert (Q : forall x f, In (x, f) (concat ds) <-> In x endo /\ touches_exo g endo x /\ f = FM (T x)).
    { intros x f. rewrite in_concat. split.
      - intros (d & J & K). destruct (Forall2_In_r _ _ _ d Fd J) as (c & Jc & X). destruct (proj1 (X x f) K) as (K1 & K2 & K3).
        split; [auto|]. split; [|auto]. apply (linked_touches g endo (pop c) x); [exact K2|now apply Pc].
      - intros (J1 & J2 & J3). destruct (proj2 (C3 x) J2) as (c & Jc & Kc). destruct (Forall2_In_l _ _ _ c Fd Jc) as (d & Jd & X).
        exists d. split; [exact Jd|]. apply X. split; [auto|]. split; [|auto]. apply (C4 (pop c) x); [now apply Pc|]. exists c. split; [auto|]. split; [now apply Pc|auto]. }
    destruct (dict_of_in (concat ds)) as [A B].
    { intros k x y J K. apply Q in J as (_ & _ & ->). apply Q in K as (_ & _ & ->). reflexivity. }
    split; [exact B|]. intros x f. now rewrite A.
  Qed.

  Variable D : domain.
  Hypothesis ND : NoDup (keys D).
  Hypothesis HS : forall v, In v endo -> wf_mf (T v) /\ same_set (mf_left (T v)) [v] /\ same_set (mf_right (T v)) (preds q v) /\
    (forall w l, In (w, l) (mf_domain (T v)) -> In (w, l) D).

  (** the network holds a table for exactly the endogenous variables in a
      component *)
  Lemma qbnet_building : acyclic q -> exists b done, get_qbnet topo so pop heur dflt m data = Ok b /\ building D q true KBn done b /\
    forall v, In v endo -> (touches_exo g endo v -> done v = Some (T v)) /\ (~ touches_exo g endo v -> done v = None).
  Proof.
    intros Ac. unfold get_qbnet. rewrite Hq. cbn [bind]. destruct qfactorisation_ok as (d & Ed & Nd & Md). rewrite Ed. cbn [bind].
    unfold bn_init. destruct (initialize_ok q Wq) as [E _]. rewrite (E Ac). cbn [bind set_factors].
    destruct (set_many D ND q true KBn d T Wq) with (done := fun _ : var => @None mfactor) (m := fresh q true KBn) as (b & Eb & Bb).
    - intros v f J. apply Md in J as (J1 & J2 & ->). split; [reflexivity|]. destruct (HS v J1) as (A1 & A2 & A3 & A4).
      assert (Vv : In v (mf_vars (T v))) by (apply (proj1 (proj2 (proj2 (proj2 (wf_mf_partitioned _ A1))))); left; apply A2; now left).
      split; [now apply Nq|]. split; [exact Vv|]. split; [exact A4|]. split; [apply (wf_mf_partitioned _ A1)|]. intros _. split; [exact A2|]. split; [exact A3|]. discriminate.
    - apply building_fresh.
    - exists b. eexists. split; [exact Eb|]. split; [exact Bb|]. intros v Jv. cbn beta. split; intros Tv.
      + assert (K : mem v (keys d) = true) by (apply mem_In, keys_In; exists (FM (T v)); apply Md; auto). now rewrite K.
      + assert (K : mem v (keys d) = false) by (apply mem_nIn; intros J; apply keys_In in J as (f & J); apply Md in J; tauto). now rewrite K.
  Qed.
  Lemma qbnet_cyclic : ~ acyclic q -> get_qbnet topo so pop heur dflt m data = Raise ValueError.
  Proof.
    intros Ac. unfold get_qbnet. rewrite Hq. cbn [bind]. destruct qfactorisation_ok as (d & Ed & Nd & Md). rewrite Ed. cbn [bind].
    unfold bn_init. destruct (initialize_ok q Wq) as [_ E]. rewrite (E Ac). reflexivity.
  Qed.
  Lemma disturbed_touches v : all_disturbed g endo -> In v endo -> touches_exo g endo v.
  Proof. intros A J. destruct (A v J) as (u & B & C). exists u, v. split; [split; auto|auto]. Qed.
  Lemma qbnet_built : acyclic q -> all_disturbed g endo -> exists b, get_qbnet topo so pop heur dflt m data = Ok b /\ built D q T b /\ m_kind b = KBn.
  Proof.
    intros Ac Ad. destruct (qbnet_building Ac) as (b & done & E & (B1 & B2 & B3 & B4 & B5 & B6 & B7) & X). exists b. split; [exact E|]. split; [|exact B3].
    assert (Y : forall v, In v (nodes q) -> done v = Some (T v)).
    { intros v J. apply Nq in J. apply X; [auto|]. now apply disturbed_touches. }
    split; [exact B1|]. split; [exact B4|]. split; [exact B5|]. split.
    - intros v J. unfold stored. rewrite (B6 v J), (Y v J). reflexivity.
    - intros v J. destruct (B7 v J) as (o & E1 & E2). rewrite (Y v J) in E2. destruct E2 as (l & -> & K). exists l. split; [exact E1|exact K].
  Qed.
  (** a variable without a table makes the methods of the network fail *)
  Lemma qbnet_gap v : acyclic q -> In v endo -> ~ touches_exo g endo v ->
    exists b, get_qbnet topo so pop heur dflt m data = Ok b /\ m_graph b = q /\ In (v, None) (m_factors b).
  Proof.
    intros Ac J Tv. destruct (qbnet_building Ac) as (b & done & E & (B1 & B2 & B3 & B4 & B5 & B6 & B7) & X). exists b. split; [exact E|].
    split; [exact B1|]. apply dget_In. rewrite (B6 v); [|now apply Nq]. now rewrite (proj2 (X v J) Tv).
  Qed.
End Tables.
