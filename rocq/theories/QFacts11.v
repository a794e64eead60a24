(** The statements about the Q-factorisation. *)

From Coq Require Import String Bool Arith ZArith QArith Qcanon Lia Permutation List.
From Verif Require Import PyBase PyFacts Num NumFacts DomainModel NdArray StoreModel NumStore FactorModel GraphModel ModelModel InferModel DataModel
  Spec DomainFacts StoreSpec StoreFacts FactorSpec FactorFacts BigSum GraphSpec GraphFacts GraphFacts2 PropFacts3 ModelSpec ModelFacts
  NetSpec NetSem FactorSem NetFacts VeFacts2 VeFacts3 VeFacts4 CfFacts CfFacts3 BuildFacts CausalFacts PropFacts4 GenFacts3
  LearnModel DataSpec DataFacts3 DataFacts4 EmSpec EmMath EmFacts2 EmFacts5 QModel QSpec QFacts2 QFacts3 QFacts4 QFacts5 QFacts6 QFacts7 QFacts8 QFacts9 QFacts10.
From Coq Require Import List.
Import ListNotations.
Local Open Scope nat_scope.
Local Arguments eqd : simpl never.

Lemma touches_dec g endo v : wf_graph g -> touches_exo g endo v \/ ~ touches_exo g endo v.
Proof.
  intros W. destruct (existsb (fun e => negb (mem (fst e) endo) && ((if eqd v (fst e) then true else false) || (if eqd v (snd e) then true else false))) (edges g)) eqn:E.
  - left. apply existsb_exists in E as ([x y] & J & E). cbn [fst snd] in E. apply andb_true_iff in E as [E1 E2]. apply negb_true_iff, mem_nIn in E1.
    exists x, y. split; [split; auto|]. apply orb_true_iff in E2 as [E2|E2]; [destruct (eqd v x)|destruct (eqd v y)]; auto; discriminate.
  - right. intros (x & y & [A B] & C). rewrite <- not_true_iff_false in E. apply E. apply existsb_exists. exists (x, y). split; [exact A|]. cbn [fst snd].
    apply andb_true_iff. split; [apply negb_true_iff; now apply mem_nIn|]. apply orb_true_iff. destruct C as [-> | ->]; rewrite eqd_refl; auto.
Qed.

Section Statements.
  Variables (topo : digraph -> list var) (so : list (list var) -> list var) (pop : list var -> var).
  Variables (heur : digraph -> list var -> dict var nat -> res (list var)) (dflt : vtype).
  Hypothesis Hto : sorts topo.
  Hypothesis Hs : is_set_order so.
  Hypothesis Hp : pops pop.
  Hypothesis Hh : is_heuristic heur.
  Variables (m : pgm) (D : domain) (F : var -> mfactor) (vt : vtype) (endo : list var).
  Hypothesis HC : causal_tables m D F vt endo.
  Notation g := (m_graph m).

  Lemma q_facts q : m_qgraph topo m = Ok q -> wf_graph q /\ (forall v, In v (nodes q) <-> In v endo) /\
    (forall x, In x endo -> NoDup (preds q x) /\ incl (preds q x) endo /\ ~ In x (preds q x)).
  Proof.
    intros E. destruct (q_setup topo Hto m D F vt endo HC) as (q' & E' & _ & A). rewrite E in E'. injection E' as <-. exact A.
  Qed.

  Lemma qfactors_all q v : m_qgraph topo m = Ok q ->
    (touches_exo g endo v -> exists d, get_qfactors topo so heur dflt m None v = Ok d /\ NoDup (keys d) /\
       (forall x, In x (keys d) <-> In x endo /\ linked (exo_arc g endo) v x) /\
       (forall x f, In (x, f) d -> exists t, f = FM t /\ table_given D vt (mass D F) x (preds q x) t)) /\
    (~ touches_exo g endo v -> get_qfactors topo so heur dflt m None v = Raise KeyError).
  Proof.
    intros Hq. destruct (q_facts q Hq) as (Wq & Nq & Pq). destruct (ct_kind m D F vt endo HC) as (cast & Hk).
    assert (WG := net_wg m D F vt (ct_net m D F vt endo HC)). split.
    - intros Tv. destruct (qfactors_ok topo so heur dflt m endo cast None q Hs WG Hk Hq Nq (model_table so heur dflt m F q)) with (v := v) as (d & E & N & M); auto.
      { intros x J. apply (model_tables so heur dflt Hs Hh m D F vt endo HC q Pq x J). }
      exists d. split; [exact E|]. split; [exact N|]. split.
      + intros x. rewrite keys_In. split; [intros (f & J); apply M in J; tauto|]. intros [J K]. eexists. apply M. eauto.
      + intros x f J. apply M in J as (J & _ & ->). eexists. split; [reflexivity|]. apply (model_tables so heur dflt Hs Hh m D F vt endo HC q Pq x J).
    - intros Tv. exact (qfactors_raise topo so heur dflt m endo cast None WG Hk v Tv).
  Qed.

  Lemma qbnet_all q : m_qgraph topo m = Ok q -> all_disturbed g endo ->
    (acyclic q -> exists b, get_qbnet topo so pop heur dflt m None = Ok b /\ m_graph b = q /\ m_kind b = KBn /\
       (forall x, In x endo -> exists t, stored b x (FM t) /\ table_given D vt (mass D F) x (preds q x) t) /\
       (endo <> [] -> exists P,
          (forall os, (forall o, In o os -> full (pick endo D) o) -> m_prob b os = Ok (map P os)) /\
          (forall o, full (pick endo D) o -> vt = VNumpy \/ (forall x, In x endo -> mass D F (part (preds q x) o) <> 0%Qc) ->
             P o = Fin (mass D F (part endo o))) /\
          (forall o, full (pick endo D) o -> vt <> VNumpy -> (exists x, In x endo /\ mass D F (part (preds q x) o) = 0%Qc) -> P o = NaN))) /\
    (~ acyclic q -> get_qbnet topo so pop heur dflt m None = Raise ValueError).
  Proof.
    intros Hq Ad. destruct (q_facts q Hq) as (Wq & Nq & Pq). split.
    - intros Ac. destruct (qbnet_model topo so pop heur dflt Hs Hp Hh m D F vt endo HC q Hq Wq Nq Pq Ac Ad) as (b & Eb & B & K).
      exists b. split; [exact Eb|]. split; [apply B|]. split; [exact K|]. split.
      + intros x J. exists (model_table so heur dflt m F q x). split; [apply B; now apply Nq|]. apply (model_tables so heur dflt Hs Hh m D F vt endo HC q Pq x J).
      + intros E0. exists (product_at D F vt q). split; [|split].
        * intros os Fo. exact (prob_of_built so heur dflt Hs Hh m D F vt endo HC q Wq Nq Pq b B E0 os Fo).
        * intros o Fo C. exact (product_fin topo Hto m D F vt endo HC q Hq Wq Nq Pq o Ac E0 Fo C).
        * intros o Fo Nv X. now apply (product_nan m D F vt endo HC q Nq).
    - exact (qbnet_model_cyclic topo so pop heur dflt Hs Hp Hh m D F vt endo HC q Hq Wq Nq Pq).
  Qed.

  (** a variable without exogenous parents *)
  Lemma qbnet_undisturbed q v : m_qgraph topo m = Ok q -> acyclic q -> In v endo -> (forall u, arc g u v -> In u endo) ->
    exists b, get_qbnet topo so pop heur dflt m None = Ok b /\ m_graph b = q /\ dget v (m_factors b) = Some None /\
      forall os, (forall o, In o os -> full (pick endo D) o) -> m_prob b os = Raise AttributeError.
  Proof.
    intros Hq Ac Jv Hv. destruct (q_facts q Hq) as (Wq & Nq & Pq). destruct (ct_kind m D F vt endo HC) as (cast & Hk).
    assert (WG := net_wg m D F vt (ct_net m D F vt endo HC)). assert (WD := ct_wd m D F vt endo HC).
    assert (Tv : ~ touches_exo g endo v) by (intros (x & y & [A B] & [-> | ->]); [auto|apply B; now apply Hv]).
    set (T := model_table so heur dflt m F q).
    assert (HT : forall x, In x endo -> q_query so heur dflt m None x (preds q x) = Ok (T x) /\ table_given D vt (mass D F) x (preds q x) (T x))
      by (intros x J; apply (model_tables so heur dflt Hs Hh m D F vt endo HC q Pq x J)).
    destruct (qbnet_building topo so pop heur dflt m endo cast None q Hs Hp WG Hk Hq Wq Nq T) with (D := D) as (b & done & Eb & (B1 & B2 & B3 & B4 & B5 & B6 & B7) & X); auto.
    { intros x J. now apply HT. } { apply WD. } { intros x J. apply (table_storable D vt (mass D F)). now apply HT. }
    exists b. split; [exact Eb|]. split; [exact B1|]. split; [rewrite (B6 v) by (now apply Nq); now rewrite (proj2 (X v Jv) Tv)|].
    intros os Fo. unfold m_prob.
    rewrite (vals_of (m_factors b) (fun x => option_map FM (done x))); [|rewrite B4; apply Wq|intros x J; apply B6; now rewrite <- B4].
    rewrite B4, mapM_map.
    rewrite (mapM_raise _ _ _ AttributeError); [reflexivity| |].
    - intros x J. apply Nq in J. assert (Dx : done x = None \/ done x = Some (T x)).
      { assert (Q := touches_dec g endo x). destruct (Q WG) as [Y|Y]; destruct (X x J) as [X1 X2]; auto. }
      destruct Dx as [-> | ->]; [right; reflexivity|]. left. cbn [option_map fo_prob]. unfold mf_prob. eexists. apply mapM_det. intros o K.
      apply (table_at m D F vt endo HC q Pq x (T x) o J); [now apply HT|auto].
    - exists v. split; [now apply Nq|]. rewrite (proj2 (X v Jv) Tv). reflexivity.
  Qed.
End Statements.
