(** The Bayesian network of the Q-factorisation of a causal model. *)

From Coq Require Import String Bool Arith ZArith QArith Qcanon Lia Permutation List.
From Verif Require Import PyBase PyFacts Num DomainModel NdArray StoreModel NumStore FactorModel GraphModel ModelModel InferModel DataModel
  Spec DomainFacts StoreSpec StoreFacts FactorSpec FactorFacts BigSum GraphSpec GraphFacts GraphFacts2 PropFacts3 ModelSpec ModelFacts
  NetSpec NetSem FactorSem NetFacts VeFacts2 VeFacts3 VeFacts4 CfFacts CfFacts3 BuildFacts CausalFacts PropFacts4 GenFacts3 LearnModel EmSpec EmMath EmFacts5
  QModel QSpec QFacts2 QFacts3 QFacts4.
From Coq Require Import List.
Import ListNotations.
Local Open Scope nat_scope.
Local Arguments eqd : simpl never.

(** The table that a query returns. *)
Definition answer (r : res mfactor) (f : mfactor) : mfactor := match r with Ok f => f | Raise _ => f end.

Section Model.
  Variables (topo : digraph -> list var) (so : list (list var) -> list var) (pop : list var -> var).
  Variables (heur : digraph -> list var -> dict var nat -> res (list var)) (dflt : vtype).
  Hypothesis Hto : sorts topo.
  Hypothesis Hs : is_set_order so.
  Hypothesis Hp : pops pop.
  Hypothesis Hh : is_heuristic heur.
  Variables (m : pgm) (D : domain) (F : var -> mfactor) (vt : vtype) (endo : list var).
  Hypothesis HC : causal_tables m D F vt endo.
  Notation g := (m_graph m).

  Lemma ct_net : network m D F vt. Proof. apply HC. Qed.
  Lemma ct_nn : nonnegative D F. Proof. apply HC. Qed.
  Lemma ct_kind : exists cast, m_kind m = KScm endo cast. Proof. apply HC. Qed.
  Lemma ct_endo : incl endo (nodes g). Proof. apply HC. Qed.
  Lemma ct_root x y : arc g x y -> In y endo. Proof. apply HC. Qed.
  Lemma ct_scm : scm_endogenous m = endo.
  Proof. destruct ct_kind as (c & E). unfold scm_endogenous. now rewrite E. Qed.
  Lemma ct_wd : wf_dom D. Proof. apply ct_net. Qed.
  Lemma ct_keys v : In v endo -> In v (keys D).
  Proof. intros J. apply (net_nodes m D F vt ct_net). now apply ct_endo. Qed.

  Lemma endo_topological : topological (endo_graph g endo) (topo (endo_graph g endo)).
  Proof.
    assert (WG := net_wg m D F vt ct_net). assert (AC := net_ac m D F vt ct_net). apply Hto; [now apply subgraph_wf|].
    intros x W. apply (AC x). revert W. generalize x at 1 3. intros y W. induction W as [a c A|a c d A W IH]; apply subgraph_arc in A as (A & _); [now constructor|econstructor 2; eauto].
  Qed.

  Lemma q_setup : exists q, m_qgraph topo m = Ok q /\ get_qgraph g endo (topo (endo_graph g endo)) = Ok q /\ wf_graph q /\
    (forall v, In v (nodes q) <-> In v endo) /\ (forall x, In x endo -> NoDup (preds q x) /\ incl (preds q x) endo /\ ~ In x (preds q x)).
  Proof.
    assert (WG := net_wg m D F vt ct_net). assert (AC := net_ac m D F vt ct_net).
    destruct (get_qgraph_ok g endo _ WG AC endo_topological) as (q & Eq & Wq & Nq & Aq). exists q.
    split; [unfold m_qgraph; now rewrite ct_scm|]. split; [exact Eq|]. split; [exact Wq|]. split.
    - intros v. rewrite Nq. split; [tauto|]. intros J. split; [now apply ct_endo|auto].
    - intros x Jx. split; [apply preds_NoDup; apply Wq|]. split.
      + intros p J. apply in_preds, Aq in J. tauto.
      + intros J. apply in_preds, Aq in J as [(A & _)|(_ & _ & _ & _ & _ & _ & [(B & _)|(B & _)])].
        * apply (AC x). now constructor.
        * destruct B as (l1 & l2 & E & J). destruct endo_topological as (N & _ & _). rewrite E in N. apply NoDup_remove_2 in N. apply N, in_or_app. auto.
        * apply B. constructor.
  Qed.

  Variable q : digraph.
  Hypothesis Hq : m_qgraph topo m = Ok q.
  Hypothesis Wq : wf_graph q.
  Hypothesis Nq : forall v, In v (nodes q) <-> In v endo.
  Hypothesis Pq : forall x, In x endo -> NoDup (preds q x) /\ incl (preds q x) endo /\ ~ In x (preds q x).

  Definition model_table (v : var) : mfactor := answer (q_query so heur dflt m None v (preds q v)) (F v).
  Lemma model_tables v : In v endo ->
    q_query so heur dflt m None v (preds q v) = Ok (model_table v) /\ table_given D vt (mass D F) v (preds q v) (model_table v).
  Proof.
    intros J. destruct (Pq v J) as (N1 & I1 & N2). unfold model_table, q_query.
    destruct (conditional m D F vt ct_net [] [v] (preds q v) heur so Hh Hs) as (r & E & W & V & _ & L & R & Rd & X & Y).
    - constructor; [auto|constructor].
    - exact N1.
    - discriminate.
    - intros w [<- | []]. now apply ct_endo.
    - intros w K. now apply ct_endo, I1.
    - intros w [].
    - intros w _ [].
    - now intros w [<- | []].
    - rewrite (mass_nil m D F vt ct_net). discriminate.
    - rewrite E. cbn [answer]. split; [reflexivity|]. split; [exact W|]. split; [exact V|]. split; [exact L|]. split; [exact R|]. split; [exact Rd|].
      intros t c At Ac. specialize (X t c At Ac). specialize (Y t c At Ac ct_nn). rewrite !app_nil_r in X, Y. unfold quotient.
      destruct (Qc_eq_dec (mass D F c) 0) as [Z|Z]; auto.
  Qed.
  Lemma table_storable W v f ps : table_given D vt W v ps f ->
    wf_mf f /\ same_set (mf_left f) [v] /\ same_set (mf_right f) ps /\ (forall w l, In (w, l) (mf_domain f) -> In (w, l) D).
  Proof. intros (A1 & _ & A2 & A3 & A4 & _). auto. Qed.

  (** ** The values of networks of such tables *)
  Lemma mass_part a o : (forall x, dget x (part endo o) = dget x (obs_of endo a)) -> mass D F (part endo o) = mass D F (obs_of endo a).
  Proof. intros E. now apply mass_get. Qed.
  Lemma mass_zero_part l a : incl l endo -> mass D F (obs_of l a) = 0%Qc -> valid D a -> mass D F (obs_of endo a) = 0%Qc.
  Proof.
    intros I Z Va. apply Qcle_antisym.
    - rewrite <- Z. apply (mass_fewer m D F vt ct_net ct_nn l endo a I).
    - apply (mass_nonneg m D F vt ct_net _ ct_nn). eapply assigns_known. now apply assigns_obs.
  Qed.
  Lemma endo_chain a : acyclic q -> valid D a ->
    mass D F (obs_of endo a) = product_of (map (fun x => mass D F (obs_of (x :: preds q x) a) / mass D F (obs_of (preds q x) a))%Qc (nodes q)).
  Proof.
    intros Ac Va. destruct (acyclic_topological q Wq Ac) as (tau & Ht).
    assert (Hg : get_qgraph g endo (topo (endo_graph g endo)) = Ok q) by (unfold m_qgraph in Hq; rewrite ct_scm in Hq; exact Hq).
    assert (E := q_chain m D F vt endo _ q ct_net ct_nn endo_topological ct_root Hg tau Ht a Va tau [] (eq_sym (app_nil_r _))).
    destruct Ht as (Nt & Mt & _).
    rewrite (mass_members D F endo tau a) by (intros v; rewrite Mt, Nq; tauto). rewrite E.
    etransitivity; [apply product_qprod|]. etransitivity; [|symmetry; apply product_qprod]. apply qprod_perm, Permutation_map.
    apply NoDup_Permutation; [exact Nt|apply Wq|]. exact Mt.
  Qed.

  (** the value of the product at an observation *)
  Definition value_at (o : obs) (v : var) : num :=
    quotient vt (mass D F (part (v :: preds q v) o)) (mass D F (part (preds q v) o)).
  Definition product_at (o : obs) : num :=
    match nodes q with [] => NaN | v :: vs => fold_left nmul (map (value_at o) vs) (value_at o v) end.

  Lemma part_mass a o l : (forall v, In v endo -> dget v o = Some (a v)) -> incl l endo -> mass D F (part l o) = mass D F (obs_of l a).
  Proof.
    intros A I. apply mass_get. intros x. rewrite part_get, dget_obs_of. destruct (mem x l) eqn:M; [|reflexivity]. apply A, I. now apply mem_In.
  Qed.
  Lemma table_at v f o : In v endo -> table_given D vt (mass D F) v (preds q v) f -> full (pick endo D) o -> mf_get_value f o = Ok (value_at o v).
  Proof.
    intros J Tf Fo. destruct (part_asg D endo o ct_wd ct_keys Fo) as (a & Va & A & _). destruct (Pq v J) as (N1 & I1 & N2).
    assert (I2 : incl (v :: preds q v) endo) by (intros w [<- | K]; auto).
    rewrite (table_value D vt (mass D F) v (preds q v) f a o Tf Va N2) by (intros w K; apply A; auto).
    unfold value_at. now rewrite !(part_mass a o) by auto.
  Qed.

  Lemma product_fin o : acyclic q -> endo <> [] -> full (pick endo D) o ->
    vt = VNumpy \/ (forall v, In v endo -> mass D F (part (preds q v) o) <> 0%Qc) -> product_at o = Fin (mass D F (part endo o)).
  Proof.
    intros Ac N0 Fo C. destruct (part_asg D endo o ct_wd ct_keys Fo) as (a & Va & A & E).
    rewrite (mass_part a o E), (endo_chain a Ac Va). unfold product_at.
    assert (X : forall v, In v (nodes q) -> value_at o v = Fin (mass D F (obs_of (v :: preds q v) a) / mass D F (obs_of (preds q v) a))%Qc).
    { intros v J. apply Nq in J. destruct (Pq v J) as (N1 & I1 & N2). assert (I2 : incl (v :: preds q v) endo) by (intros w [<- | K]; auto).
      unfold value_at. rewrite !(part_mass a o) by auto. unfold quotient. destruct (Qc_eq_dec (mass D F (obs_of (preds q v) a)) 0) as [Z|Z]; [|reflexivity].
      rewrite Z. destruct C as [-> | C]; [apply (f_equal Fin); unfold Qcdiv; change (/ 0)%Qc with 0%Qc; ring|]. exfalso. apply (C v J). now rewrite (part_mass a o). }
    destruct (nodes q) as [|v vs] eqn:En.
    - exfalso. destruct endo as [|w r]; [congruence|]. destruct (proj2 (Nq w) (or_introl eq_refl)).
    - rewrite (X v (or_introl eq_refl)). rewrite (map_ext_in _ (fun v => Fin (mass D F (obs_of (v :: preds q v) a) / mass D F (obs_of (preds q v) a))%Qc)) by (intros w K; apply X; now right).
      rewrite <- (map_map (fun v => mass D F (obs_of (v :: preds q v) a) / mass D F (obs_of (preds q v) a))%Qc Fin), fold_fin. reflexivity.
  Qed.
  Lemma product_nan o : vt <> VNumpy -> (exists v, In v endo /\ mass D F (part (preds q v) o) = 0%Qc) -> product_at o = NaN.
  Proof.
    intros Nv (v & J & Z). unfold product_at.
    assert (X : value_at o v = NaN). { unfold value_at, quotient. rewrite Z. destruct (Qc_eq_dec 0 0); [|congruence]. destruct vt; congruence. }
    apply Nq in J. destruct (nodes q) as [|w ws] eqn:En; [destruct J|]. apply fold_nan.
    - intros y K. change (In y (map (value_at o) (w :: ws))) in K. apply in_map_iff in K as (u & <- & _). unfold value_at, quotient.
      destruct (Qc_eq_dec _ 0); [|eauto]. destruct vt; eauto.
    - change (In NaN (map (value_at o) (w :: ws))). apply in_map_iff. exists v. auto.
  Qed.

  Lemma qbnet_model : acyclic q -> all_disturbed g endo ->
    exists b, get_qbnet topo so pop heur dflt m None = Ok b /\ built D q model_table b /\ m_kind b = KBn.
  Proof.
    intros Ac Ad. destruct ct_kind as (cast & Hk).
    apply (qbnet_built topo so pop heur dflt m endo cast None q Hs Hp (net_wg m D F vt ct_net) Hk Hq Wq Nq model_table); auto.
    - intros v J. now apply model_tables.
    - apply ct_wd.
    - intros v J. apply (table_storable (mass D F)). now apply model_tables.
  Qed.
  Lemma qbnet_model_cyclic : ~ acyclic q -> get_qbnet topo so pop heur dflt m None = Raise ValueError.
  Proof.
    intros Ac. destruct ct_kind as (cast & Hk).
    apply (qbnet_cyclic topo so pop heur dflt m endo cast None q Hs Hp (net_wg m D F vt ct_net) Hk Hq Wq Nq model_table); auto.
    intros v J. now apply model_tables.
  Qed.
  Lemma prob_of_built b : built D q model_table b -> endo <> [] -> forall os, (forall o, In o os -> full (pick endo D) o) -> m_prob b os = Ok (map product_at os).
  Proof.
    intros B N0 os Fo. destruct (prob_rows D q model_table b Wq B) with (os := os) (h := fun v o => value_at o v) as (v & vs & En & E).
    - intros E. destruct endo as [|w r]; [congruence|]. assert (J := proj2 (Nq w) (or_introl eq_refl)). rewrite E in J. destruct J.
    - intros v o J K. apply table_at; [now apply Nq| |auto]. apply model_tables. now apply Nq.
    - rewrite E. unfold product_at. now rewrite En.
  Qed.
End Model.
