(** The joint distribution of the endogenous variables as a product. *)

From Coq Require Import String Bool Arith ZArith QArith Qcanon Lia Permutation List.
From Verif Require Import PyBase PyFacts Num DomainModel NdArray StoreModel NumStore FactorModel GraphModel ModelModel InferModel
  Spec DomainFacts StoreSpec StoreFacts FactorSpec FactorFacts FactorFacts3 BigSum GraphSpec GraphFacts GraphFacts2 PropFacts3 ModelSpec
  NetSpec NetSem FactorSem NetFacts VeFacts2 VeFacts4 CfFacts LearnModel EmSpec EmMath EmFacts1 EmFacts5 SepSpec SepFacts1 SepFacts2 QSpec QFacts1.
From Coq Require Import List.
Import ListNotations.
Local Open Scope nat_scope.
Local Arguments eqd : simpl never.

Lemma dget_obs_of vs a v : dget v (obs_of vs a) = if mem v vs then Some (a v) else None.
Proof.
  destruct (mem v vs) eqn:E.
  - apply obs_of_get. now apply mem_In.
  - apply dget_None. unfold obs_of, keys. rewrite map_map. cbn. rewrite map_id. now apply mem_nIn.
Qed.

Section Chain.
  Variables (m : pgm) (D : domain) (F : var -> mfactor) (vt : vtype) (endo order : list var) (q : digraph).
  Hypothesis H : network m D F vt.
  Hypothesis NN : nonnegative D F.
  Notation g := (m_graph m).
  Hypothesis Ho : topological (endo_graph g endo) order.
  Hypothesis Hroot : forall x y, arc g x y -> In y endo.
  Hypothesis Hq : get_qgraph g endo order = Ok q.
  Variable tau : list var.
  Hypothesis Ht : topological q tau.

  Lemma mass_members l l' a : (forall v, In v l <-> In v l') -> mass D F (obs_of l a) = mass D F (obs_of l' a).
  Proof.
    intros E. apply mass_get. intros v. rewrite !dget_obs_of. replace (mem v l') with (mem v l); [reflexivity|].
    apply Bool.eq_iff_eq_true. now rewrite !mem_In.
  Qed.
  Lemma mass_fewer l l' a : incl l l' -> (mass D F (obs_of l' a) <= mass D F (obs_of l a))%Qc.
  Proof.
    intros I. apply (mass_mono m D F vt H NN). intros p. unfold consistent. rewrite !forallb_forall. intros C [x s] J. specialize (C _ J). cbn [fst snd] in *.
    rewrite dget_obs_of in *. destruct (mem x l) eqn:E; [|auto]. apply mem_In, I, mem_In in E. now rewrite E in C.
  Qed.

  Lemma q_step P x R a : tau = P ++ x :: R -> valid D a ->
    (mass D F (obs_of (P ++ [x]) a) * mass D F (obs_of (preds q x) a) = mass D F (obs_of (x :: preds q x) a) * mass D F (obs_of P a))%Qc.
  Proof.
    intros Et Va. assert (WG := net_wg m D F vt H). assert (AC := net_ac m D F vt H).
    destruct (get_qgraph_ok g endo order WG AC Ho) as (q' & Eq & Wq & Nq & Aq). rewrite Hq in Eq. injection Eq as <-.
    set (Z := preds q x). set (Y := filter (fun v => negb (mem v Z)) P).
    assert (HY : forall y, In y Y -> In y P /\ ~ In y Z).
    { intros y J. apply filter_In in J as [J K]. split; [auto|]. apply negb_true_iff in K. now apply mem_nIn in K. }
    assert (ZP : forall z, In z Z -> In z P) by (intros z; eapply Z_P; eauto).
    assert (Px := P_in g endo q Nq tau P R x Ht Et). assert (Xx := x_in g endo q Nq tau P R x Ht Et).
    assert (I := independent m D F vt H [x] Y Z).
    assert (E : (mass D F (obs_of [x] a ++ obs_of Y a ++ obs_of Z a) * mass D F (obs_of Z a) =
                 mass D F (obs_of [x] a ++ obs_of Z a) * mass D F (obs_of Y a ++ obs_of Z a))%Qc).
    { apply I; try (now apply assigns_obs).
      - intros v [<- | []]. apply Xx.
      - intros v J. apply HY in J as [J _]. now apply Px.
      - intros v J. now apply Px, ZP.
      - intros v [<- | []] J. apply ZP in J. now apply Px in J.
      - intros v J. now apply HY.
      - intros x' y [<- | []] J. eapply (q_separated g endo order q); eauto. }
    assert (Ap : forall l l', obs_of l a ++ obs_of l' a = obs_of (l ++ l') a) by (intros; unfold obs_of; now rewrite map_app).
    rewrite !Ap in E. cbn [app] in E.
    assert (YZ : forall v, In v (Y ++ Z) <-> In v P).
    { intros v. unfold Y. rewrite in_app_iff, filter_In, negb_true_iff, mem_nIn. split; [intros [[J _]|J]; auto|].
      intros J. destruct (in_dec string_dec v Z); auto. }
    rewrite (mass_members (x :: Y ++ Z) (P ++ [x])), (mass_members (Y ++ Z) P) in E; auto.
    intros v. cbn [In]. rewrite (in_app_iff P), (YZ v). cbn. tauto.
  Qed.

  Lemma q_chain a : valid D a -> forall P R, tau = P ++ R ->
    mass D F (obs_of P a) = product_of (map (fun x => mass D F (obs_of (x :: preds q x) a) / mass D F (obs_of (preds q x) a))%Qc P).
  Proof.
    intros Va. induction P as [|x P IH] using rev_ind; intros R Et.
    - cbn. apply (mass_nil m D F vt H).
    - rewrite <- app_assoc in Et. cbn [app] in Et. assert (E := q_step P x R a Et Va). specialize (IH _ Et).
      rewrite map_app. unfold product_of. rewrite fold_right_app. cbn [map fold_right].
      assert (Fo : forall l c, fold_right Qcmult c l = (fold_right Qcmult 1 l * c)%Qc).
      { induction l as [|b l IHl]; intros c; cbn; [ring|]. rewrite IHl. ring. }
      rewrite Fo. fold (product_of (map (fun x => mass D F (obs_of (x :: preds q x) a) / mass D F (obs_of (preds q x) a))%Qc P)). rewrite <- IH.
      destruct (Qc_eq_dec (mass D F (obs_of (preds q x) a)) 0) as [Z0|Z0].
      + assert (P0 : mass D F (obs_of P a) = 0%Qc).
        { apply Qcle_antisym.
          - rewrite <- Z0. apply mass_fewer. intros z J. assert (WG := net_wg m D F vt H). assert (AC := net_ac m D F vt H).
            destruct (get_qgraph_ok g endo order WG AC Ho) as (q' & Eq & Wq & Nq & Aq). rewrite Hq in Eq. injection Eq as <-.
            eapply Z_P; eauto.
          - apply (mass_nonneg m D F vt H _ NN). eapply assigns_known. now apply assigns_obs. }
        assert (P1 : mass D F (obs_of (P ++ [x]) a) = 0%Qc).
        { apply Qcle_antisym.
          - rewrite <- P0. apply mass_fewer. intros z J. apply in_or_app. auto.
          - apply (mass_nonneg m D F vt H _ NN). eapply assigns_known. now apply assigns_obs. }
        rewrite P1, P0. ring.
      + apply (f_equal (fun y => y / mass D F (obs_of (preds q x) a))%Qc) in E.
        transitivity (mass D F (obs_of (P ++ [x]) a) * mass D F (obs_of (preds q x) a) / mass D F (obs_of (preds q x) a))%Qc; [field; auto|].
        rewrite E. field. auto.
  Qed.
End Chain.
