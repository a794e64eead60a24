(** Samples of an intervened model. *)

From Coq Require Import String Bool Arith Lia ZArith QArith Qcanon Permutation List.
From Verif Require Import PyBase PyFacts Num NumFacts DomainModel NdArray StoreModel NumStore FactorModel Spec StoreSpec DomainFacts StoreFacts
  PropFacts1 FactorSpec FactorFacts FactorFacts3 BigSum GraphModel GraphSpec GraphFacts ModelModel ModelSpec LearnModel InferModel CausalModel DataModel
  NetSpec NetSem NetFacts VeFacts4 EmMath OrderSpec CausalSpec CausalFacts CausalFacts2 CalcFacts3 DataSpec DataFacts DataFacts2 DataFacts4 CoherFacts
  SampleSpec SampleMath SampleFacts SampleFacts2.
From Coq Require Import List.
Import ListNotations.
Local Open Scope nat_scope.
Local Arguments eqd : simpl never.

(** [o] on the variables [vs], the first states elsewhere *)
Fixpoint fill (D : domain) (vs : list var) (o : obs) : obs :=
  match D with
  | [] => []
  | (w, l) :: D' => match (if mem w vs then dget w o else hd_error l) with
                    | Some s => (w, s) :: fill D' vs o
                    | None => fill D' vs o
                    end
  end.
Lemma fill_get D vs o w l : NoDup (keys D) -> In (w, l) D -> dget w (fill D vs o) = if mem w vs then dget w o else hd_error l.
Proof.
  assert (G : forall D' x, ~ In x (keys D') -> dget x (fill D' vs o) = None).
  { clear. induction D' as [|[x k] D' IH]; intros y Ny; [reflexivity|]. cbn [fill]. cbn in Ny.
    destruct (if mem x vs then _ else _); [|apply IH; tauto]. cbn [dget]. destruct (eqd _ _); [subst; tauto|apply IH; tauto]. }
  intros N J. induction D as [|[x k] D IH]; [destruct J|]. cbn [fill]. cbn in N. inversion N as [|? ? N1 N2]; subst.
  destruct J as [J|J].
  - injection J as -> ->. destruct (if mem w vs then _ else _) as [s|] eqn:E; [cbn [dget]; now rewrite eqd_refl|]. now apply G.
  - assert (x <> w) by (intros ->; apply N1; apply keys_In; eauto).
    destruct (if mem x vs then _ else _) as [s|]; [|now apply IH]. cbn [dget]. destruct (eqd _ _); [congruence|now apply IH].
Qed.

Section Positive.
  Variables (m : pgm) (D : domain) (F : var -> mfactor) (vt : vtype).
  Hypothesis H : network m D F vt.
  Let WD : wf_dom D := net_wd m D F vt H.

  Lemma nonnegative_full : (forall v o, In v (keys D) -> full D o -> (0 <= entry (F v) o)%Qc) -> nonnegative D F.
  Proof.
    intros P v o Iv Fo. assert (C := net_cpt m D F vt H v Iv).
    assert (Sub : forall w l, In (w, l) (mf_domain (F v)) -> In (w, l) D) by apply C.
    rewrite <- (entry_agree m D F vt H v o (fill D (mf_vars (F v)) o) Iv Fo).
    - apply P; [exact Iv|]. intros w l J. rewrite (fill_get D _ o w l (proj1 WD) J). destruct (mem w (mf_vars (F v))) eqn:M.
      + apply mem_In in M. apply keys_In in M as (l' & M). destruct (Fo w l' M) as (s & E & Js).
        assert (l' = l) by (eapply (dom_unique D); [apply WD|eauto|eauto]). subst. eauto.
      + destruct WD as [_ W]. destruct (W w l J) as [_ L]. destruct l as [|s l]; [congruence|]. exists s. split; [reflexivity|now left].
    - intros w M. assert (M' := M). apply keys_In in M' as (l' & M'). rewrite (fill_get D _ o w l' (proj1 WD) (Sub _ _ M')).
      apply mem_In in M. now rewrite M.
  Qed.
End Positive.

Lemma causal_cpt m D F vt endo cast : causal m D F vt endo cast -> forall v, In v (keys D) -> cpt D vt v (preds (m_graph m) v) (F v).
Proof. intros (_ & _ & _ & _ & SD & _ & _ & Hv & _) v Iv. apply SD in Iv. destruct (Hv v Iv) as (f & _ & _ & C & _). exact C. Qed.

Section Do.
  Variables (m : pgm) (D : domain) (F : var -> mfactor) (vt : vtype) (endo : list var) (cast : bool).
  Hypothesis H : causal m D F vt endo cast.
  Hypothesis PR : plain_roots m.
  Hypothesis NN : nonnegative D F.
  Hypothesis U : usable D.
  Variables (heur : digraph -> list var -> dict var nat -> res (list var)) (so : list (list var) -> list var).
  Hypothesis Hh : is_heuristic heur.
  Hypothesis Hs : is_set_order so.
  Variable d : obs.
  Hypothesis Nd : NoDup (keys d).
  Hypothesis Id : incl (keys d) (nodes (m_graph m)).
  Hypothesis Kd : Spec.known D d.
  Variables (dflt : vtype) (pre : bool).

  Lemma do_sampled : exists m1 m2 F2, cve_init m = Ok m1 /\ scm_intervention m1 d = Ok m2 /\ network m2 D F2 vt /\ nonnegative D F2 /\
    nodes (m_graph m2) = nodes (m_graph m) /\ (forall t, mass D F2 t = do_mass D F d t).
  Proof.
    assert (WD : wf_dom D) by exact (wd m D F vt endo cast H).
    destruct (convert_ok m D F vt endo cast H PR) as (m1 & endo1 & E1 & H1 & G1 & _ & _ & _ & St1 & _ & EF).
    destruct (intervention_ok m1 D _ vt endo1 true H1 d Kd) as (m2 & E2 & H2 & G2 & _ & _ & _ & St2).
    set (F1 := table_of_object F m) in *.
    assert (EJ : forall o, In o (all_assignments D) -> joint (do_table F1 d) (keys D) o = do_joint D F d o).
    { intros o I. rewrite (do_joint_ok m1 D F1 vt endo1 true H1 d Kd o I). unfold do_joint. destruct (consistent d o); [|auto].
      apply (joint_ext D); [|apply drop_keys_incl]. intros v Iv. apply EF; [auto|].
      apply (all_assignments_In_full D o (proj1 WD)) in I. apply I. }
    assert (Net : network m2 D (do_table F1 d) vt).
    { eapply causal_network; [exact H2|]. intros v Iv. rewrite G2 in Iv. cbn [nodes remove_ingoing_edges] in Iv. rewrite G1 in Iv. eapply St2. apply St1. auto. }
    exists m1, m2, (do_table F1 d). do 3 (split; [assumption|]). split; [|split; [now rewrite G2; cbn [nodes remove_ingoing_edges]; rewrite G1|]].
    - apply (nonnegative_full m2 D _ vt Net). intros v o Iv Fo. destruct (dget v d) as [x|] eqn:Ed.
      + assert (Iv' := Iv). apply keys_In in Iv' as (l & Jl). assert (Jx := Kd v l x Jl Ed).
        assert (C1 : cpt D vt v (preds (m_graph m1) v) (F1 v)).
        { apply (causal_cpt m1 D F1 vt endo1 true H1). exact Iv. }
        destruct (do_table_in D vt F1 d v _ x l (proj1 WD) C1 Jl Jx Ed) as (_ & _ & _ & _ & _ & V).
        destruct (Fo v l Jl) as (s & Es & Js). unfold entry. rewrite (V o s Es Js). destruct (eqd s x); discriminate.
      + rewrite do_table_out by (now apply dget_None). fold F1. rewrite EF by assumption. apply NN; [exact Iv|].
        assert (C : cpt D vt v (preds (m_graph m) v) (F v)) by (apply (causal_cpt m D F vt endo cast H); exact Iv).
        intros w l J. apply Fo. now apply C.
    - intros t. unfold mass, do_mass. apply total_ext. intros o I. apply EJ. now apply filter_In in I.
  Qed.

  Lemma do_limit : exists m1 m2 F2, cve_init m = Ok m1 /\ scm_intervention m1 d = Ok m2 /\ network m2 D F2 vt /\ nonnegative D F2 /\
    (forall o, mass D F2 o = do_mass D F d o) /\
    forall e T t eps delta, NoDup T -> T <> [] -> incl T (nodes (m_graph m)) -> NoDup (keys e) -> incl (keys e) (nodes (m_graph m)) ->
    (forall v, In v T -> ~ In v (keys d) /\ ~ In v (keys e)) -> (forall v, In v (keys e) -> ~ In v (keys d)) -> do_mass D F d e <> 0%Qc ->
    assigns D T t -> (0 < eps)%Qc -> (0 < delta)%Qc ->
    exists N, forall n, N <= n ->
      (chance D F2 n (fun rows => differ eps (laplace_query so dflt (frame_of D rows) D pre T None e) (causal_query heur so m1 T (DoDict d) e) t) <= delta)%Qc.
  Proof.
    destruct do_sampled as (m1 & m2 & F2 & E1 & E2 & Net & NN2 & En & Ms).
    exists m1, m2, F2. do 5 (split; [assumption|]). intros e T t eps delta NT T0 IT Ne Ie Dj De M At He Hd.
    destruct (causal_query_ok m D F vt endo cast H PR heur so Hh Hs d Nd Id e T Kd NT T0 IT Ie Dj) as (m1' & r & E1' & Er & _ & _ & _ & _ & _ & _ & X & _).
    { now rewrite (outside_self d). }
    rewrite E1 in E1'. injection E1' as <-. specialize (X t At). rewrite !(outside_self d) in X by assumption.
    assert (M2 : mass D F2 e <> 0%Qc) by now rewrite Ms.
    destruct (asks m2 D F2 vt Net heur so Hh Hs e T NT T0) as (r2 & Er2 & _ & _ & _ & _ & X2); try (now rewrite En); [intros v J; now apply Dj|exact M2|].
    specialize (X2 t At). rewrite !Ms in X2.
    destruct (laplace_limit m2 D F2 vt Net NN2 U heur so Hh Hs dflt pre e T t eps delta) as (N & L); auto; try (now rewrite En); [intros v J; now apply Dj|].
    exists N. intros n Ln. eapply Qcle_trans; [|exact (L n Ln)]. apply (chance_le m2 D F2 vt Net NN2). intros rows _ Df.
    unfold differ in *. rewrite Er2, X2. rewrite Er, X in Df. exact Df.
  Qed.
End Do.
