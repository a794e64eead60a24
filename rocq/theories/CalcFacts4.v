(** The calculus of interventions for the answers of causal queries. *)

From Coq Require Import String Bool Arith Lia ZArith QArith Qcanon Permutation List.
From Verif Require Import PyBase Num NumFacts DomainModel DomainFacts NdArray StoreModel NumStore FactorModel GraphModel ModelModel InferModel LearnModel CausalModel
  PyFacts Spec StoreSpec StoreFacts FactorSpec FactorFacts FactorFacts2 GraphSpec GraphFacts GraphFacts2 ModelSpec ModelFacts NetSpec NetFacts NetSem FactorSem
  BigSum BuildFacts BuildFacts2 PropFacts1 VeFacts VeFacts2 VeFacts3 VeFacts4 VeFacts5 OrderSpec CausalSpec CausalFacts CausalFacts2 CfFacts SepSpec SepFacts1 SepFacts2 SepFacts3
  LawSpec CalcSpec CalcFacts1 CalcFacts2 CalcFacts3.
From Coq Require Import List.
Import ListNotations.
Local Open Scope nat_scope.
Local Arguments eqd : simpl never.

(** nodes without parents may be added to what is given *)
Lemma connected_roots g Z R x y : (forall r p, In r R -> ~ arc g p r) -> d_connected g (Z ++ R) x y -> d_connected g Z x y.
Proof.
  intros Nr (d & A). exists d. induction A.
  - constructor.
  - eapply act_down; eauto. rewrite in_app_iff in *. tauto.
  - eapply act_up; eauto. rewrite in_app_iff in *. tauto.
  - eapply act_collider; eauto. destruct H as (s & Js & Rs). apply in_app_or in Js as [Js|Js]; [eauto|]. exfalso.
    assert (U : exists p, arc g p s).
    { destruct Rs as [<- | W]; [eauto|]. clear -W. induction W; eauto. }
    destruct U as (p & Ap). exact (Nr s p Js Ap).
Qed.

Section Query.
  Variables (m : pgm) (D : domain) (F : var -> mfactor) (vt : vtype) (endo : list var) (cast : bool).
  Hypothesis H : causal m D F vt endo cast.
  Hypothesis PR : plain_roots m.
  Variables (heur : digraph -> list var -> dict var nat -> res (list var)) (so : list (list var) -> list var).
  Hypothesis Hh : is_heuristic heur.
  Hypothesis Hs : is_set_order so.
  Notation g := (m_graph m).
  Let WD : wf_dom D := wd m D F vt endo cast H.
  Let Wg : wf_graph g. Proof. apply H. Qed.
  Let nk := node_keys m D F vt endo cast H.

  Lemma ingoing w x y : arc (remove_ingoing_edges g w) x y <-> arc g x y /\ ~ In y w.
  Proof. now apply (remove_ingoing_ok g w Wg). Qed.

  Lemma do_none t : do_mass D F [] t = mass D F t.
  Proof.
    unfold do_mass, mass. apply total_ext. intros o _. unfold do_joint. replace (consistent [] o) with true.
    - cbn [keys map]. unfold drop. f_equal. f_equal. clear. induction D; cbn; [auto|]. now f_equal.
    - symmetry. apply forallb_forall. intros v _. reflexivity.
  Qed.
  Lemma do_one d : known D d -> do_mass D F d [] = 1%Qc.
  Proof.
    intros K. destruct (base m D F vt endo cast H PR d K) as (mw & Fw & Net & _ & M & _). rewrite <- M. exact (mass_nil mw D Fw vt Net).
  Qed.

  Lemma asked w z T t : states_for g D w -> incl (keys z) (nodes g) -> (forall v, In v (keys z) -> ~ In v (keys w)) ->
    NoDup T -> T <> [] -> incl T (nodes g) -> (forall v, In v T -> ~ In v (keys w) /\ ~ In v (keys z)) -> do_mass D F w z <> 0%Qc -> assigns D T t ->
    exists m1, cve_init m = Ok m1 /\ answer (causal_query heur so m1 T (DoDict w) z) t (do_mass D F w (t ++ z) / do_mass D F w z)%Qc.
  Proof.
    intros (Kw & Nw & Iw) Iz Dzw NT Te IT Dj Pos At.
    assert (Ez : outside w z = z).
    { unfold outside. clear -Dzw. induction z as [|a z IH]; [reflexivity|]. cbn [filter]. rewrite IH by (intros v J; apply Dzw; now right).
      replace (mem (fst a) (keys w)) with false; [reflexivity|]. symmetry. apply mem_nIn. apply Dzw. now left. }
    destruct (causal_query_ok m D F vt endo cast H PR heur so Hh Hs w Nw Iw z T Kw NT Te IT Iz Dj) as (m1 & r & E1 & Er & _ & _ & _ & _ & _ & _ & V & _).
    - now rewrite Ez.
    - exists m1. split; [auto|]. exists r. split; [auto|]. rewrite (V t At), Ez. reflexivity.
  Qed.

  Lemma same_model P Q : (exists m1, cve_init m = Ok m1 /\ P m1) -> (exists m1, cve_init m = Ok m1 /\ Q m1) ->
    exists m1, cve_init m = Ok m1 /\ P m1 /\ Q m1.
  Proof. intros (m1 & E1 & A) (m2 & E2 & B). rewrite E1 in E2. injection E2 as <-. eauto. Qed.

  (** how answers are compared *)
  Lemma compare w1 z1 w2 z2 T : states_for g D w1 -> states_for g D w2 -> incl (keys z1) (nodes g) -> incl (keys z2) (nodes g) ->
    (forall v, In v (keys z1) -> ~ In v (keys w1)) -> (forall v, In v (keys z2) -> ~ In v (keys w2)) ->
    NoDup T -> T <> [] -> incl T (nodes g) -> (forall v, In v T -> ~ In v (keys w1 ++ keys z1 ++ keys w2 ++ keys z2)) ->
    do_mass D F w1 z1 <> 0%Qc -> do_mass D F w2 z2 <> 0%Qc ->
    (forall t, assigns D T t -> do_mass D F w1 (t ++ z1) * do_mass D F w2 z2 = do_mass D F w2 (t ++ z2) * do_mass D F w1 z1)%Qc ->
    exists m1, cve_init m = Ok m1 /\ agree D T (causal_query heur so m1 T (DoDict w1) z1) (causal_query heur so m1 T (DoDict w2) z2).
  Proof.
    intros S1 S2 I1 I2 D1 D2 NT Te IT Dj P1 P2 Cross.
    destruct (convert_ok m D F vt endo cast H PR) as (m1 & endo1 & E1 & _). exists m1. split; [auto|]. intros t At.
    destruct (asked w1 z1 T t) as (m1' & E1' & A1); auto.
    { intros v J. apply Dj in J. rewrite !in_app_iff in J. tauto. }
    destruct (asked w2 z2 T t) as (m2' & E2' & A2); auto.
    { intros v J. apply Dj in J. rewrite !in_app_iff in J. tauto. }
    rewrite E1 in E1', E2'. injection E1' as <-. injection E2' as <-.
    exists (do_mass D F w1 (t ++ z1) / do_mass D F w1 z1)%Qc. split; [auto|].
    replace (do_mass D F w1 (t ++ z1) / do_mass D F w1 z1)%Qc with (do_mass D F w2 (t ++ z2) / do_mass D F w2 z2)%Qc; [auto|].
    specialize (Cross t At). assert (E : (do_mass D F w1 (t ++ z1) = do_mass D F w2 (t ++ z2) * do_mass D F w1 z1 / do_mass D F w2 z2)%Qc) by (rewrite <- Cross; field; auto).
    rewrite E. field. auto.
  Qed.
  Lemma states_app w d : states_for g D w -> states_for g D d -> (forall v, In v (keys d) -> ~ In v (keys w)) -> states_for g D (w ++ d).
  Proof.
    intros (K1 & N1 & I1) (K2 & N2 & I2) Dj. split; [now apply known_app2|]. rewrite keys_app. split.
    - apply NoDup_app_iff. split; [auto|]. split; [auto|]. intros v A B. exact (Dj v B A).
    - intros v J. apply in_app_or in J as [J|J]; auto.
  Qed.
  Lemma own d : states_for g D d -> assigns D (keys d) d.
  Proof. intros (K & _ & I). apply assigns_self; auto. intros v J. now apply nk, I. Qed.

  Lemma ignore_evidence w e z T : states_for g D w -> states_for g D e -> states_for g D z -> NoDup (keys w ++ keys e ++ keys z) ->
    NoDup T -> T <> [] -> incl T (nodes g) -> (forall v, In v T -> ~ In v (keys w ++ keys e ++ keys z)) ->
    apart (remove_ingoing_edges g (keys w)) (keys z ++ keys w) T (keys e) ->
    do_mass D F w (e ++ z) <> 0%Qc -> do_mass D F w z <> 0%Qc ->
    exists m1, cve_init m = Ok m1 /\ agree D T (causal_query heur so m1 T (DoDict w) (e ++ z)) (causal_query heur so m1 T (DoDict w) z).
  Proof.
    intros Sw Se Sz ND NT Te IT Dj Sep P1 P2. apply NoDup_app_iff in ND as (_ & ND & Dw). apply NoDup_app_iff in ND as (_ & _ & De).
    assert (Se' := proj2 (proj2 Se)). assert (Sz' := proj2 (proj2 Sz)).
    apply compare; auto.
    - intros v J. rewrite keys_app in J. apply in_app_or in J as [J|J]; auto.
    - intros v J K. rewrite keys_app in J. exact (Dw v K J).
    - intros v J K. apply (Dw v K). apply in_or_app. auto.
    - intros v J K. apply (Dj v J). rewrite keys_app in K. rewrite !in_app_iff in *. tauto.
    - intros t At. apply (rule1 m D F vt endo cast H PR w (proj1 Sw) (proj2 (proj2 Sw)) T (keys e) (keys z)); auto using own.
      + intros v J. rewrite !in_app_iff in J. destruct J as [J|[J|J]]; auto.
      + intros v J K. rewrite !in_app_iff in J. destruct J as [J|J]; [apply (Dj v J); rewrite in_app_iff; auto|]. apply (Dw v K). rewrite in_app_iff. auto.
      + intros v J K. apply in_app_or in J as [J|J]; [apply (Dj v J); rewrite !in_app_iff; auto|exact (De v J K)].
  Qed.

  Lemma act_or_observe w d z T : states_for g D w -> states_for g D d -> states_for g D z -> NoDup (keys w ++ keys d ++ keys z) ->
    NoDup T -> T <> [] -> incl T (nodes g) -> (forall v, In v T -> ~ In v (keys w ++ keys d ++ keys z)) ->
    apart (remove_outgoing_edges (remove_ingoing_edges g (keys w)) (keys d)) (keys z ++ keys w) T (keys d) ->
    do_mass D F (w ++ d) z <> 0%Qc -> do_mass D F w (z ++ d) <> 0%Qc ->
    exists m1, cve_init m = Ok m1 /\ agree D T (causal_query heur so m1 T (DoDict (w ++ d)) z) (causal_query heur so m1 T (DoDict w) (z ++ d)).
  Proof.
    intros Sw Sd Sz ND NT Te IT Dj Sep P1 P2. apply NoDup_app_iff in ND as (_ & ND & Dw). apply NoDup_app_iff in ND as (_ & _ & Dd).
    assert (Sd' := proj2 (proj2 Sd)). assert (Sz' := proj2 (proj2 Sz)).
    assert (Dwd : forall v, In v (keys d) -> ~ In v (keys w)) by (intros v J K; apply (Dw v K), in_or_app; auto).
    apply compare; auto.
    - now apply states_app.
    - intros v J. rewrite keys_app in J. apply in_app_or in J as [J|J]; auto.
    - intros v J K. rewrite keys_app in K. apply in_app_or in K as [K|K]; [apply (Dw v K), in_or_app; auto|exact (Dd v K J)].
    - intros v J K. rewrite keys_app in J. apply (Dw v K). rewrite in_app_iff in *. tauto.
    - intros v J K. apply (Dj v J). rewrite !keys_app in K. rewrite !in_app_iff in *. tauto.
    - intros t At. symmetry. apply (rule2 m D F vt endo cast H PR w (proj1 Sw) (proj2 (proj2 Sw)) d (proj1 Sd) Sd' Dwd T (keys z)); auto using own.
      + intros v J. apply in_app_or in J as [J|J]; auto.
      + intros v J. apply in_app_or in J as [J|J].
        * apply Dj in J. rewrite !in_app_iff in J. tauto.
        * split; intros K; [apply (Dw v K), in_or_app; auto|exact (Dd v K J)].
      + intros v J K. apply (Dj v J). rewrite !in_app_iff. auto.
  Qed.

  (** nothing below [d1] is asked for or given *)
  Lemma no_path (w d1 z : obs) T : states_for g D z -> (forall v, In v T -> ~ In v (keys d1) /\ ~ In v (keys z)) -> (forall v, In v T -> ~ In v (keys w)) ->
    upstream (remove_ingoing_edges g (keys w)) (keys d1) (keys z) ->
    apart (remove_ingoing_edges g (keys (w ++ d1))) (keys z ++ keys w) T (keys d1) ->
    upstream (remove_ingoing_edges g (keys w)) (keys d1) T.
  Proof.
    intros Sz DT DTw Up Sep x v Jx Jv R.
    assert (Cl : forall u v', walk (remove_ingoing_edges g (keys w)) u v' -> v' = v -> (exists x, In x (keys d1) /\ reach (remove_ingoing_edges g (keys w)) x u) ->
      (exists x', In x' (keys d1) /\ d_connected (remove_ingoing_edges g (keys (w ++ d1))) (keys z ++ keys w) v x') \/
      active (remove_ingoing_edges g (keys (w ++ d1))) (keys z ++ keys w) v OutOf u).
    { intros u v' W. induction W as [u y A|u y v' A W IH]; intros -> (x0 & J0 & R0).
      - right. eapply act_up; [apply act_start|discriminate| |].
        + rewrite in_app_iff. intros [K|K]; [exact (proj2 (DT v Jv) K)|exact (DTw v Jv K)].
        + apply ingoing in A as [A1 A2]. apply ingoing. split; [auto|]. rewrite keys_app, in_app_iff. intros [K|K]; [auto|]. exact (proj1 (DT v Jv) K).
      - assert (Ry : exists x, In x (keys d1) /\ reach (remove_ingoing_edges g (keys w)) x y).
        { exists x0. split; [auto|]. right. destruct R0 as [-> | R0]; [now apply walk_one|]. eapply walk_trans; [exact R0|now apply walk_one]. }
        destruct (IH eq_refl Ry) as [L|L]; [auto|]. destruct (in_dec eqd y (keys d1)) as [Jy|Jy].
        + left. exists y. split; [auto|]. exists OutOf. exact L.
        + right. apply ingoing in A as [A1 A2]. eapply act_up; [exact L|discriminate| |].
          * rewrite in_app_iff. intros [K|K]; [|auto]. destruct Ry as (x1 & J1 & R1). exact (Up x1 y J1 K R1).
          * apply ingoing. split; [auto|]. rewrite keys_app, in_app_iff. tauto. }
    destruct R as [-> | W]; [exact (proj1 (DT v Jv) Jx)|].
    destruct (Cl x v W eq_refl) as [(x' & J' & C)|A].
    - exists x. split; [auto|now left].
    - exact (Sep v x' Jv J' C).
    - apply (Sep v x Jv Jx). exists OutOf. exact A.
  Qed.

  Lemma ignore_intervention w d1 d2 z T : states_for g D w -> states_for g D d1 -> states_for g D d2 -> states_for g D z ->
    NoDup (keys w ++ keys d1 ++ keys d2 ++ keys z) ->
    NoDup T -> T <> [] -> incl T (nodes g) -> (forall v, In v T -> ~ In v (keys w ++ keys d1 ++ keys d2 ++ keys z)) ->
    upstream (remove_ingoing_edges g (keys w)) (keys d1) (keys z) ->
    apart (remove_ingoing_edges g (keys (w ++ d1))) (keys z ++ keys w) T (keys d1 ++ keys d2) ->
    do_mass D F (w ++ d1 ++ d2) z <> 0%Qc -> do_mass D F (w ++ d1) (z ++ d2) <> 0%Qc -> do_mass D F w z <> 0%Qc ->
    exists m1, cve_init m = Ok m1 /\ agree D T (causal_query heur so m1 T (DoDict (w ++ d1 ++ d2)) z) (causal_query heur so m1 T (DoDict w) z).
  Proof.
    intros Sw S1 S2 Sz ND NT Te IT Dj Up Sep P1 P2 P3.
    apply NoDup_app_iff in ND as (_ & ND & Dw). apply NoDup_app_iff in ND as (_ & ND & Dd1). apply NoDup_app_iff in ND as (_ & _ & Dd2).
    assert (S1' := proj2 (proj2 S1)). assert (S2' := proj2 (proj2 S2)). assert (Sz' := proj2 (proj2 Sz)).
    assert (D1w : forall v, In v (keys d1) -> ~ In v (keys w)) by (intros v J K; apply (Dw v K), in_or_app; auto).
    assert (Sw1 : states_for g D (w ++ d1)) by now apply states_app.
    assert (D2w : forall v, In v (keys d2) -> ~ In v (keys (w ++ d1))).
    { intros v J K. rewrite keys_app in K. apply in_app_or in K as [K|K]; [apply (Dw v K)|apply (Dd1 v K)]; rewrite !in_app_iff; auto. }
    assert (Sw2 : states_for g D ((w ++ d1) ++ d2)) by now apply states_app. rewrite <- app_assoc in Sw2.
    assert (DTall : forall v, In v T -> ~ In v (keys w) /\ ~ In v (keys d1) /\ ~ In v (keys d2) /\ ~ In v (keys z)).
    { intros v J. apply Dj in J. rewrite !in_app_iff in J. tauto. }
    assert (Dz : forall v, In v (keys z) -> ~ In v (keys w) /\ ~ In v (keys d1) /\ ~ In v (keys d2)).
    { intros v J. repeat split; intros K; [apply (Dw v K)|apply (Dd1 v K)|exact (Dd2 v K J)]; rewrite !in_app_iff; auto. }
    assert (UpT : upstream (remove_ingoing_edges g (keys w)) (keys d1) T).
    { apply (no_path w d1 z T); auto.
      - intros v J. apply DTall in J. tauto.
      - intros v J. apply DTall in J. tauto.
      - intros x y Jx Jy. apply Sep; [auto|]. apply in_or_app. auto. }
    assert (Rt : forall r p, In r (keys (w ++ d1)) -> ~ arc (remove_ingoing_edges g (keys (w ++ d1))) p r) by (intros r p J A; apply ingoing in A; tauto).
    assert (Sep2 : apart (remove_ingoing_edges g (keys (w ++ d1))) (keys z ++ keys (w ++ d1)) T (keys d2)).
    { intros x y Jx Jy C. apply (Sep x y Jx); [apply in_or_app; auto|].
      apply connected_set with (Z' := (keys z ++ keys w) ++ keys d1) in C; [|intros v; rewrite keys_app, !in_app_iff; tauto].
      revert C. apply connected_roots. intros r p J. apply Rt. rewrite keys_app, in_app_iff. auto. }
    assert (R2 : forall t, assigns D T t -> (do_mass D F (w ++ d1) (t ++ z ++ d2) * do_mass D F ((w ++ d1) ++ d2) z = do_mass D F ((w ++ d1) ++ d2) (t ++ z) * do_mass D F (w ++ d1) (z ++ d2))%Qc).
    { intros t At. apply (rule2 m D F vt endo cast H PR (w ++ d1) (proj1 Sw1) (proj2 (proj2 Sw1)) d2 (proj1 S2) S2' D2w T (keys z)); auto using own.
      - intros v J. apply in_app_or in J as [J|J]; auto.
      - intros v J. rewrite keys_app, in_app_iff. apply in_app_or in J as [J|J]; [apply DTall in J|apply Dz in J]; tauto.
      - intros v J. apply DTall in J. tauto.
      - intros x y Jx Jy C. apply (Sep2 x y Jx Jy). revert C. apply connected_mono. intros a b A.
        assert (Wr : wf_graph (remove_ingoing_edges g (keys (w ++ d1)))) by apply (remove_ingoing_ok g _ Wg).
        now apply (remove_outgoing_ok _ _ Wr) in A. }
    assert (R1 : forall t, assigns D T t -> (do_mass D F (w ++ d1) (t ++ d2 ++ z) * do_mass D F (w ++ d1) z = do_mass D F (w ++ d1) (t ++ z) * do_mass D F (w ++ d1) (d2 ++ z))%Qc).
    { intros t At. apply (rule1 m D F vt endo cast H PR (w ++ d1) (proj1 Sw1) (proj2 (proj2 Sw1)) T (keys d2) (keys z)); auto using own.
      - intros v J. rewrite !in_app_iff in J. destruct J as [J|[J|J]]; auto.
      - intros v J. rewrite keys_app, in_app_iff. rewrite !in_app_iff in J. destruct J as [J|[J|J]].
        + apply DTall in J. tauto.
        + apply D2w in J. rewrite keys_app, in_app_iff in J. exact J.
        + apply Dz in J. tauto.
      - intros v J K. apply in_app_or in J as [J|J]; [apply DTall in J; tauto|exact (Dd2 v J K)]. }
    assert (R3 : forall t, known D t -> incl (keys t) (T ++ keys z) -> do_mass D F (w ++ d1) t = do_mass D F w t).
    { intros t Kt It. apply (rule3 m D F vt endo cast H PR w (proj1 Sw) d1 (proj1 S1) D1w); auto.
      - intros v J. apply It, in_app_or in J as [J|J]; auto.
      - intros x v Jx J. apply It, in_app_or in J as [J|J]; [now apply UpT|now apply Up]. }
    assert (Swap : forall s : obs, (forall v, In v (keys s) -> ~ In v (keys (w ++ d1))) -> do_mass D F (w ++ d1) (s ++ d2 ++ z) = do_mass D F (w ++ d1) (s ++ z ++ d2)).
    { intros s Ds. apply do_look.
      - intros x _. apply dget_swap. exact Dd2.
      - intros x y Ex. assert (J : In x (keys (w ++ d1))) by (apply dget_keys; eauto).
        assert (Ns : dget x s = None) by (apply dget_None; intros K; exact (Ds x K J)).
        assert (N2 : dget x d2 = None) by (apply dget_None; intros K; exact (D2w x K J)).
        assert (Nz : dget x z = None) by (apply dget_None; intros K; apply Dz in K; rewrite keys_app, in_app_iff in J; tauto).
        rewrite !dget_app, Ns, N2, Nz. auto. }
    apply compare; auto.
    - intros v J K. rewrite !keys_app, !in_app_iff in K. apply Dz in J. tauto.
    - intros v J. apply Dz in J. tauto.
    - intros v J K. rewrite !keys_app, !in_app_iff in K. apply DTall in J. tauto.
    - intros t At. specialize (R1 t At). specialize (R2 t At). assert (Kt := proj1 At).
      rewrite (Swap t) in R1. 2:{ intros v J. rewrite Kt in J. apply DTall in J. rewrite keys_app, in_app_iff. tauto. }
      assert (Sw0 := Swap [] ltac:(intros v [])). cbn [app] in Sw0. rewrite Sw0 in R1. rewrite <- app_assoc in R2.
      rewrite (R3 z), (R3 (t ++ z)) in R1.
      + set (A := do_mass D F (w ++ d1) (t ++ z ++ d2)) in *. set (E := do_mass D F (w ++ d1) (z ++ d2)) in *.
        set (C := do_mass D F (w ++ d1 ++ d2) (t ++ z)) in *. set (B := do_mass D F (w ++ d1 ++ d2) z) in *.
        set (G := do_mass D F w z) in *. set (K := do_mass D F w (t ++ z)) in *.
        assert (EC : (C = A * B / E)%Qc) by (rewrite R2; field; auto).
        rewrite EC. transitivity (B * (A * G) / E)%Qc; [field; auto|]. rewrite R1. field. auto.
      + apply known_app2; [eapply assigns_kn; eauto|apply Sz].
      + intros v J. rewrite keys_app, Kt in J. auto.
      + apply Sz.
      + intros v J. apply in_or_app. auto.
  Qed.
End Query.
