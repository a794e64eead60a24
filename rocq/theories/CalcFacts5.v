(** Adjustment formulas for the answers of causal queries. *)

From Coq Require Import String Bool Arith Lia ZArith QArith Qcanon Permutation List.
From Verif Require Import PyBase Num NumFacts DomainModel DomainFacts NdArray StoreModel NumStore FactorModel GraphModel ModelModel InferModel LearnModel CausalModel
  PyFacts Spec StoreSpec StoreFacts FactorSpec FactorFacts FactorFacts2 GraphSpec GraphFacts GraphFacts2 ModelSpec ModelFacts NetSpec NetFacts NetSem FactorSem
  BigSum BuildFacts BuildFacts2 PropFacts1 VeFacts VeFacts2 VeFacts3 VeFacts4 VeFacts5 OrderSpec CausalSpec CausalFacts CausalFacts2 CfFacts SepSpec SepFacts1 SepFacts2 SepFacts3
  LawSpec CalcSpec CalcFacts1 CalcFacts2 CalcFacts3 CalcFacts4.
From Coq Require Import List.
Import ListNotations.
Local Open Scope nat_scope.
Local Arguments eqd : simpl never.

Section Adjust.
  Variables (m : pgm) (D : domain) (F : var -> mfactor) (vt : vtype) (endo : list var) (cast : bool).
  Hypothesis H : causal m D F vt endo cast.
  Hypothesis PR : plain_roots m.
  Variables (heur : digraph -> list var -> dict var nat -> res (list var)) (so : list (list var) -> list var).
  Hypothesis Hh : is_heuristic heur.
  Hypothesis Hs : is_set_order so.
  Notation g := (m_graph m).
  Let WD : wf_dom D := wd m D F vt endo cast H.
  Let Wg : wf_graph g. Proof. apply H. Qed.
  Let nk := node_keys m D F vt endo cast H.
  Let none := do_none D F.

  Lemma ordered Z : keys (pick Z D) = Z -> NoDup Z /\ incl Z (nodes g).
  Proof.
    intros E. split.
    - rewrite <- E, keys_pick'. apply NoDup_filter, WD.
    - intros v J. rewrite <- E, keys_pick' in J. apply filter_In in J as [J _]. now apply nk.
  Qed.
  Lemma enumerates Z z : keys (pick Z D) = Z -> In z (all_assignments (pick Z D)) -> assigns D Z z.
  Proof.
    intros E J. apply (all_assignments_In_full (pick Z D) z) in J as [Kz Fz]; [|apply wf_pick', WD]. split; [now rewrite Kz|exact Fz].
  Qed.
  Lemma states_nil : states_for g D [].
  Proof. split; [intros v l s _ E; discriminate|]. split; [constructor|intros v []]. Qed.

  (** the intervention [w], nothing given *)
  Lemma plainly w T t : states_for g D w -> NoDup T -> T <> [] -> incl T (nodes g) -> (forall v, In v T -> ~ In v (keys w)) -> assigns D T t ->
    exists m1, cve_init m = Ok m1 /\ answer (causal_query heur so m1 T (DoDict w) []) t (do_mass D F w t).
  Proof.
    intros Sw NT Te IT Dj At. destruct (asked m D F vt endo cast H PR heur so Hh Hs w [] T t) as (m1 & E1 & A); auto; try (intros v []).
    - rewrite (do_one m D F vt endo cast H PR) by apply Sw. discriminate.
    - exists m1. split; [auto|]. rewrite app_nil_r, (do_one m D F vt endo cast H PR) in A by apply Sw.
      replace (do_mass D F w t / 1)%Qc with (do_mass D F w t) in A by (field; discriminate). exact A.
  Qed.
  (** nothing but observations *)
  Lemma seen e T t : incl (keys e) (nodes g) -> NoDup T -> T <> [] -> incl T (nodes g) -> (forall v, In v T -> ~ In v (keys e)) -> assigns D T t -> mass D F e <> 0%Qc ->
    exists m1, cve_init m = Ok m1 /\ answer (causal_query heur so m1 T (DoDict []) e) t (mass D F (t ++ e) / mass D F e)%Qc.
  Proof.
    intros Ie NT Te IT Dj At Pos. destruct (asked m D F vt endo cast H PR heur so Hh Hs [] e T t) as (m1 & E1 & A); auto using states_nil.
    - now rewrite none.
    - exists m1. split; [auto|]. now rewrite !none in A.
  Qed.

  Lemma base0 : exists m0 F0, network m0 D F0 vt /\ m_graph m0 = remove_ingoing_edges g [] /\ (forall t, mass D F0 t = mass D F t) /\
    (forall d t, known D d -> do_mass D F0 d t = do_mass D F d t).
  Proof.
    destruct (base m D F vt endo cast H PR [] (proj1 states_nil)) as (m0 & F0 & Net & G0 & M & Md). exists m0, F0. split; [auto|]. split; [auto|]. split.
    - intros t. now rewrite M, none.
    - intros d t K. rewrite Md; [reflexivity|auto|intros v _ []].
  Qed.
  Lemma arc0 x y : arc (remove_ingoing_edges g []) x y <-> arc g x y.
  Proof. rewrite (ingoing m D F vt endo cast H). cbn. tauto. Qed.
  Lemma arc_out h w x y : wf_graph h -> arc (remove_outgoing_edges h w) x y <-> arc h x y /\ ~ In x w.
  Proof. intros W. apply (remove_outgoing_ok h w W). Qed.
  Lemma wf_in w : wf_graph (remove_ingoing_edges g w).
  Proof. apply (remove_ingoing_ok g w Wg). Qed.

  Lemma back_mass d T Z t : states_for g D d -> incl T (nodes g) -> (forall v, In v T -> ~ In v Z /\ ~ In v (keys d)) -> keys (pick Z D) = Z ->
    upstream g (keys d) Z -> apart (remove_outgoing_edges g (keys d)) Z T (keys d) -> assigns D T t ->
    (forall z, assigns D Z z -> mass D F (z ++ d) <> 0%Qc) ->
    do_mass D F d t = total (map (fun z => mass D F z * (mass D F (t ++ z ++ d) / mass D F (z ++ d)))%Qc (all_assignments (pick Z D))).
  Proof.
    intros Sd IT Dj Oz Up Sep At Pos. destruct (ordered Z Oz) as [NZ IZ]. destruct base0 as (m0 & F0 & Net & G0 & M & Md).
    rewrite <- Md by apply Sd. rewrite (back_door m0 D F0 vt Net d (proj1 Sd)) with (T := T) (Z := Z); auto.
    - apply total_ext. intros z _. now rewrite !M.
    - intros v J. apply nk. now apply Sd.
    - rewrite G0. cbn [nodes remove_ingoing_edges]. intros v J. apply in_app_or in J as [J|J]; auto.
    - rewrite G0. intros x v Jx Jv R. apply (Up x v Jx Jv). revert R. apply reach_sub. intros a b. apply arc0.
    - rewrite G0. intros x y Jx Jy C. apply (Sep x y Jx Jy). revert C. apply connected_mono. intros a b A.
      apply arc_out in A as [A1 A2]; [|apply wf_in]. apply arc_out; [auto|]. split; [now apply arc0|auto].
    - intros z Jz. rewrite M. apply Pos. now apply enumerates.
  Qed.

  Lemma back_door_ok d T Z : states_for g D d -> NoDup T -> T <> [] -> incl T (nodes g) ->
    (forall v, In v T -> ~ In v Z /\ ~ In v (keys d)) -> keys (pick Z D) = Z -> Z <> [] ->
    upstream g (keys d) Z -> apart (remove_outgoing_edges g (keys d)) Z T (keys d) ->
    (forall z, assigns D Z z -> mass D F (z ++ d) <> 0%Qc) ->
    forall t, assigns D T t -> exists m1 pz pt, cve_init m = Ok m1 /\
      (forall z, assigns D Z z -> answer (causal_query heur so m1 Z (DoDict []) []) z (pz z) /\
                                  answer (causal_query heur so m1 T (DoDict []) (z ++ d)) t (pt z)) /\
      answer (causal_query heur so m1 T (DoDict d) []) t (total (map (fun z => pz z * pt z)%Qc (all_assignments (pick Z D)))).
  Proof.
    intros Sd NT Te IT Dj Oz Ze Up Sep Pos t At. destruct (ordered Z Oz) as [NZ IZ].
    destruct (plainly d T t Sd NT Te IT ltac:(intros v J; now apply Dj) At) as (m1 & E1 & A).
    exists m1, (fun z => mass D F z), (fun z => mass D F (t ++ z ++ d) / mass D F (z ++ d))%Qc. split; [auto|]. split.
    - intros z Az. split.
      + destruct (plainly [] Z z states_nil NZ Ze IZ ltac:(intros v _ []) Az) as (m1' & E1' & A'). rewrite E1 in E1'. injection E1' as <-. now rewrite none in A'.
      + destruct (seen (z ++ d) T t) as (m1' & E1' & A'); auto.
        * intros v J. rewrite keys_app, (proj1 Az) in J. apply in_app_or in J as [J|J]; [auto|now apply Sd].
        * intros v J. rewrite keys_app, (proj1 Az), in_app_iff. apply Dj in J. tauto.
        * rewrite E1 in E1'. injection E1' as <-. exact A'.
    - rewrite <- (back_mass d T Z t); auto.
  Qed.

  Lemma front_door_ok x T M : states_for g D x -> keys (pick (keys x) D) = keys x -> keys x <> [] -> NoDup T -> T <> [] -> incl T (nodes g) ->
    keys (pick M D) = M -> M <> [] -> (forall v, In v T -> ~ In v M /\ ~ In v (keys x)) -> (forall v, In v M -> ~ In v (keys x)) ->
    upstream (remove_ingoing_edges g M) (keys x) T ->
    apart (remove_outgoing_edges g (keys x)) [] M (keys x) ->
    apart (remove_outgoing_edges g M) (keys x) T M -> upstream g M (keys x) ->
    (forall x' z, assigns D (keys x) x' -> assigns D M z -> mass D F (x' ++ z) <> 0%Qc) -> mass D F x <> 0%Qc ->
    forall t, assigns D T t -> exists m1 pm px pt, cve_init m = Ok m1 /\
      (forall z, assigns D M z -> answer (causal_query heur so m1 M (DoDict []) x) z (pm z)) /\
      (forall x', assigns D (keys x) x' -> answer (causal_query heur so m1 (keys x) (DoDict []) []) x' (px x')) /\
      (forall x' z, assigns D (keys x) x' -> assigns D M z -> answer (causal_query heur so m1 T (DoDict []) (x' ++ z)) t (pt x' z)) /\
      answer (causal_query heur so m1 T (DoDict x) []) t
        (total (map (fun z => pm z * total (map (fun x' => px x' * pt x' z) (all_assignments (pick (keys x) D))))%Qc (all_assignments (pick M D)))).
  Proof.
    intros Sx Ox Xe NT Te IT Om Me DT Dm Up1 Sep1 Sep2 Up2 Pos Posx t At.
    destruct (ordered M Om) as [NM IM]. destruct (ordered _ Ox) as [NX IX].
    destruct (plainly x T t Sx NT Te IT ltac:(intros v J; now apply DT) At) as (m1 & E1 & A).
    exists m1, (fun z => mass D F (z ++ x) / mass D F x)%Qc, (mass D F), (fun x' z => mass D F (t ++ x' ++ z) / mass D F (x' ++ z))%Qc.
    split; [auto|]. split; [|split; [|split]].
    - intros z Az. destruct (seen x M z) as (m1' & E1' & A'); auto. rewrite E1 in E1'. injection E1' as <-. exact A'.
    - intros x' Ax. destruct (plainly [] (keys x) x' states_nil NX Xe IX ltac:(intros v _ []) Ax) as (m1' & E1' & A'). rewrite E1 in E1'. injection E1' as <-. now rewrite none in A'.
    - intros x' z Ax Az. destruct (seen (x' ++ z) T t) as (m1' & E1' & A'); auto.
      + intros v J. rewrite keys_app, (proj1 Ax), (proj1 Az) in J. apply in_app_or in J as [J|J]; auto.
      + intros v J. rewrite keys_app, (proj1 Ax), (proj1 Az), in_app_iff. apply DT in J. tauto.
      + rewrite E1 in E1'. injection E1' as <-. exact A'.
    - replace (total _) with (do_mass D F x t); [exact A|]. destruct base0 as (m0 & F0 & Net & G0 & M0 & Md0).
      assert (Kt := assigns_kn D T t WD At). assert (Et := proj1 At).
      rewrite <- Md0 by apply Sx. rewrite (do_marginal m0 D F0 vt Net x (proj1 Sx)) with (Z := M); auto.
      2:{ intros v J. rewrite Et in J. now apply nk, IT. }
      2:{ intros v J. rewrite Et in J. now apply DT. }
      2:{ intros v J. rewrite Et. split; [intros K; exact (proj1 (DT v K) J)|auto]. }
      apply total_ext. intros z Jz. assert (Az := enumerates M z Om Jz). assert (Ez := proj1 Az). rewrite Md0 by apply Sx.
      assert (Sz : states_for g D z). { split; [eapply assigns_kn; eauto|]. rewrite Ez. auto. }
      (* the mediators: an action on x is an observation of x *)
      assert (R1 : (do_mass D F [] (z ++ [] ++ x) * do_mass D F ([] ++ x) [] = do_mass D F ([] ++ x) (z ++ []) * do_mass D F [] ([] ++ x))%Qc).
      { apply (rule2 m D F vt endo cast H PR [] (proj1 states_nil) ltac:(intros v []) x (proj1 Sx) (proj2 (proj2 Sx)) ltac:(intros v _ []) M []); auto.
        - rewrite app_nil_r. auto.
        - rewrite app_nil_r. intros v J. split; [intros []|auto].
        - intros a b Ja Jb C. apply (Sep1 a b Ja Jb). revert C. apply connected_mono. intros a' b' Aa. apply arc_out in Aa as [A1 A2]; [|apply wf_in]. apply arc_out; [auto|]. split; [now apply arc0|auto].
        - split; [reflexivity|]. intros v l J. apply filter_In in J as [_ J]. discriminate. }
      cbn [app] in R1. rewrite app_nil_r, !none, (do_one m D F vt endo cast H PR x (proj1 Sx)) in R1.
      (* under the action on x, an observation of z is an action *)
      assert (R2 : (do_mass D F x (t ++ [] ++ z) * do_mass D F (x ++ z) [] = do_mass D F (x ++ z) (t ++ []) * do_mass D F x ([] ++ z))%Qc).
      { apply (rule2 m D F vt endo cast H PR x (proj1 Sx) (proj2 (proj2 Sx)) z (proj1 Sz) (proj2 (proj2 Sz)) ltac:(intros v J; rewrite Ez in J; auto) T []); auto.
        - rewrite app_nil_r. auto.
        - rewrite app_nil_r, Ez. intros v J. apply DT in J. tauto.
        - rewrite Ez. intros a b Ja Jb C. apply (Sep2 a b Ja Jb). revert C. cbn [app]. apply connected_mono. intros a' b' Aa.
          apply arc_out in Aa as [A1 A2]; [|apply wf_in]. apply arc_out; [auto|]. split; [now apply (ingoing m D F vt endo cast H) in A1|auto].
        - split; [reflexivity|]. intros v l J. apply filter_In in J as [_ J]. discriminate. }
      assert (Dzx : forall v, In v (keys z) -> ~ In v (keys x)) by (intros v J; rewrite Ez in J; auto).
      assert (Dxz : forall v, In v (keys x) -> ~ In v (keys z)) by (intros v J K; exact (Dzx v K J)).
      cbn [app] in R2. rewrite app_nil_r, (do_one m D F vt endo cast H PR (x ++ z)) in R2 by (apply known_app2; [apply Sx|apply Sz]).
      (* given the action on z, that on x does not matter *)
      assert (R3 : do_mass D F (z ++ x) t = do_mass D F z t).
      { apply (rule3 m D F vt endo cast H PR z (proj1 Sz) x (proj1 Sx) Dxz); auto.
        - rewrite Et. auto.
        - rewrite Et, Ez. exact Up1. }
      rewrite (do_same D F (x ++ z) (z ++ x)) in R2.
      2:{ intros v. exact (dget_swap [] x z v Dxz). }
      rewrite R3 in R2. rewrite (back_mass z T (keys x) t) in R2; auto.
      + set (B := total _) in *.
        assert (E2 : do_mass D F x (t ++ z) = (B * do_mass D F x z)%Qc) by (rewrite <- R2; ring).
        assert (E3 : do_mass D F x z = (mass D F (z ++ x) / mass D F x)%Qc).
        { transitivity (do_mass D F x z * mass D F x / mass D F x)%Qc; [field; auto|]. rewrite <- R1. field. auto. }
        rewrite E2, E3. ring.
      + rewrite Ez. intros v J. apply DT in J. tauto.
      + rewrite Ez. auto.
      + rewrite Ez. auto.
  Qed.
End Adjust.
