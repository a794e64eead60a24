(** The statements of C30-C33 from the facts about interventions and twin networks. *)

From Coq Require Import String Ascii Bool Arith Lia ZArith QArith Qcanon Permutation List.
From Verif Require Import PyBase Num DomainModel NdArray StoreModel NumStore FactorModel GraphModel ModelModel InferModel CausalModel
  PyFacts Spec StoreSpec StoreFacts FactorSpec FactorFacts FactorFacts2 GraphSpec GraphFacts GraphFacts3 ModelSpec ModelFacts NetSpec NetFacts FactorSem
  BuildFacts BuildFacts2 VeFacts4 CausalSpec CausalFacts CausalFacts2 CfFacts CfFacts2 CfFacts3 PropFacts1 PropFacts4.
Import ListNotations.
Local Open Scope nat_scope.
Local Arguments eqd : simpl never.

(** ** C30 *)
Section C30.
  Variables (m : pgm) (D : domain) (F : var -> mfactor) (vt : vtype) (endo : list var) (cast : bool).
  Hypothesis H : causal m D F vt endo cast.
  Notation g := (m_graph m).

  Lemma surgery d : known D d -> exists m' F', scm_intervention m d = Ok m' /\ causal m' D F' vt endo cast /\
    nodes (m_graph m') = nodes g /\
    (forall x y, arc (m_graph m') x y <-> arc g x y /\ ~ In y (keys d)) /\
    (forall v f, ~ In v (keys d) -> stored m v f -> stored m' v f /\ F' v = F v) /\
    (forall v l x, In (v, l) D -> dget v d = Some x -> point_mass v l x (F' v)) /\
    (forall o, In o (all_assignments D) -> joint F' (keys D) o = do_joint D F d o).
  Proof.
    intros K. destruct (intervention_ok m D F vt endo cast H d K) as (m' & E & C & Gm & Kf & Hd & Ho & Hm).
    exists m', (do_table F d). split; [auto|]. split; [auto|]. destruct H as (_ & Wg & _ & WD & Sn & _ & _ & St & _).
    destruct (remove_ingoing_ok g (keys d) Wg) as (Rn & _ & Ra). split; [now rewrite Gm|].
    split; [intros x y; rewrite Gm; apply Ra|].
    split; [intros v f N S; split; [now apply Ho|now apply do_table_out]|]. split.
    - intros v l x I Ed. assert (In v (nodes g)) as J by (apply Sn; apply in_map_iff; now exists (v, l)).
      destruct (do_object_ok m D F vt endo cast H d K v J) as (f & f' & _ & _ & _ & _ & _ & _ & _ & P). eauto.
    - intros o I. eapply do_joint_ok; eauto.
  Qed.
End C30.

(** ** C31 *)
Section C31.
  Variables (m : pgm) (D : domain) (F : var -> mfactor) (vt : vtype) (endo : list var) (cast : bool).
  Hypothesis H : causal m D F vt endo cast.
  Hypothesis PR : plain_roots m.
  Notation g := (m_graph m).
  Variables (heur : digraph -> list var -> dict var nat -> res (list var)) (so : list (list var) -> list var).

  Lemma list_rejected e T ds m1 : cve_init m = Ok m1 -> (forall v d, In d ds -> In v (keys d) -> In v (nodes g)) ->
    causal_query heur so m1 T (DoList ds) e = Raise TypeError.
  Proof.
    intros E I. destruct (convert_ok m D F vt endo cast H PR) as (m1' & endo1 & E1 & _ & Gm & _). assert (m1' = m1) as -> by congruence.
    unfold causal_query, ci_query, ci_compile_run. rewrite Gm.
    assert (B : forallb (fun v => mem v (nodes g)) (do_vars (DoList ds)) = true).
    { apply forallb_forall. intros v J. apply mem_In. cbn in J. apply in_flat_map in J as (d & J1 & J2). eauto. }
    rewrite B. reflexivity.
  Qed.
End C31.

(** ** C32 *)
Lemma filter_same_set (X Y : list var) (D : domain) : (forall v, In v (keys D) -> In v X <-> In v Y) -> pick X D = pick Y D /\ drop X D = drop Y D.
Proof.
  intros S. unfold pick, drop. split; apply filter_ext_in_; intros [v l] I; cbn; assert (J : In v (keys D)) by (apply in_map_iff; now exists (v, l));
    specialize (S v J); destruct (mem v X) eqn:A, (mem v Y) eqn:B; auto; exfalso;
    rewrite ?mem_In, ?mem_nIn in *; tauto.
Qed.

Section C32.
  Variables (m : pgm) (D : domain) (F : var -> mfactor) (vt : vtype) (endo : list var) (cast : bool).
  Hypothesis H : causal m D F vt endo cast.
  Hypothesis PR : plain_roots m.
  Notation g := (m_graph m).
  Notation F1 := (table_of_object F m).
  Variable X : list var.
  Hypothesis HX : roots g X.

  Lemma arc_end x v : arc g x v -> In v (nodes g).
  Proof. destruct H as (_ & Wg & _). intros A. apply Wg in A. apply A. Qed.
  Lemma root_table v : In v X -> F1 v = F v.
  Proof.
    intros I. apply HX in I as [I N]. destruct H as (_ & _ & _ & _ & _ & _ & _ & St & _). destruct (St v I) as (f & S & _).
    destruct (PR v f S N) as (h & ->). unfold table_of_object. unfold stored in S. now rewrite S.
  Qed.

  Lemma same_solves X' d o : (forall v o, In v (keys D) -> full D o -> entry (F1 v) o = entry (F v) o) ->
    (forall v, In v (keys D) -> In v X <-> In v X') -> full D o -> solves D F1 X' d o = solves D F X d o.
  Proof.
    intros E S Fo. unfold solves. destruct (filter_same_set X X' D S) as [_ ->]. apply forallb_ext_in'. intros v I.
    destruct (dget v d); [reflexivity|]. rewrite E; auto. now apply (drop_keys_incl X').
  Qed.
  Lemma same_mass X' evs : (forall v o, In v (keys D) -> full D o -> entry (F1 v) o = entry (F v) o) ->
    (forall v, In v (keys D) -> In v X <-> In v X') -> cf_mass D F1 X' evs = cf_mass D F X evs.
  Proof.
    intros E S. unfold cf_mass. destruct (filter_same_set X X' D S) as [<- _].
    assert (WD : wf_dom D) by apply H.
    assert (Eh : forall u d t, happens D F1 X' u d t = happens D F X u d t).
    { intros u d t. unfold happens. apply eq_true_iff_eq. rewrite !existsb_exists.
      split; intros (o & I & J); exists o; (split; [auto|]); rewrite (same_solves X') in *; auto; apply (all_assignments_In_full D); auto; apply WD. }
    rewrite (filter_ext_in_ _ _ (fun u => forallb (fun dt => happens D F X u (fst dt) (snd dt)) evs)).
    2:{ intros u _. apply forallb_ext_in'. intros dt _. apply Eh. }
    apply total_ext. intros u _. apply joint_ext with (D := pick X D); [|apply incl_refl]. intros v I. f_equal. apply root_table.
    rewrite keys_pick' in I. apply filter_In in I as [_ I]. now apply mem_In.
  Qed.

  Variables (heur : digraph -> list var -> dict var nat -> res (list var)) (so : list (list var) -> list var).
  Hypothesis Hh : is_heuristic heur.
  Hypothesis Hs : is_set_order so.

  Section Query.
    Variables (dd : doarg) (dos : list obs).
    Hypothesis Ed : do_list dd = dos.
    Hypothesis Hd : interventions g D dos.
    Hypothesis Fr : fresh_names g X dos.
    Variable e : obs.
    Hypothesis Ie : incl (keys e) (nodes g).

    Lemma endo_X endo1 : (forall v, In v endo1 <-> exists x, arc g x v) -> forall v, In v (nodes g) -> In v endo1 <-> ~ In v X.
    Proof.
      intros He v I. rewrite He, (HX v). split.
      - intros (x & A) [_ N]. now apply (N x).
      - intros N. destruct (preds g v) as [|x l] eqn:E.
        + exfalso. apply N. split; [auto|]. intros x A. apply in_preds in A. rewrite E in A. destruct A.
        + exists x. apply in_preds. rewrite E. now left.
    Qed.
    Lemma query_names ti sub ts : ti = combine ts sub -> ti <> [] -> forall m1,
      counterfactual_query heur so m1 ts dd e (Some sub) = ci_compile_run heur so m1 (copy_names ti) dd e true.
    Proof.
      intros -> N m1. unfold counterfactual_query, ci_query. destruct sub as [|i r]; [|reflexivity]. exfalso. apply N. now destruct ts.
    Qed.

    Lemma counterfactual_ok ts sub ti : ti = combine ts sub -> targets_ok g X dos ti ->
      (forall d v, In d dos -> In v (keys d) -> ~ In v X /\ keeps_child g d v) ->
      cf_mass D F X [([], e)] <> 0%Qc ->
      exists m1 r, cve_init m = Ok m1 /\ counterfactual_query heur so m1 ts dd e (Some sub) = Ok r /\
        wf_mf r /\ mf_vtype r = vt /\ same_set (mf_vars r) (copy_names ti) /\ same_set (mf_left r) (copy_names ti) /\ mf_right r = [] /\
        (forall v i l, In (v, i) ti -> In (copy_name v i, l) (mf_domain r) -> In (v, l) D) /\
        forall xs, states_of D ti xs -> 
          mf_get_value r (combine (copy_names ti) xs) = Ok (Fin (cf_mass D F X (cf_events e dos ti xs) / cf_mass D F X [([], e)])%Qc).
    Proof.
      intros Eti (Nt & T0 & Ht) Ch Me.
      destruct (convert_ok m D F vt endo cast H PR) as (m1 & endo1 & E1 & C1 & Gm & Rt & Kf & He & St & Hdom & Ent).
      assert (EX := endo_X endo1 He).
      assert (Sx : forall v, In v (keys D) -> In v X <-> In v (scm_exogenous m1)).
      { intros v I. unfold scm_exogenous, scm_endogenous. rewrite (proj1 C1), Gm. rewrite filter_In, negb_true_iff, mem_nIn.
        assert (In v (nodes g)) as J by (now apply (proj1 (proj2 (proj2 (proj2 (proj2 H)))))). specialize (EX v J).
        destruct (in_dec eqd v X); tauto. }
      assert (Mx : forall evs, cf_mass D F1 (scm_exogenous m1) evs = cf_mass D F X evs) by (intros evs; now apply same_mass).
      assert (E_n : forall v, In v endo1 -> In v (nodes g)).
      { intros v I. apply He in I as (x & A). now apply arc_end in A. }
      assert (Q : exists r, ci_compile_run heur so m1 (copy_names ti) dd e true = Ok r /\ wf_mf r /\ mf_vtype r = vt /\
        same_set (mf_vars r) (copy_names ti) /\ same_set (mf_left r) (copy_names ti) /\ mf_right r = [] /\
        (forall v i l, In (v, i) ti -> In (copy_name v i, l) (mf_domain r) -> In (v, l) D) /\
        (forall xs, states_of D ti xs -> 
          mf_get_value r (combine (copy_names ti) xs) = Ok (Fin (cf_mass D F1 (scm_exogenous m1) (cf_events e dos ti xs) / cf_mass D F1 (scm_exogenous m1) [([], e)])%Qc)) /\
        total (map (entry r) (all_assignments (pick (copy_names ti) (Dt m1 D endo1 dos)))) = 1%Qc).
      { apply (cf_query m1 D F1 vt endo1 C1); try rewrite Gm; auto.
        - intros d I. destruct (Hd d I) as (A & B & _). auto.
        - intros v i w I J L E. destruct Fr as [_ Fr2]. eapply Fr2; [apply E_n; exact I|now apply EX, I; apply E_n|exact L|]. unfold copy_name. 
          unfold world_name, nat_str in E. rewrite E. exact J.
        - intros v I. apply Fr; [auto|]. apply EX; auto.
        - intros d v I J K Q. destruct (Ch d v I J) as [_ (w & A & B)]. apply B, Q. now rewrite Gm.
        - intros d v I J. apply EX; [now apply (Hd d I)|]. now apply (Ch d v).
        - intros v i I. destruct (Ht v i I) as (A & B & C). split; [now apply EX|exact C].
        - rewrite Mx. exact Me. }
      destruct Q as (r & Er & Q1 & Q2 & Q3 & Q4 & Q5 & Q7 & Q6 & _). exists m1, r. split; [auto|].
      split; [rewrite (query_names ti sub ts); auto|]. do 6 (split; [assumption|]). intros xs S. rewrite <- !Mx. now apply Q6.
    Qed.

    Lemma childless_raises ts sub ti m1 d v : cve_init m = Ok m1 -> ti = combine ts sub -> ti <> [] ->
      In d dos -> In v (keys d) -> ~ In v X -> ~ keeps_child g d v ->
      counterfactual_query heur so m1 ts dd e (Some sub) = Raise NetworkXError.
    Proof.
      intros E Eti T0 Id Iv Nv Ch.
      destruct (convert_ok m D F vt endo cast H PR) as (m1' & endo1 & E1 & C1 & Gm & Rt & Kf & He & St & Hdom & Ent).
      assert (m1' = m1) as -> by congruence. assert (EX := endo_X endo1 He).
      assert (E_n : forall v, In v endo1 -> In v (nodes g)).
      { intros w I. apply He in I as (x & A). now apply arc_end in A. }
      rewrite (query_names ti sub ts); auto. unfold ci_compile_run. rewrite Gm.
      assert (B : forallb (fun v => mem v (nodes g)) (do_vars dd) = true).
      { apply forallb_forall. intros w I. apply mem_In. assert (Iw : exists d, In d dos /\ In w (keys d)).
        { rewrite <- Ed. destruct dd as [d0|l]; cbn in *; [exists d0; auto|]. apply in_flat_map in I. exact I. }
        destruct Iw as (d0 & Id0 & Iw). now apply (Hd d0 Id0). }
      rewrite B. cbn [negb bind].
      rewrite (preprocess_childless m1 D F1 vt endo1 C1) with (dos := dos) (d := d) (v := v); try rewrite Gm; auto.
      - intros d0 I. destruct (Hd d0 I) as (A & A' & _). auto.
      - intros w i w' I J L E0. destruct Fr as [_ Fr2]. eapply Fr2; [apply E_n; exact I|now apply EX, I; apply E_n|exact L|]. unfold copy_name. 
        unfold world_name, nat_str in E0. rewrite E0. exact J.
      - intros w I. apply Fr; [auto|]. apply EX; auto.
      - apply EX; [now apply (Hd d Id)|auto].
      - intros w A. rewrite Gm in A. destruct (in_dec eqd w (keys d)); [auto|]. exfalso. apply Ch. now exists w.
    Qed.

    Lemma root_raises ts sub ti m1 d v : cve_init m = Ok m1 -> ti = combine ts sub -> targets_ok g X dos ti ->
      (forall d v, In d dos -> In v (keys d) -> ~ In v X -> keeps_child g d v) ->
      In d dos -> In v (keys d) -> In v X -> (forall i, 1 <= i <= length dos -> ~ In (copy_name v i) (nodes g)) ->
      counterfactual_query heur so m1 ts dd e (Some sub) = Raise NodeNotFound.
    Proof.
      intros E Eti (Nt & T0 & Ht) Ch Id Iv Nv Nn.
      destruct (convert_ok m D F vt endo cast H PR) as (m1' & endo1 & E1 & C1 & Gm & Rt & Kf & He & St & Hdom & Ent).
      assert (m1' = m1) as -> by congruence. assert (EX := endo_X endo1 He).
      assert (E_n : forall v, In v endo1 -> In v (nodes g)).
      { intros w I. apply He in I as (x & A). now apply arc_end in A. }
      rewrite (query_names ti sub ts); auto. 
      apply (cf_root_do m1 D F1 vt endo1 C1) with (dos := dos) (d := d) (v := v); try rewrite Gm; auto.
      - intros d0 I. destruct (Hd d0 I) as (A & A' & _). auto.
      - intros w i w' I J L E0. destruct Fr as [_ Fr2]. eapply Fr2; [apply E_n; exact I|now apply EX, I; apply E_n|exact L|]. unfold copy_name. 
        unfold world_name, nat_str in E0. rewrite E0. exact J.
      - intros w I. apply Fr; [auto|]. apply EX; auto.
      - intros d0 w I J K Q. destruct (Ch d0 w I J) as (w' & A & B); [now apply EX; [apply E_n|]|]. apply B, Q. now rewrite Gm.
      - intros w i I. destruct (Ht w i I) as (A & B & C). split; [now apply EX|exact C].
      - intros I. apply EX in I; [contradiction|]. now apply HX.
    Qed.
  End Query.

  Lemma default_worlds dd e ts m1 : ts <> [] ->
    counterfactual_query heur so m1 ts dd e None = counterfactual_query heur so m1 ts dd e (Some (repeat 1 (length ts))).
  Proof. intros N. destruct ts; [congruence|reflexivity]. Qed.

  (** every unit has exactly one solution under every intervention *)
  Lemma units d u : known D d -> NoDup (keys d) -> In u (all_assignments (pick X D)) ->
    exists o, In o (all_assignments D) /\ solves D F X d o = true /\ consistent u o = true /\
      (forall o', In o' (all_assignments D) -> solves D F X d o' = true -> consistent u o' = true -> o' = o) /\
      forall t, happens D F X u d t = consistent t o.
  Proof.
    intros K Nd Iu. 
    destruct (convert_ok m D F vt endo cast H PR) as (m1 & endo1 & E1 & C1 & Gm & Rt & Kf & He & St & Hdom & Ent).
    assert (WD : wf_dom D) by apply H.
    assert (EX := endo_X endo1 He).
    assert (Ho : forall o, In o (all_assignments D) -> full D o) by (intros o I; apply (all_assignments_In_full D); auto; apply WD).
    assert (Sx : forall v, In v (keys D) -> In v X <-> In v (scm_exogenous m1)).
    { intros v I. unfold scm_exogenous, scm_endogenous. rewrite (proj1 C1), Gm. rewrite filter_In, negb_true_iff, mem_nIn.
      assert (In v (nodes g)) as J by (now apply (proj1 (proj2 (proj2 (proj2 (proj2 H)))))). specialize (EX v J).
      destruct (in_dec eqd v X); tauto. }
    assert (Es : forall o, In o (all_assignments D) -> solves D F X d o = solves D (do_table F1 d) (scm_exogenous m1) [] o).
    { intros o I. rewrite <- (same_solves (scm_exogenous m1)); auto.
      apply (solves_do m1 D F1 vt endo1 C1 [d]); [intros d' [<-|[]]; auto|now left|auto]. }
    destruct (intervention_ok m1 D F1 vt endo1 true C1 d K) as (m' & E & C' & Gm' & _ & _ & Hk & Hst).
    assert (Net : network m' D (do_table F1 d) vt).
    { apply (causal_network m' D _ vt endo1 true C'). intros v I. apply (Hst v (F1 v)). apply St. rewrite Gm' in I.
      now rewrite <- Gm. }
    destruct (filter_same_set X (scm_exogenous m1) D Sx) as [Ep _].
    assert (HZ : forall v, In v (keys D) -> ~ In v (scm_exogenous m1) -> zero_one (do_table F1 d v)).
    { intros v I N. assert (J : In v (nodes (m_graph m'))) by (now apply (proj1 (proj2 (proj2 (proj2 (proj2 C')))))). destruct C' as (_ & _ & _ & _ & _ & _ & _ & S' & _).
      destruct (S' v J) as (f & _ & _ & _ & Z). apply Z. rewrite <- (Sx v I) in N. apply EX; [|auto]. now apply (proj1 (proj2 (proj2 (proj2 (proj2 H))))). }
    destruct (unit_solution m' D (do_table F1 d) vt Net (scm_exogenous m1) HZ u) as (o & I & S & Cu); [now rewrite <- Ep|].
    assert (Uq : forall o', In o' (all_assignments D) -> solves D F X d o' = true -> consistent u o' = true -> o' = o).
    { intros o' I' S' Cu'. rewrite Es in S' by auto. eapply (unit_unique m' D _ vt Net (scm_exogenous m1) HZ u); eauto.
      rewrite <- Ep. apply (all_assignments_In_full (pick X D)) in Iu; [apply Iu|]. now apply wf_pick'. }
    exists o. split; [auto|]. split; [now rewrite Es|]. split; [auto|]. split; [auto|].
    intros t. unfold happens. apply eq_true_iff_eq. rewrite existsb_exists. split.
    - intros (o' & I' & B). apply andb_prop in B as [B B3]. apply andb_prop in B as [B1 B2]. now rewrite <- (Uq o' I' B1 B2).
    - intros B. exists o. split; [auto|]. rewrite Es, S, Cu, B; auto.
  Qed.
End C32.

(** ** C33 *)
Section C33.
  Variables (m : pgm) (D : domain) (F : var -> mfactor) (vt : vtype) (endo : list var) (cast : bool).
  Hypothesis H : causal m D F vt endo cast.
  Hypothesis PR : plain_roots m.
  Notation g := (m_graph m).
  Variable X : list var.
  Hypothesis HX : roots g X.
  Variables (heur : digraph -> list var -> dict var nat -> res (list var)) (so : list (list var) -> list var).
  Hypothesis Hh : is_heuristic heur.
  Hypothesis Hs : is_set_order so.

  Lemma truth_ok m1 v given t f : cve_init m = Ok m1 -> truth_states D v given t f -> true_false m1 v given = Ok (t, f).
  Proof.
    intros E (l & I & _ & _ & G). unfold true_false. destruct given as [p|]; [congruence|].
    destruct (convert_ok m D F vt endo cast H PR) as (m1' & endo1 & E1 & C1 & Gm & Rt & Kf & He & St & Hdom & Ent).
    assert (m1' = m1) as -> by congruence. assert (J : In v (nodes g)).
    { apply (proj1 (proj2 (proj2 (proj2 (proj2 H))))). apply in_map_iff. now exists (v, l). }
    destruct (Hdom v J) as (l' & S & I'). assert (l' = l) as -> by (eapply dom_unique; [apply H|exact I'|exact I]).
    unfold has_domain in S. unfold dlook. rewrite S. cbn [bind]. exact G.
  Qed.
  Lemma happens_nil u : In u (all_assignments (pick X D)) -> happens D F X u [] [] = true.
  Proof.
    intros I. destruct (units m D F vt endo cast H PR X HX [] u) as (o & _ & _ & _ & _ & Hp); auto.
    - intros v l s _ E. discriminate E.
    - constructor.
    - rewrite Hp. unfold consistent. now apply forallb_forall.
  Qed.
  Lemma no_evidence evs : cf_mass D F X (([], []) :: evs) = cf_mass D F X evs.
  Proof.
    unfold cf_mass. f_equal. f_equal. apply filter_ext_in_. intros u I. cbn [forallb fst snd]. now rewrite happens_nil.
  Qed.
  Lemma all_units : cf_mass D F X [] = 1%Qc.
  Proof.
    rewrite <- no_evidence. destruct (convert_ok m D F vt endo cast H PR) as (m1 & endo1 & E1 & C1 & Gm & Rt & Kf & He & St & Hdom & Ent).
    rewrite <- (same_mass m D F vt endo cast H PR X HX X) by (auto; tauto).
    assert (Net : network m1 D (table_of_object F m) vt) by (apply (causal_network m1 D _ vt endo1 true C1); now rewrite Gm).
    rewrite <- (mass_units m1 D _ vt Net X).
    - apply (mass_nil m1 D _ vt Net).
    - intros v x I A. apply HX in I as [_ N]. apply (N x). now rewrite <- Gm.
    - intros v I N. assert (J : In v (nodes g)) by (now apply (proj1 (proj2 (proj2 (proj2 (proj2 H)))))).
      assert (Ev : In v endo1) by (apply (endo_X m X HX endo1 He); auto).
      destruct C1 as (_ & _ & _ & _ & _ & _ & _ & S & _). rewrite Gm in S. destruct (S v J) as (f & _ & _ & _ & Z). now apply Z.
  Qed.

  Lemma unit_total : cf_mass D F X [([], [])] = 1%Qc.
  Proof. etransitivity; [apply no_evidence|apply all_units]. Qed.

  Variables (cause effect : var) (tfc tfe : option (state * state)) (tc fc te fe : state).
  Hypothesis Hc : truth_states D cause tfc tc fc.
  Hypothesis He : truth_states D effect tfe te fe.
  Hypothesis Ne : cause <> effect.

  Lemma known_one v l x : In (v, l) D -> In x l -> known D [(v, x)].
  Proof.
    intros I J w l' s I' E. cbn in E. destruct (eqd w v) as [->|]; [|discriminate]. injection E as <-.
    assert (l' = l) as -> by (eapply dom_unique; [apply H|exact I'|exact I]). auto.
  Qed.
  Lemma node_of v given t f : truth_states D v given t f -> In v (nodes g).
  Proof. intros (l & I & _). apply (proj1 (proj2 (proj2 (proj2 (proj2 H))))). apply in_map_iff. now exists (v, l). Qed.
  Lemma do_ok xs : (forall x, In x xs -> x = tc \/ x = fc) -> interventions g D (map (fun x => [(cause, x)]) xs).
  Proof.
    intros Hx d I. apply in_map_iff in I as (x & <- & I). destruct Hc as (l & Il & It & If & _). split; [|split].
    - apply known_one with l; auto. destruct (Hx x I) as [-> | ->]; auto.
    - repeat constructor. intros [].
    - intros v [<-|[]]. eapply node_of; eauto.
  Qed.
  Lemma child_ok xs : ~ In cause X -> (exists w, arc g cause w) -> 
    forall d v, In d (map (fun x : state => [(cause, x)]) xs) -> In v (keys d) -> ~ In v X /\ keeps_child g d v.
  Proof.
    intros Nc (w & A) d v I J. apply in_map_iff in I as (x & <- & I). destruct J as [<-|[]]. split; [auto|].
    exists w. split; [auto|]. intros [<-|[]]. destruct H as (_ & _ & Ac & _). apply (Ac cause). now apply walk_one.
  Qed.

  Lemma pns_ok : ~ In cause X -> ~ In effect X -> (exists w, arc g cause w) ->
    fresh_names g X [[(cause, fc)]; [(cause, tc)]] ->
    exists m1, cve_init m = Ok m1 /\ prob_necessity_sufficiency heur so m1 cause effect tfc tfe =
      Ok (Fin (cf_mass D F X [([(cause, fc)], [(effect, fe)]); ([(cause, tc)], [(effect, te)])])).
  Proof.
    intros Nc Nf Ch Fr. assert (In effect (nodes g)) as Ief by (eapply node_of; eauto).
    destruct (counterfactual_ok m D F vt endo cast H PR X HX heur so Hh Hs (DoList [[(cause, fc)]; [(cause, tc)]]) _ eq_refl
      (do_ok [fc; tc] ltac:(intros x [<-|[<-|[]]]; auto)) Fr [] ltac:(intros v []) [effect; effect] [1; 2] _ eq_refl) as (m1 & r & E1 & Er & _ & _ & _ & _ & _ & _ & Val).
    - split; [|split].
      + repeat constructor; cbn; intros I; repeat destruct I as [I|I]; try discriminate I; auto.
      + discriminate.
      + intros v i I. cbn in I. destruct I as [I|[I|[]]]; injection I as <- <-; (do 2 (split; [auto|])).
        * exists [(cause, fc)]. split; [now left|]. intros [E|[]]. auto.
        * exists [(cause, tc)]. split; [right; now left|]. intros [E|[]]. auto.
    - apply (child_ok [fc; tc]); auto.
    - intros E. assert (Z : Q2Qc 1 = Q2Qc 0) by (rewrite <- unit_total; exact E). discriminate Z.
    - exists m1. split; [auto|]. unfold prob_necessity_sufficiency. rewrite (truth_ok m1 cause tfc tc fc E1 Hc), (truth_ok m1 effect tfe te fe E1 He).
      cbn [bind]. rewrite Er. cbn [bind].
      assert (En : dict_of [((effect ++ "_1")%string, fe); ((effect ++ "_2")%string, te)] = combine (copy_names (combine [effect; effect] [1; 2])) [fe; te]).
      { rewrite dict_of_id; [reflexivity|]. cbn. repeat constructor; cbn; [|intros []]. intros [E|[]].
        change (world_name effect 2 = world_name effect 1) in E. apply world_name_inj in E as [_ E]. discriminate. }
      rewrite En, Val.
      + apply (f_equal Ok), (f_equal Fin). 
        match goal with |- (?a / ?b)%Qc = ?c => assert (E : (c / 1)%Qc = c) by (field; discriminate);
          assert (Ea : a = c) by apply no_evidence; assert (Eb : b = 1%Qc) by apply unit_total; rewrite Ea, Eb; exact E end.
      + destruct He as (l & I & It & If & _). repeat constructor; exists l; auto.
  Qed.

  Lemma one_world c ec ef ce : (c = fc /\ ce = tc \/ c = tc /\ ce = fc) -> (ec = te /\ ef = fe \/ ec = fe /\ ef = te) ->
    ~ In cause X -> ~ In effect X -> (exists w, arc g cause w) -> fresh_names g X [[(cause, c)]] ->
    cf_mass D F X [([], [(cause, ce); (effect, ec)])] <> 0%Qc ->
    exists m1 r, cve_init m = Ok m1 /\ counterfactual_query heur so m1 [effect] (DoDict [(cause, c)]) (dict_of [(cause, ce); (effect, ec)]) None = Ok r /\
      mf_get_value r [((effect ++ "_1")%string, ef)] =
      Ok (Fin (cf_mass D F X [([], [(cause, ce); (effect, ec)]); ([(cause, c)], [(effect, ef)])] / cf_mass D F X [([], [(cause, ce); (effect, ec)])])%Qc).
  Proof.
    intros C1 C2 Nc Nf Ch Fr Me. assert (In effect (nodes g)) as Ief by (eapply node_of; eauto).
    assert (In cause (nodes g)) as Ica by (eapply node_of; eauto).
    assert (Hx : forall x, In x [c] -> x = tc \/ x = fc) by (intros x [<-|[]]; tauto).
    assert (Ie : incl (keys [(cause, ce); (effect, ec)]) (nodes g)) by (intros v [<-|[<-|[]]]; auto).
    destruct (counterfactual_ok m D F vt endo cast H PR X HX heur so Hh Hs (DoDict [(cause, c)]) _ eq_refl
      (do_ok [c] Hx) Fr [(cause, ce); (effect, ec)] Ie [effect] [1] _ eq_refl) as (m1 & r & E1 & Er & _ & _ & _ & _ & _ & _ & Val).
    - split; [|split].
      + repeat constructor. intros [].
      + discriminate.
      + intros v i I. cbn in I. destruct I as [I|[]]; injection I as <- <-; (do 2 (split; [auto|])).
        exists [(cause, c)]. split; [now left|]. intros [E|[]]. auto.
    - apply (child_ok [c]); auto.
    - exact Me.
    - exists m1, r. split; [auto|]. split.
      + rewrite dict_of_id; [exact Er|]. cbn. repeat constructor; cbn; [|intros []]. intros [E|[]]. auto.
      + specialize (Val [ef]). apply Val. destruct He as (l & I & It & If & _). repeat constructor. exists l. split; [auto|].
        destruct C2 as [[_ ->]|[_ ->]]; auto.
  Qed.

  Lemma pn_ok : ~ In cause X -> ~ In effect X -> (exists w, arc g cause w) -> fresh_names g X [[(cause, fc)]] ->
    cf_mass D F X [([], [(cause, tc); (effect, te)])] <> 0%Qc ->
    exists m1, cve_init m = Ok m1 /\ prob_necessity heur so m1 cause effect tfc tfe =
      Ok (Fin (cf_mass D F X [([], [(cause, tc); (effect, te)]); ([(cause, fc)], [(effect, fe)])] / cf_mass D F X [([], [(cause, tc); (effect, te)])])%Qc).
  Proof.
    intros Nc Nf Ch Fr Me. destruct (one_world fc te fe tc) as (m1 & r & E1 & Er & V); auto.
    exists m1. split; [auto|]. unfold prob_necessity. rewrite (truth_ok m1 cause tfc tc fc E1 Hc), (truth_ok m1 effect tfe te fe E1 He).
    cbn [bind]. rewrite Er. cbn [bind]. exact V.
  Qed.
  Lemma ps_ok : ~ In cause X -> ~ In effect X -> (exists w, arc g cause w) -> fresh_names g X [[(cause, tc)]] ->
    cf_mass D F X [([], [(cause, fc); (effect, fe)])] <> 0%Qc ->
    exists m1, cve_init m = Ok m1 /\ prob_sufficiency heur so m1 cause effect tfc tfe =
      Ok (Fin (cf_mass D F X [([], [(cause, fc); (effect, fe)]); ([(cause, tc)], [(effect, te)])] / cf_mass D F X [([], [(cause, fc); (effect, fe)])])%Qc).
  Proof.
    intros Nc Nf Ch Fr Me. destruct (one_world tc fe te fc) as (m1 & r & E1 & Er & V); auto.
    exists m1. split; [auto|]. unfold prob_sufficiency. rewrite (truth_ok m1 cause tfc tc fc E1 Hc), (truth_ok m1 effect tfe te fe E1 He).
    cbn [bind]. rewrite Er. cbn [bind]. exact V.
  Qed.

  (** a cause without children *)
  Lemma childless_cause : ~ In cause X -> (forall w, ~ arc g cause w) -> fresh_names g X [[(cause, fc)]; [(cause, tc)]] ->
    exists m1, cve_init m = Ok m1 /\ 
      prob_necessity_sufficiency heur so m1 cause effect tfc tfe = Raise NetworkXError /\
      prob_necessity heur so m1 cause effect tfc tfe = Raise NetworkXError /\
      prob_sufficiency heur so m1 cause effect tfc tfe = Raise NetworkXError.
  Proof.
    intros Nc Ch Fr. assert (In effect (nodes g)) as Ief by (eapply node_of; eauto).
    assert (In cause (nodes g)) as Ica by (eapply node_of; eauto).
    destruct (convert_ok m D F vt endo cast H PR) as (m1 & _ & E1 & _). exists m1. split; [auto|].
    assert (Fr1 : forall x, fresh_names g X [[(cause, x)]]).
    { intros x. destruct Fr as [A B]. split; [auto|]. intros v i I J L. apply B; auto. cbn in *. lia. }
    assert (NK : forall x, ~ keeps_child g [(cause, x)] cause) by (intros x (w & A & _); now apply (Ch w)).
    assert (In1 : forall x, (x = tc \/ x = fc) -> interventions g D [[(cause, x)]]).
    { intros x Hx. apply (do_ok [x]). intros y [<-|[]]; auto. }
    assert (Dict : forall ce ec, dict_of [(cause, ce); (effect, ec)] = ([(cause, ce); (effect, ec)] : obs)).
    { intros ce ec. apply dict_of_id. cbn. repeat constructor; cbn; [|intros []]. intros [E|[]]. auto. }
    assert (One : forall x, (x = tc \/ x = fc) -> forall e, counterfactual_query heur so m1 [effect] (DoDict [(cause, x)]) e None = Raise NetworkXError).
    { intros x Hx e. change (counterfactual_query heur so m1 [effect] (DoDict [(cause, x)]) e None) with
        (counterfactual_query heur so m1 [effect] (DoDict [(cause, x)]) e (Some [1])).
      apply (childless_raises m D F vt endo cast H PR X HX heur so Hs (DoDict [(cause, x)]) [[(cause, x)]] eq_refl (In1 x Hx) (Fr1 x) e
               [effect] [1] _ m1 [(cause, x)] cause E1 eq_refl); auto; try discriminate; now left. }
    unfold prob_necessity_sufficiency, prob_necessity, prob_sufficiency.
    rewrite !(truth_ok m1 cause tfc tc fc E1 Hc), !(truth_ok m1 effect tfe te fe E1 He). cbn [bind].
    rewrite !One by auto. split; [|auto].
    rewrite (childless_raises m D F vt endo cast H PR X HX heur so Hs (DoList [[(cause, fc)]; [(cause, tc)]]) _ eq_refl 
      (do_ok [fc; tc] ltac:(intros x [<-|[<-|[]]]; auto)) Fr [] [effect; effect] [1; 2] _ m1 [(cause, fc)] cause E1 eq_refl); auto; try discriminate; now left.
  Qed.
End C33.

Lemma truth_unknown heur so m cause effect tfc tfe v e :
  ((v = cause /\ tfc = None) \/ (v = effect /\ tfe = None /\ tfc <> None)) ->
  ((dget v (m_domains m) = None /\ e = KeyError) \/ (dget v (m_domains m) = Some None /\ e = TypeError)) ->
  prob_necessity_sufficiency heur so m cause effect tfc tfe = Raise e /\
  prob_necessity heur so m cause effect tfc tfe = Raise e /\ prob_sufficiency heur so m cause effect tfc tfe = Raise e.
Proof.
  intros V Dv. assert (E : true_false m v None = Raise e).
  { unfold true_false, dlook. destruct Dv as [[-> ->]|[-> ->]]; reflexivity. }
  unfold prob_necessity_sufficiency, prob_necessity, prob_sufficiency. destruct V as [[-> ->]|(-> & -> & N)].
  - rewrite E. auto.
  - destruct tfc as [[tc fc]|]; [|congruence]. cbn [true_false bind]. unfold true_false in E. rewrite E. auto.
Qed.
