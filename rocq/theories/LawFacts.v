(** Interventional and counterfactual masses as sums over the units, and the
    laws that follow. *)

From Coq Require Import String Bool Arith Lia ZArith QArith Qcanon Permutation List.
From Verif Require Import PyBase Num NumFacts DomainModel NdArray StoreModel NumStore FactorModel GraphModel ModelModel InferModel CausalModel
  PyFacts Spec StoreSpec StoreFacts FactorSpec FactorFacts FactorFacts2 GraphSpec GraphFacts ModelSpec ModelFacts NetSpec NetFacts NetSem FactorSem
  BigSum BuildFacts BuildFacts2 VeFacts4 CausalSpec CausalFacts CausalFacts2 CfFacts CfFacts2 CfFacts3 PropFacts1 PropFacts4 PropFacts5 EmMath.
Import ListNotations.
Local Open Scope nat_scope.
Local Arguments eqd : simpl never.

Lemma qsum_filter {A} (w : A -> Qc) (p : A -> bool) l : qsum (map w (filter p l)) = qsum (map (fun u => if p u then w u else 0%Qc) l).
Proof.
  induction l as [|u l IH]; [reflexivity|]. cbn [filter map]. destruct (p u).
  - change (qsum (map w (u :: filter p l))) with (w u + qsum (map w (filter p l)))%Qc. rewrite IH. reflexivity.
  - rewrite IH. change (qsum ((0 :: map (fun u0 => if p u0 then w u0 else 0) l)%Qc)) with (0 + qsum (map (fun u0 => if p u0 then w u0 else 0%Qc) l))%Qc. ring.
Qed.

Lemma drop_nil D : drop (keys (@nil (var * state))) D = D.
Proof. induction D as [|[v l] L IH]; [reflexivity|]. unfold drop in *. cbn in *. now rewrite IH. Qed.

Section Laws.
  Variables (m : pgm) (D : domain) (F : var -> mfactor) (vt : vtype) (endo : list var) (cast : bool).
  Hypothesis H : causal m D F vt endo cast.
  Hypothesis PR : plain_roots m.
  Variable X : list var.
  Hypothesis HX : roots (m_graph m) X.
  Notation g := (m_graph m).
  Notation U := (all_assignments (pick X D)).
  Notation wt := (joint F (keys (pick X D))).
  Notation hap := (happens D F X).

  Lemma law_wd : wf_dom D.
  Proof. apply H. Qed.

  Lemma cf_sum evs : cf_mass D F X evs = qsum (map (fun u => if forallb (fun dt => hap u (fst dt) (snd dt)) evs then wt u else 0%Qc) U).
  Proof. unfold cf_mass. rewrite total_qsum. apply qsum_filter. Qed.

  (** the truncated factorisation sums over the units *)
  Lemma do_units d t : known D d -> NoDup (keys d) -> (forall v, In v (keys d) -> ~ In v X) -> do_mass D F d t = cf_mass D F X [(d, t)].
  Proof.
    intros K Nd Nx. assert (WD := law_wd).
    destruct (convert_ok m D F vt endo cast H PR) as (m1 & endo1 & E1 & C1 & Gm & Rt & Kf & He & St & Hdom & Ent).
    set (F1 := table_of_object F m) in *. assert (EX := endo_X m X HX endo1 He).
    assert (Sx : forall v, In v (keys D) -> In v X <-> In v (scm_exogenous m1)).
    { intros v I. unfold scm_exogenous, scm_endogenous. rewrite (proj1 C1), Gm. rewrite filter_In, negb_true_iff, mem_nIn.
      assert (In v (nodes g)) as J by (now apply (proj1 (proj2 (proj2 (proj2 (proj2 H)))))). specialize (EX v J).
      destruct (in_dec eqd v X); tauto. }
    destruct (intervention_ok m1 D F1 vt endo1 true C1 d K) as (m' & E & C' & Gm' & _ & _ & _ & Hst).
    assert (Net : network m' D (do_table F1 d) vt).
    { apply (causal_network m' D _ vt endo1 true C'). intros v I. apply (Hst v (F1 v)). apply St. rewrite Gm' in I. now rewrite <- Gm. }
    assert (HZ : forall v, In v (keys D) -> ~ In v X -> zero_one (do_table F1 d v)).
    { intros v I N. assert (J : In v (nodes (m_graph m'))) by (now apply (proj1 (proj2 (proj2 (proj2 (proj2 C')))))). destruct C' as (_ & _ & _ & _ & _ & _ & _ & S' & _).
      destruct (S' v J) as (f & _ & _ & _ & Z). apply Z. apply EX; [|auto]. now apply (proj1 (proj2 (proj2 (proj2 (proj2 H))))). }
    assert (HX' : forall v x, In v X -> ~ arc (m_graph m') x v).
    { intros v x I A. rewrite Gm' in A. apply (remove_ingoing_ok (m_graph m1) (keys d)) in A as [A _]; [|apply C1]. rewrite Gm in A.
      apply HX in I as [_ I]. exact (I x A). }
    transitivity (mass D (do_table F1 d) t).
    { unfold mass, do_mass. apply total_ext. intros o I. apply filter_In in I as [I _]. rewrite (do_joint_ok m1 D F1 vt endo1 true C1 d K o I).
      unfold do_joint. destruct (consistent d o); [|reflexivity]. symmetry. unfold joint. f_equal. apply map_ext_in. intros v Iv. apply Ent.
      - now apply (drop_keys_incl (keys d)).
      - apply (all_assignments_In_full D o (proj1 WD)) in I. apply I. }
    rewrite (mass_units m' D (do_table F1 d) vt Net X HX' HZ). unfold cf_mass.
    assert (Eh : forall u, happens D (do_table F1 d) X u [] t = hap u d t).
    { intros u. unfold happens. apply eq_true_iff_eq. rewrite !existsb_exists.
      assert (Es : forall o, In o (all_assignments D) -> solves D (do_table F1 d) X [] o = solves D F X d o).
      { intros o I. apply (all_assignments_In_full D o (proj1 WD)) in I as IF.
        rewrite <- (same_solves m D F X (scm_exogenous m1) d o) by (auto; apply IF).
        rewrite (solves_do m1 D F1 vt endo1 C1 [d]); [|intros d' [<-|[]]; auto|now left|auto].
        unfold solves. destruct (filter_same_set X (scm_exogenous m1) D Sx) as [_ ->]. reflexivity. }
      split; intros (o & I & J); exists o; (split; [auto|]); rewrite Es in *; auto. }
    rewrite (filter_ext_in_ _ _ (fun u => forallb (fun dt => hap u (fst dt) (snd dt)) [(d, t)])).
    2:{ intros u _. cbn [forallb fst snd]. now rewrite Eh. }
    apply total_ext. intros u _. unfold joint. f_equal. apply map_ext_in. intros v I. f_equal.
    rewrite keys_pick' in I. apply filter_In in I as [_ I]. apply mem_In in I. rewrite do_table_out by (intros J; exact (Nx v J I)).
    unfold F1. now apply (root_table m D F vt endo cast H PR X HX).
  Qed.
  Lemma mass_law t : mass D F t = cf_mass D F X [([], t)].
  Proof.
    rewrite <- do_units; [|intros v l s _ E; discriminate E|constructor|intros v []].
    unfold mass, do_mass. apply total_ext. intros o _. unfold do_joint. replace (consistent [] o) with true by (symmetry; apply forallb_forall; reflexivity).
    now rewrite drop_nil.
  Qed.

  (** composition: adding an intervention that changes nothing changes nothing *)
  Lemma composition d e u t : known D d -> known D (e ++ d) -> NoDup (keys (e ++ d)) -> NoDup (keys d) -> In u U ->
    hap u d e = true -> hap u (e ++ d) t = hap u d t.
  Proof.
    intros Kd Ked Ned Nd Iu He. assert (WD := law_wd).
    destruct (units m D F vt endo cast H PR X HX d u Kd Nd Iu) as (o & Io & So & Cu & _ & Ho).
    destruct (units m D F vt endo cast H PR X HX (e ++ d) u Ked Ned Iu) as (o' & _ & _ & _ & Uo & Ho').
    rewrite Ho in He. rewrite Ho, Ho'. f_equal. symmetry. apply Uo; auto.
    unfold solves in *. rewrite forallb_forall in *. intros v I. specialize (So v I). rewrite dget_app.
    destruct (dget v e) as [x|] eqn:Ev; [|exact So].
    apply (all_assignments_In_full D o (proj1 WD)) in Io as [Ko Fo]. apply drop_keys_incl in I. 
    rewrite (full_asg D o v Fo I).
    rewrite <- (cons_get o v (asg_of o v) ltac:(rewrite Ko; apply WD) (full_asg D o v Fo I) e He x Ev). now rewrite eqd_refl.
  Qed.
  (** effectiveness *)
  Lemma effective d u : known D d -> NoDup (keys d) -> (forall v, In v (keys d) -> ~ In v X) -> In u U -> hap u d d = true.
  Proof.
    intros Kd Nd Nx Iu. assert (WD := law_wd). destruct (units m D F vt endo cast H PR X HX d u Kd Nd Iu) as (o & Io & So & Cu & _ & Ho).
    rewrite Ho. apply (all_assignments_In_full D o (proj1 WD)) in Io as [Ko Fo]. apply cons_intro; [rewrite Ko; apply WD|].
    intros v s x Es Ex. unfold solves in So. rewrite forallb_forall in So.
    assert (Iv : In v (keys D)) by (rewrite <- Ko; apply dget_keys; eauto).
    specialize (So v). rewrite keys_drop' in So. specialize (So ltac:(apply minus_In; split; [auto|]; apply Nx, dget_keys; eauto)).
    rewrite Ex, Es in So. destruct (eqd s x); [auto|discriminate].
  Qed.
  (** exactly one state happens *)
  Lemma one_happens d u v l : known D d -> NoDup (keys d) -> In u U -> In (v, l) D ->
    exists s, In s l /\ forall s', hap u d [(v, s')] = if eqd s' s then true else false.
  Proof.
    intros Kd Nd Iu Iv. assert (WD := law_wd). destruct (units m D F vt endo cast H PR X HX d u Kd Nd Iu) as (o & Io & So & Cu & _ & Ho).
    apply (all_assignments_In_full D o (proj1 WD)) in Io as [Ko Fo]. destruct (Fo v l Iv) as (s & Es & Is). exists s. split; [auto|].
    intros s'. rewrite Ho. apply eq_true_iff_eq. split.
    - intros C. rewrite (cons_get o v s ltac:(rewrite Ko; apply WD) Es [(v, s')] C s'); [now rewrite eqd_refl|]. cbn. now rewrite eqd_refl.
    - intros C. destruct (eqd s' s) as [->|]; [|discriminate]. apply cons_intro; [rewrite Ko; apply WD|]. intros w y x Ey Ex. cbn in Ex.
      destruct (eqd w v) as [->|]; [congruence|discriminate].
  Qed.
  Lemma happens_two d u v x w y : known D d -> NoDup (keys d) -> In u U -> v <> w -> hap u d [(v, x); (w, y)] = hap u d [(v, x)] && hap u d [(w, y)].
  Proof.
    intros Kd Nd Iu Nv. assert (WD := law_wd). destruct (units m D F vt endo cast H PR X HX d u Kd Nd Iu) as (o & Io & So & Cu & _ & Ho).
    rewrite !Ho. apply (all_assignments_In_full D o (proj1 WD)) in Io as [Ko Fo]. unfold consistent.
    clear - Nv. induction o as [|[z s] o IH]; [reflexivity|].
    assert (E : forall p, forallb p ((z, s) :: o) = p (z, s) && forallb p o) by reflexivity. rewrite !E, IH. clear E IH.
    generalize (forallb (fun vs => match dget (fst vs) [(v, x)] with Some s0 => if eqd s0 (snd vs) then true else false | None => true end) o) as p1.
    generalize (forallb (fun vs => match dget (fst vs) [(w, y)] with Some s0 => if eqd s0 (snd vs) then true else false | None => true end) o) as p2.
    intros p2 p1. cbn [fst snd dget]. destruct (eqd z v) as [->|].
    - destruct (eqd v w); [contradiction|]. destruct (eqd x s), p1, p2; reflexivity.
    - destruct (eqd z w) as [->|]; [|destruct p1, p2; reflexivity]. destruct (eqd y s), p1, p2; reflexivity.
  Qed.

  Lemma wt_nonneg u : nonnegative D F -> In u U -> (0 <= wt u)%Qc.
  Proof.
    intros N Iu. assert (WD := law_wd). apply (all_assignments_In_full (pick X D)) in Iu as [_ Fu]; [|apply wf_pick', WD].
    unfold joint. rewrite product_qprod. apply qprod_nonneg. intros q I. apply in_map_iff in I as (v & <- & I).
    rewrite keys_pick' in I. apply filter_In in I as [Iv M]. apply N; [auto|].
    intros w l J. destruct H as (_ & _ & _ & _ & SD & _ & _ & Hv & _). destruct (Hv v (proj1 (SD v) Iv)) as (f & _ & _ & C & _).
    destruct C as (W & _ & Lf & Rf & Df & _). apply Fu. unfold pick. apply filter_In. split; [now apply Df|]. cbn.
    assert (Iw : In w (mf_vars (F v))) by (apply (in_map fst) in J; exact J).
    destruct (in_dec eqd w (mf_right (F v))) as [R|R].
    - apply Rf, in_preds in R. apply mem_In, HX in M as [_ M]. exfalso. exact (M w R).
    - assert (Lw : In w (mf_left (F v))). { unfold mf_left. apply filter_In. split; [auto|]. now apply negb_true_iff, mem_nIn. }
      apply Lf in Lw as [<-|[]]. exact M.
  Qed.
End Laws.
