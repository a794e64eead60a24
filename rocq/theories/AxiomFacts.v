(** The relations between the answers of counterfactual queries. *)

From Coq Require Import String Bool Arith Lia ZArith QArith Qcanon Permutation List.
From Verif Require Import PyBase Num NumFacts DomainModel DomainFacts NdArray StoreModel NumStore FactorModel GraphModel ModelModel InferModel LearnModel CausalModel
  PyFacts Spec StoreSpec StoreFacts FactorSpec FactorFacts FactorFacts2 GraphSpec GraphFacts GraphFacts2 GraphFacts3 ModelSpec ModelFacts NetSpec NetFacts NetSem FactorSem
  BigSum BuildFacts BuildFacts2 PropFacts1 VeFacts VeFacts2 VeFacts3 VeFacts4 VeFacts5 OrderSpec CausalSpec CausalFacts CausalFacts2 CfFacts PropFacts5 SepSpec
  LawSpec LawFacts CalcSpec CalcFacts1 CalcFacts2 CalcFacts3 CalcFacts4 CalcFacts5 CalcFacts6 EmMath AxiomSpec.
From Coq Require Import List.
Import ListNotations.
Local Open Scope nat_scope.
Local Arguments eqd : simpl never.

(** ** Lists *)
Lemma in_world_In i ti xs v x : In (v, x) (in_world i ti xs) <-> In ((v, i), x) (combine ti xs).
Proof.
  unfold in_world. rewrite in_map_iff. split.
  - intros ([[w j] y] & E & J). apply filter_In in J as [J K]. cbn in *. apply Nat.eqb_eq in K. injection E as <- <-. now subst.
  - intros J. exists ((v, i), x). split; [reflexivity|]. apply filter_In. split; [auto|]. cbn. apply Nat.eqb_refl.
Qed.
Lemma in_world_keys i ti xs v : In v (keys (in_world i ti xs)) -> In (v, i) ti.
Proof.
  intros J. apply in_map_iff in J as ([w x] & <- & J). apply in_world_In in J. now apply in_combine_l in J.
Qed.
Lemma in_world_NoDup i ti xs : NoDup ti -> NoDup (keys (in_world i ti xs)).
Proof.
  revert xs. induction ti as [|[v j] ti IH]; intros [|x xs] N; try constructor. inversion N as [|? ? N1 N2]; subst.
  assert (J := in_world_keys i ti xs v). unfold in_world in *. cbn [combine filter fst snd]. destruct (j =? i) eqn:E; [|now apply IH].
  cbn. constructor; [|now apply IH]. apply Nat.eqb_eq in E. subst j. tauto.
Qed.
Lemma worlds_fun dos i d d' : In (i, d) (worlds dos) -> In (i, d') (worlds dos) -> d = d'.
Proof.
  unfold worlds. generalize 1. induction dos as [|a dos IH]; intros k J J'; cbn in *; [destruct J|].
  assert (B : forall x, In (k, x) (combine (seq (S k) (length dos)) dos) -> False).
  { intros x K. apply in_combine_l, in_seq in K. lia. }
  destruct J as [E|J], J' as [E'|J'].
  - congruence.
  - injection E as -> ->. destruct (B _ J').
  - injection E' as -> ->. destruct (B _ J).
  - eauto.
Qed.
Lemma worlds_in dos i d : In (i, d) (worlds dos) -> In d dos.
Proof. intros J. now apply in_combine_r in J. Qed.
Lemma combine_fs (ti : list (var * nat)) : ti = combine (map fst ti) (map snd ti).
Proof. induction ti as [|[v i] ti IH]; cbn; [reflexivity|now f_equal]. Qed.
Lemma walk_end g x y z : walk g x y -> arc g y z -> walk g x z.
Proof. intros W A. induction W; eapply walk_step; eauto. now apply walk_one. Qed.

Section Axioms.
  Variables (m : pgm) (D : domain) (F : var -> mfactor) (vt : vtype) (endo : list var) (cast : bool).
  Hypothesis H : causal m D F vt endo cast.
  Hypothesis PR : plain_roots m.
  Variable X : list var.
  Hypothesis HX : roots (m_graph m) X.
  Notation g := (m_graph m).
  Notation U := (all_assignments (pick X D)).
  Notation hap := (happens D F X).
  Let WD : wf_dom D := law_wd m D F vt endo cast H.

  Lemma hap_pairs d u t : known D d -> NoDup (keys d) -> In u U -> NoDup (keys t) -> incl (keys t) (keys D) ->
    (hap u d t = true <-> forall v x, In (v, x) t -> hap u d [(v, x)] = true).
  Proof.
    intros Kd Nd Iu Nt It. destruct (units m D F vt endo cast H PR X HX d u Kd Nd Iu) as (o & Io & _ & _ & _ & Ho).
    apply (all_assignments_In_full D o (proj1 WD)) in Io as [Ko Fo]. assert (No : NoDup (keys o)) by (rewrite Ko; apply WD).
    rewrite Ho. split.
    - intros C v x J. rewrite Ho. apply cons_intro; [auto|]. intros w s y Es Ey. cbn in Ey. destruct (eqd w v) as [->|]; [|discriminate].
      injection Ey as <-. apply (cons_get o v s No Es t C). now apply In_dget.
    - intros C. apply cons_intro; [auto|]. intros v s x Es Ex. apply dget_In in Ex. specialize (C v x Ex). rewrite Ho in C.
      apply (cons_get o v s No Es [(v, x)] C). cbn. now rewrite eqd_refl.
  Qed.
  Lemma hap_same d d' u t : same_obs d d' -> hap u d t = hap u d' t.
  Proof.
    intros E. unfold happens. apply eq_true_iff_eq. rewrite !existsb_exists.
    assert (Es : forall o, solves D F X d o = solves D F X d' o).
    { intros o. unfold solves. apply forallb_ext_in'. intros v _. now rewrite E. }
    split; intros (o & I & J); exists o; (split; [auto|]); [rewrite <- Es|rewrite Es]; auto.
  Qed.
  Lemma hap_event d u t t' : same_obs t t' -> hap u d t = hap u d t'.
  Proof.
    intros E. unfold happens. apply eq_true_iff_eq. rewrite !existsb_exists.
    assert (Es : forall o, consistent t o = consistent t' o).
    { intros o. unfold consistent. apply forallb_ext_in'. intros v _. now rewrite E. }
    split; intros (o & I & J); exists o; (split; [auto|]); [rewrite <- Es|rewrite Es]; auto.
  Qed.

  (** what a query asks of a unit *)
  Definition holds (u : obs) (dos : list obs) (ti : list (var * nat)) (xs : list state) : Prop :=
    forall v i x d, In ((v, i), x) (combine ti xs) -> In (i, d) (worlds dos) -> hap u d [(v, x)] = true.
  Lemma events_iff u dos e ti xs : interventions g D dos -> targets_ok g X dos ti -> In u U ->
    (forallb (fun dt => hap u (fst dt) (snd dt)) (cf_events e dos ti xs) = true <-> hap u [] e = true /\ holds u dos ti xs).
  Proof.
    intros Hd (Nt & _ & Ht) Iu. unfold cf_events. cbn [forallb fst snd]. rewrite andb_true_iff, forallb_forall.
    assert (Kt : forall i, incl (keys (in_world i ti xs)) (keys D)).
    { intros i v J. apply in_world_keys in J. apply (node_keys m D F vt endo cast H). now apply (Ht v i). }
    split; intros [A B]; (split; [exact A|]).
    - intros v i x d J W. assert (Id := worlds_in _ _ _ W). destruct (Hd d Id) as (Kd & Nd & _).
      assert (C := B (d, in_world i ti xs)). cbn [fst snd] in C.
      assert (C' : hap u d (in_world i ti xs) = true) by (apply C, in_map_iff; now exists (i, d)).
      rewrite (hap_pairs d u) in C' by (auto using in_world_NoDup). apply C'. now apply in_world_In.
    - intros dt J. apply in_map_iff in J as ([i d] & <- & W). cbn [fst snd]. assert (Id := worlds_in _ _ _ W). destruct (Hd d Id) as (Kd & Nd & _).
      apply (hap_pairs d u); auto using in_world_NoDup. intros v x J. apply in_world_In in J. eapply B; eauto.
  Qed.

  (** *** Exclusion *)
  Lemma same_value v b b' : In v (keys D) -> ~ In v X -> full D b -> full D b' -> entry (F v) b = 1%Qc -> entry (F v) b' = 1%Qc ->
    (forall p, arc g p v -> dget p b = dget p b') -> dget v b = dget v b'.
  Proof.
    intros Iv Nv Fb Fb' E E' Ep.
    destruct (convert_ok m D F vt endo cast H PR) as (m1 & endo1 & E1 & C1 & Gm & Rt & Kf & He & St & Hdom & Ent).
    set (F1 := table_of_object F m) in *.
    assert (Net : network m1 D F1 vt).
    { apply (causal_network m1 D F1 vt endo1 true C1). intros w J. apply St. now rewrite <- Gm. }
    assert (HZ : zero_one (F1 v)).
    { assert (J : In v (nodes (m_graph m1))) by (rewrite Gm; now apply (node_keys m D F vt endo cast H)). destruct C1 as (_ & _ & _ & _ & _ & _ & _ & S' & _).
      destruct (S' v J) as (f & _ & _ & _ & Z). apply Z. apply (endo_X m X HX endo1 He); [|auto]. now rewrite <- Gm. }
    rewrite <- (Ent v) in E, E' by auto.
    assert (Vb := full_valid' D b Fb). assert (Vb' := full_valid' D b' Fb').
    assert (PE : forall c, full D c -> entry (F1 v) c = P F1 v (asg_of c)).
    { intros c Fc. apply (entry_fv D vt); [now apply (net_good m1 D F1 vt Net)|now apply full_valid'|].
      intros w Iw. apply (full_asg D); [exact Fc|]. eapply fam_keys; [exact Net|exact Iv|exact Iw]. }
    rewrite PE in E, E' by auto.
    assert (Ea : forall p, In p (fam F1 v) -> p <> v -> asg_of b p = asg_of b' p).
    { intros p J N. apply (fam_In m1 D F1 vt Net v p Iv) in J as [J|J]; [congruence|]. rewrite Gm in J. unfold asg_of, over. now rewrite (Ep p J). }
    set (c := fun w => if eqd w v then asg_of b' v else asg_of b w).
    assert (Vc : valid D c).
    { intros w l J. unfold c. destruct (eqd w v) as [->|]; auto. }
    assert (Ec : P F1 v c = 1%Qc).
    { rewrite <- E'. apply (P_dep m1 D F1 vt Net v Iv). intros w J. unfold c. destruct (eqd w v) as [->|N]; auto. }
    assert (Q : asg_of b v = c v).
    { apply (solution_unique m1 D F1 vt Net (minus (keys D) [v])); auto.
      - intros w J N. destruct (eqd w v) as [->|Ne]; [exact HZ|]. exfalso. apply N, minus_In. split; [auto|]. intros [<-|[]]. congruence.
      - intros w J K. apply minus_In in K as [_ K]. unfold c. destruct (eqd w v) as [->|]; [|auto]. exfalso. apply K. now left.
      - intros w J. apply minus_In in J as [J K]. destruct (eqd w v) as [->|Ne]; [exact E|]. exfalso. apply K, minus_In. split; [auto|]. intros [<-|[]]. congruence.
      - intros w J. apply minus_In in J as [J K]. destruct (eqd w v) as [->|Ne]; [exact Ec|]. exfalso. apply K, minus_In. split; [auto|]. intros [<-|[]]. congruence. }
    rewrite (full_asg D b v), (full_asg D b' v) by auto. f_equal. rewrite Q. unfold c. now rewrite eqd_refl.
  Qed.

  Lemma exclusion d d' u v x : known D d -> NoDup (keys d) -> known D d' -> NoDup (keys d') -> In u U -> In v (keys D) -> idle_for g v d d' ->
    hap u d [(v, x)] = hap u d' [(v, x)].
  Proof.
    intros Kd Nd Kd' Nd' Iu Iv (z & Ez & Up).
    destruct (units m D F vt endo cast H PR X HX d u Kd Nd Iu) as (o & Io & So & Cu & _ & Ho).
    destruct (units m D F vt endo cast H PR X HX d' u Kd' Nd' Iu) as (o' & Io' & So' & Cu' & _ & Ho').
    apply (all_assignments_In_full D o (proj1 WD)) in Io as [Ko Fo]. apply (all_assignments_In_full D o' (proj1 WD)) in Io' as [Ko' Fo'].
    assert (No : NoDup (keys o)) by (rewrite Ko; apply WD). assert (No' : NoDup (keys o')) by (rewrite Ko'; apply WD).
    apply (all_assignments_In_full (pick X D) u) in Iu as [Ku Fu]; [|apply wf_pick', WD].
    destruct (convert_ok m D F vt endo cast H PR) as (m1 & endo1 & _ & C1 & Gm & _ & _ & _ & St & _).
    assert (Net : network m1 D (table_of_object F m) vt).
    { apply (causal_network m1 D _ vt endo1 true C1). intros w J. apply St. now rewrite <- Gm. }
    destruct (rank_exists m1 D _ vt Net) as (rank & R).
    assert (Main : forall n v, rank v < n -> In v (keys D) -> (forall a, In a (keys z) -> ~ reach (remove_ingoing_edges g (keys d)) a v) -> dget v o = dget v o').
    { clear v x Iv Up. induction n as [|n IH]; intros v Ln Iv Up; [lia|].
      assert (Nz : ~ In v (keys z)) by (intros J; apply (Up v J); now left).
      destruct (in_dec eqd v X) as [Jx|Jx].
      - assert (Kx : In v (keys (pick X D))) by (rewrite keys_pick'; apply filter_In; split; [auto|now apply mem_In]).
        rewrite (cons_X m1 D _ vt Net X u o), (cons_X m1 D _ vt Net X u o'); auto.
      - unfold solves in So, So'. rewrite forallb_forall in So, So'. specialize (So v). specialize (So' v). rewrite keys_drop' in So, So'.
        specialize (So ltac:(apply minus_In; auto)). specialize (So' ltac:(apply minus_In; auto)).
        rewrite (Ez v), dget_app in So'. rewrite (proj2 (dget_None v z)) in So' by auto.
        destruct (dget v d) as [y|] eqn:Ed.
        + destruct (dget v o) as [a|]; [|discriminate]. destruct (dget v o') as [a'|]; [|discriminate].
          destruct (eqd a y); [|discriminate]. destruct (eqd a' y); [|discriminate]. congruence.
        + destruct (Qc_eq_dec (entry (F v) o) 1) as [S1|]; [|discriminate]. destruct (Qc_eq_dec (entry (F v) o') 1) as [S2|]; [|discriminate].
          apply same_value; auto. intros p A.
          assert (A1 : arc (m_graph m1) p v) by (now rewrite Gm).
          assert (Wg : wf_graph g) by apply H.
          assert (A2 : arc (remove_ingoing_edges g (keys d)) p v).
          { apply (remove_ingoing_ok g (keys d) Wg). split; [auto|]. now apply dget_None. }
          assert (Fp : In p (fam (table_of_object F m) v)) by (apply (fam_In m1 D _ vt Net v p Iv); now right).
          apply IH.
          * assert (rank p < rank v); [|lia]. apply R; auto. intros Q. rewrite Q in A. assert (Ac : acyclic g) by apply H. apply (Ac v). now apply walk_one.
          * eapply fam_keys; [exact Net|exact Iv|exact Fp].
          * intros a J [E|W]; apply (Up a J); right; [rewrite E; now apply walk_one|]. eapply walk_end; eauto. }
    rewrite Ho, Ho'. specialize (Main (S (rank v)) v (Nat.lt_succ_diag_r _) Iv).
    assert (E : dget v o = dget v o') by (apply Main; intros a J; apply Up; [auto|now left]).
    assert (One : forall c, NoDup (keys c) -> dget v c <> None -> (consistent [(v, x)] c = true <-> dget v c = Some x)).
    { intros c Nc Dc. split.
      - intros C. destruct (dget v c) as [s|] eqn:Es; [|congruence]. f_equal. symmetry. apply (cons_get c v s Nc Es [(v, x)] C). cbn. now rewrite eqd_refl.
      - intros C. apply cons_intro; [auto|]. intros w s y Es Ey. cbn in Ey. destruct (eqd w v) as [->|]; [|discriminate]. congruence. }
    apply eq_true_iff_eq. rewrite (One o), (One o'); auto; [now rewrite E| |]; rewrite (full_asg D) by auto; discriminate.
  Qed.

  (** *** Queries *)
  Variables (heur : digraph -> list var -> dict var nat -> res (list var)) (so : list (list var) -> list var).
  Hypothesis Hh : is_heuristic heur.
  Hypothesis Hs : is_set_order so.
  Notation ask m1 dos e ti := (counterfactual_query heur so m1 (map fst ti) (DoList dos) e (Some (map snd ti))).

  Lemma answered dos e ti : well_posed g D F X dos e ti -> exists m1, cve_init m = Ok m1 /\ forall xs, states_of D ti xs ->
    answer (ask m1 dos e ti) (combine (copy_names ti) xs) (cf_mass D F X (cf_events e dos ti xs) / mass D F e)%Qc.
  Proof.
    intros (Hd & Fr & Ie & Ht & Ch & Pos).
    destruct (counterfactual_ok m D F vt endo cast H PR X HX heur so Hh Hs (DoList dos) dos eq_refl Hd Fr e Ie (map fst ti) (map snd ti) ti (combine_fs ti) Ht Ch)
      as (m1 & r & E1 & Er & _ & _ & _ & _ & _ & _ & Val).
    - rewrite <- (mass_law m D F vt endo cast H PR X HX). exact Pos.
    - exists m1. split; [auto|]. intros xs S. exists r. split; [auto|]. rewrite (Val xs S).
      now rewrite (mass_law m D F vt endo cast H PR X HX e).
  Qed.
  Lemma equal_masses dos e ti xs dos' e' ti' xs' : interventions g D dos -> targets_ok g X dos ti -> interventions g D dos' -> targets_ok g X dos' ti' ->
    (forall u, In u U -> hap u [] e = true /\ holds u dos ti xs <-> hap u [] e' = true /\ holds u dos' ti' xs') ->
    cf_mass D F X (cf_events e dos ti xs) = cf_mass D F X (cf_events e' dos' ti' xs').
  Proof.
    intros Hd Ht Hd' Ht' E. rewrite !cf_sum. f_equal. apply map_ext_in. intros u Iu.
    replace (forallb (fun dt => hap u (fst dt) (snd dt)) (cf_events e' dos' ti' xs')) with (forallb (fun dt => hap u (fst dt) (snd dt)) (cf_events e dos ti xs)); [reflexivity|].
    apply eq_true_iff_eq. rewrite !events_iff by auto. now apply E.
  Qed.
  Lemma same_answers dos e ti dos' e' ti' (P : list state -> Prop) : well_posed g D F X dos e ti -> well_posed g D F X dos' e' ti' -> mass D F e = mass D F e' ->
    map fst ti = map fst ti' ->
    (forall u xs, In u U -> P xs -> hap u [] e = true /\ holds u dos ti xs <-> hap u [] e' = true /\ holds u dos' ti' xs) ->
    exists m1, cve_init m = Ok m1 /\ forall xs, states_of D ti xs -> P xs -> exists p,
      answer (ask m1 dos e ti) (combine (copy_names ti) xs) p /\ answer (ask m1 dos' e' ti') (combine (copy_names ti') xs) p.
  Proof.
    intros W W' Em Et E. destruct (answered dos e ti W) as (m1 & E1 & A). destruct (answered dos' e' ti' W') as (m1' & E1' & A').
    assert (m1' = m1) as -> by congruence. exists m1. split; [auto|]. intros xs S Px. eexists. split; [now apply A|].
    rewrite (equal_masses dos e ti xs dos' e' ti' xs); try apply W; try apply W'; [|auto]. rewrite Em. apply A'.
    clear -Et S. unfold states_of in *. revert ti' Et. induction S as [|a x ti xs Sa S IH]; intros [|b ti'] Et; try discriminate Et; constructor.
    - injection Et as <- _. exact Sa.
    - apply IH. now injection Et.
  Qed.

  Lemma holds_cons u dos a ti x xs : holds u dos (a :: ti) (x :: xs) <-> (forall d, In (snd a, d) (worlds dos) -> hap u d [(fst a, x)] = true) /\ holds u dos ti xs.
  Proof.
    unfold holds. cbn [combine]. split.
    - intros A. split; [|intros v i y d J; apply A; now right]. intros d W. destruct a as [v i]. apply (A v i); [now left|exact W].
    - intros [A B] v i y d [E|J] W; [|eauto]. injection E as -> ->. now apply A.
  Qed.
  Lemma moved_fst R dos dos' ti ti' : moved R dos dos' ti ti' -> map fst ti = map fst ti'.
  Proof. intros M. induction M as [|a b ti ti' [E _] M IH]; cbn; congruence. Qed.
  Lemma moved_holds (R : var -> obs -> obs -> Prop) dos dos' ti ti' xs u :
    (forall v i, In (v, i) ti -> In v (keys D)) -> moved R dos dos' ti ti' ->
    (forall v d d' x, In v (keys D) -> In d dos -> In d' dos' -> R v d d' -> hap u d [(v, x)] = hap u d' [(v, x)]) ->
    (holds u dos ti xs <-> holds u dos' ti' xs).
  Proof.
    intros K M HR. revert xs. induction M as [|[v i] [v' i'] ti ti' (E & d & d' & W & W' & Rd) M IH]; intros xs; [split; intros _ w j y c []|].
    destruct xs as [|x xs]; [split; intros _ w j y c []|]. rewrite !holds_cons. cbn [fst snd] in *. subst v'.
    rewrite (IH (fun w j J => K w j (or_intror J)) xs).
    assert (Q : hap u d [(v, x)] = hap u d' [(v, x)]) by (apply HR; [apply (K v i); now left| | |auto]; eapply worlds_in; eauto).
    split; intros [A B]; (split; [|exact B]); intros c Wc; [rewrite (worlds_fun _ _ _ _ Wc W'), <- Q|rewrite (worlds_fun _ _ _ _ Wc W), Q]; auto.
  Qed.

  Lemma same_worlds dos e ti dos' e' ti' : well_posed g D F X dos e ti -> well_posed g D F X dos' e' ti' ->
    same_obs e e' -> moved (fun _ => same_obs) dos dos' ti ti' ->
    exists m1, cve_init m = Ok m1 /\ forall xs, states_of D ti xs -> exists p,
      answer (ask m1 dos e ti) (combine (copy_names ti) xs) p /\ answer (ask m1 dos' e' ti') (combine (copy_names ti') xs) p.
  Proof.
    intros W W' Ee M. destruct (same_answers dos e ti dos' e' ti' (fun _ => True) W W') as (m1 & E1 & A).
    - now apply mass_same.
    - eapply moved_fst; eauto.
    - intros u xs Iu _. rewrite (hap_event [] u e e' Ee), (moved_holds (fun _ => same_obs) dos dos' ti ti' xs u); [reflexivity| |exact M|].
      + intros v i J. apply (node_keys m D F vt endo cast H). destruct W as (_ & _ & _ & (_ & _ & Ht) & _). now apply (Ht v i).
      + intros v d d' x _ _ _ E. now apply hap_same.
    - exists m1. split; [auto|]. intros xs S. now apply A.
  Qed.
  Lemma idle_worlds dos e ti dos' ti' : well_posed g D F X dos e ti -> well_posed g D F X dos' e ti' ->
    moved (fun v d d' => idle_for g v d d' \/ idle_for g v d' d) dos dos' ti ti' ->
    exists m1, cve_init m = Ok m1 /\ forall xs, states_of D ti xs -> exists p,
      answer (ask m1 dos e ti) (combine (copy_names ti) xs) p /\ answer (ask m1 dos' e ti') (combine (copy_names ti') xs) p.
  Proof.
    intros W W' M. destruct (same_answers dos e ti dos' e ti' (fun _ => True) W W') as (m1 & E1 & A).
    - reflexivity.
    - eapply moved_fst; eauto.
    - intros u xs Iu _. rewrite (moved_holds (fun v d d' => idle_for g v d d' \/ idle_for g v d' d) dos dos' ti ti' xs u); [reflexivity| |exact M|].
      + intros v i J. apply (node_keys m D F vt endo cast H). destruct W as (_ & _ & _ & (_ & _ & Ht) & _). now apply (Ht v i).
      + intros v d d' x Iv Id Id' [E|E]; [|symmetry]; apply exclusion; auto; try (now apply (proj1 W)); now apply (proj1 W').
    - exists m1. split; [auto|]. intros xs S. now apply A.
  Qed.

  Lemma In_moved (ti ti' : list (var * nat)) (xs : list state) i j v k x : Forall2 (fun a b => a = b \/ fst a = fst b /\ snd a = i /\ snd b = j) ti ti' ->
    In ((v, k), x) (combine ti xs) -> In ((v, k), x) (combine ti' xs) \/ k = i /\ In ((v, j), x) (combine ti' xs).
  Proof.
    intros M. revert xs. induction M as [|[w l] [w' l'] ti ti' C M IH]; intros xs J; [destruct J|]. destruct xs as [|y xs]; [destruct J|].
    cbn [combine] in *. destruct J as [E|J].
    - injection E as -> -> ->. destruct C as [E|(E1 & E2 & E3)]; [injection E as <- <-; left; now left|]. cbn in *. subst. right. split; [auto|now left].
    - destruct (IH xs J) as [K|[K1 K2]]; [left; now right|right; split; [auto|now right]].
  Qed.
  Lemma composed dos e ti ti' i j d w : well_posed g D F X dos e ti -> well_posed g D F X dos e ti' ->
    In (i, d) (worlds dos) -> In (j, w ++ d) (worlds dos) ->
    Forall2 (fun a b => a = b \/ fst a = fst b /\ snd a = i /\ snd b = j) ti ti' ->
    exists m1, cve_init m = Ok m1 /\ forall xs, states_of D ti xs -> (forall v s, dget v w = Some s -> In ((v, i), s) (combine ti xs)) -> exists p,
      answer (ask m1 dos e ti) (combine (copy_names ti) xs) p /\ answer (ask m1 dos e ti') (combine (copy_names ti') xs) p.
  Proof.
    intros W W' Wi Wj M.
    apply (same_answers dos e ti dos e ti' (fun xs => forall v s, dget v w = Some s -> In ((v, i), s) (combine ti xs)) W W'); [reflexivity| |].
    { clear -M. induction M as [|a b ti ti' C M IH]; [reflexivity|]. cbn. f_equal; [|auto]. destruct C as [->|[C _]]; auto. }
    intros u xs Iu Hw. 
    destruct (proj1 W d (worlds_in _ _ _ Wi)) as (Kd & Nd & Id). destruct (proj1 W (w ++ d) (worlds_in _ _ _ Wj)) as (Kwd & Nwd & Iwd).
    assert (Nw : NoDup (keys w)). { unfold keys in *. rewrite map_app in Nwd. now apply NoDup_app_l in Nwd. }
    assert (Iw : incl (keys w) (keys D)).
    { intros v J. apply (node_keys m D F vt endo cast H), Iwd. unfold keys. rewrite map_app. apply in_or_app. now left. }
    assert (Hw' : forall v s, dget v w = Some s -> In ((v, i), s) (combine ti' xs)).
    { intros v s Es. destruct (In_moved ti ti' xs i j v i s M (Hw v s Es)) as [J|[_ J]]; [exact J|]. exfalso. apply in_combine_l in J.
      destruct W' as (_ & _ & _ & (_ & _ & Ht) & _). destruct (Ht v j J) as (_ & _ & d' & Wd & N). apply N. rewrite (worlds_fun _ _ _ _ Wd Wj).
      unfold keys. rewrite map_app. apply in_or_app. left. apply dget_keys. eauto. }
    assert (Key : forall ti0, (forall v s, dget v w = Some s -> In ((v, i), s) (combine ti0 xs)) -> holds u dos ti0 xs -> forall t, hap u (w ++ d) t = hap u d t).
    { intros ti0 H0 A t. apply (composition m D F vt endo cast H PR X HX); auto. apply (hap_pairs d u); auto.
      intros v x J. apply (A v i x d); [|exact Wi]. apply H0. now apply In_dget. }
    assert (Back : Forall2 (fun a b => a = b \/ fst a = fst b /\ snd a = j /\ snd b = i) ti' ti).
    { clear -M. induction M as [|a b ti ti' C M IH]; constructor; [|exact IH]. destruct C as [->|(A & B & C)]; [now left|right; now repeat split]. }
    split; intros [He A]; (split; [exact He|]); intros v k x c J Wk.
    - destruct (In_moved ti' ti xs j i v k x Back J) as [K|[-> K]]; [now apply (A v k x c)|].
      rewrite (worlds_fun _ _ _ _ Wk Wj), (Key ti Hw A). now apply (A v i x d).
    - destruct (In_moved ti ti' xs i j v k x M J) as [K|[-> K]]; [now apply (A v k x c)|].
      rewrite (worlds_fun _ _ _ _ Wk Wi), <- (Key ti' Hw' A). now apply (A v j x (w ++ d)).
  Qed.

  (** *** One world *)
  Lemma reach_cut W x y : reach (remove_ingoing_edges g W) x y -> reach g x y.
  Proof.
    assert (Wg : wf_graph g) by apply H. intros [E|J]; [now left|right].
    induction J as [x y A|x y z A J IH]; apply (remove_ingoing_ok g W Wg) in A as [A _]; [now apply walk_one|eapply walk_step; eauto].
  Qed.
  Lemma known_nil' : known D [].
  Proof. intros v l s _ E. discriminate E. Qed.
  (** events about variables that the intervention does not act on *)
  Lemma unaffected d e u : known D d -> NoDup (keys d) -> In u U -> known D e -> NoDup (keys e) -> incl (keys e) (keys D) -> upstream g (keys d) (keys e) ->
    hap u d e = hap u [] e.
  Proof.
    intros Kd Nd Iu Ke Ne Ie Up. apply eq_true_iff_eq. rewrite (hap_pairs d u e), (hap_pairs [] u e); auto using known_nil'; try constructor.
    - intros A v x J. rewrite (exclusion [] d); auto using known_nil'; try constructor.
      + apply Ie. apply in_map_iff. now exists (v, x).
      + exists d. split; [intros w; now rewrite app_nil_r|]. intros a b Ia [<-|[]] R. apply reach_cut in R. apply (Up a v Ia); [|exact R]. apply in_map_iff. now exists (v, x).
    - intros A v x J. rewrite <- (exclusion [] d); auto using known_nil'; try constructor.
      + apply Ie. apply in_map_iff. now exists (v, x).
      + exists d. split; [intros w; now rewrite app_nil_r|]. intros a b Ia [<-|[]] R. apply reach_cut in R. apply (Up a v Ia); [|exact R]. apply in_map_iff. now exists (v, x).
  Qed.

  Section One.
    Variables (d : obs) (T : list var).
    Hypothesis Sd : states_for g D d.
    Hypothesis Cd : forall v, In v (keys d) -> ~ In v X /\ keeps_child g d v.
    Hypothesis Fr : fresh_names g X [d].
    Hypothesis NT : NoDup T.
    Hypothesis Te : T <> [].
    Hypothesis IT : incl T (nodes g).
    Hypothesis DT : forall v, In v T -> ~ In v X /\ ~ In v (keys d).

    Lemma one_world e xs : incl (keys e) (nodes g) -> mass D F e <> 0%Qc -> length xs = length T -> assigns D T (combine T xs) ->
      exists m1, cve_init m = Ok m1 /\ answer (counterfactual_query heur so m1 T (DoDict d) e (Some (map (fun _ => 1) T)))
        (combine (copy_names (map (fun v => (v, 1)) T)) xs) (cf_mass D F X [([], e); (d, combine T xs)] / mass D F e)%Qc.
    Proof.
      intros Ie Pos L A.
      destruct (counterfactual_ok m D F vt endo cast H PR X HX heur so Hh Hs (DoDict d) [d] eq_refl) with (e := e) (ts := T) (sub := map (fun _ : var => 1) T) (ti := map (fun v : var => (v, 1)) T)
        as (m1 & r & E1 & Er & _ & _ & _ & _ & _ & _ & Val); auto.
      { intros d' [<-|[]]. exact Sd. }
      { now rewrite combine_one. }
      { split; [apply FinFun.Injective_map_NoDup; [intros a b E; now injection E|auto]|]. split; [destruct T; [congruence|discriminate]|].
        intros v i J. apply in_map_iff in J as (w & E & J). injection E as <- <-. split; [auto|]. split; [now apply DT|]. exists d. split; [now left|now apply DT]. }
      { intros d' v [<-|[]] J. auto. }
      { rewrite <- (mass_law m D F vt endo cast H PR X HX). exact Pos. }
      exists m1. split; [auto|]. exists r. split; [auto|]. rewrite Val.
      - rewrite (mass_law m D F vt endo cast H PR X HX e). unfold cf_events, worlds. cbn [length seq combine map fst snd]. now rewrite (world_one T xs L).
      - assert (P : forall v x, In (v, x) (combine T xs) -> exists l, In (v, l) D /\ In x l).
        { intros v x J. assert (Jv : In v T) by (apply in_combine_l in J; auto).
          assert (K := IT v Jv). apply (node_keys m D F vt endo cast H), keys_In in K as (l & K). exists l. split; [auto|].
          destruct (proj2 A v l) as (s & Es & Js); [apply filter_In; split; [auto|now apply mem_In]|].
          rewrite (In_dget v x (combine T xs)) in Es; [congruence| |auto]. rewrite (proj1 A). auto. }
        clear -L P. revert xs L P. induction T as [|v T' IH]; intros [|x xs] L P; try discriminate L; constructor.
        + apply P. now left.
        + apply IH; [now injection L|]. intros w y J. apply P. now right.
    Qed.

    Lemma nondescendants e : states_for g D e -> (forall v, In v T -> ~ In v (keys e)) -> upstream g (keys d) (keys e) -> mass D F e <> 0%Qc ->
      exists m1, cve_init m = Ok m1 /\ forall xs, length xs = length T -> assigns D T (combine T xs) ->
        exists p, answer (counterfactual_query heur so m1 T (DoDict d) e (Some (map (fun _ => 1) T))) (combine (copy_names (map (fun v => (v, 1)) T)) xs) p /\
                  answer (causal_query heur so m1 T (DoDict d) e) (combine T xs) p.
    Proof.
      intros (Ke & Ne & Ie) Dte Up Pos.
      assert (Kx : forall v, In v (keys d) -> ~ In v X) by (intros v J; now apply Cd).
      assert (Ed : forall t, (forall v, In v (keys t) -> ~ In v (keys e)) -> do_mass D F d (t ++ e) = cf_mass D F X [([], e); (d, t)]).
      { intros t Dt. rewrite (do_units m D F vt endo cast H PR X HX d (t ++ e)) by (auto; apply Sd). rewrite !cf_sum. f_equal. apply map_ext_in. intros u Iu.
        cbn [forallb fst snd]. rewrite !andb_true_r.
        rewrite <- (unaffected d e u); auto; try apply Sd; [|intros v J; apply (node_keys m D F vt endo cast H); auto].
        destruct (units m D F vt endo cast H PR X HX d u (proj1 Sd) (proj1 (proj2 Sd)) Iu) as (o & _ & _ & _ & _ & Ho). rewrite !Ho.
        rewrite (consistent_both t e o Dt). now rewrite andb_comm. }
      assert (Ee : do_mass D F d e = mass D F e).
      { assert (Q := Ed [] ltac:(intros v [])). cbn [app] in Q. rewrite Q, (mass_law m D F vt endo cast H PR X HX e), !cf_sum. f_equal. apply map_ext_in. intros u Iu.
        cbn [forallb fst snd]. rewrite !andb_true_r.
        destruct (units m D F vt endo cast H PR X HX d u (proj1 Sd) (proj1 (proj2 Sd)) Iu) as (o & _ & _ & _ & _ & Ho). rewrite (Ho []).
        replace (consistent [] o) with true by (symmetry; apply forallb_forall; reflexivity). now rewrite andb_true_r. }
      destruct (convert_ok m D F vt endo cast H PR) as (m1 & _ & E1 & _). exists m1. split; [auto|]. intros xs L A.
      destruct (one_world e xs Ie Pos L A) as (m1' & E1' & A1). rewrite E1 in E1'. injection E1' as <-.
      destruct (asked m D F vt endo cast H PR heur so Hh Hs d e T (combine T xs)) as (m1' & E1' & A2); auto.
      { intros v J K. apply (Up v v K J). now left. }
      { intros v J. split; [now apply DT|now apply Dte]. }
      { now rewrite Ee. }
      rewrite E1 in E1'. injection E1' as <-. rewrite Ed, Ee in A2; [eauto|]. intros v J. apply Dte. now rewrite (proj1 A) in J.
    Qed.

    Lemma sum_single {A} (L : list A) (p : A -> bool) (a : A) (c : Qc) : NoDup L -> In a L -> (forall x, In x L -> p x = true <-> x = a) ->
      qsum (map (fun x => if p x then c else 0%Qc) L) = c.
    Proof.
      intros N I E. induction L as [|x L IH]; [destruct I|]. inversion N as [|? ? N1 N2]; subst.
      change (qsum (map (fun x => if p x then c else 0%Qc) (x :: L))) with ((if p x then c else 0%Qc) + qsum (map (fun x => if p x then c else 0%Qc) L))%Qc.
      destruct (p x) eqn:Px.
      - apply E in Px; [|now left]. subst x. replace (qsum (map (fun x => if p x then c else 0%Qc) L)) with 0%Qc; [ring|]. symmetry.
        assert (Z : forall x, In x L -> p x = false).
        { intros x J. destruct (p x) eqn:Q; [|auto]. apply E in Q; [|now right]. subst. contradiction. }
        clear -Z. induction L as [|x L IH]; [reflexivity|]. cbn. rewrite (Z x (or_introl eq_refl)), IH by (intros y J; apply Z; now right). ring.
      - rewrite IH; [ring|auto| |intros y J; apply E; now right]. destruct I as [<-|I]; [|auto]. rewrite (proj2 (E x (or_introl eq_refl)) eq_refl) in Px. discriminate.
    Qed.
    Lemma average Z : keys (pick Z D) = Z -> Z <> [] -> (forall z, assigns D Z z -> mass D F z <> 0%Qc) ->
      forall xs, length xs = length T -> assigns D T (combine T xs) -> exists m1 pz pt, cve_init m = Ok m1 /\
        (forall z, assigns D Z z -> answer (causal_query heur so m1 Z (DoDict []) []) z (pz z) /\
           answer (counterfactual_query heur so m1 T (DoDict d) z (Some (map (fun _ => 1) T))) (combine (copy_names (map (fun v => (v, 1)) T)) xs) (pt z)) /\
        answer (causal_query heur so m1 T (DoDict d) []) (combine T xs) (total (map (fun z => pz z * pt z)%Qc (all_assignments (pick Z D)))).
    Proof.
      intros EZ Ze Pos xs L A. destruct (convert_ok m D F vt endo cast H PR) as (m1 & endo1 & E1 & C1 & Gm & _ & _ & _ & St & _).
      destruct (ordered m D F vt endo cast H Z EZ) as [NZ IZ].
      exists m1, (fun z => mass D F z), (fun z => (cf_mass D F X [([], z); (d, combine T xs)] / mass D F z)%Qc). split; [auto|]. split.
      { intros z Az. split.
        - destruct (plainly m D F vt endo cast H PR heur so Hh Hs [] Z z) as (m1' & E1' & A1); auto.
          { split; [apply known_nil'|]. split; [constructor|intros v []]. }
          rewrite E1 in E1'. injection E1' as <-. now rewrite do_none in A1.
        - destruct (one_world z xs) as (m1' & E1' & A1); auto; [now rewrite (proj1 Az)|]. rewrite E1 in E1'. injection E1' as <-. exact A1. }
      destruct (plainly m D F vt endo cast H PR heur so Hh Hs d T (combine T xs)) as (m1' & E1' & A1); auto.
      { intros v J. now apply DT. }
      rewrite E1 in E1'. injection E1' as <-.
      replace (total _) with (do_mass D F d (combine T xs)); [exact A1|]. symmetry.
      transitivity (qsum (map (fun z => qsum (map (fun u => if hap u [] z then (if hap u d (combine T xs) then joint F (keys (pick X D)) u else 0%Qc) else 0%Qc) U)) (all_assignments (pick Z D)))).
      { rewrite total_qsum. f_equal. apply map_ext_in. intros z Iz. assert (Az := enumerates m D F vt endo cast H Z z EZ Iz). specialize (Pos z Az).
        transitivity (cf_mass D F X [([], z); (d, combine T xs)]); [cbv beta; now rewrite Qcmult_div_r by exact Pos|].
        rewrite cf_sum. f_equal. apply map_ext_in. intros u _. cbn [forallb fst snd]. rewrite andb_true_r. destruct (hap u [] z), (hap u d (combine T xs)); reflexivity. }
      rewrite (qsum_swap (fun z u => if hap u [] z then (if hap u d (combine T xs) then joint F (keys (pick X D)) u else 0%Qc) else 0%Qc)).
      rewrite (do_units m D F vt endo cast H PR X HX d) by (auto; try apply Sd; intros v J; now apply Cd). rewrite cf_sum. f_equal. apply map_ext_in. intros u Iu.
      cbn [forallb fst snd]. rewrite andb_true_r.
      destruct (units m D F vt endo cast H PR X HX [] u known_nil' (NoDup_nil _) Iu) as (o & Io & _ & _ & _ & Ho).
      assert (Net : network m1 D (table_of_object F m) vt).
      { apply (causal_network m1 D _ vt endo1 true C1). intros w J. apply St. now rewrite <- Gm. }
      destruct (unit_all m1 D _ vt Net Z o Io) as [I1 I2].
      apply (sum_single (all_assignments (pick Z D)) (fun z => hap u [] z) (unit_of Z o)); auto.
      - apply all_assignments_NoDup. intros v l J. apply filter_In in J as [J _]. apply (proj2 WD v l J).
      - intros z Iz. rewrite Ho. split; [|intros ->; exact I2]. intros C. symmetry. now apply (unit_eq m1 D _ vt Net Z z o).
    Qed.
  End One.
End Axioms.
