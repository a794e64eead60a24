(** Sums of products of conditional tables over sets of variables. *)

From Coq Require Import String Bool Arith ZArith QArith Qcanon Lia Permutation List.
From Verif Require Import PyBase PyFacts Num DomainModel Spec DomainFacts NumFacts PropFacts1 FactorFacts FactorFacts3 BigSum.
From Coq Require Import List.
Import ListNotations.
Local Open Scope nat_scope.
Local Arguments eqd : simpl never.

Fixpoint qprod (l : list Qc) : Qc := match l with [] => 1%Qc | x :: r => (x * qprod r)%Qc end.

Lemma qprod_app l1 l2 : qprod (l1 ++ l2) = (qprod l1 * qprod l2)%Qc.
Proof. induction l1; simpl; [ring|]. rewrite IHl1. ring. Qed.
Lemma qprod_perm l1 l2 : Permutation l1 l2 -> qprod l1 = qprod l2.
Proof. induction 1; simpl; try congruence. ring. Qed.
Lemma qprod_zero l : In 0%Qc l -> qprod l = 0%Qc.
Proof. induction l as [|x l IH]; [intros []|]. intros [-> | I]; simpl; [ring|]. rewrite IH by auto. ring. Qed.

Lemma bsum_qsum l : bsum 0%Qc Qcplus l = qsum l.
Proof. induction l; simpl; congruence. Qed.
Lemma qsum_scale {A} (c : Qc) (f : A -> Qc) l : qsum (map (fun x => c * f x)%Qc l) = (c * qsum (map f l))%Qc.
Proof. induction l; simpl; [ring|]. rewrite IHl. ring. Qed.
Lemma qsum_app l1 l2 : qsum (l1 ++ l2) = (qsum l1 + qsum l2)%Qc.
Proof. induction l1; simpl; [ring|]. rewrite IHl1. ring. Qed.
Lemma qsum_perm l1 l2 : Permutation l1 l2 -> qsum l1 = qsum l2.
Proof. induction 1; simpl; try congruence. ring. Qed.

Section Sums.
  Variable D : domain.
  Hypothesis WD : wf_dom D.

  (** Sum over all states of the variables [S] of the domain. *)
  Definition sm (S : list var) (g : asg -> Qc) (a : asg) : Qc := sumdom 0%Qc Qcplus (pick S D) g a.

  Lemma pick_set S T : (forall v, In v (keys D) -> (In v S <-> In v T)) -> pick S D = pick T D.
  Proof.
    intros E. unfold pick. apply filter_ext_in. intros [v l] I. cbn.
    assert (K : In v (keys D)) by (apply (in_map fst) in I; auto). specialize (E v K).
    destruct (mem v S) eqn:A, (mem v T) eqn:B; auto.
    - apply mem_In in A. apply mem_nIn in B. tauto.
    - apply mem_nIn in A. apply mem_In in B. tauto.
  Qed.
  Lemma sm_set S T g a : (forall v, In v (keys D) -> (In v S <-> In v T)) -> sm S g a = sm T g a.
  Proof. intros E. unfold sm. now rewrite (pick_set S T E). Qed.

  Lemma keys_pick S v : In v (keys (pick S D)) <-> In v (keys D) /\ In v S.
  Proof.
    unfold pick, keys. rewrite !in_map_iff. split.
    - intros ([w l] & <- & I). apply filter_In in I as [I M]. cbn in *. apply mem_In in M. split; [|auto]. exists (w, l). auto.
    - intros [([w l] & <- & I) M]. exists (w, l). split; [auto|]. apply filter_In. split; [auto|]. cbn. now apply mem_In.
  Qed.

  Lemma sm_none S g a : ext_fun g -> (forall v, In v S -> ~ In v (keys D)) -> sm S g a = g a.
  Proof.
    intros E N. unfold sm. rewrite pick_none by auto. apply sumdom_nil; [apply Qcplus_comm|apply Qcplus_0_l|auto].
  Qed.
  Lemma sm_nil g a : ext_fun g -> sm [] g a = g a.
  Proof. intros E. apply sm_none; auto. Qed.

  Lemma over_assign_valid S o a : In o (all_assignments (pick S D)) -> valid D a -> valid D (over o a).
  Proof.
    intros I V v l J. assert (W := wf_pick S D WD).
    apply (all_assignments_In_full _ _ (proj1 W)) in I as [K F]. unfold over.
    destruct (dget v o) as [s|] eqn:E; [|now apply V].
    assert (In v (keys (pick S D))) by (rewrite <- K; apply dget_keys; eauto).
    apply keys_pick in H as [_ Iv]. destruct (F v l) as (s' & E' & Is).
    { unfold pick. apply filter_In. split; [auto|]. cbn. now apply mem_In. }
    congruence.
  Qed.
  Lemma over_assign_out S o a w : In o (all_assignments (pick S D)) -> ~ In w S -> over o a w = a w.
  Proof.
    intros I N. unfold over. destruct (dget w o) as [s|] eqn:E; [|auto]. exfalso.
    apply all_assignments_keys in I. assert (In w (keys o)) by (apply dget_keys; eauto). rewrite I in H.
    apply keys_pick in H. tauto.
  Qed.

  Lemma sm_ext S g h a : valid D a ->
    (forall b, valid D b -> (forall w, ~ In w S -> b w = a w) -> g b = h b) -> sm S g a = sm S h a.
  Proof.
    intros V E. unfold sm. apply sumdom_ext. intros o I. apply E.
    - eapply over_assign_valid; eauto.
    - intros w N. eapply over_assign_out; eauto.
  Qed.

  Lemma sm_ext_fun S g : ext_fun g -> ext_fun (sm S g).
  Proof. intros E. apply sumdom_ext_fun. auto. Qed.

  Lemma sm_dep S g vs : dep vs g -> dep (filter (fun v => negb (mem v (keys (pick S D)))) vs) (sm S g).
  Proof. intros E. apply sumdom_dep. auto. Qed.

  (** a sum does not depend on the variables summed over *)
  Lemma sm_same S g a b : ext_fun g -> (forall w, ~ In w S \/ ~ In w (keys D) -> a w = b w) -> sm S g a = sm S g b.
  Proof.
    intros E H. unfold sm, sumdom. f_equal. apply map_ext_in. intros o I. apply E. intros w. unfold over.
    destruct (dget w o) eqn:Eo; [auto|]. apply H.
    destruct (in_dec string_dec w S) as [J|J]; [|auto]. right. intros K.
    apply all_assignments_keys in I. assert (N : ~ In w (keys o)) by (now apply dget_None). apply N. rewrite I.
    apply keys_pick. auto.
  Qed.

  Lemma pick_split S T : (forall v, In v S -> In v T -> In v (keys D) -> False) ->
    Permutation (pick (S ++ T) D) (pick S D ++ pick T D).
  Proof.
    intros N. unfold pick. assert (G : forall d, incl d D -> Permutation (filter (fun vl => mem (fst vl) (S ++ T)) d)
      (filter (fun vl => mem (fst vl) S) d ++ filter (fun vl => mem (fst vl) T) d)); [|apply G, incl_refl].
    induction d as [|[v l] d IH]; intros I; [auto|]. cbn [filter fst].
    assert (Id : incl d D) by (intros x J; apply I; now right). specialize (IH Id).
    assert (K : In v (keys D)). { apply (in_map fst D (v, l)). apply I. now left. }
    assert (M : mem v (S ++ T) = mem v S || mem v T) by apply existsb_app. rewrite M.
    destruct (mem v S) eqn:A, (mem v T) eqn:B; cbn [orb].
    - exfalso. apply mem_In in A, B. eauto.
    - cbn [app]. now constructor.
    - apply Permutation_cons_app. auto.
    - auto.
  Qed.

  Lemma NoDup_keys_app (d1 d2 : domain) : NoDup (keys d1) -> NoDup (keys d2) -> (forall v, In v (keys d1) -> ~ In v (keys d2)) ->
    NoDup (keys (d1 ++ d2)).
  Proof.
    intros N1 N2 H. unfold keys in *. rewrite map_app. apply NoDup_app_iff. auto.
  Qed.

  Lemma sm_app S T g a : ext_fun g -> (forall v, In v S -> In v T -> In v (keys D) -> False) ->
    sm (S ++ T) g a = sm S (sm T g) a.
  Proof.
    intros E N. unfold sm.
    assert (ND : NoDup (keys (pick S D ++ pick T D))).
    { apply NoDup_keys_app; [apply wf_pick; auto|apply wf_pick; auto|]. intros v I J. apply keys_pick in I, J.
      destruct I, J. eauto. }
    rewrite (sumdom_perm 0%Qc Qcplus Qcplus_comm Qcplus_assoc Qcplus_0_l (pick (S ++ T) D) (pick S D ++ pick T D)); auto.
    - apply sumdom_app; auto using Qcplus_comm, Qcplus_assoc, Qcplus_0_l.
    - apply wf_pick; auto.
    - apply pick_split; auto.
  Qed.

  Lemma sm_scale S g h a : (forall b, (forall w, ~ In w S -> b w = a w) -> g b = g a) ->
    sm S (fun b => g b * h b)%Qc a = (g a * sm S h a)%Qc.
  Proof.
    intros C. unfold sm, sumdom. rewrite !bsum_qsum, <- qsum_scale. f_equal. apply map_ext_in. intros o I.
    rewrite C; auto. intros w N. eapply over_assign_out; eauto.
  Qed.
  Lemma sm_scale_r S g h a : (forall b, (forall w, ~ In w S -> b w = a w) -> h b = h a) ->
    sm S (fun b => g b * h b)%Qc a = (sm S g a * h a)%Qc.
  Proof.
    intros C. transitivity (sm S (fun b => h b * g b)%Qc a).
    - unfold sm, sumdom. f_equal. apply map_ext. intros. ring.
    - rewrite sm_scale by auto. ring.
  Qed.

  Lemma sm_one v l g a : ext_fun g -> In (v, l) D -> sm [v] g a = qsum (map (fun s => g (upd a v s)) l).
  Proof.
    intros E I. unfold sm. rewrite (pick_one v l) by (try apply WD; auto).
    rewrite sumdom_cons; auto using Qcplus_comm, Qcplus_assoc, Qcplus_0_l.
    rewrite bsum_qsum. f_equal. apply map_ext. intros s. apply sumdom_nil; auto using Qcplus_comm, Qcplus_0_l.
  Qed.
End Sums.

Section Sums2.
  Variable D : domain.
  Hypothesis WD : wf_dom D.
  Notation sm := (sm D).

  Lemma dep_out {M} vs (g : asg -> M) S a b : dep vs g -> (forall v, In v vs -> In v S -> False) ->
    (forall w, ~ In w S -> b w = a w) -> g b = g a.
  Proof. intros G N E. apply G. intros w I. apply E. intros J. eauto. Qed.

  (** A product of independent sums is the sum of the product. *)
  Lemma sm_mul S T g h vg vh a : dep vg g -> dep vh h ->
    (forall v, In v vg -> In v T -> False) -> (forall v, In v vh -> In v S -> False) ->
    (forall v, In v S -> In v T -> False) ->
    (sm S g a * sm T h a = sm (S ++ T) (fun b => g b * h b) a)%Qc.
  Proof.
    intros G H N1 N2 N3. assert (Eg := dep_ext _ _ G). assert (Eh := dep_ext _ _ H).
    assert (Egh : ext_fun (fun b => g b * h b)%Qc). { intros x y K. now rewrite (Eg x y K), (Eh x y K). }
    rewrite sm_app; [|auto|auto|intros v I J _; eauto].
    rewrite <- (sm_scale_r D S g (sm T h) a).
    2:{ intros b E. apply sm_dep with (vs := vh) (S := T) (D := D) in H. apply H. intros w I. apply filter_In in I as [I _].
        apply E. intros J. eauto. }
    unfold NetSem.sm at 1 3. unfold sumdom. f_equal. apply map_ext. intros o.
    symmetry. apply sm_scale. intros b E. eapply dep_out; eauto.
  Qed.
End Sums2.

Section Net.
  Variable D : domain.
  Hypothesis WD : wf_dom D.
  Notation sm := (sm D).
  Variable P : var -> asg -> Qc.
  Variable fam : var -> list var.
  Variable rank : var -> nat.
  Hypothesis P_dep : forall n, In n (keys D) -> dep (fam n) (P n).
  Hypothesis fam_rank : forall n p, In n (keys D) -> In p (fam n) -> p <> n -> rank p < rank n.
  Hypothesis P_one : forall n a, In n (keys D) -> valid D a -> sm [n] (P n) a = 1%Qc.

  Definition prods (S : list var) (a : asg) : Qc := qprod (map (fun n => P n a) S).

  Lemma prods_cons n S a : prods (n :: S) a = (P n a * prods S a)%Qc.
  Proof. reflexivity. Qed.
  Lemma prods_app S T a : prods (S ++ T) a = (prods S a * prods T a)%Qc.
  Proof. unfold prods. rewrite map_app. apply qprod_app. Qed.
  Lemma prods_perm S T a : Permutation S T -> prods S a = prods T a.
  Proof. intros H. apply qprod_perm. now apply Permutation_map. Qed.

  Lemma prods_dep S : incl S (keys D) -> dep (flat_map fam S) (prods S).
  Proof.
    intros I a b E. unfold prods. f_equal. apply map_ext_in. intros n J. apply P_dep; [auto|].
    intros w K. apply E. apply in_flat_map. eauto.
  Qed.
  Lemma prods_ext S : incl S (keys D) -> ext_fun (prods S).
  Proof. intros I. eapply dep_ext. now apply prods_dep. Qed.

  Lemma max_rank (S : list var) : S <> [] -> exists z, In z S /\ forall n, In n S -> rank n <= rank z.
  Proof.
    induction S as [|x S IH]; [congruence|]. intros _. destruct S as [|y S].
    - exists x. split; [now left|]. intros n [-> | []]. auto.
    - destruct IH as (z & I & M); [discriminate|]. destruct (le_lt_dec (rank x) (rank z)).
      + exists z. split; [now right|]. intros n [-> | J]; auto.
      + exists x. split; [now left|]. intros n [-> | J]; [auto|]. specialize (M n J). lia.
  Qed.

  (** The product of the conditional tables of any set of nodes sums to one
      over the states of these nodes. *)
  Lemma sum_one : forall k S a, length S = k -> NoDup S -> incl S (keys D) -> valid D a -> sm S (prods S) a = 1%Qc.
  Proof.
    induction k as [|k IH]; intros S a L N I V.
    - destruct S; [|discriminate]. rewrite sm_nil; [reflexivity|]. intros x y _. reflexivity.
    - destruct (max_rank S) as (z & Iz & M); [intros ->; discriminate|].
      destruct (in_split z S Iz) as (S1 & S2 & ->).
      pose proof (NoDup_remove _ _ _ N) as [N1 Nz]. set (T := S1 ++ S2) in *.
      assert (IT : incl T (keys D)). { intros x J. apply I. apply in_app_iff. apply in_app_iff in J. destruct J; [auto|]. right. now right. }
      assert (Zk : In z (keys D)) by (apply I; auto).
      assert (LT : length T = k). { unfold T. rewrite app_length in *. cbn in L. lia. }
      assert (NZ : forall n, In n T -> ~ In z (fam n)).
      { intros n J K. assert (n <> z) by (intros ->; auto). assert (rank z < rank n) by (apply fam_rank; auto).
        assert (rank n <= rank z); [|lia]. apply M. apply in_app_iff. apply in_app_iff in J. destruct J; [auto|]. right. now right. }
      rewrite (sm_set D (S1 ++ z :: S2) (T ++ [z])).
      2:{ intros v _. unfold T. rewrite !in_app_iff. cbn. tauto. }
      rewrite sm_app; [|auto|apply prods_ext; auto|].
      2:{ intros v J [<- | []] _. auto. }
      rewrite (sm_ext D WD T (sm [z] (prods (S1 ++ z :: S2))) (prods T) a V); [now apply IH|].
      intros b Vb _. rewrite <- (Qcmult_1_r (prods T b)), <- (P_one z b Zk Vb).
      rewrite <- sm_scale.
      + apply sm_ext; auto. intros c _ _. rewrite (prods_perm (S1 ++ z :: S2) (z :: T)) by (symmetry; apply Permutation_middle).
        rewrite prods_cons. ring.
      + intros c E. eapply dep_out; [apply prods_dep; auto| |exact E].
        intros v J [<- | []]. apply in_flat_map in J as (n & J & K). eapply NZ; eauto.
  Qed.
  Lemma sum_one' S a : NoDup S -> incl S (keys D) -> valid D a -> sm S (prods S) a = 1%Qc.
  Proof. intros. now apply (sum_one (length S)). Qed.

  (** Nodes that no other listed node depends on can be summed out. *)
  Lemma barren_sum N B S a : NoDup (N ++ B) -> incl (N ++ B) (keys D) -> valid D a ->
    (forall n p, In n N -> In p (fam n) -> ~ In p B) -> (forall v, In v S -> ~ In v B) ->
    sm (S ++ B) (prods (N ++ B)) a = sm S (prods N) a.
  Proof.
    intros ND I V F SB. apply NoDup_app_iff in ND as (N1 & N2 & N3).
    assert (IN : incl N (keys D)) by (intros x J; apply I; apply in_app_iff; auto).
    assert (IB : incl B (keys D)) by (intros x J; apply I; apply in_app_iff; auto).
    rewrite sm_app; [|auto|apply prods_ext; auto|intros v J K _; eapply SB; eauto].
    apply sm_ext; auto. intros b Vb _. rewrite <- (Qcmult_1_r (prods N b)), <- (sum_one' B b N2 IB Vb).
    rewrite <- sm_scale.
    - apply sm_ext; auto. intros c _ _. apply prods_app.
    - intros c E. eapply dep_out; [apply prods_dep; auto| |exact E].
      intros v J K. apply in_flat_map in J as (n & Jn & Kn). eapply F; eauto.
  Qed.

  (** Two groups of nodes that share no summed variable. *)
  Lemma split_sum N1 N2 S1 S2 a : incl (N1 ++ N2) (keys D) ->
    (forall n p, In n N1 -> In p (fam n) -> ~ In p S2) -> (forall n p, In n N2 -> In p (fam n) -> ~ In p S1) ->
    (forall v, In v S1 -> ~ In v S2) ->
    sm (S1 ++ S2) (prods (N1 ++ N2)) a = (sm S1 (prods N1) a * sm S2 (prods N2) a)%Qc.
  Proof.
    intros I H1 H2 H3.
    assert (I1 : incl N1 (keys D)) by (intros x J; apply I; apply in_app_iff; auto).
    assert (I2 : incl N2 (keys D)) by (intros x J; apply I; apply in_app_iff; auto).
    rewrite (sm_mul D WD S1 S2 (prods N1) (prods N2) (flat_map fam N1) (flat_map fam N2)); auto using prods_dep.
    - unfold NetSem.sm, sumdom. f_equal. apply map_ext. intros o. apply prods_app.
    - intros v J K. apply in_flat_map in J as (n & Jn & Kn). eapply H1; eauto.
    - intros v J K. apply in_flat_map in J as (n & Jn & Kn). eapply H2; eauto.
  Qed.
End Net.
