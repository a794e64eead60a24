(** The distribution of samples. *)

From Coq Require Import String Bool Arith Lia ZArith QArith Qcanon Lqa Permutation List.
From Verif Require Import PyBase PyFacts Num NumFacts DomainModel NdArray StoreModel NumStore FactorModel Spec StoreSpec DomainFacts StoreFacts
  PropFacts1 FactorSpec FactorFacts FactorFacts3 BigSum GraphModel GraphSpec GraphFacts ModelModel ModelSpec LearnModel InferModel DataModel
  NetSpec NetSem NetFacts VeFacts4 EmMath DataSpec DataFacts DataFacts2 DataFacts4 SampleSpec SampleMath.
From Coq Require Import List.
Import ListNotations.
Local Open Scope nat_scope.
Local Arguments eqd : simpl never.

Lemma samples_seqs D n : samples D n = seqs (all_assignments D) n.
Proof. induction n as [|n IH]; [reflexivity|]. cbn [samples seqs]. now rewrite IH. Qed.
Lemma likelihood_wt D F rs : likelihood D F rs = wt (joint F (keys D)) rs.
Proof. reflexivity. Qed.
Lemma chance_sum D F n E : chance D F n E = qsum (map (wt (joint F (keys D))) (filter E (seqs (all_assignments D) n))).
Proof. unfold chance. rewrite total_qsum, samples_seqs. reflexivity. Qed.
Lemma seqs_all {A} (os : list A) rs : (forall o, In o rs -> In o os) -> In rs (seqs os (length rs)).
Proof.
  induction rs as [|r rs IH]; intros H; [now left|]. cbn [length seqs]. apply in_flat_map. exists r. split; [apply H; now left|].
  apply in_map. apply IH. intros; apply H; now right.
Qed.

Section Sampled.
  Variables (m : pgm) (D : domain) (F : var -> mfactor) (vt : vtype).
  Hypothesis H : network m D F vt.
  Hypothesis NN : nonnegative D F.
  Let WD : wf_dom D := net_wd m D F vt H.

  Lemma assignment o : In o (all_assignments D) <-> keys o = keys D /\ full D o.
  Proof. apply all_assignments_In_full. apply WD. Qed.
  Lemma joint_nn o : In o (all_assignments D) -> (0 <= joint F (keys D) o)%Qc.
  Proof.
    intros J. apply assignment in J as [K Fo]. unfold joint.
    assert (G : forall l, incl l (keys D) -> (0 <= product_of (map (fun v => entry (F v) o) l))%Qc).
    { induction l as [|v l IH]; intros I; [discriminate|]. cbn [map product_of fold_right]. fold (product_of (map (fun v => entry (F v) o) l)).
      assert (A : (0 <= entry (F v) o)%Qc). { apply NN; [apply I; now left|]. eapply fam_full; eauto. apply I; now left. }
      assert (B := IH (fun x Jx => I x (or_intror Jx))). generalize dependent (product_of (map (fun v => entry (F v) o) l)). intros y B.
      generalize dependent (entry (F v) o). intros x A. qcnra. }
    apply G. apply incl_refl.
  Qed.
  Lemma joint_one : qsum (map (joint F (keys D)) (all_assignments D)) = 1%Qc.
  Proof.
    rewrite <- (mass_nil m D F vt H). unfold mass. rewrite GraphFacts.filter_all; [symmetry; apply total_qsum|].
    intros p _. unfold consistent. apply forallb_forall. intros. reflexivity.
  Qed.
  Lemma mass_p t : mass D F t = p (all_assignments D) (joint F (keys D)) (consistent t).
  Proof. unfold mass, p. apply total_qsum. Qed.

  (** ** the numbers that give a sample *)
  Section Rows.
    Hypothesis To : topological (m_graph m) (keys D).
    Hypothesis Ne : nodes (m_graph m) <> [].

    Definition from (o : obs) (v : var) : Qc :=
      match dget v D, dget v o with Some l, Some s => below (F v) v l s o | _, _ => 0%Qc end.

    Lemma part o v l : In o (all_assignments D) -> In (v, l) D -> exists s, dget v o = Some s /\ In s l /\ from o v = below (F v) v l s o.
    Proof.
      intros J Jv. apply assignment in J as [K Fo]. destruct (Fo v l Jv) as (s & E & Js). exists s. split; [exact E|]. split; [exact Js|].
      unfold from. now rewrite (In_dget _ _ _ (proj1 WD) Jv), E.
    Qed.
    Lemma selected_part o u : In o (all_assignments D) ->
      (selected D F u (keys D) o <-> forall v, In v (keys D) -> (from o v <= u v)%Qc /\ (u v < from o v + entry (F v) o)%Qc).
    Proof.
      intros J. split.
      - intros [K S] v Jv. apply keys_In in Jv as (l & Jl). assert (Jv : In v (keys D)) by (apply keys_In; eauto).
        destruct (S v l Jv Jl) as (s & E & Js & A & B). destruct (part o v l J Jl) as (s' & E' & _ & X).
        assert (s' = s) as -> by congruence. rewrite X. auto.
      - intros S. split; [apply assignment in J; apply J|]. intros v l Jv Jl. destruct (part o v l J Jl) as (s & E & Js & X).
        exists s. specialize (S v Jv). rewrite X in S. tauto.
    Qed.
    Lemma part_range o v : In o (all_assignments D) -> In v (keys D) ->
      (0 <= from o v)%Qc /\ (from o v <= from o v + entry (F v) o)%Qc /\ (from o v + entry (F v) o <= 1)%Qc.
    Proof.
      intros J Kv. assert (Kv' := Kv). apply keys_In in Kv' as (l & Jl). destruct (part o v l J Jl) as (s & Es & Js & ->).
      apply assignment in J as [Ko Fo].
      assert (Pf : forall x, In x l -> full (mf_domain (F v)) ((v, x) :: o)).
      { intros x Jx w k J. cbn [dget]. destruct (eqd w v) as [-> | Nw].
        + exists x. split; [reflexivity|]. assert (k = l) as ->; [|exact Jx]. eapply (dom_unique D); eauto; [apply WD|].
          apply (net_cpt _ _ _ _ H v Kv). exact J.
        + eapply fam_full; eauto. }
      assert (Nn : forall x, In x l -> (0 <= entry (F v) ((v, x) :: o))%Qc) by (intros x Jx; apply NN; auto).
      assert (B := before_nonneg (fun x => entry (F v) ((v, x) :: o)) l s Nn).
      assert (L := before_le (fun x => entry (F v) ((v, x) :: o)) l s Nn Js).
      rewrite (column_one m D F vt H v l o Jl Fo) in L.
      assert (E : entry (F v) ((v, s) :: o) = entry (F v) o).
      { apply (entry_agree m D F vt H v); [exact Kv|eapply fam_full; eauto|]. intros w _. cbn [dget]. destruct (eqd w v) as [-> | Nw]; auto. }
      assert (Z := Nn s Js). rewrite E in *. fold (below (F v) v l s o) in *. repeat split; auto; qclra.
    Qed.

    Definition row (rows : list obs) (i : nat) : obs := nth i rows [].

    Lemma sample_box n rows : n <> 0 -> In rows (samples D n) ->
      exists lo hi, (forall v i, In v (keys D) -> i < n -> (0 <= lo v i)%Qc /\ (lo v i <= hi v i)%Qc /\ (hi v i <= 1)%Qc) /\
        volume (keys D) n lo hi = likelihood D F rows /\
        forall u, uniform u -> (forward_sampling (keys D) m (Z.of_nat n) u = Ok rows <-> inside (keys D) n lo hi u).
    Proof.
      intros Hn J. rewrite samples_seqs in J. assert (L := seqs_len _ _ _ J). assert (I := seqs_in _ _ _ J).
      assert (R : forall i, i < n -> In (row rows i) (all_assignments D)) by (intros i Li; apply I, nth_In; lia).
      exists (fun v i => from (row rows i) v), (fun v i => (from (row rows i) v + entry (F v) (row rows i))%Qc). split; [|split].
      - intros v i Kv Li. apply part_range; auto.
      - unfold volume, likelihood.
        assert (E : map (joint F (keys D)) rows = map (fun i => joint F (keys D) (row rows i)) (seq 0 n)).
        { rewrite <- (map_map (row rows) (joint F (keys D))). f_equal. rewrite <- L. clear. apply nth_ext with (d := []) (d' := row rows 0).
          - now rewrite map_length, seq_length.
          - intros i Li. rewrite (nth_indep _ _ (row rows 0)) by assumption. rewrite (map_nth (row rows) (seq 0 (length rows)) 0 i), seq_nth by assumption.
            unfold row. now apply nth_indep. }
        rewrite E. f_equal. apply map_ext. intros i. unfold joint. f_equal. apply map_ext. intros v. ring.
      - intros u Hu. destruct (sample_rows m D F vt H NN (keys D) To Ne (Z.of_nat n) ltac:(lia) u Hu) as (rows' & E & L' & S & X).
        rewrite Nat2Z.id in *. rewrite E. split.
        + intros Q v i Kv Li. injection Q as ->. assert (Er : nth_error rows i = Some (row rows i)) by (apply nth_error_nth'; lia).
          apply (X i _ Li) in Er. exact (proj1 (selected_part _ (fun v => u v i) (R i Li)) Er v Kv).
        + intros Q. f_equal. apply nth_ext with (d := []) (d' := []); [lia|]. intros i Li. rewrite L' in Li.
          assert (S' : selected D F (fun v => u v i) (keys D) (row rows i)).
          { apply (selected_part _ (fun v => u v i) (R i Li)). intros v Kv. now apply Q. }
          apply (X i _ Li) in S'. apply nth_error_nth with (d := []) in S'. exact S'.
    Qed.
    Lemma sample_table n u : n <> 0 -> uniform u -> exists rows, forward_sampling (keys D) m (Z.of_nat n) u = Ok rows /\ In rows (samples D n).
    Proof.
      intros Hn Hu. destruct (sample_rows m D F vt H NN (keys D) To Ne (Z.of_nat n) ltac:(lia) u Hu) as (rows & E & L & S & X).
      exists rows. split; [exact E|]. rewrite samples_seqs. rewrite Nat2Z.id in L. rewrite <- L. apply seqs_all.
      intros o Jo. apply In_nth_error in Jo as (i & Ei). destruct (S i o Ei) as (K & Fo & _). now apply assignment.
    Qed.
  End Rows.

  (** ** frequencies *)
  Lemma chance_all n : chance D F n (fun _ => true) = 1%Qc.
  Proof.
    rewrite chance_sum, GraphFacts.filter_all by reflexivity. apply wt_one. exact joint_one.
  Qed.
  Lemma chance_le n E E' : (forall rows, In rows (samples D n) -> E rows = true -> E' rows = true) -> (chance D F n E <= chance D F n E')%Qc.
  Proof.
    intros I. rewrite samples_seqs in I. rewrite !chance_sum, !sum_filter. apply qsum_le. intros rs J.
    assert (W : (0 <= wt (joint F (keys D)) rs)%Qc) by (eapply wt_nonneg; [exact joint_nn|now apply (seqs_in _ n)]).
    destruct (E rs) eqn:Er; [rewrite (I rs J Er); apply Qcle_refl|]. destruct (E' rs); [exact W|apply Qcle_refl].
  Qed.
  Lemma chance_or n E E' : (chance D F n (fun rows => E rows || E' rows) <= chance D F n E + chance D F n E')%Qc.
  Proof.
    rewrite !chance_sum, !sum_filter, <- qsum_add. apply qsum_le. intros rs J.
    assert (W : (0 <= wt (joint F (keys D)) rs)%Qc) by (eapply wt_nonneg; [exact joint_nn|now apply (seqs_in _ n)]).
    destruct (E rs), (E' rs); cbn [orb]; qclra.
  Qed.

  Lemma apart_true eps x y : apart eps x y = true -> (eps <= x - y)%Qc \/ (eps <= y - x)%Qc.
  Proof. unfold apart. destruct (Qclt_le_dec (x - y) eps); [|auto]. destruct (Qclt_le_dec (y - x) eps); [discriminate|auto]. Qed.
  Lemma apart_false eps x y : apart eps x y = false <-> (x - y < eps)%Qc /\ (y - x < eps)%Qc.
  Proof.
    unfold apart. destruct (Qclt_le_dec (x - y) eps); [destruct (Qclt_le_dec (y - x) eps)|]; split; try tauto; try discriminate; intros [A B]; exfalso; qclra.
  Qed.

  Lemma large_numbers t n eps : n <> 0 -> (0 < eps)%Qc ->
    (chance D F n (fun rows => apart eps (frequency t rows) (mass D F t)) <= mass D F t * (1 - mass D F t) / (qn n * (eps * eps)))%Qc.
  Proof.
    intros Hn He. assert (Q : (0 < qn n)%Qc) by (apply qn_pos; lia). assert (Q0 : qn n <> 0%Qc) by (intros E; rewrite E in Q; discriminate).
    assert (E0 : eps <> 0%Qc) by (intros E; rewrite E in He; discriminate).
    assert (C : (0 < qn n * eps)%Qc) by (clear - Q He; generalize dependent (qn n); intros; qcnra).
    rewrite chance_sum.
    assert (B := chebyshev (all_assignments D) (joint F (keys D)) (consistent t) joint_one joint_nn n (qn n * eps)%Qc
      (fun rows => apart eps (frequency t rows) (mass D F t)) C).
    rewrite <- mass_p in B.
    assert (HE : forall rs, In rs (seqs (all_assignments D) n) -> apart eps (frequency t rs) (mass D F t) = true ->
      (qn n * eps * (qn n * eps) <= dev (all_assignments D) (joint F (keys D)) (consistent t) rs * dev (all_assignments D) (joint F (keys D)) (consistent t) rs)%Qc).
    { intros rs J A. assert (L := seqs_len _ _ _ J).
      assert (Dv : dev (all_assignments D) (joint F (keys D)) (consistent t) rs = (qn n * (frequency t rs - mass D F t))%Qc).
      { unfold dev, cnt. rewrite <- mass_p, L. unfold frequency, ratio. rewrite L. change (Q2Qc (inject_Z (Z.of_nat n))) with (qn n).
        change (Q2Qc (inject_Z (Z.of_nat (length (filter (consistent t) rs))))) with (qn (length (filter (consistent t) rs))). field. exact Q0. }
      rewrite Dv. apply apart_true in A.
      assert (A' : (eps <= frequency t rs - mass D F t)%Qc \/ (eps <= - (frequency t rs - mass D F t))%Qc).
      { destruct A as [A|A]; [left; exact A|right]. replace (- (frequency t rs - mass D F t))%Qc with (mass D F t - frequency t rs)%Qc by ring. exact A. }
      clear A Dv. generalize dependent (frequency t rs - mass D F t)%Qc. intros x A.
      assert (X : (eps * eps <= x * x)%Qc -> (qn n * eps * (qn n * eps) <= qn n * x * (qn n * x))%Qc).
      { intros X. replace (qn n * eps * (qn n * eps))%Qc with ((eps * eps) * (qn n * qn n))%Qc by ring.
        replace (qn n * x * (qn n * x))%Qc with ((x * x) * (qn n * qn n))%Qc by ring. apply Qcmult_le_compat_r; [exact X|].
        clear - Q. generalize dependent (qn n). intros. qcnra. }
      apply X. clear - A He. destruct A; qcnra. }
    specialize (B HE). set (z := qsum _) in *. clearbody z.
    apply Qcmult_lt_0_le_reg_r with (qn n * eps * (qn n * eps))%Qc.
    { clear - C. generalize dependent (qn n * eps)%Qc. intros; qcnra. }
    replace (mass D F t * (1 - mass D F t) / (qn n * (eps * eps)) * (qn n * eps * (qn n * eps)))%Qc with (qn n * (mass D F t * (1 - mass D F t)))%Qc; [exact B|].
    field. split; assumption.
  Qed.

  Lemma rows_independent ts : chance D F (length ts) (all_match ts) = product_of (map (mass D F) ts).
  Proof.
    induction ts as [|t ts IH].
    - rewrite chance_sum. cbn [length seqs filter all_match map]. reflexivity.
    - cbn [length map product_of fold_right]. fold (product_of (map (mass D F) ts)). rewrite <- IH, !chance_sum, !sum_filter.
      cbn [seqs]. rewrite sum_flat, mass_p. unfold p. rewrite sum_filter.
      rewrite (sum_ext _ (fun o => (qsum (map (fun rs => if all_match ts rs then wt (joint F (keys D)) rs else 0%Qc) (seqs (all_assignments D) (length ts)))
        * (if consistent t o then joint F (keys D) o else 0))%Qc)).
      + rewrite qsum_scale. ring.
      + intros o _. rewrite map_map. cbn [all_match]. rewrite Qcmult_comm, <- qsum_scale. apply sum_ext. intros rs _.
        rewrite wt_cons. destruct (consistent t o), (all_match ts rs); cbn [andb]; ring.
  Qed.

  Lemma freq_dev t n rs : n <> 0 -> In rs (seqs (all_assignments D) n) ->
    dev (all_assignments D) (joint F (keys D)) (consistent t) rs = (qn n * (frequency t rs - mass D F t))%Qc.
  Proof.
    intros Hn J. assert (L := seqs_len _ _ _ J). assert (Q0 : qn n <> 0%Qc) by (intros E; apply qn_inj_0 in E; lia).
    unfold dev, cnt. rewrite <- mass_p, L. unfold frequency, ratio. rewrite L. change (Q2Qc (inject_Z (Z.of_nat n))) with (qn n).
    change (Q2Qc (inject_Z (Z.of_nat (length (filter (consistent t) rs))))) with (qn (length (filter (consistent t) rs))). field. exact Q0.
  Qed.
  Lemma unbiased t n : n <> 0 -> mean_of D F n (frequency t) = mass D F t.
  Proof.
    intros Hn. assert (Q0 : qn n <> 0%Qc) by (intros E; apply qn_inj_0 in E; lia).
    unfold mean_of. rewrite samples_seqs. etransitivity; [apply total_qsum|].
    assert (M := mean (all_assignments D) (joint F (keys D)) (consistent t) joint_one n).
    rewrite (sum_ext _ (fun rs => (/ qn n * (wt (joint F (keys D)) rs * dev (all_assignments D) (joint F (keys D)) (consistent t) rs) + mass D F t * wt (joint F (keys D)) rs)%Qc)).
    - rewrite qsum_add, !qsum_scale, M, (wt_one _ _ joint_one). ring.
    - intros rs J. rewrite (freq_dev t n rs Hn J). rewrite likelihood_wt. field. exact Q0.
  Qed.
  Lemma spread t n : n <> 0 ->
    mean_of D F n (fun rows => (frequency t rows - mass D F t) * (frequency t rows - mass D F t))%Qc = (mass D F t * (1 - mass D F t) / qn n)%Qc.
  Proof.
    intros Hn. assert (Q0 : qn n <> 0%Qc) by (intros E; apply qn_inj_0 in E; lia).
    unfold mean_of. rewrite samples_seqs. etransitivity; [apply total_qsum|].
    assert (M := variance (all_assignments D) (joint F (keys D)) (consistent t) joint_one n). rewrite <- mass_p in M.
    rewrite (sum_ext _ (fun rs => (/ (qn n * qn n) * (wt (joint F (keys D)) rs * (dev (all_assignments D) (joint F (keys D)) (consistent t) rs
      * dev (all_assignments D) (joint F (keys D)) (consistent t) rs)))%Qc)).
    - rewrite qsum_scale, M. field. exact Q0.
    - intros rs J. rewrite (freq_dev t n rs Hn J). rewrite likelihood_wt. field. exact Q0.
  Qed.
End Sampled.
