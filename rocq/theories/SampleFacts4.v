(** Frequencies given a condition in large samples. *)

From Coq Require Import String Bool Arith Lia ZArith QArith Qround Qcanon Lqa Permutation List.
From Verif Require Import PyBase PyFacts Num NumFacts DomainModel NdArray StoreModel NumStore FactorModel Spec StoreSpec DomainFacts StoreFacts
  PropFacts1 PropFacts4 FactorSpec FactorFacts FactorFacts3 BigSum GraphModel GraphSpec GraphFacts ModelModel ModelSpec LearnModel InferModel CausalModel DataModel
  NetSpec NetSem NetFacts VeFacts4 VeFacts5 EmMath OrderSpec CausalSpec CausalFacts CausalFacts2 DataSpec DataFacts DataFacts2 DataFacts4 CoherFacts SampleSpec SampleMath SampleFacts SampleFacts2.
From Coq Require Import List.
Import ListNotations.
Local Open Scope nat_scope.
Local Arguments eqd : simpl never.


Lemma consistent_tail c e o : (forall v, In v (keys c) -> ~ In v (keys e)) -> consistent (c ++ e) o = true -> consistent e o = true.
Proof.
  intros Dj X. unfold consistent in *. rewrite forallb_forall in *. intros [v s] J. specialize (X _ J). cbn [fst snd] in *. rewrite dget_app in X.
  destruct (dget v c) as [x|] eqn:Ec; [|exact X]. assert (N : dget v e = None) by (apply dget_None, Dj, dget_keys; eauto). now rewrite N.
Qed.

Section Given.
  Variables (m : pgm) (D : domain) (F : var -> mfactor) (vt : vtype).
  Hypothesis H : network m D F vt.
  Hypothesis NN : nonnegative D F.
  Let WD : wf_dom D := net_wd m D F vt H.
  Hypothesis U : usable D.
  Variables (heur : digraph -> list var -> dict var nat -> res (list var)) (so : list (list var) -> list var).
  Hypothesis Hh : is_heuristic heur.
  Hypothesis Hs : is_set_order so.
  Variables (dflt : vtype) (pre : bool).

  Lemma given_value n rows e T C t c : n <> 0 -> In rows (samples D n) ->
    NoDup T -> T <> [] -> NoDup C -> incl T (keys D) -> incl C (keys D) -> NoDup (keys e) -> incl (keys e) (keys D) ->
    (forall v, In v (T ++ C) -> ~ In v (keys e)) -> (forall v, In v T -> ~ In v C) ->
    assigns D T t -> assigns D C c -> (0 < frequency (c ++ e) rows)%Qc ->
    exists f, laplace_query so dflt (frame_of D rows) D pre T (Some C) e = Ok f /\
      mf_get_value f (t ++ c) = Ok (Fin (frequency (t ++ c ++ e) rows / frequency (c ++ e) rows)%Qc).
  Proof.
    intros Hn J NT T0 NC IT IC Ne Ie Dj DTC At Ac Pe. rewrite samples_seqs in J. assert (L := seqs_len _ _ _ J).
    assert (K : forall r, In r rows -> keys r = keys D /\ full D r) by (intros r Jr; apply (assignment m D F vt H); eapply seqs_in; eauto).
    assert (K1 : forall r, In r rows -> keys r = keys D) by (intros r Jr; now apply K).
    assert (Nce : NoDup (keys (c ++ e))).
    { unfold keys. rewrite map_app. fold (keys c) (keys e). destruct Ac as [-> _]. apply NoDup_app_intro; auto. intros v Jv. apply Dj, in_or_app. now right. }
    assert (Ice : incl (keys (c ++ e)) (keys D)).
    { unfold keys. rewrite map_app. fold (keys c) (keys e). destruct Ac as [-> _]. apply incl_app; auto. }
    assert (Nte : NoDup (keys (t ++ c ++ e))).
    { unfold keys. rewrite map_app. fold (keys t) (keys (c ++ e)). destruct At as [-> _]. apply NoDup_app_intro; auto.
      intros v Jv. unfold keys. rewrite map_app, in_app_iff. fold (keys c) (keys e). destruct Ac as [-> _]. intros [Q|Q]; [now apply (DTC v)|].
      apply (Dj v); [apply in_or_app; now left|exact Q]. }
    assert (Ite : incl (keys (t ++ c ++ e)) (keys D)).
    { unfold keys. rewrite map_app. fold (keys t) (keys (c ++ e)). destruct At as [-> _]. apply incl_app; auto. }
    assert (Wf : wf_frame (frame_of D rows)).
    { split; [apply WD|]. intros r Jr. cbn [frame_of f_rows f_cols] in *. apply in_map_iff in Jr as (o & <- & Jo). rewrite map_length.
      rewrite <- (K1 o Jo). unfold keys. now rewrite map_length. }
    assert (ITC : incl (T ++ C) (keys D)) by (apply incl_app; auto).
    assert (Cp : complete (frame_of D rows) D (T ++ C)).
    { intros r v x Jr Jv Jc. cbn [frame_of f_rows f_cols] in *. apply in_map_iff in Jr as (o & <- & Jo). destruct (K o Jo) as [Ko Fo].
      rewrite <- Ko, combine_row in Jc. apply in_map_iff in Jc as ([w s] & Q & Jw). cbn [fst snd] in Q. injection Q as <- <-.
      assert (Jk := ITC _ Jv). apply keys_In in Jk as (l & Jl). exists l. destruct (Fo _ _ Jl) as (s' & E & Js).
      assert (E' : dget w o = Some s) by (apply In_dget; [rewrite Ko; apply WD|exact Jw]). exists s. split; [exact Jl|]. split; [congruence|reflexivity]. }
    assert (Ce := count_frame D rows e (proj1 WD) K1 Ne Ie). assert (Cce := count_frame D rows (c ++ e) (proj1 WD) K1 Nce Ice).
    assert (Cte := count_frame D rows (t ++ c ++ e) (proj1 WD) K1 Nte Ite).
    assert (C0 : count (frame_of D rows) (c ++ e) <> 0).
    { rewrite Cce. intros Z. unfold frequency in Pe. rewrite Z in Pe. unfold ratio in Pe. change (Q2Qc (inject_Z (Z.of_nat 0))) with 0%Qc in Pe.
      unfold Qcdiv in Pe. rewrite Qcmult_0_l in Pe. discriminate. }
    assert (C1 : count (frame_of D rows) e <> 0).
    { intros Z. apply C0. apply Nat.le_0_r. rewrite <- Z. unfold count. generalize (f_rows (frame_of D rows)) as rs. intros rs.
      induction rs as [|r rs IH]; [auto|]. cbn [filter]. rewrite forallb_app. destruct (forallb _ c); cbn [andb].
      - destruct (forallb _ e); cbn [length]; lia.
      - destruct (forallb _ e); cbn [length]; lia. }
    destruct (DataFacts4.query_given_ok so Hs dflt (frame_of D rows) D pre e U Wf Ie T C NT T0 NC IT IC ITC Dj DTC Cp C1) as (f & Ef & _ & _ & _ & _ & _ & _ & X).
    exists f. split; [exact Ef|]. rewrite (proj1 (X t c At Ac) C0). do 2 f_equal. rewrite Cce in *. rewrite Cte. unfold frequency, ratio. rewrite L.
    change (Q2Qc (inject_Z (Z.of_nat n))) with (qn n). change (Q2Qc (inject_Z (Z.of_nat (length (filter (consistent (t ++ c ++ e)) rows))))) with (qn (length (filter (consistent (t ++ c ++ e)) rows))).
    change (Q2Qc (inject_Z (Z.of_nat (length (filter (consistent (c ++ e)) rows))))) with (qn (length (filter (consistent (c ++ e)) rows))).
    assert (Q1 : qn n <> 0%Qc) by (intros Z; apply qn_inj_0 in Z; lia).
    assert (Q2 : qn (length (filter (consistent (c ++ e)) rows)) <> 0%Qc) by (intros Z; apply qn_inj_0 in Z; lia).
    field. split; assumption.
  Qed.

  Lemma given_limit e T C t c eps delta : NoDup T -> T <> [] -> NoDup C -> incl T (nodes (m_graph m)) -> incl C (nodes (m_graph m)) ->
    NoDup (keys e) -> incl (keys e) (nodes (m_graph m)) -> (forall v, In v (T ++ C) -> ~ In v (keys e)) -> (forall v, In v T -> ~ In v C) ->
    assigns D T t -> assigns D C c -> mass D F (c ++ e) <> 0%Qc -> (0 < eps)%Qc -> (0 < delta)%Qc ->
    exists N, forall n, N <= n ->
      (chance D F n (fun rows => differ eps (laplace_query so dflt (frame_of D rows) D pre T (Some C) e) (ve_query heur so m T (Some C) e) (t ++ c)) <= delta)%Qc.
  Proof.
    intros NT T0 NC IT IC Ne Ie Dj DTC At Ac M He Hd.
    assert (IT' : incl T (keys D)) by (intros v J; apply (net_nodes _ _ _ _ H v); auto).
    assert (IC' : incl C (keys D)) by (intros v J; apply (net_nodes _ _ _ _ H v); auto).
    assert (Ie' : incl (keys e) (keys D)) by (intros v J; apply (net_nodes _ _ _ _ H v); auto).
    destruct (mass_range m D F vt H NN (c ++ e)) as [E0 E1]. destruct (mass_range m D F vt H NN (t ++ c ++ e)) as [A0 A1].
    assert (Me : mass D F e <> 0%Qc).
    { intros Z. apply M. apply Qcle_antisym; [|exact E0]. rewrite <- Z. unfold mass.
      rewrite (total_qsum (map _ (filter (consistent (c ++ e)) _))), (total_qsum (map _ (filter (consistent e) _))). rewrite !sum_filter. apply qsum_le.
      intros o J. assert (P := joint_nn m D F vt H NN o J). destruct (consistent (c ++ e) o) eqn:Q.
      - rewrite (consistent_tail c e o); [apply Qcle_refl| |exact Q]. intros v Jv. apply Dj, in_or_app. right. now destruct Ac as [<- _].
      - destruct (consistent e o); [exact P|apply Qcle_refl]. }
    destruct (conditional m D F vt H e T C heur so Hh Hs NT NC T0 IT IC Ie Dj DTC Me) as (r & Er & _ & _ & _ & _ & _ & _ & X & _).
    specialize (X t c At Ac M).
    assert (B0 : (0 < mass D F (c ++ e))%Qc) by (destruct (Qcle_lt_or_eq _ _ E0); [assumption|congruence]).
    assert (C0 : (0 < eps * (mass D F (c ++ e) * mass D F (c ++ e)))%Qc).
    { clear - He B0. generalize dependent (mass D F (c ++ e)). intros b B0. assert (0 < b * b)%Qc by qcnra. set (k := (b * b)%Qc) in *. clearbody k. qcnra. }
    destruct (small _ _ B0 C0) as (d & D0 & D1 & D2).
    assert (Hd2 : (0 < delta * / (1 + 1))%Qc) by (assert (0 < / (1 + 1))%Qc by reflexivity; generalize dependent (/ (1 + 1))%Qc; intros; qcnra).
    destruct (limit m D F vt H NN (t ++ c ++ e) d _ D0 Hd2) as (N1 & L1). destruct (limit m D F vt H NN (c ++ e) d _ D0 Hd2) as (N2 & L2).
    exists (S (N1 + N2)). intros n Ln. specialize (L1 n ltac:(lia)). specialize (L2 n ltac:(lia)).
    eapply Qcle_trans; [apply (chance_le m D F vt H NN n _ (fun rows => apart d (frequency (t ++ c ++ e) rows) (mass D F (t ++ c ++ e)) || apart d (frequency (c ++ e) rows) (mass D F (c ++ e))))|].
    - intros rows J Df. destruct (apart d (frequency (t ++ c ++ e) rows) _) eqn:F1; [reflexivity|]. destruct (apart d (frequency (c ++ e) rows) _) eqn:F2; [reflexivity|].
      exfalso. destruct (half_way _ _ _ _ _ _ A0 A1 B0 E1 F1 F2 D0 He D1 D2) as [Y0 Ap].
      destruct (given_value n rows e T C t c ltac:(lia) J NT T0 NC IT' IC' Ne Ie' Dj DTC At Ac Y0) as (f & Ef & Vf).
      unfold differ in Df. rewrite Ef, Er, Vf, X, Ap in Df. discriminate.
    - eapply Qcle_trans; [apply (chance_or m D F vt H NN)|].
      replace delta with (delta * / (1 + 1) + delta * / (1 + 1))%Qc.
      + apply Qcplus_le_compat; assumption.
      + rewrite <- Qcmult_plus_distr_r. replace (/ (1 + 1) + / (1 + 1))%Qc with 1%Qc by (field; discriminate). ring.
  Qed.
End Given.

(** ** the columns of the endogenous variables *)
Lemma columns_keys vs r : incl vs (keys r) -> keys (columns vs r) = vs.
Proof.
  unfold columns. induction vs as [|v vs IH]; intros I; [reflexivity|]. cbn [flat_map]. assert (J : In v (keys r)) by (apply I; now left).
  apply dget_keys in J as (s & E). rewrite E. cbn. f_equal. apply IH. intros x Jx. apply I. now right.
Qed.
Lemma columns_get vs r v : In v vs -> dget v (columns vs r) = dget v r.
Proof.
  assert (N : forall ws, dget v r = None -> dget v (columns ws r) = None).
  { unfold columns. induction ws as [|w ws IH]; intros E; [reflexivity|]. cbn [flat_map]. destruct (dget w r) eqn:Ew; [|now apply IH].
    cbn [app dget]. destruct (eqd _ _); [congruence|now apply IH]. }
  unfold columns in *. induction vs as [|w vs IH]; intros J; [destruct J|]. destruct J as [-> |J].
  - cbn [flat_map]. destruct (dget v r) eqn:E; [cbn [app dget]; now rewrite eqd_refl|]. now apply N.
  - cbn [flat_map]. destruct (dget w r) eqn:Ew; [|now apply IH]. cbn [app dget]. destruct (eqd _ _) as [<-|]; [now rewrite Ew|now apply IH].
Qed.
Lemma same_items (a b : obs) : keys a = keys b -> NoDup (keys a) -> (forall v, In v (keys a) -> dget v a = dget v b) -> a = b.
Proof.
  revert b. induction a as [|[v s] a IH]; intros [|[w x] b] K N G; try discriminate; [reflexivity|]. cbn in K. injection K as -> K. cbn in N. inversion N as [|? ? N1 N2]; subst.
  assert (E := G w (or_introl eq_refl)). cbn [dget] in E. assert (Q : s = x) by (destruct (eqd w w); congruence). subst. f_equal. apply IH; [exact K|exact N2|].
  intros y J. specialize (G y (or_intror J)). cbn [dget] in G. destruct (eqd _ _) as [-> |]; [contradiction|exact G].
Qed.
Lemma columns_match (D : domain) vs t (r : obs) : NoDup (keys D) -> keys r = keys D -> NoDup vs -> incl vs (keys D) -> keys t = vs -> columns vs r = t <-> consistent t r = true.
Proof.
  intros N K Nv I Kt. rewrite <- K in I. unfold consistent. rewrite forallb_forall. split.
  - intros <- [v s] J. cbn [fst snd]. destruct (dget v (columns vs r)) as [x|] eqn:E; [|reflexivity].
    assert (Jv : In v vs) by (rewrite <- (columns_keys vs r I); apply dget_keys; eauto). rewrite columns_get in E by assumption.
    rewrite (In_dget v s r) in E by (rewrite ?K; assumption). injection E as ->. now rewrite eqd_refl.
  - intros X. apply same_items; [now rewrite columns_keys, Kt|now rewrite columns_keys|]. rewrite columns_keys by assumption. intros v J.
    rewrite columns_get by assumption. assert (Jr := I v J). apply dget_keys in Jr as (s & E). rewrite E. assert (Y := X (v, s) (dget_In _ _ _ E)). cbn [fst snd] in Y.
    assert (Jt : In v (keys t)) by now rewrite Kt. apply dget_keys in Jt as (x & Ex). rewrite Ex in *. destruct (eqd x s); congruence.
Qed.

Section Endogenous.
  Variables (m : pgm) (D : domain) (F : var -> mfactor) (vt : vtype) (endo : list var) (cast : bool).
  Hypothesis H : causal m D F vt endo cast.
  Hypothesis AM : forall v f, stored m v f -> exists g, f = FM g.
  Hypothesis NN : nonnegative D F.
  Hypothesis Ne : NoDup endo.
  Hypothesis Ie : incl endo (nodes (m_graph m)).

  Lemma endogenous_rows : topological (m_graph m) (keys D) -> nodes (m_graph m) <> [] -> forall n u, n <> 0 -> uniform u ->
    exists rows, forward_sampling (keys D) m (Z.of_nat n) u = Ok rows /\ In rows (samples D n) /\
      sample_endogenous (keys D) m (Z.of_nat n) u true = Ok (map (columns endo) rows).
  Proof.
    intros To N0 n u Hn Hu. assert (SD : same_set (keys D) (nodes (m_graph m))) by apply H. assert (Ie' : incl endo (keys D)) by (intros v J; apply SD; auto).
    assert (Net : network m D F vt).
    { eapply causal_network; [exact H|]. intros v Iv. destruct H as (_ & _ & _ & _ & _ & _ & _ & Hv & _). destruct (Hv v Iv) as (f & S & T & _).
      destruct (AM v f S) as (g & ->). cbn in T. now subst. }
    destruct (sample_table m D F vt Net NN To N0 n u Hn Hu) as (rows & E & J). exists rows. split; [exact E|]. split; [exact J|].
    destruct (endogenous m D F vt endo cast (keys D) (Z.of_nat n) u H AM NN To N0 Ie ltac:(lia) Hu) as (rs & full_rows & E' & Es & X).
    rewrite E in E'. injection E' as <-. rewrite Es. f_equal.
    assert (K : forall r, In r rows -> keys r = keys D).
    { intros r Jr. rewrite samples_seqs in J. apply (assignment m D F vt Net). eapply seqs_in; eauto. }
    clear E Es J. induction X as [|r o rs rows [Kr G] X IH]; [reflexivity|]. cbn [map]. f_equal; [|apply IH; intros; apply K; now right].
    assert (I : incl endo (keys o)) by (rewrite (K o (or_introl eq_refl)); exact Ie').
    apply same_items; [now rewrite columns_keys, Kr|now rewrite Kr|]. rewrite Kr. intros v Jv. now rewrite columns_get, G.
  Qed.

  Lemma endogenous_chance ts : Forall (assigns D endo) ts -> chance D F (length ts) (columns_are endo ts) = product_of (map (mass D F) ts).
  Proof.
    intros A. rewrite <- rows_independent. unfold chance. do 2 f_equal. apply filter_ext_in. intros rows J.
    assert (WD : wf_dom D) by apply H. assert (SD : same_set (keys D) (nodes (m_graph m))) by apply H. assert (Ie' : incl endo (keys D)) by (intros v Jv; apply SD; auto).
    unfold columns_are. revert rows J. induction A as [|t ts [Kt _] A IH]; intros rows J.
    - destruct J as [<-|[]]. reflexivity.
    - cbn [length samples] in J. apply in_flat_map in J as (o & Jo & J). apply in_map_iff in J as (rows' & <- & J). cbn [map all_match].
      apply (all_assignments_In_full D o (proj1 WD)) in Jo as [Ko _]. assert (M := columns_match D endo t o (proj1 WD) Ko Ne Ie' Kt).
      rewrite <- (IH rows' J). destruct (eqd (columns endo o :: map (columns endo) rows') (t :: ts)) as [Q|Q].
      + injection Q as Q1 Q2. rewrite (proj1 M Q1). destruct (eqd (map (columns endo) rows') ts); [reflexivity|contradiction].
      + destruct (consistent t o) eqn:C; [|reflexivity]. destruct (eqd (map (columns endo) rows') ts) as [Q2|]; [|reflexivity].
        exfalso. apply Q. rewrite Q2. f_equal. now apply M.
  Qed.
End Endogenous.
