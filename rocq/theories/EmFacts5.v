(** One step of the EM learner. *)

From Coq Require Import String Bool Arith ZArith QArith Qcanon Lia Permutation List.
From Verif Require Import PyBase PyFacts Num DomainModel NdArray StoreModel NumStore FactorModel GraphModel ModelModel InferModel
  Spec DomainFacts StoreSpec StoreFacts NumFacts PropFacts1 FactorSpec FactorFacts FactorFacts2 FactorFacts3 BigSum
  GraphSpec GraphFacts ModelSpec ModelFacts
  NetSpec NetSem FactorSem NetFacts BuildFacts VeFacts4 VeFacts5 CfFacts LearnModel LearnSpec LearnFacts EmSpec EmMath EmFacts1 EmFacts2 EmFacts3 EmFacts4.
From Coq Require Import List.
Import ListNotations.
Local Open Scope nat_scope.
Local Arguments eqd : simpl never.

Section Masses.
  Variables (m : pgm) (D : domain) (F : var -> mfactor) (vt : vtype).
  Hypothesis H : network m D F vt.
  Hypothesis NN : nonnegative D F.
  Let WD : wf_dom D := net_wd m D F vt H.

  Lemma joint_nn o : In o (all_assignments D) -> (0 <= joint F (keys D) o)%Qc.
  Proof.
    intros Io. rewrite <- prod_of_joint. apply qprod_nonneg. intros x J. apply in_map_iff in J as (v & <- & J).
    eapply old_nn; eauto.
  Qed.
  Lemma mass_mono e1 e : (forall p, consistent e p = true -> consistent e1 p = true) -> (mass D F e <= mass D F e1)%Qc.
  Proof.
    intros C. unfold mass. change total with qsum. rewrite !filter_total. apply qsum_le. intros o Io.
    assert (J := joint_nn o Io). destruct (consistent e o) eqn:E; [rewrite (C o E); apply Qcle_refl|].
    destruct (consistent e1 o); [auto|apply Qcle_refl].
  Qed.
  Lemma consistent_dfilter keep e p : consistent e p = true -> consistent (dfilter keep e) p = true.
  Proof.
    unfold consistent. rewrite !forallb_forall. intros C [x s] J. specialize (C _ J). cbn [fst snd] in *.
    rewrite dget_dfilter. destruct (keep x); auto.
  Qed.
  Lemma mass_get o1 o2 : (forall x, dget x o1 = dget x o2) -> mass D F o1 = mass D F o2.
  Proof.
    intros E. unfold mass. f_equal. f_equal. apply filter_ext. intros p. unfold consistent. induction p as [|[x s] p IH]; [reflexivity|].
    cbn [forallb fst snd]. now rewrite E, IH.
  Qed.
End Masses.

Section OneVar.
  Variables (m : pgm) (D : domain) (F : var -> mfactor) (vt : vtype).
  Hypothesis H : network m D F vt.
  Hypothesis NN : nonnegative D F.
  Notation g := (m_graph m).
  Let WD : wf_dom D := net_wd m D F vt H.
  Notation good := (good D vt).
  Notation sm := (sm D).
  Variables (E : list var) (data : frame) (s : em_state).
  Hypothesis OD : observes D data E.
  Hypothesis Ed : em_data s = Some (g, data).
  Notation rows := (f_rows data).
  Hypothesis Mr : forall r, In r rows -> mass D F (row_obs data r) <> 0%Qc.
  Notation es := (map (row_obs data) rows).
  Variable v : var.
  Hypothesis Lv : learnable D F g data E v.

  Lemma rows_nonempty : exists r, In r rows.
  Proof.
    destruct Lv as (_ & _ & _ & Q). destruct (some_valid D WD) as (a & Va). destruct (Q (obs_of (preds g v) a)) as (r & Jr & _); [now apply assigns_obs|]. eauto.
  Qed.

  Lemma family_apart T : same_family m v T -> apart es T.
  Proof.
    intros (pa & _ & _ & _ & HT) e x Je Jx. apply in_map_iff in Je as (r & <- & Jr). destruct OD as (_ & _ & OR). destruct (OR r Jr) as (_ & -> & _).
    destruct Lv as (_ & N1 & N2 & _). apply HT in Jx as [-> | A]; auto.
  Qed.

  Lemma counts_informed T : same_family m v T -> informed g E v ->
    exists ocs, get_obs_counts s v = Ok ocs /\
      (forall o c, In (o, c) ocs -> incl (keys o) (nodes g) /\ (forall x, In x T -> ~ In x (keys o)) /\ mass D F o <> 0%Qc) /\
      forall a, valid D a ->
        qsum (map (fun oc => qn (snd oc) * (mass D F (obs_of T a ++ fst oc) / mass D F (fst oc))) ocs)%Qc = counts D F es T a.
  Proof.
    intros HT (w & Bw). destruct Lv as (Iv & NvE & NpE & Sn).
    destruct (blanket_ok g D v E data (net_wg m D F vt H) (net_ac m D F vt H) (net_nodes m D F vt H) Iv OD NvE) as (keep & os & Hk & Eo & No & Ho).
    unfold get_obs_counts. rewrite Ed, Eo. cbn [bind].
    destruct OD as (_ & IE & OR).
    set (c := fun o => length (filter (matches (f_cols data) o) rows)).
    assert (Em : mapM (fun o => let* c := count_rows data o in Ok (o, c)) os = Ok (map (fun o => (o, c o)) os)).
    { assert (Q : forall o, In o os -> o <> []).
      { intros o J. apply Ho in J as (r & Jr & ->). destruct (OR r Jr) as (_ & Kr & _).
        intros Z. assert (Jw : In w (keys (dfilter keep (row_obs data r)))). { apply e1_In. rewrite Kr. split; [apply Bw|]. apply Hk; [apply Bw|exact Bw]. }
        rewrite Z in Jw. destruct Jw. }
      clear - Q. induction os as [|o os IH]; [reflexivity|]. cbn [mapM map]. assert (Qo : o <> []) by (apply Q; now left).
      unfold count_rows at 1. destruct o as [|x o]; [congruence|]. cbn [bind]. rewrite IH by (intros; apply Q; now right). reflexivity. }
    rewrite Em. exists (map (fun o => (o, c o)) os). split; [reflexivity|].
    assert (Mo : forall r, In r rows -> mass D F (dfilter keep (row_obs data r)) <> 0%Qc).
    { intros r Jr Z. apply (Mr r Jr). destruct (OR r Jr) as (_ & _ & Kr). apply Qcle_antisym.
      - rewrite <- Z. apply (mass_mono m D F vt H NN). intros p. apply consistent_dfilter.
      - apply (mass_nonneg m D F vt H); auto. }
    assert (Ap := family_apart T HT).
    split.
    - intros o n J. apply in_map_iff in J as (o' & Q & J). injection Q as <- <-. apply Ho in J as (r & Jr & ->).
      destruct (OR r Jr) as (_ & Kr & _). split; [|split; [|auto]].
      + intros x J. apply e1_In in J as [J _]. rewrite Kr in J. now apply (net_nodes m D F vt H), IE.
      + intros x Jx J. apply e1_In in J as [J _]. apply (Ap (row_obs data r) x); auto. now apply in_map.
    - intros a Va. rewrite map_map. cbn [fst snd].
      etransitivity; [apply (counted os (fun r => dfilter keep (row_obs data r)) rows (fun o => matches (f_cols data) o)
                 (fun o => mass D F (obs_of T a ++ o) / mass D F o)%Qc No)|].
      3:{ unfold counts. rewrite map_map. f_equal. apply map_ext_in. intros r Jr. destruct (OR r Jr) as (_ & Kr & Kn).
        assert (P := filtered_posterior m D F vt H (row_obs data r) Kn).
        rewrite Kr in P. specialize (P IE v (proj2 (net_nodes m D F vt H v) Iv) keep (fun w J B => proj2 (Hk w J) B) T).
        assert (ApE : forall x, In x T -> ~ In x E). { intros x Jx. rewrite <- Kr. apply (Ap (row_obs data r) x); [now apply in_map|auto]. }
        specialize (P ApE).
        destruct HT as (pa & _ & _ & _ & HT). specialize (P (fun x Jx => proj1 (HT x) Jx) (obs_of T a) (assigns_obs D T a Va)).
        assert (M1 := Mo r Jr). assert (M2 := Mr r Jr).
        set (x1 := mass D F (obs_of T a ++ row_obs data r)) in *. set (x2 := mass D F (obs_of T a ++ dfilter keep (row_obs data r))) in *.
        set (y1 := mass D F (row_obs data r)) in *. set (y2 := mass D F (dfilter keep (row_obs data r))) in *.
        replace (x2 / y2)%Qc with (x2 * y1 / (y1 * y2))%Qc by (field; auto). rewrite <- P. field. auto. }
      + intros r Jr. apply Ho. eauto.
      + intros o r Jo Jr. apply Ho in Jo as (r' & Jr' & ->). now apply (matches_part D E data OD).
  Qed.

  Lemma counts_uninformed : ~ informed g E v -> get_obs_counts s v = Raise TypeError.
  Proof.
    intros NI. destruct Lv as (Iv & NvE & NpE & Sn).
    destruct (blanket_ok g D v E data (net_wg m D F vt H) (net_ac m D F vt H) (net_nodes m D F vt H) Iv OD NvE) as (keep & os & Hk & Eo & No & Ho).
    unfold get_obs_counts. rewrite Ed, Eo. cbn [bind]. destruct OD as (_ & IE & OR).
    assert (Z : forall o, In o os -> o = []).
    { intros o J. apply Ho in J as (r & Jr & ->). destruct (OR r Jr) as (_ & Kr & _).
      destruct (dfilter keep (row_obs data r)) as [|[w x] o'] eqn:Eq; [reflexivity|]. exfalso. apply NI. exists w.
      assert (Jw : In w (keys (dfilter keep (row_obs data r)))) by (rewrite Eq; now left).
      apply e1_In in Jw as [Jw K]. rewrite Kr in Jw. now apply Hk. }
    destruct rows_nonempty as (r & Jr). destruct os as [|o os].
    - exfalso. apply (proj2 (Ho (dfilter keep (row_obs data r)))). eauto.
    - rewrite (Z o) by now left. reflexivity.
  Qed.

  Lemma seen T a : same_family m v T -> valid D a -> sm [v] (counts D F es T) a <> 0%Qc.
  Proof.
    intros HT0 Va. assert (HT1 := HT0). destruct HT0 as (pa & Epa & ET & NT & HT). destruct Lv as (Iv & NvE & NpE & Sn).
    assert (Ap := family_apart T HT1). destruct OD as (_ & IE & OR).
    assert (Ke : forall e, In e es -> Spec.known D e). { intros e J. apply in_map_iff in J as (r & <- & Jr). apply OR, Jr. }
    assert (Me : forall e, In e es -> mass D F e <> 0%Qc). { intros e J. apply in_map_iff in J as (r & <- & Jr). auto. }
    destruct (Sn (obs_of (preds g v) a) (assigns_obs D _ a Va)) as (r & Jr & Nz).
    set (e := row_obs data r) in *. assert (Je : In e es) by now apply in_map.
    assert (Nv : ~ In v pa). { rewrite ET in NT. now apply NoDup_cons_iff in NT. }
    assert (Hpa : forall x, In x pa <-> In x (preds g v)).
    { intros x. rewrite in_preds. specialize (HT x). rewrite ET in HT. cbn in HT. split.
      - intros J. destruct (proj1 HT (or_intror J)) as [-> | A]; [contradiction|auto].
      - intros A. destruct (proj2 HT (or_intror A)) as [<- | J]; [|auto]. exfalso. apply (net_ac m D F vt H v). now apply walk_one. }
    assert (Nz' : mass D F (obs_of pa a ++ e) <> 0%Qc).
    { rewrite (mass_get D F _ (obs_of (preds g v) a ++ e)); [auto|]. intros x. rewrite !dget_app.
      destruct (in_dec eqd x pa) as [J|J].
      - rewrite obs_of_get by auto. now rewrite obs_of_get by now apply Hpa.
      - assert (N1 : dget x (obs_of pa a) = None). { apply dget_None. now rewrite keys_obs_of. }
        assert (N2 : dget x (obs_of (preds g v) a) = None). { apply dget_None. rewrite keys_obs_of. intros J'. apply J. now apply Hpa. }
        now rewrite N1, N2. }
    assert (Kp : Spec.known D (obs_of pa a ++ e)) by (apply known_app; [eapply assigns_known, assigns_obs; eauto|auto]).
    assert (Tot : sm [v] (fun b => mass D F (obs_of T b ++ e) * / mass D F e)%Qc a = (mass D F (obs_of pa a ++ e) * / mass D F e)%Qc).
    { rewrite (sm_scale_r D) by reflexivity. f_equal.
      rewrite <- (mass_total m D F vt H [v] (obs_of pa a ++ e) a Kp Va).
      - apply (sm_ext D WD); [auto|]. intros b Vb Eb. f_equal. rewrite ET. unfold obs_of. cbn [map app]. f_equal. f_equal.
        apply map_ext_in. intros x J. rewrite Eb; [auto|]. intros [<- | []]. contradiction.
      - intros x [<- | []] J. unfold keys in J. rewrite map_app in J. apply in_app_or in J as [J|J].
        + fold (keys (obs_of pa a)) in J. rewrite keys_obs_of in J. contradiction.
        + apply (Ap e v Je); [apply HT; auto|exact J]. }
    assert (Pe := mass_pos m D F vt H NN es Ke Me e Je).
    assert (Pp : (0 < mass D F (obs_of pa a ++ e))%Qc).
    { assert (N := mass_nonneg m D F vt H _ NN Kp). apply Qcle_lt_or_eq in N as [N|N]; [auto|congruence]. }
    assert (Ei : (mass D F e * / mass D F e = 1)%Qc) by (apply Qcmult_inv_r; auto).
    assert (Pi : (0 <= / mass D F e)%Qc) by (apply inv_nn; qclra).
    assert (Pq : (0 < mass D F (obs_of pa a ++ e) * / mass D F e)%Qc).
    { set (x := mass D F (obs_of pa a ++ e)) in *. set (y := mass D F e) in *. set (z := (/ y)%Qc) in *.
      destruct (Qc_eq_dec z 0) as [Z|Z]; [rewrite Z in Ei; rewrite Qcmult_comm, Qcmult_0_l in Ei; discriminate|].
      apply Qcle_lt_or_eq in Pi as [Pi|Pi]; [|congruence]. qcnra. }
    assert (L : (sm [v] (fun b => mass D F (obs_of T b ++ e) * / mass D F e)%Qc a <= sm [v] (counts D F es T) a)%Qc).
    { apply (sm_le D WD); [auto|]. intros b Vb _. unfold counts.
      apply in_split in Je as (l1 & l2 & El). rewrite El. rewrite map_app, qsum_app. cbn [map qsum].
      assert (Nn : forall e0, In e0 (l1 ++ e :: l2) -> (0 <= mass D F (obs_of T b ++ e0) / mass D F e0)%Qc).
      { intros e0 J. rewrite <- El in J. apply div_nn.
        - apply (mass_nonneg m D F vt H _ NN). apply known_app; [|auto]. eapply assigns_known, assigns_obs; eauto.
        - apply Qclt_le_weak. apply (mass_pos m D F vt H NN es Ke Me e0 J). }
      assert (0 <= qsum (map (fun e0 => mass D F (obs_of T b ++ e0) / mass D F e0)%Qc l1))%Qc.
      { apply qsum_nn. intros x J. apply in_map_iff in J as (e0 & <- & J). apply Nn. apply in_or_app. auto. }
      assert (0 <= qsum (map (fun e0 => mass D F (obs_of T b ++ e0) / mass D F e0)%Qc l2))%Qc.
      { apply qsum_nn. intros x J. apply in_map_iff in J as (e0 & <- & J). apply Nn. apply in_or_app. right. now right. }
      unfold Qcdiv in *. set (u := (mass D F (obs_of T b ++ e) * / mass D F e)%Qc) in *.
      match goal with |- (_ <= ?x + (_ + ?y))%Qc => set (x1 := x); set (y1 := y) end.
      assert (X1 : (0 <= x1)%Qc) by exact H0. assert (Y1 : (0 <= y1)%Qc) by exact H1. qclra. }
    rewrite Tot in L. intros Z. rewrite Z in L. qclra.
  Qed.
End OneVar.
