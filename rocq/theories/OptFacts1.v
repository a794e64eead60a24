(** How much the data can gain from another table of one variable. *)

From Coq Require Import String Bool Arith ZArith QArith Qcanon Lia Permutation List.
From Verif Require Import PyBase PyFacts Num DomainModel NdArray StoreModel NumStore FactorModel GraphModel ModelModel InferModel
  Spec DomainFacts StoreSpec StoreFacts NumFacts PropFacts1 FactorSpec FactorFacts FactorFacts2 FactorFacts3 BigSum
  GraphSpec GraphFacts ModelSpec ModelFacts
  NetSpec NetSem FactorSem NetFacts VeFacts4 VeFacts5 CfFacts EmMath EmFacts4.
From Coq Require Import List.
Import ListNotations.
Local Open Scope nat_scope.
Local Arguments eqd : simpl never.

(** a product whose factors have the mean [x] at most *)
Lemma mean_bound l x : (forall y, In y l -> 0 <= y)%Qc -> (qsum l <= x * qn (length l))%Qc -> (qprod l <= pw x (length l))%Qc.
Proof.
  intros Hn L. assert (A := amgm l Hn). set (n := length l) in *.
  assert (S0 : (0 <= qsum l)%Qc) by now apply qsum_nn.
  assert (B : (pw (qsum l) n <= pw (x * qn n) n)%Qc) by now apply pw_le. rewrite pw_mul in B.
  destruct n as [|n].
  - cbn in *. qclra.
  - assert (P : (0 < pw (qn (S n)) (S n))%Qc) by (apply pw_pos, qn_pos; lia). set (z := pw (qn (S n)) (S n)) in *.
    destruct (Qclt_le_dec (pw x (S n)) (qprod l)) as [C|C]; [|exact C]. exfalso. qcnra.
Qed.

Lemma qprod_out {A} (eq : forall a b : A, {a = b} + {a <> b}) (f h : A -> Qc) v l : NoDup l -> In v l -> (forall w, In w l -> w <> v -> h w = f w) ->
  (qprod (map h l) * f v = qprod (map f l) * h v)%Qc.
Proof.
  intros N J E. assert (P := in_split v l J). destruct P as (l1 & l2 & ->).
  assert (G : map h l1 = map f l1 /\ map h l2 = map f l2).
  { apply NoDup_remove_2 in N. split; apply map_ext_in; intros w Jw; apply E; try (apply in_or_app; cbn; auto);
      intros ->; apply N; apply in_or_app; auto. }
  destruct G as [G1 G2]. rewrite !map_app. cbn [map]. rewrite G1, G2. rewrite !qprod_app. cbn [qprod]. ring.
Qed.

Section Bound.
  Variables (m : pgm) (D : domain) (F : var -> mfactor) (vt : vtype).
  Hypothesis H : network m D F vt.
  Hypothesis NN : nonnegative D F.
  Notation g := (m_graph m).
  Let WD : wf_dom D := net_wd m D F vt H.
  Notation good := (good D vt).
  Notation sm := (sm D).
  Notation V := (keys D).
  Notation all := (all_assignments D).
  Variable es : list obs.
  Hypothesis Ke : forall e, In e es -> known D e.
  Hypothesis Me : forall e, In e es -> mass D F e <> 0%Qc.
  Notation old := (fun v o => entry (F v) o).
  Notation weight := (weight es all consistent V old).
  Notation share := (share all consistent V old).
  Notation W := (W D F es).
  Notation counts := (counts D F es).

  (** the variable, its family and its new table *)
  Variables (v : var) (T : list var) (p : mfactor).
  Hypothesis Iv : In v V.
  Hypothesis NT : NoDup T.
  Hypothesis IT : incl T V.
  Hypothesis Ap : apart es T.
  Hypothesis IvT : In v T.
  Hypothesis HT : forall x, In x T <-> In x (mf_vars (F v)).
  Hypothesis Cp : cpt D vt v (preds g v) p.
  Hypothesis Hp : forall a, valid D a -> sm [v] (counts T) a <> 0%Qc /\ fv p a = (counts T a / sm [v] (counts T) a)%Qc.
  (** another table *)
  Variable G : var -> mfactor.
  Hypothesis Go : forall w, w <> v -> G w = F w.
  Hypothesis Cg : cpt D vt v (preds g v) (G v).
  Hypothesis Ng : forall o, full (mf_domain (G v)) o -> (0 <= entry (G v) o)%Qc.
  (** the table rules nothing out *)
  Hypothesis Sup : forall e o, In e es -> In o all -> consistent e o = true -> (forall w, In w V -> w <> v -> entry (F w) o <> 0%Qc) -> entry (F v) o <> 0%Qc.
  Variable x : Qc.
  Hypothesis Hx : forall o, In o all -> (entry p o <= x * entry (F v) o)%Qc.

  Let Gf : good (F v) := net_good m D F vt H v Iv.
  Let Gp : good p := cpt_good D vt v _ _ Cp.
  Let Gg : good (G v) := cpt_good D vt v _ _ Cg.

  Lemma same_vars w : In w (mf_vars (G v)) -> In w T.
  Proof. intros J. apply HT. apply (cpt_vars D vt v _ _ w Cg) in J. now apply (cpt_vars D vt v _ _ w (net_cpt m D F vt H v Iv)). Qed.

  Lemma fv_entry f b : good f -> valid D b -> fv f b = entry f (obs_of V b).
  Proof.
    intros Gd Vb. symmetry. apply (entry_fv D vt); auto. intros w J. rewrite obs_of_get; [auto|]. unfold mf_vars in J.
    apply keys_In in J as (l & J). apply Gd in J. apply (in_map fst) in J. exact J.
  Qed.
  Lemma g_nn b : valid D b -> (0 <= fv (G v) b)%Qc.
  Proof.
    intros Vb. rewrite fv_entry by auto. apply Ng. eapply (good_full D vt); [exact Gg|].
    now apply full_obs_D.
  Qed.
  Lemma f_nn b : valid D b -> (0 <= fv (F v) b)%Qc.
  Proof. intros Vb. rewrite fv_entry by auto. apply (old_nn m D F vt H NN); auto. now apply (obs_in_all m D F vt H). Qed.
  Lemma p_le b : valid D b -> (fv p b <= x * fv (F v) b)%Qc.
  Proof. intros Vb. rewrite !fv_entry by auto. apply Hx. now apply (obs_in_all m D F vt H). Qed.

  Lemma x_one : (1 <= x)%Qc.
  Proof.
    destruct (some_valid D WD) as (a & Va).
    assert (E1 : sm [v] (fv p) a = 1%Qc) by (apply (cpt_one D vt WD v _ _ a Cp Va)).
    assert (E2 : sm [v] (fv (F v)) a = 1%Qc) by (apply (P_one m D F vt H v a Iv Va)).
    rewrite <- E1. apply Qcle_trans with (sm [v] (fun b => x * fv (F v) b)%Qc a).
    - apply sm_le; auto. intros b Vb _. now apply p_le.
    - rewrite (sm_scale D [v] (fun _ => x)) by auto. rewrite E2, Qcmult_1_r. apply Qcle_refl.
  Qed.

  (** the gain in the table, weighted by the expected counts *)
  Lemma gain_ratio : (qsum (map (fun o => weight o * (entry (G v) o / entry (F v) o)) all) <= x * qsum (map weight all))%Qc.
  Proof.
    assert (X1 := x_one). destruct (some_valid D WD) as (a & Va).
    set (c := counts T) in *. set (h := fun b => (fv (G v) b / fv (F v) b)%Qc).
    assert (Eo : ext_fun (fv (F v))) by (eapply dep_ext, (fv_dep D vt); eauto).
    assert (En : ext_fun (fv (G v))) by (eapply dep_ext, (fv_dep D vt); eauto).
    assert (Ec : ext_fun c) by (eapply dep_ext, counts_dep).
    assert (Dh : dep T h).
    { intros y z E. unfold h. rewrite (fv_dep D vt _ Gf y z), (fv_dep D vt _ Gg y z); [reflexivity|..]; intros w J; apply E; [now apply same_vars|now apply HT]. }
    assert (EWh : ext_fun (fun b => W b * h b)%Qc).
    { intros y z E. rewrite (W_ext D F es y z E). f_equal. apply Dh. intros w _. apply E. }
    rewrite (map_ext_in _ (fun o => (fun b => W b * h b)%Qc (over o a))).
    2:{ intros o Io. cbn beta. rewrite (W_over m D F vt H) by auto. unfold h.
        rewrite (entry_over m D F vt H (F v) o a), (entry_over m D F vt H (G v) o a); auto. }
    rewrite (sum_all D WD _ a EWh).
    rewrite (map_ext_in weight (fun o => W (over o a))) by (intros o Io; now rewrite (W_over m D F vt H)).
    rewrite (sum_all D WD W a (W_ext D F es)).
    assert (Sp : forall w, In w V -> (In w V <-> In w (T ++ minus V T))).
    { intros w J. rewrite in_app_iff, minus_In. destruct (in_dec eqd w T); tauto. }
    assert (Dj : forall w, In w T -> In w (minus V T) -> In w V -> False) by (intros w J1 J2 _; apply minus_In in J2; tauto).
    rewrite !(sm_set D _ _ _ a Sp), !(sm_app D WD) by (auto using (W_ext D F es)).
    set (pa := minus T [v]).
    assert (Sp2 : forall w, In w V -> (In w T <-> In w (pa ++ [v]))).
    { intros w J. unfold pa. rewrite in_app_iff, minus_In. cbn. split; [|intros [[? ?] | [<- | []]]; auto].
      intros Jw. destruct (eqd v w) as [-> | Nw]; [auto|]. left. split; [auto|]. intros [E|[]]; contradiction. }
    assert (Dj2 : forall w, In w pa -> In w [v] -> In w V -> False) by (intros w J1 J2 _; apply minus_In in J1; tauto).
    assert (Ez : ext_fun (sm [v] c)) by (now apply sm_ext_fun).
    assert (Zn : forall b, valid D b -> (0 <= sm [v] c b)%Qc).
    { intros b Vb. apply sm_pos; auto. intros b' Vb'. now apply (counts_nn m D F vt H NN es Ke Me). }
    apply Qcle_trans with (sm T (fun b => x * (fv (G v) b * sm [v] c b))%Qc a).
    - apply sm_le; [auto..|]. intros b Vb _.
      assert (E : sm (minus V T) (fun b0 => W b0 * h b0)%Qc b = (c b * h b)%Qc).
      { rewrite (sm_scale_r D). { unfold c. now rewrite (counts_sm m D F vt H es). }
        intros b' Eb. apply Dh. intros w J. apply Eb. intros J'. apply minus_In in J'. tauto. }
      rewrite E. unfold h. destruct (Hp b Vb) as [Nz Ep]. fold c in Nz, Ep. assert (Pz := Zn b Vb).
      assert (Pg := g_nn b Vb). assert (Pf := f_nn b Vb). assert (Pp := p_le b Vb).
      assert (Ecb : c b = (fv p b * sm [v] c b)%Qc) by (rewrite Ep; field; auto).
      rewrite Ecb. set (f0 := fv (F v) b) in *. set (g0 := fv (G v) b) in *. set (p0 := fv p b) in *. set (z := sm [v] c b) in *.
      clearbody f0 g0 p0 z. clear - X1 Pz Pg Pf Pp. destruct (Qc_eq_dec f0 0) as [Z|Z].
      + rewrite Z. replace (p0 * z * (g0 / 0))%Qc with 0%Qc by (unfold Qcdiv; replace (/ 0)%Qc with 0%Qc by reflexivity; ring).
        assert (0 <= g0 * z)%Qc by qcnra. qcnra.
      + assert (K : (0 <= g0 / f0)%Qc) by now apply div_nn.
        replace (x * (g0 * z))%Qc with (x * f0 * (z * (g0 / f0)))%Qc by (field; auto).
        replace (p0 * z * (g0 / f0))%Qc with (p0 * (z * (g0 / f0)))%Qc by ring.
        assert (K2 : (0 <= z * (g0 / f0))%Qc) by qcnra. set (k := (z * (g0 / f0))%Qc) in *. clearbody k. qcnra.
    - rewrite (sm_scale D T (fun _ => x)) by auto.
      assert (E : sm T (fun b => fv (G v) b * sm [v] c b)%Qc a = sm T (sm (minus V T) W) a); [|rewrite E; apply Qcle_refl].
      transitivity (sm T c a).
      + rewrite !(sm_set D _ _ _ a Sp2), !(sm_app D WD); auto.
        2:{ intros y z E. rewrite (En y z E). f_equal. now apply Ez. }
        apply (sm_ext D WD); [auto|]. intros b Vb _.
        rewrite (sm_scale_r D).
        2:{ intros b' Eb. apply (sm_same D); [auto|]. intros w [N|N]; [auto|]. apply Eb. intros [<- | []]. contradiction. }
        rewrite (cpt_one D vt WD v _ _ b Cg Vb), Qcmult_1_l. reflexivity.
      + apply (sm_ext D WD); [auto|]. intros b Vb _. unfold c. now rewrite (counts_sm m D F vt H es).
  Qed.

  Lemma weights_total : qsum (map weight all) = qn (length es).
  Proof.
    unfold EmMath.weight. rewrite <- (qsum_swap (fun e o => share e o)).
    rewrite (map_ext_in _ (fun _ => 1%Qc)).
    - rewrite <- (map_id (map _ es)). clear. induction es as [|e l IH]; [reflexivity|]. cbn [length map qsum]. rewrite qn_S. cbn [map qsum] in IH. now rewrite IH.
    - intros e Ie. unfold EmMath.share. rewrite <- (filter_total (fun o => (prod_of V old o / total_of all consistent V old e)%Qc)).
      unfold Qcdiv. rewrite (map_ext _ (fun o => / total_of all consistent V old e * prod_of V old o)%Qc) by (intros o; ring).
      rewrite qsum_scale. fold (total_of all consistent V old e). rewrite Qcmult_comm. apply Qcmult_inv_r. rewrite total_of_mass. now apply Me.
  Qed.

  Lemma joint_ratio e o : In e es -> In o all -> consistent e o = true -> joint G V o = (joint F V o * (entry (G v) o / entry (F v) o))%Qc.
  Proof.
    intros Ie Io Co. unfold joint.
    rewrite (product_qprod (map (fun w => entry (F w) o) V)), (product_qprod (map (fun w => entry (G w) o) V)).
    assert (Q := qprod_out eqd (fun w => entry (F w) o) (fun w => entry (G w) o) v V (proj1 WD) Iv).
    assert (Q' := Q (fun w _ N => f_equal (fun f => entry f o) (Go w N))). clear Q. cbn beta in Q'.
    destruct (Qc_eq_dec (entry (F v) o) 0) as [Z|Z].
    - assert (Ex : exists w, In w V /\ w <> v /\ entry (F w) o = 0%Qc).
      { destruct (existsb (fun w => if eqd w v then false else if Qc_eq_dec (entry (F w) o) 0 then true else false) V) eqn:Eb.
        - apply existsb_exists in Eb as (w & J & Q). exists w. split; [auto|]. destruct (eqd w v); [discriminate|]. split; [auto|].
          destruct (Qc_eq_dec (entry (F w) o) 0); [auto|discriminate].
        - exfalso. apply (Sup e o Ie Io Co); [|exact Z]. intros w J N E. rewrite <- not_true_iff_false in Eb. apply Eb.
          apply existsb_exists. exists w. split; [auto|]. destruct (eqd w v); [contradiction|]. destruct (Qc_eq_dec (entry (F w) o) 0); [auto|contradiction]. }
      destruct Ex as (w & J & N & E). rewrite (qprod_zero (map (fun w => entry (G w) o) V)).
      + rewrite (qprod_zero (map (fun w => entry (F w) o) V)); [ring|]. rewrite <- E. apply in_map_iff. now exists w.
      + rewrite <- E. apply in_map_iff. exists w. split; [now rewrite (Go w N)|auto].
    - assert (E : forall A B Gv Fv : Qc, (Fv <> 0 -> A * Fv = B * Gv -> A = B * (Gv / Fv))%Qc).
      { intros A B Gv Fv Nz Q. assert (R : (A = (A * Fv) / Fv)%Qc) by (field; auto). rewrite R, Q. field. auto. }
      apply E; auto.
  Qed.

  Lemma ratios_total : qsum (map (fun e => mass D G e / mass D F e)%Qc es) = qsum (map (fun o => weight o * (entry (G v) o / entry (F v) o))%Qc all).
  Proof.
    transitivity (qsum (map (fun e => qsum (map (fun o => share e o * (entry (G v) o / entry (F v) o))%Qc all)) es)).
    - f_equal. apply map_ext_in. intros e Ie. unfold mass at 1. etransitivity; [apply (f_equal (fun z => (z / mass D F e)%Qc)), total_qsum|].
      unfold Qcdiv at 1. rewrite Qcmult_comm, <- qsum_scale.
      rewrite (filter_total (fun o => (/ mass D F e * joint G V o)%Qc) (consistent e)). f_equal. apply map_ext_in. intros o Io. unfold EmMath.share.
      destruct (consistent e o) eqn:Co; [|ring]. rewrite total_of_mass, prod_of_joint, (joint_ratio e o) by auto. unfold Qcdiv. ring.
    - rewrite (qsum_swap (fun e o => (share e o * (entry (G v) o / entry (F v) o))%Qc)). f_equal. apply map_ext. intros o. unfold EmMath.weight.
      rewrite Qcmult_comm, <- qsum_scale. f_equal. apply map_ext. intros e. ring.
  Qed.

  Theorem table_bound : (qprod (map (mass D G) es) <= pw x (length es) * qprod (map (mass D F) es))%Qc.
  Proof.
    set (q := fun e => (mass D G e / mass D F e)%Qc).
    assert (NG : forall e, In e es -> (0 <= mass D G e)%Qc).
    { intros e Ie. unfold mass. rewrite total_qsum. apply qsum_nn. intros y J. apply in_map_iff in J as (o & <- & J). apply filter_In in J as [Io _].
      unfold joint. rewrite product_qprod. apply qprod_nonneg. intros y J. apply in_map_iff in J as (w & <- & J).
      destruct (eqd w v) as [-> | N]; [|rewrite (Go w N); now apply (old_nn m D F vt H NN)].
      apply Ng. eapply (good_full D vt); [exact Gg|]. now apply (all_assignments_In_full D o (proj1 WD)) in Io as [_ Fo]. }
    assert (B : (qprod (map q es) <= pw x (length es))%Qc).
    { replace (length es) with (length (map q es)) by apply map_length. apply mean_bound.
      - intros y J. apply in_map_iff in J as (e & <- & J). apply div_nn; [auto|]. apply Qclt_le_weak. now apply (mass_pos m D F vt H NN es Ke Me).
      - rewrite map_length. unfold q. rewrite ratios_total, <- weights_total. apply gain_ratio. }
    assert (L : (0 <= qprod (map (mass D F) es))%Qc).
    { apply qprod_nonneg. intros y J. apply in_map_iff in J as (e & <- & J). apply Qclt_le_weak. now apply (mass_pos m D F vt H NN es Ke Me). }
    rewrite (map_ext_in (mass D G) (fun e => q e * mass D F e)%Qc).
    - rewrite qprod_mul. qcnra.
    - intros e Ie. unfold q. field. now apply Me.
  Qed.
End Bound.
