(** The likelihood after the tables of some variables have been replaced by the
    normalised expected counts. *)

From Coq Require Import String Bool Arith ZArith QArith Qcanon Lia Permutation List.
From Verif Require Import PyBase PyFacts Num DomainModel NdArray StoreModel NumStore FactorModel GraphModel ModelModel InferModel
  Spec DomainFacts StoreSpec StoreFacts NumFacts PropFacts1 FactorSpec FactorFacts FactorFacts2 FactorFacts3 BigSum
  GraphSpec GraphFacts ModelSpec ModelFacts
  NetSpec NetSem FactorSem NetFacts VeFacts4 VeFacts5 CfFacts EmMath.
From Coq Require Import List.
Import ListNotations.
Local Open Scope nat_scope.
Local Arguments eqd : simpl never.

Lemma consistent_app (t e p : obs) : (forall x, In x (keys t) -> ~ In x (keys e)) ->
  consistent (t ++ e) p = consistent t p && consistent e p.
Proof.
  intros Dj. unfold consistent. induction p as [|[x s] p IH]; [reflexivity|]. cbn [forallb fst snd]. rewrite IH, dget_app.
  destruct (dget x t) as [s1|] eqn:E1.
  - destruct (dget x e) as [s2|] eqn:E2.
    + exfalso. apply (Dj x); apply dget_keys; eauto.
    + destruct (eqd s1 s); cbn [andb]; [|reflexivity]. destruct (forallb _ p), (forallb _ p); reflexivity.
  - destruct (dget x e) as [s2|] eqn:E2; [destruct (eqd s2 s)|]; cbn [andb]; destruct (forallb _ p), (forallb _ p); reflexivity.
Qed.

Lemma filter_and {A} (b c : A -> bool) l : filter (fun x => b x && c x) l = filter c (filter b l).
Proof. induction l as [|x l IH]; [reflexivity|]. cbn. destruct (b x); cbn; [destruct (c x)|]; congruence. Qed.

Section Sums.
  Variable D : domain.
  Hypothesis WD : wf_dom D.
  Notation sm := (sm D).

  Lemma sm_le S g h a : valid D a -> (forall b, valid D b -> (forall w, ~ In w S -> b w = a w) -> (g b <= h b)%Qc) -> (sm S g a <= sm S h a)%Qc.
  Proof.
    intros Va L. unfold sm, sumdom. rewrite !bsum_qsum. apply qsum_le. intros o J. apply L.
    - now apply (over_assign_valid D WD S).
    - intros w N. eapply over_assign_out; eauto.
  Qed.
  Lemma sm_pos S g a : valid D a -> (forall b, valid D b -> (0 <= g b)%Qc) -> (0 <= sm S g a)%Qc.
  Proof.
    intros Va L. unfold sm, sumdom. rewrite bsum_qsum. apply qsum_nn. intros x J. apply in_map_iff in J as (o & <- & J).
    apply L. now apply (over_assign_valid D WD S).
  Qed.

  Lemma sum_given t g a : known D t -> ext_fun g ->
    (forall v s, In v (keys D) -> dget v t = Some s -> a v = s) ->
    qsum (map (fun p => g (over p a)) (filter (consistent t) (all_assignments D))) = sm (minus (keys D) (keys t)) g a.
  Proof.
    intros K E A. rewrite (filtered_sum D WD t g a K E A). unfold NetSem.sm. f_equal. unfold drop, pick. apply filter_ext_in. intros [v l] J. cbn [fst].
    assert (In v (keys D)) by (apply (in_map fst) in J; auto).
    destruct (mem v (keys t)) eqn:M1, (mem v (minus (keys D) (keys t))) eqn:M2; auto; exfalso.
    + apply mem_In in M1. apply mem_In, minus_In in M2. tauto.
    + apply mem_nIn in M1. apply mem_nIn in M2. apply M2, minus_In. auto.
  Qed.
  Lemma filter_nil_obs l : filter (consistent []) l = l.
  Proof.
    induction l as [|p l IH]; [reflexivity|]. cbn. rewrite IH. replace (consistent [] p) with true; [reflexivity|].
    symmetry. apply forallb_forall. intros; reflexivity.
  Qed.
  Lemma sum_all g a : ext_fun g -> qsum (map (fun p => g (over p a)) (all_assignments D)) = sm (keys D) g a.
  Proof.
    intros E. rewrite <- (filter_nil_obs (all_assignments D)).
    rewrite (sum_given [] g a); [|intros v l s _ Q; discriminate Q|exact E|intros v s _ Q; discriminate Q].
    apply (sm_set D). intros v J. rewrite minus_In. cbn. tauto.
  Qed.
End Sums.

Section Gain.
  Variables (m : pgm) (D : domain) (F : var -> mfactor) (vt : vtype).
  Hypothesis H : network m D F vt.
  Hypothesis NN : nonnegative D F.
  Notation g := (m_graph m).
  Let WD : wf_dom D := net_wd m D F vt H.
  Notation good := (good D vt).
  Notation sm := (sm D).
  Notation V := (keys D).
  Notation all := (all_assignments D).

  (** the rows *)
  Variable es : list obs.
  Hypothesis Ke : forall e, In e es -> known D e.
  Hypothesis Me : forall e, In e es -> mass D F e <> 0%Qc.

  Notation old := (fun v o => entry (F v) o).
  Notation weight := (weight es all consistent V old).
  Notation share := (share all consistent V old).

  Lemma prod_of_joint G o : prod_of V (fun v o => entry (G v) o) o = joint G V o.
  Proof. unfold prod_of, joint. symmetry. apply product_qprod. Qed.
  Lemma total_of_mass G e : total_of all consistent V (fun v o => entry (G v) o) e = mass D G e.
  Proof. unfold total_of, mass. etransitivity; [|symmetry; apply total_qsum]. reflexivity. Qed.

  Lemma old_nn v o : In v V -> In o all -> (0 <= old v o)%Qc.
  Proof.
    intros Iv Io. apply NN; [auto|]. apply (all_assignments_In_full D o (proj1 WD)) in Io as [_ Fo].
    eapply (good_full D vt); eauto. now apply (net_good m D F vt H).
  Qed.
  Lemma mass_pos e : In e es -> (0 < mass D F e)%Qc.
  Proof.
    intros Ie. assert (N := mass_nonneg m D F vt H e NN (Ke e Ie)). apply Qcle_lt_or_eq in N as [N|N]; [auto|]. now destruct (Me e Ie).
  Qed.
  Lemma pos e : In e es -> (0 < total_of all consistent V old e)%Qc.
  Proof. intros Ie. rewrite total_of_mass. now apply mass_pos. Qed.
  Lemma weight_nn' o : In o all -> (0 <= weight o)%Qc.
  Proof. apply weight_nn; [exact old_nn|exact pos]. Qed.

  (** what a row says of the variables [T] *)
  Definition counts (T : list var) (a : asg) : Qc := qsum (map (fun e => mass D F (obs_of T a ++ e) / mass D F e)%Qc es).

  Definition W (a : asg) : Qc := weight (obs_of V a).
  Lemma W_ext : ext_fun W.
  Proof. intros a b E. unfold W. f_equal. unfold obs_of. apply map_ext. intros v. now rewrite E. Qed.
  Lemma all_keys o : In o all -> keys o = V.
  Proof. intros J. apply (all_assignments_In_full D o (proj1 WD)) in J as [K _]. exact K. Qed.
  Lemma W_over o a : In o all -> W (over o a) = weight o.
  Proof. intros J. unfold W. rewrite obs_of_over; [reflexivity|now apply all_keys|apply WD]. Qed.
  Lemma obs_in_all a : valid D a -> In (obs_of V a) all.
  Proof. intros Va. apply (all_assignments_In_full D _ (proj1 WD)). split; [apply keys_obs_of|]. now apply full_obs_D. Qed.

  Definition apart (T : list var) : Prop := forall e x, In e es -> In x T -> ~ In x (keys e).

  Lemma counts_sm T a : NoDup T -> incl T V -> apart T -> valid D a -> counts T a = sm (minus V T) W a.
  Proof.
    intros NT IT Ap Va. assert (At := assigns_obs D T a Va).
    assert (Kt : keys (obs_of T a) = T) by apply keys_obs_of.
    rewrite <- Kt at 2. rewrite <- (sum_given D WD (obs_of T a) W a).
    2:{ eapply assigns_known; eauto. } 2:{ apply W_ext. }
    2:{ intros v s _ E. assert (J : In v T). { rewrite <- Kt. apply dget_keys. eauto. } rewrite obs_of_get in E by auto. congruence. }
    rewrite (map_ext_in _ weight) by (intros o J; apply filter_In in J as [J _]; now apply W_over).
    unfold EmMath.weight. rewrite <- (qsum_swap (fun e o => share e o)). unfold counts. f_equal. apply map_ext_in. intros e Ie.
    unfold EmMath.share. rewrite <- (filter_total (fun o => (prod_of V old o / total_of all consistent V old e)%Qc)).
    rewrite <- filter_and, total_of_mass. unfold Qcdiv.
    rewrite (map_ext _ (fun o => / mass D F e * joint F V o)%Qc) by (intros o; rewrite prod_of_joint; ring).
    rewrite qsum_scale, Qcmult_comm. f_equal. unfold mass at 1. etransitivity; [apply total_qsum|]. f_equal. f_equal. apply filter_ext. intros p.
    apply consistent_app. intros x J. apply Ap; [auto|]. now rewrite <- Kt.
  Qed.

  Lemma weight_counts T o a : NoDup T -> incl T V -> apart T -> valid D a -> In o all -> (weight o <= counts T (over o a))%Qc.
  Proof.
    intros NT IT Ap Va Io. assert (Vo : valid D (over o a)).
    { assert (Io' := Io). apply (all_assignments_In_full D o (proj1 WD)) in Io' as [Ko Fo]. intros v l J. destruct (Fo v l J) as (s & Es & Js).
      unfold over. now rewrite Es. }
    assert (Ao : forall x, In x V -> dget x o = Some (over o a x)).
    { intros x J. rewrite <- (all_keys o Io) in J. apply dget_keys in J as (s & Es). unfold over. now rewrite Es. }
    rewrite (counts_sm T _ NT IT Ap Vo). replace (minus V T) with (minus V (keys (obs_of T (over o a)))) by now rewrite keys_obs_of.
    rewrite <- (sum_given D WD (obs_of T (over o a)) W (over o a)).
    2:{ eapply assigns_known, assigns_obs; eauto. } 2:{ apply W_ext. }
    2:{ intros v s _ E. assert (J : In v T). { rewrite <- (keys_obs_of T (over o a)). apply dget_keys. eauto. } rewrite obs_of_get in E by auto. congruence. }
    rewrite (map_ext_in _ weight) by (intros p J; apply filter_In in J as [J _]; now apply W_over).
    assert (Jo : In o (filter (consistent (obs_of T (over o a))) all)).
    { apply filter_In. split; [auto|]. apply forallb_forall. intros [x s] J. cbn [fst snd].
      destruct (dget x (obs_of T (over o a))) as [s'|] eqn:E; [|reflexivity].
      assert (Jx : In x T). { rewrite <- (keys_obs_of T (over o a)). apply dget_keys. eauto. }
      rewrite obs_of_get in E by auto. injection E as <-.
      assert (Q := Ao x (IT x Jx)). rewrite (In_dget x s o) in Q; [|rewrite (all_keys o Io); apply WD|exact J].
      injection Q as <-. destruct (eqd s s); congruence. }
    apply in_split in Jo as (l1 & l2 & El). rewrite El, map_app, qsum_app. cbn [map qsum].
    assert (forall l, (forall p, In p l -> In p (filter (consistent (obs_of T (over o a))) all)) -> (0 <= qsum (map weight l))%Qc).
    { intros l Hl. apply qsum_nn. intros x J. apply in_map_iff in J as (p & <- & J). apply Hl in J. apply filter_In in J as [J _]. now apply weight_nn'. }
    assert (0 <= qsum (map weight l1))%Qc by (apply H0; intros p J; rewrite El; apply in_or_app; auto).
    assert (0 <= qsum (map weight l2))%Qc by (apply H0; intros p J; rewrite El; apply in_or_app; right; now right).
    qclra.
  Qed.

  Lemma counts_dep T : dep T (counts T).
  Proof.
    intros a b E. unfold counts. f_equal. apply map_ext. intros e. f_equal. f_equal. f_equal. unfold obs_of. apply map_ext_in. intros x J.
    now rewrite E.
  Qed.
  Lemma div_nn x y : (0 <= x)%Qc -> (0 <= y)%Qc -> (0 <= x / y)%Qc.
  Proof. intros X Y. assert (0 <= / y)%Qc by now apply inv_nn. unfold Qcdiv. qcnra. Qed.
  Lemma counts_nn T a : valid D a -> (0 <= counts T a)%Qc.
  Proof.
    intros Va. apply qsum_nn. intros x J. apply in_map_iff in J as (e & <- & J). apply div_nn.
    - apply (mass_nonneg m D F vt H _ NN). apply known_app; [|auto]. eapply assigns_known, assigns_obs; eauto.
    - apply Qclt_le_weak. now apply mass_pos.
  Qed.
  Lemma over_all_valid o a : In o all -> valid D (over o a).
  Proof.
    intros Io. apply (all_assignments_In_full D o (proj1 WD)) in Io as [Ko Fo]. intros v l J. destruct (Fo v l J) as (s & Es & Js).
    unfold over. now rewrite Es.
  Qed.
  Lemma entry_over f o a : good f -> In o all -> entry f o = fv f (over o a).
  Proof.
    intros Gf Io. apply (entry_fv D vt); [auto|now apply over_all_valid|]. intros x J. 
    assert (Jx : In x (keys o)). { rewrite (all_keys o Io). unfold mf_vars in J. apply keys_In in J as (l & J). apply Gf in J. apply (in_map fst) in J. exact J. }
    apply dget_keys in Jx as (s & Es). unfold over. now rewrite Es.
  Qed.

  (** the new tables *)
  Variables (act : list var) (F' : var -> mfactor) (T : var -> list var).
  Hypothesis Ht : forall v, In v act ->
    In v V /\ NoDup (T v) /\ incl (T v) V /\ apart (T v) /\ In v (T v) /\ forall x, In x (T v) <-> In x (mf_vars (F v)).
  Hypothesis Ha : forall v, In v act -> good (F' v) /\ (forall x, In x (mf_vars (F' v)) -> In x (T v)) /\
    forall a, valid D a -> sm [v] (counts (T v)) a <> 0%Qc /\ fv (F' v) a = (counts (T v) a / sm [v] (counts (T v)) a)%Qc.
  Hypothesis Hi : forall v, ~ In v act -> F' v = F v.
  Notation new := (fun v o => entry (F' v) o).

  Lemma total_counts v a : In v act -> valid D a -> (0 < sm [v] (counts (T v)) a)%Qc.
  Proof.
    intros Iv Va. destruct (Ha v Iv) as (_ & _ & Q). destruct (Q a Va) as [N _].
    assert (P : (0 <= sm [v] (counts (T v)) a)%Qc) by (apply sm_pos; auto; intros; now apply counts_nn).
    apply Qcle_lt_or_eq in P as [P|P]; [auto|congruence].
  Qed.
  Lemma good_new v : In v V -> good (F' v).
  Proof. intros J. destruct (in_dec eqd v act) as [I|I]; [now apply Ha|]. rewrite Hi by auto. now apply (net_good m D F vt H). Qed.

  Lemma new_nn v o : In v V -> In o all -> (0 <= new v o)%Qc.
  Proof.
    intros Iv Io. destruct (in_dec eqd v act) as [I|I]; [|rewrite Hi by auto; now apply old_nn].
    destruct (some_valid D WD) as (a & Va). rewrite (entry_over (F' v) o a) by (auto using good_new).
    assert (Vo := over_all_valid o a Io). destruct (Ha v I) as (_ & _ & Q). destruct (Q _ Vo) as [_ ->]. apply div_nn.
    - now apply counts_nn.
    - apply Qclt_le_weak. now apply total_counts.
  Qed.

  Lemma weight_old_nz v o : In v V -> In o all -> weight o <> 0%Qc -> old v o <> 0%Qc.
  Proof.
    intros Iv Io N E. apply N. unfold EmMath.weight. apply qsum_zeros. intros e Ie. unfold EmMath.share. destruct (consistent e o); [|auto].
    assert (Z : prod_of V old o = 0%Qc). { unfold prod_of. apply qprod_zero. rewrite <- E. apply in_map_iff. now exists v. }
    rewrite Z. unfold Qcdiv. ring.
  Qed.

  Lemma new_pos v o : In v V -> In o all -> weight o <> 0%Qc -> new v o <> 0%Qc.
  Proof.
    intros Iv Io N. destruct (in_dec eqd v act) as [I|I]; [|rewrite Hi by auto; now apply weight_old_nz].
    destruct (some_valid D WD) as (a & Va). rewrite (entry_over (F' v) o a) by (auto using good_new).
    assert (Vo := over_all_valid o a Io). destruct (Ha v I) as (_ & _ & Q). destruct (Q _ Vo) as [Nz ->].
    destruct (Ht v I) as (_ & NT & IT & Ap & _).
    assert (L := weight_counts (T v) o a NT IT Ap Va Io). assert (Wn := weight_nn' o Io).
    intros Z. apply Qcmult_integral in Z as [Z|Z].
    - apply N. apply Qcle_antisym; [|auto]. rewrite Z in L. exact L.
    - assert (E := Qcmult_inv_r _ Nz). rewrite Z in E. rewrite Qcmult_comm, Qcmult_0_l in E. discriminate E.
  Qed.

  Lemma ratio v : In v V -> (qsum (map (fun o => weight o * (old v o / new v o)) all) <= qsum (map weight all))%Qc.
  Proof.
    intros Iv. destruct (in_dec eqd v act) as [I|I].
    2:{ apply qsum_le. intros o Io. rewrite Hi by auto. assert (Wn := weight_nn' o Io). set (q := entry (F v) o).
        destruct (Qc_eq_dec q 0) as [Z|Z].
        - rewrite Z. replace (weight o * (0 / 0))%Qc with 0%Qc by (unfold Qcdiv; ring). auto.
        - unfold Qcdiv. rewrite Qcmult_inv_r by auto. rewrite Qcmult_1_r. apply Qcle_refl. }
    destruct (Ht v I) as (_ & NT & IT & Ap & IvT & HT). destruct (Ha v I) as (Gn & Vn & Q).
    assert (Go := net_good m D F vt H v Iv). destruct (some_valid D WD) as (a & Va).
    set (c := counts (T v)) in *. set (h := fun b => (fv (F v) b / fv (F' v) b)%Qc).
    assert (Eo : ext_fun (fv (F v))) by (eapply dep_ext, (fv_dep D vt); eauto).
    assert (En : ext_fun (fv (F' v))) by (eapply dep_ext, (fv_dep D vt); eauto).
    assert (Ec : ext_fun c) by (eapply dep_ext, counts_dep).
    assert (Dh : dep (T v) h).
    { intros x y E. unfold h. rewrite (fv_dep D vt _ Go x y), (fv_dep D vt _ Gn x y); [reflexivity|..]; intros w J; apply E; auto. now apply HT. }
    assert (EWh : ext_fun (fun b => W b * h b)%Qc).
    { intros x y E. rewrite (W_ext x y E). f_equal. apply Dh. intros w _. apply E. }
    rewrite (map_ext_in _ (fun o => (fun b => W b * h b)%Qc (over o a))).
    2:{ intros o Io. cbn beta. rewrite W_over by auto. unfold h. rewrite (entry_over (F v) o a), (entry_over (F' v) o a); auto. }
    rewrite (sum_all D WD _ a EWh).
    rewrite (map_ext_in weight (fun o => W (over o a))) by (intros o Io; now rewrite W_over).
    rewrite (sum_all D WD W a W_ext).
    assert (Sp : forall w, In w V -> (In w V <-> In w (T v ++ minus V (T v)))).
    { intros w J. rewrite in_app_iff, minus_In. destruct (in_dec eqd w (T v)); tauto. }
    assert (Dj : forall w, In w (T v) -> In w (minus V (T v)) -> In w V -> False) by (intros w J1 J2 _; apply minus_In in J2; tauto).
    rewrite !(sm_set D _ _ _ a Sp), !(sm_app D WD) by (auto using W_ext).
    set (pa := minus (T v) [v]).
    assert (Sp2 : forall w, In w V -> (In w (T v) <-> In w (pa ++ [v]))).
    { intros w J. unfold pa. rewrite in_app_iff, minus_In. cbn. split; [|intros [[? ?] | [<- | []]]; auto].
      intros Jw. destruct (eqd v w) as [-> | Nw]; [auto|]. left. split; [auto|]. intros [E|[]]; contradiction. }
    assert (Dj2 : forall w, In w pa -> In w [v] -> In w V -> False) by (intros w J1 J2 _; apply minus_In in J1; tauto).
    apply Qcle_trans with (sm (T v) (fun b => fv (F v) b * sm [v] c b)%Qc a).
    - apply sm_le; [auto..|]. intros b Vb _. 
      assert (E : sm (minus V (T v)) (fun b0 => W b0 * h b0)%Qc b = (c b * h b)%Qc).
      { rewrite (sm_scale_r D). { unfold c. now rewrite counts_sm. } intros b' Eb. apply Dh. intros w J. apply Eb. intros J'. apply minus_In in J'. tauto. }
      rewrite E. unfold h. destruct (Q b Vb) as [Nz ->]. assert (Pz := total_counts v b I Vb). fold c in Pz |- *.
      assert (Po : (0 <= fv (F v) b)%Qc).
      { rewrite <- (entry_fv D vt (F v) b (obs_of V b)); auto; [apply old_nn; auto using obs_in_all|]. intros w J. rewrite obs_of_get; [auto|]. 
        apply IT, HT, J. }
      destruct (Qc_eq_dec (c b) 0) as [Z|Z].
      + rewrite Z, Qcmult_0_l. set (z := sm [v] c b) in *. qcnra.
      + replace (c b * (fv (F v) b / (c b / sm [v] c b)))%Qc with (fv (F v) b * sm [v] c b)%Qc; [apply Qcle_refl|]. field. auto.
    - apply Qcle_trans with (sm (T v) c a).
      + rewrite !(sm_set D _ _ _ a Sp2), !(sm_app D WD); auto.
        2:{ intros x y E. rewrite (Eo x y E). f_equal. now apply sm_ext_fun. }
        apply sm_le; [auto..|]. intros b Vb _.
        rewrite (sm_scale_r D).
        2:{ intros b' Eb. apply (sm_same D); [auto|]. intros w [N|N]; [auto|]. apply Eb. intros [<- | []]. contradiction. }
        assert (E1 : sm [v] (fv (F v)) b = 1%Qc) by (apply (P_one m D F vt H v b Iv Vb)).
        rewrite E1, Qcmult_1_l. apply Qcle_refl.
      + apply sm_le; [auto..|]. intros b Vb _. unfold c. rewrite counts_sm by auto. apply Qcle_refl.
  Qed.

  Theorem gain : (qprod (map (mass D F) es) <= qprod (map (mass D F') es))%Qc.
  Proof.
    assert (E := em_inequality es all consistent V old new old_nn new_nn pos new_pos ratio).
    rewrite (map_ext _ (mass D F)) in E by (intros; apply total_of_mass).
    rewrite (map_ext (total_of _ _ _ _) (mass D F')) in E by (intros; apply total_of_mass). exact E.
  Qed.

  Theorem still_possible t e : In e es -> known D t -> (forall x, In x (keys t) -> ~ In x (keys e)) ->
    mass D F (t ++ e) <> 0%Qc -> (0 < mass D F' (t ++ e))%Qc.
  Proof.
    intros Ie Kt Dj N.
    assert (Ex : exists o, In o all /\ consistent (t ++ e) o = true /\ joint F V o <> 0%Qc).
    { destruct (existsb (fun o => if Qc_eq_dec (joint F V o) 0 then false else true) (filter (consistent (t ++ e)) all)) eqn:Eb.
      - apply existsb_exists in Eb as (o & J & Q). apply filter_In in J as [J1 J2]. exists o. split; [auto|]. split; [auto|].
        destruct (Qc_eq_dec (joint F V o) 0); congruence.
      - exfalso. apply N. unfold mass. etransitivity; [apply total_qsum|]. apply qsum_zeros. intros o J.
        destruct (Qc_eq_dec (joint F V o) 0) as [Z|Z]; [auto|]. exfalso. rewrite <- not_true_iff_false in Eb. apply Eb.
        apply existsb_exists. exists o. split; [auto|]. destruct (Qc_eq_dec (joint F V o) 0); congruence. }
    destruct Ex as (o & Io & Co & Nz).
    assert (P : (0 < joint F' V o)%Qc).
    { rewrite <- prod_of_joint. apply (em_positive es all consistent V old new old_nn new_nn pos new_pos e o Ie Io).
      - rewrite consistent_app in Co by auto. now apply andb_true_iff in Co.
      - now rewrite prod_of_joint. }
    assert (NNj : forall p, In p all -> (0 <= joint F' V p)%Qc).
    { intros p Ip. rewrite <- prod_of_joint. apply qprod_nonneg. intros x J. apply in_map_iff in J as (v & <- & J). now apply new_nn. }
    unfold mass. replace (total (map (joint F' V) (filter (consistent (t ++ e)) all))) with (qsum (map (joint F' V) (filter (consistent (t ++ e)) all))) by reflexivity.
    assert (Jo : In o (filter (consistent (t ++ e)) all)) by (apply filter_In; auto).
    assert (NNf : forall p, In p (filter (consistent (t ++ e)) all) -> (0 <= joint F' V p)%Qc) by (intros p J; apply filter_In in J as [J _]; auto).
    apply in_split in Jo as (l1 & l2 & El). rewrite El in NNf |- *. rewrite map_app, qsum_app. cbn [map qsum].
    assert (0 <= qsum (map (joint F' V) l1))%Qc.
    { apply qsum_nn. intros x J. apply in_map_iff in J as (p & <- & J). apply NNf. apply in_or_app. auto. }
    assert (0 <= qsum (map (joint F' V) l2))%Qc.
    { apply qsum_nn. intros x J. apply in_map_iff in J as (p & <- & J). apply NNf. apply in_or_app. right. now right. }
    qclra.
  Qed.

  Lemma nonnegative_new : nonnegative D F'.
  Proof.
    intros v o Iv Fo. assert (Gn := good_new v Iv).
    destruct (extend D (mf_domain (F' v)) o WD Fo (proj1 (proj2 (proj2 Gn)))) as (b & Vb & Ag).
    rewrite (entry_fv D vt (F' v) b o Gn Vb Ag).
    rewrite <- (entry_fv D vt (F' v) b (obs_of V b)); auto; [apply new_nn; auto using obs_in_all|]. intros w J.
    rewrite obs_of_get; [auto|]. unfold mf_vars in J. apply keys_In in J as (l & J). apply Gn in J. apply (in_map fst) in J. exact J.
  Qed.
End Gain.
