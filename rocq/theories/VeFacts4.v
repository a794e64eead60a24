(** Answers of queries in terms of the masses of the network. *)

From Coq Require Import String Bool Arith ZArith QArith Qcanon Lia Permutation List.
From Verif Require Import PyBase PyFacts Num DomainModel NdArray StoreModel NumStore FactorModel Spec StoreSpec DomainFacts StoreFacts
  NumFacts PropFacts1 StoreMarg2 FactorSpec FactorFacts FactorFacts2 FactorFacts3 BigSum GraphModel GraphSpec GraphFacts GraphFacts2
  ModelModel ModelSpec ModelFacts BuildFacts InferModel NetSpec NetSem FactorSem NetFacts VeFacts VeFacts2 VeFacts3.
From Coq Require Import List.
Import ListNotations.
Local Open Scope nat_scope.
Local Arguments eqd : simpl never.

Lemma some_valid D : wf_dom D -> exists a, valid D a.
Proof.
  intros [N W]. exists (fun v => match dget v D with Some (s :: _) => s | _ => SInt 0%Z end).
  intros v l J. rewrite (In_dget v l D N J). destruct (W v l J) as [_ Nl]. destruct l; [congruence|now left].
Qed.

Lemma obs_of_over T t a : keys t = T -> NoDup T -> obs_of T (over t a) = t.
Proof.
  intros <- N. unfold obs_of. induction t as [|[v s] t IH]; [reflexivity|]. cbn in N. inversion N; subst. cbn. f_equal.
  - unfold over. cbn. destruct (eqd v v); congruence.
  - rewrite <- (IH H2) at 2. apply map_ext_in. intros w J. unfold over. cbn. destruct (eqd w v) as [-> | ]; [contradiction|auto].
Qed.

Lemma assigns_obs D T a : valid D a -> assigns D T (obs_of T a).
Proof.
  intros V. split; [unfold obs_of, keys; rewrite map_map; apply map_id|].
  intros v l J. apply filter_In in J as [J K]. apply mem_In in K. exists (a v). split; [now apply obs_of_get|now apply V].
Qed.

Lemma assigns_valid D T t a : assigns D T t -> valid D a -> valid D (over t a).
Proof.
  intros [Kt Ft] Vb v l J. unfold over. destruct (dget v t) as [s|] eqn:Es; [|now apply Vb].
  destruct (Ft v l) as (s' & Es' & Js'); [|congruence]. apply filter_In. split; auto. cbn. apply mem_In. rewrite <- Kt. apply dget_keys. eauto.
Qed.

Lemma assigns_known D T t : assigns D T t -> known D t.
Proof.
  intros [Kt Ft] v l s J Es. destruct (Ft v l) as (s' & Es' & Js'); [|congruence]. apply filter_In. split; auto. cbn.
  apply mem_In. rewrite <- Kt. apply dget_keys. eauto.
Qed.

Lemma known_app D o1 o2 : known D o1 -> known D o2 -> known D (o1 ++ o2).
Proof. intros K1 K2 v l s J E. rewrite dget_app in E. destruct (dget v o1) eqn:E1; [|eapply K2; eauto]. injection E as <-. eapply K1; eauto. Qed.

Section Mass.
  Variables (m : pgm) (D : domain) (F : var -> mfactor) (vt : vtype).
  Hypothesis H : network m D F vt.
  Notation J := (prods (P F) (keys D)).
  Let WD : wf_dom D := net_wd m D F vt H.

  Lemma J_ext : ext_fun J.
  Proof. apply (prods_ext' m D F vt H). apply incl_refl. Qed.

  Lemma mass_obs T o a : known D o -> valid D a -> (forall v, In v T -> ~ In v (keys o)) ->
    mass D F (obs_of T a ++ o) = sm D (minus (minus (keys D) T) (keys o)) J (over o a).
  Proof.
    intros Ko Va Dj. rewrite (mass_sm m D F vt H (obs_of T a ++ o) a); auto.
    2:{ apply known_app; auto. eapply assigns_known, assigns_obs; eauto. }
    assert (Hk : forall v, In v (keys (obs_of T a ++ o)) <-> In v T \/ In v (keys o)).
    { intros v. unfold keys at 1. rewrite map_app, in_app_iff. unfold obs_of. rewrite map_map. cbn. now rewrite map_id. }
    transitivity (sm D (minus (keys D) (keys (obs_of T a ++ o))) J (over o a)).
    - apply sm_ext_fun; [apply J_ext|]. intros w. unfold over. rewrite dget_app. destruct (dget w (obs_of T a)) as [s|] eqn:E; auto.
      assert (JT : In w T). { assert (K : In w (keys (obs_of T a))) by (apply dget_keys; eauto). unfold keys, obs_of in K. rewrite map_map, map_id in K. auto. }
      rewrite (obs_of_get T a w JT) in E. injection E as <-.
      assert (E : dget w o = None) by (apply dget_None; auto). now rewrite E.
    - apply sm_set. intros v _. rewrite !minus_In, Hk. tauto.
  Qed.

  Lemma mass_total T o a : known D o -> valid D a -> (forall v, In v T -> ~ In v (keys o)) ->
    sm D T (fun b => mass D F (obs_of T b ++ o)) a = mass D F o.
  Proof.
    intros Ko Va Dj.
    rewrite (sm_ext D WD T _ (fun b => sm D (minus (minus (keys D) T) (keys o)) J (over o b)) a Va) by (intros b Vb _; now apply mass_obs).
    rewrite (sm_over D WD T (sm D (minus (minus (keys D) T) (keys o)) J) o a); auto; [|apply sm_ext_fun, J_ext].
    rewrite <- (sm_app D WD); [|apply J_ext|intros v A B _; rewrite !minus_In in B; tauto].
    rewrite (mass_sm m D F vt H o a); auto. apply sm_set. intros v K. rewrite in_app_iff, !minus_In. split; [intros [A|A]; split; auto; tauto|].
    intros [_ A]. destruct (in_dec eqd v T); auto.
  Qed.

  (** the mass of nothing *)
  Lemma mass_nil : mass D F [] = 1%Qc.
  Proof.
    destruct (some_valid D WD) as (a & Va). rewrite (mass_sm m D F vt H [] a); auto; [|intros v l s _ E; discriminate].
    destruct (rank_exists m D F vt H) as (rank & Hr).
    rewrite (sm_set D _ (keys D)) by (intros v K; rewrite minus_In; tauto).
    rewrite (sm_ext_fun D (keys D) J J_ext (over [] a) a) by reflexivity.
    apply (sum_one' D WD (P F) (fam F) rank); auto.
    - intros. now apply (P_dep m D F vt H).
    - intros. now apply (P_one m D F vt H).
    - apply WD.
    - apply incl_refl.
  Qed.

  Lemma qsum_nonneg l : (forall x, In x l -> 0 <= x)%Qc -> (0 <= qsum l)%Qc.
  Proof.
    induction l as [|x l IH]; intros Q; [apply Qcle_refl|]. cbn. apply (Qcplus_le_compat 0 x 0 (qsum l)); [apply Q; now left|apply IH].
    intros; apply Q; now right.
  Qed.

  Lemma qsum_zero l : (forall x, In x l -> 0 <= x)%Qc -> qsum l = 0%Qc -> forall x, In x l -> x = 0%Qc.
  Proof.
    induction l as [|x l IH]; intros Q E y Jy; [destruct Jy|]. cbn in E.
    assert (Nx : (0 <= x)%Qc) by (apply Q; now left).
    assert (Nl : (0 <= qsum l)%Qc) by (apply qsum_nonneg; intros; apply Q; now right).
    assert (Ex : x = 0%Qc).
    { apply Qcle_antisym; auto. replace x with (- qsum l)%Qc.
      - apply (Qcopp_le_compat 0 (qsum l)). auto.
      - rewrite <- (Qcplus_0_l (- qsum l)), <- E. ring. }
    destruct Jy as [<-|Jy]; auto. apply IH; auto; [intros; apply Q; now right|]. rewrite Ex in E. rewrite <- E. ring.
  Qed.

  Lemma mass_nonneg o : nonnegative D F -> known D o -> (0 <= mass D F o)%Qc.
  Proof.
    intros NN Ko. unfold mass. rewrite total_qsum. apply qsum_nonneg. intros x Jx. apply in_map_iff in Jx as (p & <- & Jp).
    apply filter_In in Jp as [Jp _]. unfold joint. rewrite product_qprod.
    assert (Fp : full D p). { apply (all_assignments_In_full D p (proj1 WD)). auto. }
    assert (Q : forall x, In x (map (fun v => entry (F v) p) (keys D)) -> (0 <= x)%Qc).
    { intros x Jx. apply in_map_iff in Jx as (v & <- & Jv). apply NN; auto. eapply good_full; eauto. now apply (net_good m D F vt H). }
    clear - Q. induction (map (fun v => entry (F v) p) (keys D)) as [|x l IH]; [discriminate|].
    cbn. replace 0%Qc with (0 * qprod l)%Qc by ring. apply Qcmult_le_compat_r; [apply Q; now left|apply IH; intros; apply Q; now right].
  Qed.

  Lemma mass_zero T o t : nonnegative D F -> known D o -> assigns D T t -> NoDup T -> incl T (keys D) -> (forall v, In v T -> ~ In v (keys o)) ->
    mass D F o = 0%Qc -> mass D F (t ++ o) = 0%Qc.
  Proof.
    intros NN Ko At NT IT Dj Z. destruct (some_valid D WD) as (a & Va).
    rewrite <- (mass_total T o a Ko Va Dj) in Z. unfold sm in Z.
    rewrite <- (obs_of_over T t a (proj1 At) NT).
    unfold sumdom in Z. rewrite bsum_qsum in Z.
    set (fz := fun b => mass D F (obs_of T b ++ o)) in *.
    change (fz (over t a) = 0%Qc).
    assert (Q : forall b, valid D b -> (0 <= fz b)%Qc).
    { intros b Vb. apply mass_nonneg; auto. apply known_app; auto. eapply assigns_known, assigns_obs; eauto. }
    assert (WT : wf_dom (pick T D)) by (apply wf_pick; exact WD).
    assert (Vt := assigns_valid D T t a At Va).
    assert (VT : valid (pick T D) (over t a)). { intros v l K. apply filter_In in K as [K _]. now apply Vt. }
    assert (E : fz (over t a) = fz (over (obs_of (keys (pick T D)) (over t a)) a)).
    { unfold fz. f_equal. f_equal. unfold obs_of at 1 2. apply map_ext_in. intros v Jv. f_equal. 
      unfold over at 2. destruct (dget v (obs_of (keys (pick T D)) (over t a))) as [s|] eqn:Es.
      - assert (K : In v (keys (obs_of (keys (pick T D)) (over t a)))) by (apply dget_keys; eauto). unfold keys at 1, obs_of in K.
        rewrite map_map, map_id in K. rewrite obs_of_get in Es by auto. congruence.
      - destruct (in_dec eqd v (keys D)) as [K|K].
        + exfalso. assert (K' : In v (keys (pick T D))) by (apply keys_pick; auto). rewrite obs_of_get in Es by auto. discriminate.
        + exfalso. auto. }
    rewrite E. refine (qsum_zero _ _ Z _ _).
    - intros x Jx. apply in_map_iff in Jx as (p & <- & Jp). apply Q. now apply (over_assign_valid D WD T).
    - apply in_map_iff. eexists. split; [reflexivity|]. eapply nth_error_In. now apply all_assignments_nth.
  Qed.
End Mass.

Lemma dom_unique (D : domain) v l l' : NoDup (keys D) -> In (v, l) D -> In (v, l') D -> l = l'.
Proof. intros N A B. apply (In_dget v l D N) in A. apply (In_dget v l' D N) in B. congruence. Qed.

Section Query.
  Variables (m : pgm) (D : domain) (F : var -> mfactor) (vt : vtype).
  Hypothesis H : network m D F vt.
  Variable e : obs.
  Hypothesis Ke : known D e.
  Hypothesis Ie : incl (keys e) (keys D).
  Variable heur : digraph -> list var -> dict var nat -> res (list var).
  Hypothesis Hh : is_heuristic heur.
  Variable set_order : list (list var) -> list var.
  Hypothesis Hs : is_set_order set_order.
  Let WD : wf_dom D := net_wd m D F vt H.

  Lemma compile_ok T : NoDup T -> incl T (keys D) -> (forall v, In v T -> ~ In v (keys e)) ->
    ve_compile m T e = minimalize m T e.
  Proof.
    intros NT IT Dj. unfold ve_compile. rewrite (nodup_fixed_point eqd NT), Nat.eqb_refl. cbn [negb].
    assert (E1 : existsb (fun v => mem v (keys e)) T = false).
    { apply not_true_is_false. intros E. apply existsb_exists in E as (v & J & K). apply mem_In in K. now apply (Dj v). }
    rewrite E1. assert (E2 : forallb (fun v => mem v (nodes (m_graph m))) (T ++ keys e) = true).
    { apply forallb_forall. intros v J. apply mem_In, (net_nodes m D F vt H). apply in_app_or in J as [J|J]; auto. }
    now rewrite E2.
  Qed.

  (** the value at every assignment, before using that the evidence is possible *)
  Lemma ve_run_value T : NoDup T -> T <> [] -> incl T (keys D) -> (forall v, In v T -> ~ In v (keys e)) ->
    exists im, ve_compile m T e = Ok im /\ exists R, 
      (forall a, valid D a -> exists c,
        mass D F e = (sm D (minus R (keys e)) (prods (P F) R) (over e a) * c)%Qc /\
        forall t, assigns D T t -> mass D F (t ++ e) = (sm D (minus (minus R T) (keys e)) (prods (P F) R) (over t (over e a)) * c)%Qc) /\
      forall heur set_order, is_heuristic heur -> is_set_order set_order ->
      exists r, ve_run heur set_order im T e = Ok r /\ wf_mf r /\ mf_vtype r = vt /\
        same_set (mf_vars r) T /\ mf_right r = [] /\ (forall v l, In (v, l) (mf_domain r) -> In (v, l) D) /\
        forall a t, valid D a -> assigns D T t ->
          mf_get_value r t = Ok (div_op vt (Fin (sm D (minus (minus R T) (keys e)) (prods (P F) R) (over t (over e a))))
                                           (Fin (sm D (minus R (keys e)) (prods (P F) R) (over e a)))).
  Proof.
    intros NT T0 IT Dj. destruct (minimalize_ok m D F vt H e Ke T IT) as (im & R & B & C & G & Em & Sp & NR & Bi & Wi & Ai & Ni & _ & HG).
    exists im. split; [now rewrite compile_ok|]. exists R. split; [intros a Va; now apply (posterior_masses m D F vt H e Ke T Dj R B C)|].
    assert (IR : incl R (keys D)).
    { intros x J. destruct Sp as (Pm & _). apply (Permutation_in _ (Permutation_sym Pm)). rewrite !in_app_iff. auto. }
    intros h so A1 A2. apply (ve_run_ok m D F vt H e Ke T NT T0 Dj im R G); auto.
    - apply Sp.
    - intros n p J1 J2 J3. exact (split_closed m D F vt H e T R B C n p Sp J1 J2 J3).
  Qed.

  Lemma ve_answer T : NoDup T -> T <> [] -> incl T (keys D) -> (forall v, In v T -> ~ In v (keys e)) -> mass D F e <> 0%Qc ->
    exists im r, ve_compile m T e = Ok im /\ ve_run heur set_order im T e = Ok r /\ good D vt r /\
      same_set (mf_vars r) T /\ mf_right r = [] /\
      forall a, valid D a -> fv r a = (mass D F (obs_of T a ++ e) / mass D F e)%Qc.
  Proof.
    intros NT T0 IT Dj M0. destruct (ve_run_value T NT T0 IT Dj) as (im & Ec & R & Hm & Hr).
    destruct (Hr heur set_order Hh Hs) as (r & Er & Wr & Tr & Vr & Rr & Dr & Xr). exists im, r. do 2 (split; [assumption|]).
    assert (X : forall a, valid D a -> mf_get_value r (obs_of T a) = Ok (Fin (mass D F (obs_of T a ++ e) / mass D F e)%Qc)).
    { intros a Va. rewrite (Xr a (obs_of T a) Va (assigns_obs D T a Va)). destruct (Hm a Va) as (c & E1 & E2).
      rewrite (E2 _ (assigns_obs D T a Va)). rewrite E1 in M0 |- *.
      set (x := sm D (minus (minus R T) (keys e)) (prods (P F) R) (over (obs_of T a) (over e a))) in *.
      set (y := sm D (minus R (keys e)) (prods (P F) R) (over e a)) in *.
      assert (y0 : y <> 0%Qc) by (intros E; apply M0; rewrite E; ring).
      assert (c0 : c <> 0%Qc) by (intros E; apply M0; rewrite E; ring).
      rewrite (div_fin vt x y y0). apply (f_equal Ok), (f_equal Fin). field. auto. }
    assert (L : forall a o, valid D a -> agrees o a (mf_vars r) -> mf_get_value r o = Ok (Fin (mass D F (obs_of T a ++ e) / mass D F e)%Qc) /\
              look (mf_store r) a = Some (Fin (mass D F (obs_of T a ++ e) / mass D F e)%Qc)).
    { intros a o Va Ag. assert (Vd : valid (mf_domain r) a) by (intros v l J; apply Va; now apply Dr).
      destruct (get_value_look (mf_store r) o a) as (x & Lx & Gx); [apply Wr|exact Vd|exact Ag|].
      destruct (get_value_look (mf_store r) (obs_of T a) a) as (x' & Lx' & Gx'); [apply Wr|exact Vd|intros v J; apply obs_of_get; now apply Vr|].
      assert (Q := X a Va). unfold mf_get_value in Q |- *. rewrite Gx' in Q. rewrite Gx. split; congruence. }
    split; [|split; [exact Vr|split; [exact Rr|]]].
    - split; [exact Wr|]. split; [exact Tr|]. split; [exact Dr|]. intros o Fo. destruct (some_valid D WD) as (a0 & Va0).
      set (b := over (obs_of T (over o a0)) a0).
      assert (Eb : forall v, In v T -> b v = over o a0 v) by (intros v J; unfold b, over at 1; now rewrite obs_of_get).
      assert (Vb : valid D b).
      { intros v l J. destruct (in_dec eqd v T) as [JT|NT'].
        - rewrite (Eb v JT). assert (Jv : In v (mf_vars r)) by now apply Vr. apply keys_In in Jv as (l' & Jv).
          rewrite (dom_unique D v l l' (proj1 WD) J (Dr _ _ Jv)). destruct (Fo v l' Jv) as (s & Es & Js). unfold over. now rewrite Es.
        - unfold b, over. assert (E : dget v (obs_of T (over o a0)) = None).
          { apply dget_None. unfold keys, obs_of. rewrite map_map. cbn. now rewrite map_id. }
          fold (over o a0). rewrite E. now apply Va0. }
      eexists. apply (L b o Vb). intros v J. apply Vr in J as JT. rewrite (Eb v JT). apply keys_In in J as (l & J).
      destruct (Fo v l J) as (s & Es & _). unfold over. now rewrite Es.
    - intros a Va. unfold fv. destruct (L a (obs_of (mf_vars r) a) Va) as [_ E]; [apply agrees_obs_of|]. now rewrite E.
  Qed.

  Lemma obs_of_In T a v : In v (keys (obs_of T a)) <-> In v T.
  Proof. unfold keys, obs_of. rewrite map_map. cbn. now rewrite map_id. Qed.

  (** the target alone *)
  Lemma query_ok T : NoDup T -> T <> [] -> incl T (keys D) -> (forall v, In v T -> ~ In v (keys e)) -> mass D F e <> 0%Qc ->
    exists r, ve_query heur set_order m T None e = Ok r /\ wf_mf r /\ mf_vtype r = vt /\
      same_set (mf_vars r) T /\ same_set (mf_left r) T /\ mf_right r = [] /\ (forall v l, In (v, l) (mf_domain r) -> In (v, l) D) /\
      (forall t, assigns D T t -> mf_get_value r t = Ok (Fin (mass D F (t ++ e) / mass D F e)%Qc)) /\
      total (map (entry r) (all_assignments (pick T D))) = 1%Qc.
  Proof.
    intros NT T0 IT Dj M0. destruct (ve_answer T NT T0 IT Dj M0) as (im & r & Ec & Er & Gr & Vr & Rr & Xr).
    exists r. split; [unfold ve_query; now rewrite Ec|]. split; [apply Gr|]. split; [apply Gr|]. split; [exact Vr|]. split.
    { intros v. rewrite <- (Vr v). destruct (wf_mf_partitioned r (proj1 Gr)) as (_ & _ & _ & Pt & _). rewrite (Pt v), Rr. cbn. tauto. }
    split; [exact Rr|]. split; [apply Gr|]. destruct (some_valid D WD) as (a0 & Va0). split.
    - intros t At. assert (Vt := assigns_valid D T t a0 At Va0).
      rewrite (fv_get D vt r (over t a0) t Gr Vt).
      + rewrite (Xr _ Vt), (obs_of_over T t a0 (proj1 At) NT). reflexivity.
      + intros v J. apply Vr in J. unfold over. assert (K : In v (keys t)) by (now rewrite (proj1 At)).
        apply dget_keys in K as (s & Es). now rewrite Es.
    - transitivity (sm D T (fv r) a0).
      + rewrite total_qsum. unfold sm, sumdom. etransitivity; [|symmetry; apply bsum_qsum]. f_equal. apply map_ext_in. intros p Jp.
        apply (entry_fv D vt); auto; [now apply (over_assign_valid D WD T)|]. intros v J. apply Vr in J.
        apply (all_assignments_In_full _ _ (proj1 (wf_pick T D WD))) in Jp as [Kp _]. unfold over.
        assert (K : In v (keys p)) by (rewrite Kp; apply keys_pick; auto). apply dget_keys in K as (s & Es). now rewrite Es.
      + rewrite (sm_ext D WD T (fv r) (fun b => mass D F (obs_of T b ++ e) * / mass D F e)%Qc a0 Va0) by (intros b Vb _; now rewrite (Xr b Vb)).
        rewrite (sm_scale_r D T (fun b => mass D F (obs_of T b ++ e)) (fun _ => / mass D F e)%Qc) by reflexivity.
        rewrite (mass_total m D F vt H T e a0 Ke Va0 Dj). now apply Qcmult_inv_r.
  Qed.

  (** a target given further variables *)
  Lemma query_given_ok T C : NoDup T -> T <> [] -> incl T (keys D) -> incl C (keys D) ->
    (forall v, In v T -> ~ In v (keys e)) -> (forall v, In v C -> ~ In v (keys e)) -> (forall v, In v T -> ~ In v C) ->
    mass D F e <> 0%Qc ->
    exists r, ve_query heur set_order m T (Some C) e = Ok r /\ wf_mf r /\ mf_vtype r = vt /\
      same_set (mf_vars r) (T ++ C) /\ same_set (mf_left r) T /\ same_set (mf_right r) C /\
      (forall v l, In (v, l) (mf_domain r) -> In (v, l) D) /\
      (forall t c, assigns D T t -> assigns D C c -> NoDup C ->
        mf_get_value r (t ++ c) = Ok (div_op vt (Fin (mass D F (t ++ c ++ e) / mass D F e)) (Fin (mass D F (c ++ e) / mass D F e)))%Qc).
  Proof.
    intros NT T0 IT IC DT DC TC M0. set (al := set_order [T; C]).
    destruct (Hs [T; C]) as [NA EA]. fold al in NA, EA. cbn [concat] in EA. rewrite app_nil_r in EA.
    assert (IA : forall v, In v al <-> In v T \/ In v C) by (intros v; rewrite (EA v), in_app_iff; tauto).
    assert (A0 : al <> []). { destruct T as [|t0 T']; [congruence|]. intros E. assert (J : In t0 al) by (apply IA; left; now left). rewrite E in J. destruct J. }
    assert (IAD : incl al (keys D)) by (intros v J; apply IA in J as [J|J]; auto).
    assert (DA : forall v, In v al -> ~ In v (keys e)) by (intros v J; apply IA in J as [J|J]; auto).
    destruct (ve_answer al NA A0 IAD DA M0) as (im & p & Ec & Er & Gp & Vp & Rp & Xp).
    destruct (good_marg D WD vt p T Gp NT) as (q & Eq & Gq & _ & Vq & _ & Xq). { intros v J. apply Vp, IA. auto. }
    destruct (good_div D WD vt p q Gp Gq) as (r & Erd & Wr & Tr & Dr & Lr & Rr & Xr).
    assert (Lp : forall v, In v (mf_left p) <-> In v al).
    { intros v. rewrite <- (Vp v). destruct (wf_mf_partitioned p (proj1 Gp)) as (_ & _ & _ & Pt & _). rewrite (Pt v), Rp. cbn. tauto. }
    assert (Vq' : forall v, In v (mf_vars q) <-> In v C).
    { intros v. rewrite (Vq v), (Vp v), (IA v). split; [tauto|]. intros J. split; auto. intros J'. exact (TC v J' J). }
    exists r. split.
    { unfold ve_query. assert (E1 : existsb (fun v => mem v C) T = false).
      { apply not_true_is_false. intros E. apply existsb_exists in E as (v & J & K). apply mem_In in K. now apply (TC v). }
      rewrite E1. fold al. rewrite Ec. cbn [bind]. rewrite Er. cbn [bind]. rewrite Eq. exact Erd. }
    split; [exact Wr|]. split; [exact Tr|]. split.
    { intros v. unfold mf_vars. rewrite Dr, join_keys. fold (mf_vars p) (mf_vars q). rewrite (Vp v), Vq', (IA v), in_app_iff. tauto. }
    split. { intros v. rewrite Lr, Lp, Vq', (IA v). split; [tauto|]. intros J. auto. }
    split. { intros v. rewrite Rr, Rp, Vq'. cbn. tauto. }
    split. { intros v l J. rewrite Dr in J. apply join_In in J as [J|J]; [now apply Gp|now apply Gq]. }
    intros t c At Ac NC. destruct (some_valid D WD) as (a0 & Va0).
    set (b := over t (over c a0)). assert (Vb : valid D b) by (apply (assigns_valid D T); auto; apply (assigns_valid D C); auto).
    assert (Ab : forall v, In v al -> dget v (t ++ c) = Some (b v)).
    { intros v J. rewrite dget_app. unfold b, over. destruct (dget v t) eqn:Et; auto. destruct (dget v c) eqn:Ecv; auto. exfalso.
      apply dget_None in Et. apply dget_None in Ecv. rewrite (proj1 At) in Et. rewrite (proj1 Ac) in Ecv. apply IA in J. tauto. }
    assert (Vq'' : incl (mf_vars q) al) by (intros v J; apply IA; right; now apply Vq').
    destruct (Xr (t ++ c)) as (x & y & X & Y & Z).
    { intros v l J. assert (JD : In (v, l) D /\ In v al).
      { apply join_In in J as [J|J]; split; try (now apply Gp); try (now apply Gq).
        - apply Vp. unfold mf_vars, keys. apply (in_map fst) in J. auto.
        - apply Vq''. unfold mf_vars, keys. apply (in_map fst) in J. auto. }
      exists (b v). split; [apply Ab; tauto|]. now apply Vb. }
    rewrite Z. apply (f_equal Ok).
    rewrite (fv_get D vt p b (t ++ c) Gp Vb) in X by (intros v J; apply Ab; now apply Vp). injection X as <-.
    rewrite (fv_get D vt q b (t ++ c) Gq Vb) in Y by (intros v J; apply Ab; auto). injection Y as <-.
    assert (Jx := J_ext m D F vt H).
    assert (Mp : forall d, valid D d -> mass D F (obs_of al d ++ e) = sm D (minus (minus (keys D) al) (keys e)) (prods (P F) (keys D)) (over e d))
      by (intros d Vd; now apply (mass_obs m D F vt H)).
    assert (Ep : fv p b = (mass D F (t ++ c ++ e) / mass D F e)%Qc).
    { rewrite (Xp b Vb), (Mp b Vb). f_equal.
      rewrite <- (obs_of_over T t b (proj1 At) NT) at 1. rewrite <- (obs_of_over C c b (proj1 Ac) NC) at 1.
      assert (E1 : obs_of T (over t b) = obs_of T b). { unfold obs_of. apply map_ext. intros v. unfold b, over. destruct (dget v t); auto. }
      assert (E2 : obs_of C (over c b) = obs_of C b).
      { unfold obs_of. apply map_ext_in. intros v J. unfold b, over. destruct (dget v t) as [s|] eqn:Et.
        - exfalso. apply (TC v); auto. rewrite <- (proj1 At). apply dget_keys. eauto.
        - destruct (dget v c); auto. }
      rewrite E1, E2, app_assoc. unfold obs_of at 1 2. rewrite <- map_app. fold (obs_of (T ++ C) b).
      rewrite (mass_obs m D F vt H (T ++ C) e b Ke Vb).
      - apply sm_set. intros v _. rewrite !minus_In, in_app_iff, (IA v). tauto.
      - intros v J. apply in_app_or in J as [J|J]; auto. }
    assert (Eq' : fv q b = (mass D F (c ++ e) / mass D F e)%Qc).
    { rewrite (Xq b Vb).
      rewrite (sm_ext D WD T (fv p) (fun d => mass D F (obs_of al d ++ e) * / mass D F e)%Qc b Vb) by (intros d Vd _; now rewrite (Xp d Vd)).
      rewrite (sm_scale_r D T (fun d => mass D F (obs_of al d ++ e)) (fun _ => / mass D F e)%Qc) by reflexivity. unfold Qcdiv. f_equal.
      rewrite (sm_ext D WD T _ (fun d => sm D (minus (minus (keys D) al) (keys e)) (prods (P F) (keys D)) (over e d)) b Vb) by (intros d Vd _; now apply Mp).
      rewrite (sm_over D WD T (sm D (minus (minus (keys D) al) (keys e)) (prods (P F) (keys D))) e b); auto; [|now apply sm_ext_fun].
      rewrite <- (sm_app D WD); [|auto|intros v A B _; rewrite !minus_In, (IA v) in B; tauto].
      rewrite <- (obs_of_over C c b (proj1 Ac) NC).
      assert (E2 : obs_of C (over c b) = obs_of C b).
      { unfold obs_of. apply map_ext_in. intros v J. unfold b, over. destruct (dget v t) as [s|] eqn:Et.
        - exfalso. apply (TC v); auto. rewrite <- (proj1 At). apply dget_keys. eauto.
        - destruct (dget v c); auto. }
      rewrite E2, (mass_obs m D F vt H C e b Ke Vb DC). apply sm_set. intros v J. rewrite in_app_iff, !minus_In, (IA v). split.
      - intros [A|A]; [split; [split; auto; intros A'; exact (TC v A A')|auto]|tauto].
      - intros [[A B] C']. destruct (in_dec eqd v T); tauto. }
    now rewrite Ep, Eq'.
  Qed.
End Query.
