(** What a step of EM says about the other tables of a variable. *)

From Coq Require Import String Bool Arith ZArith QArith Qcanon Lia Permutation List.
From Verif Require Import PyBase PyFacts Num DomainModel NdArray StoreModel NumStore FactorModel GraphModel ModelModel InferModel
  Spec DomainFacts StoreSpec StoreFacts NumFacts PropFacts1 FactorSpec FactorFacts FactorFacts2 FactorFacts3 BigSum
  GraphSpec GraphFacts ModelSpec ModelFacts
  NetSpec NetSem FactorSem NetFacts BuildFacts VeFacts4 VeFacts5 CfFacts LearnModel LearnSpec LearnFacts LearnFacts2
  EmMath EmSpec EmFacts2 EmFacts3 EmFacts4 EmFacts5 EmFacts6 EmFacts7 OptSpec OptFacts1.
From Coq Require Import List.
Import ListNotations.
Local Open Scope nat_scope.
Local Arguments eqd : simpl never.

Lemma power_pw x n : power x n = pw x n.
Proof. unfold power. rewrite product_qprod. apply qprod_repeat. Qed.

(** tables that agree on the variables of [D] *)
Lemma joint_keys (D : domain) (F F' : var -> mfactor) o : (forall v, In v (keys D) -> F' v = F v) -> joint F' (keys D) o = joint F (keys D) o.
Proof. intros E. unfold joint. f_equal. apply map_ext_in. intros v J. now rewrite E. Qed.
Lemma mass_keys (D : domain) (F F' : var -> mfactor) o : (forall v, In v (keys D) -> F' v = F v) -> mass D F' o = mass D F o.
Proof. intros E. unfold mass. f_equal. apply map_ext. intros p. now apply joint_keys. Qed.
Lemma likelihood_keys (D : domain) (F F' : var -> mfactor) data : (forall v, In v (keys D) -> F' v = F v) -> likelihood D F' data = likelihood D F data.
Proof. intros E. unfold likelihood. f_equal. apply map_ext. intros r. now apply mass_keys. Qed.
Lemma rules_keys (D : domain) (F F' : var -> mfactor) data v : (forall w, In w (keys D) -> F' w = F w) -> In v (keys D) -> rules_nothing_out D F data v -> rules_nothing_out D F' data v.
Proof. intros E Iv R r p Jr Jp C Hw. rewrite E by auto. apply (R r p Jr Jp C). intros w Iw N. rewrite <- E by auto. now apply Hw. Qed.

Section Step.
  Variables (query : pgm -> list var -> obs -> res mfactor) (set_iter : list var -> list var) (vt : vtype).
  Hypothesis Hq : exact_query query.
  Hypothesis Hs : iterates set_iter.
  Variables (D : domain) (E : list var) (data : frame).
  Hypothesis OD : observes D data E.
  Notation estep := (em_step query set_iter vt).
  Notation es := (map (row_obs data) (f_rows data)).

  Lemma families l m F v : ready D vt E data l m F -> trains l v -> ~ has_converged l v ->
    In v (keys D) /\ NoDup (T m v) /\ incl (T m v) (keys D) /\ apart es (T m v) /\ In v (T m v) /\ forall x, In x (T m v) <-> In x (mf_vars (F v)).
  Proof.
    intros ((El & Net & NN & _) & Lr) Tv Cv. assert (Lv := Lr v Tv Cv). assert (Iv := proj1 Lv). assert (HT := T_ok m D F vt Net v Iv).
    split; [now apply (net_nodes m D F vt Net)|]. split; [destruct HT as (pa & _ & _ & N & _); exact N|].
    split; [now apply (family_keys m D F vt Net v Iv)|]. split; [now apply (family_apart m D F E data OD v Lv)|].
    split; [now left|]. intros x. symmetry. now apply (family_vars m D F vt Net v Iv).
  Qed.
  Lemma rows_ok l m F : ready D vt E data l m F -> (forall e, In e es -> Spec.known D e) /\ (forall e, In e es -> mass D F e <> 0%Qc).
  Proof.
    intros ((El & Net & NN & Gp & Dp & Ed & Mr & _) & _). split; intros e J; apply in_map_iff in J as (r & <- & Jr); [apply OD, Jr|auto].
  Qed.

  (** a step that succeeds *)
  Lemma step_done l m F l' m' F' : ready D vt E data l m F -> estep l None = (l', None) -> l_model l' = Some m' -> network m' D F' vt ->
    exists F2, (forall v, In v (keys D) -> F' v = F2 v) /\ l_prior l' = l_prior l /\ l_sub l' = l_sub l /\
      model_evolution l' = model_evolution l ++ [m'] /\ m_graph m' = m_graph m /\ ready D vt E data l' m' F2 /\
      (forall v, trains l v -> ~ has_converged l v -> new_table m D F vt data v (F2 v)) /\
      (forall v, ~ trains l v \/ has_converged l v -> F2 v = F v).
  Proof.
    intros Rd Es El' Net'. destruct (step_most query set_iter vt Hq Hs D E data OD l m F Rd) as [A B].
    destruct A as (m2 & F2 & l2 & Es2 & P1 & P2 & P3 & P4 & Rd2 & L & Un & _ & Nt & Cv).
    { intros v Tv Cv. destruct Rd as (Rs & Lr). assert (Rs' := Rs). destruct Rs' as (El & Net & NN & _).
      destruct (informed_or m D F vt Net E data OD v (Lr v Tv Cv)) as [I | I]; [exact I|].
      rewrite B in Es by eauto. discriminate Es. }
    rewrite Es in Es2. injection Es2 as <-. assert (Rd3 := Rd2). destruct Rd3 as ((El2 & Net2 & _) & _).
    assert (m2 = m') as -> by congruence. exists F2. split.
    { intros v J. apply (net_nodes m' D F2 vt Net2) in J.
      assert (S1 := proj1 (proj2 (proj2 (proj2 (proj2 (proj2 (proj2 Net'))))) v J)).
      assert (S2 := proj1 (proj2 (proj2 (proj2 (proj2 (proj2 (proj2 Net2))))) v J)). unfold stored in S1, S2. congruence. }
    split; [exact P1|]. split; [exact P2|]. split; [exact P3|]. split; [exact P4|]. split; [exact Rd2|]. split; [exact Nt|].
    intros v [N | C]; auto.
  Qed.

  Lemma rows_length : length es = length (f_rows data).
  Proof. apply map_length. Qed.

  Lemma gap_new l m F v p x : ready D vt E data l m F -> trains l v -> ~ has_converged l v -> new_table m D F vt data v p ->
    rules_nothing_out D F data v -> (forall o, In o (all_assignments D) -> (entry p o <= x * entry (F v) o)%Qc) ->
    forall G, retabled D vt (m_graph m) F v G -> (likelihood D G data <= power x (length (f_rows data)) * likelihood D F data)%Qc.
  Proof.
    intros Rd Tv Cv (Cp & Hp) Ro Hx G (Go & Cg & Ng).
    destruct (families l m F v Rd Tv Cv) as (Iv & NT & IT & Ap & IvT & HT). destruct (rows_ok l m F Rd) as (Ke & Me).
    destruct Rd as ((El & Net & NN & _) & _).
    assert (B := table_bound m D F vt Net NN es Ke Me v (T m v) p Iv NT IT Ap IvT HT Cp Hp G Go Cg Ng).
    rewrite power_pw, <- rows_length. unfold likelihood. rewrite !product_qprod, <- !(map_map (row_obs data)). apply B; [|exact Hx].
    intros e o Ie Io Co Hw. apply in_map_iff in Ie as (r & <- & Jr). now apply (Ro r o).
  Qed.

  Theorem gap l m F l' m' F' v x : ready D vt E data l m F -> estep l None = (l', None) -> l_model l' = Some m' -> network m' D F' vt ->
    trains l v -> ~ has_converged l v -> rules_nothing_out D F data v ->
    (forall o, In o (all_assignments D) -> (entry (F' v) o <= x * entry (F v) o)%Qc) ->
    forall G, retabled D vt (m_graph m) F v G -> (likelihood D G data <= power x (length (f_rows data)) * likelihood D F data)%Qc.
  Proof.
    intros Rd Es El' Net' Tv Cv Ro Hx. destruct (step_done l m F l' m' F' Rd Es El' Net') as (F2 & Eq & _ & _ & _ & _ & _ & Nt & _).
    apply (gap_new l m F v (F2 v) x Rd Tv Cv (Nt v Tv Cv) Ro). intros o Io. rewrite <- Eq; [now apply Hx|].
    now destruct (families l m F v Rd Tv Cv).
  Qed.

  (** what is possible stays possible *)
  Lemma zero_stays l m F v p : ready D vt E data l m F -> trains l v -> ~ has_converged l v -> new_table m D F vt data v p ->
    forall o, In o (all_assignments D) -> entry (F v) o = 0%Qc -> entry p o = 0%Qc.
  Proof.
    intros Rd Tv Cv (Cp & Hp) o Io Z.
    destruct (families l m F v Rd Tv Cv) as (Iv & NT & IT & Ap & IvT & HT). destruct (rows_ok l m F Rd) as (Ke & Me).
    destruct Rd as ((El & Net & NN & _) & _). assert (WD := net_wd m D F vt Net). destruct (some_valid D WD) as (a & Va).
    assert (Gf := net_good m D F vt Net v Iv). assert (Gp := cpt_good D vt v _ _ Cp).
    assert (Vo := over_all_valid m D F vt Net o a Io).
    rewrite (entry_over m D F vt Net p o a Gp Io). rewrite (entry_over m D F vt Net (F v) o a Gf Io) in Z.
    destruct (Hp _ Vo) as [_ ->]. set (b := over o a) in *.
    assert (Zc : counts D F es (T m v) b = 0%Qc).
    { rewrite (counts_sm m D F vt Net es) by auto. rewrite (sm_ext D WD _ _ (fun _ => 0 * 0)%Qc); [|auto|].
      - rewrite (sm_scale D (minus (keys D) (T m v)) (fun _ => 0%Qc) (fun _ => 0%Qc)) by auto. ring.
      - intros b' Vb' Eb. rewrite Qcmult_0_l. unfold W. set (o' := obs_of (keys D) b').
        destruct (Qc_eq_dec (weight es (all_assignments D) consistent (keys D) (fun v o => entry (F v) o) o') 0) as [Q|Q]; [exact Q|]. exfalso.
        apply (weight_old_nz D F es v o' Iv (obs_in_all m D F vt Net b' Vb') Q). unfold o'. rewrite <- (fv_entry D vt (F v) b' Gf Vb'), <- Z.
        apply (fv_dep D vt _ Gf). intros w J. apply Eb. intros J'. apply minus_In in J' as [_ J']. apply J'. now apply HT. }
    rewrite Zc. unfold Qcdiv. ring.
  Qed.

  Lemma kept_new l m F F2 : ready D vt E data l m F ->
    (forall v, trains l v -> ~ has_converged l v -> new_table m D F vt data v (F2 v)) ->
    (forall v, ~ trains l v \/ has_converged l v -> F2 v = F v) ->
    forall v, In v (keys D) -> rules_nothing_out D F data v -> rules_nothing_out D F2 data v.
  Proof.
    intros Rd Nt Cv v Iv Ro r p Jr Jp Co Hw.
    assert (Dec : forall w, (trains l w /\ ~ has_converged l w) \/ (~ trains l w \/ has_converged l w)).
    { intros w. unfold has_converged, trains. destruct Rd as ((_ & _ & _ & _ & _ & _ & _ & (tr & Et & _)) & _). rewrite Et.
      destruct (in_dec eqd w (em_converged (l_sub l))) as [J|J]; [auto|]. destruct (in_dec eqd w tr) as [K|K]; [left; eauto|].
      right. left. intros (tr' & Q & K'). injection Q as <-. contradiction. }
    assert (Back : forall w, In w (keys D) -> entry (F2 w) p <> 0%Qc -> entry (F w) p <> 0%Qc).
    { intros w Iw N Z. destruct (Dec w) as [[Tw Cw] | Q]; [|rewrite (Cv w Q) in N; contradiction].
      apply N. now apply (zero_stays l m F w (F2 w) Rd Tw Cw (Nt w Tw Cw) p Jp). }
    assert (Pos : forall w, In w (keys D) -> entry (F w) p <> 0%Qc).
    { intros w Iw. destruct (eqd w v) as [-> | N]; [|now apply Back, Hw]. apply (Ro r p Jr Jp Co). intros u Iu Nu. now apply Back, Hw. }
    destruct (rows_ok l m F Rd) as (Ke & Me). assert (Rd' := Rd). destruct Rd' as ((El & Net & NN & Gp & Dp & Ed & Mr & (tr & Et & It)) & Lr).
    set (act := filter (fun w => negb (mem w (em_converged (l_sub l)))) tr).
    assert (Ha : forall w, In w act <-> trains l w /\ ~ has_converged l w).
    { intros w. unfold act. rewrite filter_In, negb_true_iff, mem_nIn. unfold trains, has_converged. rewrite Et. split.
      - intros [J N]. split; [eauto|auto].
      - intros [(tr' & Q & J) N]. injection Q as <-. auto. }
    assert (HT : forall w, In w act -> In w (keys D) /\ NoDup (T m w) /\ incl (T m w) (keys D) /\ apart es (T m w) /\ In w (T m w) /\
        forall x, In x (T m w) <-> In x (mf_vars (F w))).
    { intros w J. apply Ha in J as [? ?]. now apply (families l m F w Rd). }
    assert (Hg : forall w, In w act -> FactorSem.good D vt (F2 w) /\ (forall x, In x (mf_vars (F2 w)) -> In x (T m w)) /\
        forall a, valid D a -> sm D [w] (counts D F es (T m w)) a <> 0%Qc /\
          fv (F2 w) a = (counts D F es (T m w) a / sm D [w] (counts D F es (T m w)) a)%Qc).
    { intros w J. assert (J' := J). apply Ha in J as [Tw Cw]. destruct (Nt w Tw Cw) as (Cp & Fp).
      split; [exact (cpt_good D vt w _ _ Cp)|]. split; [|exact Fp]. intros x Jx.
      destruct (HT w J') as (Iw & _ & _ & _ & _ & Hw'). apply Hw'.
      apply (cpt_vars D vt w _ _ x Cp) in Jx. apply (cpt_vars D vt w _ _ x (net_cpt m D F vt Net w Iw)). exact Jx. }
    assert (Hi : forall w, ~ In w act -> F2 w = F w).
    { intros w J. apply Cv. destruct (Dec w) as [Q | Q]; [apply Ha in Q; contradiction|exact Q]. }
    assert (P := em_positive es (all_assignments D) consistent (keys D) (fun v o => entry (F v) o) (fun v o => entry (F2 v) o)
      (old_nn m D F vt Net NN) (new_nn m D F vt Net NN es Ke Me act F2 (T m) Hg Hi) (pos m D F vt Net NN es Ke Me)
      (new_pos m D F vt Net NN es Ke Me act F2 (T m) HT Hg Hi) (row_obs data r) p ltac:(now apply in_map) Jp Co).
    unfold prod_of in P. intros Z. rewrite (qprod_zero (map (fun v => entry (F2 v) p) (keys D))) in P.
    - assert (Q : (0 < 0)%Qc); [apply P|discriminate Q]. intros Q.
      assert (R : forall l, (forall w, In w l -> entry (F w) p <> 0%Qc) -> qprod (map (fun w => entry (F w) p) l) <> 0%Qc).
      { clear. induction l as [|w l IH]; intros Hl; [discriminate|]. cbn [map qprod]. intros Q. apply Qcmult_integral in Q as [Q|Q].
        - apply (Hl w); [now left|exact Q].
        - apply IH; [intros u J; apply Hl; now right|exact Q]. }
      exact (R (keys D) Pos Q).
    - rewrite <- Z. apply in_map_iff. now exists v.
  Qed.

  Theorem kept l m F l' m' F' v : ready D vt E data l m F -> estep l None = (l', None) -> l_model l' = Some m' -> network m' D F' vt ->
    In v (nodes (m_graph m)) -> rules_nothing_out D F data v -> rules_nothing_out D F' data v.
  Proof.
    intros Rd Es El' Net' Iv Ro. destruct (step_done l m F l' m' F' Rd Es El' Net') as (F2 & Eq & _ & _ & _ & _ & _ & Nt & Cv).
    assert (Iv' : In v (keys D)). { destruct Rd as ((_ & Net & _) & _). now apply (net_nodes m D F vt Net). }
    apply (rules_keys D F2 F' data v Eq Iv'). now apply (kept_new l m F F2 Rd Nt Cv v Iv').
  Qed.
End Step.
