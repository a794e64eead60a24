(** Laws of calculation for expressions over factors. *)

From Coq Require Import String Bool Arith ZArith QArith Qcanon Lia Permutation List.
From Verif Require Import PyBase Num DomainModel NdArray StoreModel NumStore FactorModel GenModel PyFacts Spec
  DomainFacts StoreSpec StoreFacts NumFacts FactorSpec FactorFacts PropFacts1 PropFacts2 BigSum NetSem FactorSem
  OpModel OpSpec OpFacts1.
Import ListNotations.
Local Open Scope nat_scope.
Local Arguments eqd : simpl never.

(** ** domains *)

Lemma join_In_iff d1 d2 v l : compatible d1 d2 -> (In (v, l) (join d1 d2) <-> In (v, l) d1 \/ In (v, l) d2).
Proof.
  intros C. split; [apply join_In|]. intros [I|I]; [apply in_or_app; auto|].
  destruct (mem v (keys d1)) eqn:M.
  - apply mem_In in M. apply keys_In in M as (m & M). assert (X := C v m l M I). subst m. apply in_or_app. auto.
  - apply in_or_app. right. apply filter_In. cbn [fst]. rewrite M. auto.
Qed.

Lemma join_sub d d' : (forall v l, In (v, l) d' -> In (v, l) d) -> join d d' = d.
Proof.
  intros H. unfold join. assert (X : drop (keys d) d' = []); [|rewrite X; apply app_nil_r].
  induction d' as [|[v l] d' IH]; [reflexivity|]. rewrite drop_cons.
  assert (M : mem v (keys d) = true).
  { apply mem_In. apply keys_In. exists l. apply H. left; auto. }
  rewrite M. apply IH. intros; apply H; right; auto.
Qed.

Lemma drop_In vs d v l : In (v, l) (drop vs d) <-> In (v, l) d /\ ~ In v vs.
Proof. unfold drop. rewrite filter_In, negb_true_iff. cbn [fst]. rewrite mem_nIn. tauto. Qed.

Lemma wf_fun (d : domain) v l m : NoDup (keys d) -> In (v, l) d -> In (v, m) d -> l = m.
Proof. intros N A B. assert (X := In_dget _ _ _ N A). assert (Y := In_dget _ _ _ N B). congruence. Qed.

Lemma compatible_self (d : domain) : NoDup (keys d) -> compatible d d.
Proof. intros N v l1 l2 A B. eapply wf_fun; eauto. Qed.
Lemma compatible_drop d1 d2 vs : compatible d1 d2 -> compatible d1 (drop vs d2).
Proof. intros C v l1 l2 A B. apply drop_In in B as [B _]. eapply C; eauto. Qed.

Lemma holds_nodup vt f g : holds vt f g -> NoDup (keys (mf_domain f)).
Proof. intros ((_ & U & _) & _). apply usable_wf in U. apply U. Qed.
Lemma holds_wf vt f g : holds vt f g -> wf_dom (mf_domain f).
Proof. intros ((_ & U & _) & _). now apply usable_wf. Qed.

Lemma holds_agree vt f g o o' : holds vt f g -> full (mf_domain f) o -> full (mf_domain f) o' ->
  (forall v, In v (mf_vars f) -> dget v o = dget v o') -> g o = g o'.
Proof.
  intros ((Ws & _) & _ & G) F F' A. assert (X := G o F). assert (Y := G o' F').
  unfold mf_get_value in *. rewrite (get_value_agree (mf_store f) o' o Ws F' A) in X. congruence.
Qed.

Lemma gives_same vt r1 r2 d1 L1 g1 d2 L2 g2 : gives vt r1 d1 L1 g1 -> gives vt r2 d2 L2 g2 ->
  (forall v l, In (v, l) d1 <-> In (v, l) d2) -> (forall v, In v L1 <-> In v L2) ->
  (forall o, full d1 o -> g1 o = g2 o) ->
  exists f h, r1 = Ok (PFac f) /\ r2 = Ok (PFac h) /\ same_table f h.
Proof.
  intros (f & -> & Wf & Tf & Df & Lf & F) (h & -> & Wh & Th & Dh & Lh & H) DD LL GG.
  exists f, h. split; [auto|]. split; [auto|]. subst d1 d2. split; [congruence|]. split; [auto|]. split.
  { intros v. rewrite Lf, Lh. auto. }
  intros o Fo. exists (g1 o). split; [auto|]. rewrite GG by auto. apply H. intros v l I. apply Fo. apply DD. auto.
Qed.

(** ** the chain rule *)
Lemma sum_full vt f g vs o p : holds vt f g -> full (drop vs (mf_domain f)) o ->
  In p (all_assignments (pick vs (mf_domain f))) -> full (mf_domain f) (p ++ o).
Proof. intros H Fo I. eapply full_app_within; eauto. eapply holds_wf; eauto. Qed.

Section Chain.
  Variables (vt : vtype) (f : mfactor) (g : obs -> Qc) (x : pyval) (vs : list var).
  Hypothesis H : holds vt f g.
  Hypothesis S : spells x vs.
  Hypothesis N : NoDup vs.
  Hypothesis I : incl vs (mf_vars f).
  Let d := mf_domain f.
  Let M o := qsum (map (fun p => g (p ++ o)) (all_assignments (pick vs d))).
  Hypothesis NZ : forall o, full (drop vs d) o -> M o <> 0%Qc.
  Let F := XVal (PFac f).
  Let marg := XOp OpPow F (XVal x).
  Let cond := XOp OpDiv F marg.

  Lemma marg_means : means vt marg (drop vs d) (without (mf_left f) vs) M.
  Proof. apply (means_sum vt F d (mf_left f) g x vs); auto. now apply means_factor. Qed.

  Lemma cond_means : means vt cond d (without (mf_left f) (keys (drop vs d))) (fun o => g o / M o)%Qc.
  Proof.
    assert (E : join d (drop vs d) = d). { apply join_sub. intros v l J. now apply drop_In in J. }
    rewrite <- E at 1. eapply means_div; [now apply means_factor|exact marg_means| |exact NZ].
    apply compatible_drop, compatible_self. eapply holds_nodup; eauto.
  Qed.

  Lemma chain_rule : exists h, py_eval (XOp OpMul cond marg) = Ok (PFac h) /\ same_table h f /\ mf_domain h = mf_domain f.
  Proof.
    assert (E : join d (drop vs d) = d). { apply join_sub. intros v l J. now apply drop_In in J. }
    assert (C : compatible d (drop vs d)) by (apply compatible_drop, compatible_self; eapply holds_nodup; eauto).
    assert (X := means_mul vt _ _ _ _ _ _ _ _ cond_means marg_means C).
    rewrite E in X. apply means_ok in X.
    assert (X0 : gives vt (Ok (PFac f)) d (mf_left f) g).
    { exact (means_ok vt F d (mf_left f) g (means_factor vt f g H)). }
    destruct (gives_same _ _ _ _ _ _ _ _ _ X X0) as (h & f' & Eh & Ef & T).
    - tauto.
    - intros v. rewrite in_app_iff, !without_In. fold d. split; [tauto|]. intros J.
      destruct (In_dec eqd v vs) as [K|K]; [left|right; auto]. split; [auto|]. intros Q.
      apply In_keys_drop in Q. tauto.
    - intros o Fo. cbv beta. assert (Fo' : full (drop vs d) o).
      { intros v l J. apply drop_In in J as [J _]. auto. }
      specialize (NZ o Fo'). field. exact NZ.
    - injection Ef as <-. exists h. split; [auto|]. split; [auto|].
      destruct X as (h' & E' & _ & _ & D' & _). rewrite E' in Eh. injection Eh as ->. auto.
  Qed.

  Lemma conditional_sums : exists h, py_eval (XOp OpPow cond (XVal x)) = Ok (PFac h) /\
    mf_domain h = drop vs (mf_domain f) /\
    forall o, full (mf_domain h) o -> mf_get_value h o = Ok n1.
  Proof.
    assert (X := means_sum vt _ _ _ _ x vs cond_means S N I).
    apply means_ok in X. destruct X as (h & Eh & Wh & Th & Dh & _ & V). exists h. split; [auto|]. split; [auto|].
    intros o Fo. rewrite Dh in Fo. rewrite V by auto. unfold n1. f_equal. f_equal.
    assert (E : forall p, In p (all_assignments (pick vs d)) -> M (p ++ o) = M o).
    { intros p Ip. unfold M. f_equal. apply map_ext_in. intros p' Ip'.
      assert (F1 := sum_full vt f g vs o p H Fo Ip). assert (F2 := sum_full vt f g vs o p' H Fo Ip').
      apply (holds_agree vt f g _ _ H); auto.
      - eapply sum_full; eauto. intros v l J. apply drop_In in J as [J _]. apply F1; auto.
      - intros v Iv. rewrite !dget_app. destruct (dget v p') eqn:G; auto.
        assert (Z : dget v p = None); [|rewrite Z; auto]. apply dget_None. apply dget_None in G.
        rewrite (all_assignments_keys _ _ Ip). now rewrite (all_assignments_keys _ _ Ip') in G. }
    transitivity (qsum (map (fun p => / M o * g (p ++ o))%Qc (all_assignments (pick vs d)))).
    { f_equal. apply map_ext_in. intros p Ip. rewrite E by auto. unfold Qcdiv. ring. }
    rewrite NetSem.qsum_scale. fold (M o). rewrite Qcmult_comm. apply Qcmult_inv_r. apply NZ. auto.
  Qed.
End Chain.

(** ** sums *)
Section Sums.
  Variables (vt : vtype) (f : mfactor) (g : obs -> Qc).
  Hypothesis H : holds vt f g.
  Let d := mf_domain f.

  Lemma holds_good : good d vt f.
  Proof. destruct H as (W & T & G). split; [auto|]. split; [auto|]. split; [auto|]. eauto. Qed.

  Lemma holds_fv o : full d o -> g o = fv f (asg_of o).
  Proof.
    intros Fo. destruct H as (W & T & G). assert (X := G o Fo). rewrite (fv_get_obs d vt f o holds_good Fo) in X.
    congruence.
  Qed.

  Lemma sum_sm vs o : full (drop vs d) o ->
    qsum (map (fun p => g (p ++ o)) (all_assignments (pick vs d))) = sm d vs (fv f) (asg_of o).
  Proof.
    intros Fo. unfold sm, sumdom. etransitivity; [|symmetry; apply bsum_qsum]. f_equal. apply map_ext_in. intros p Ip.
    rewrite holds_fv by (eapply sum_full; eauto).
    apply (dep_ext _ _ (fv_dep d vt f holds_good)). intros w. apply asg_of_app.
  Qed.
End Sums.

Lemma pick_drop vs ws d : (forall v, In v vs -> ~ In v ws) -> pick vs (drop ws d) = pick vs d.
Proof.
  intros A. unfold pick, drop. induction d as [|[v l] d IH]; [reflexivity|]. cbn [filter fst].
  destruct (mem v ws) eqn:M; cbn [negb filter fst].
  - destruct (mem v vs) eqn:K; [|exact IH]. apply mem_In in M, K. destruct (A v K M).
  - destruct (mem v vs); rewrite IH; reflexivity.
Qed.

Lemma drop_drop vs ws d : drop ws (drop vs d) = drop (vs ++ ws) d.
Proof.
  unfold drop. induction d as [|[v l] d IH]; [reflexivity|]. cbn [filter fst]. rewrite mem_app.
  destruct (mem v vs); cbn [negb orb filter fst]; [exact IH|].
  destruct (mem v ws); cbn [negb]; [exact IH|]. now rewrite IH.
Qed.

Lemma sum_twice vt f g x y z vs ws : holds vt f g -> spells x vs -> spells y ws -> spells z (vs ++ ws) ->
  NoDup (vs ++ ws) -> incl (vs ++ ws) (mf_vars f) ->
  let F := XVal (PFac f) in
  exists r1 r2, py_eval (XOp OpPow (XOp OpPow F (XVal x)) (XVal y)) = Ok (PFac r1) /\
    py_eval (XOp OpPow F (XVal z)) = Ok (PFac r2) /\ same_table r1 r2.
Proof.
  intros H Sx Sy Sz N I F. assert (SS := sum_sm vt f g H). assert (WD := holds_wf vt f g H).
  assert (EX := dep_ext _ _ (fv_dep _ vt f (holds_good vt f g H))). unfold mf_vars in I.
  assert (M0 := means_factor vt f g H). fold F in M0. set (d := mf_domain f) in *.
  destruct (proj1 (NoDup_app_iff vs ws) N) as (Nv & Nw & DJ0).
  assert (DJ : forall v, In v vs -> In v ws -> False) by (intros v A B; exact (DJ0 v A B)). clear DJ0.
  assert (Iv : incl vs (keys d)). { intros v J. apply I, in_or_app. auto. }
  assert (Iw : incl ws (keys (drop vs d))).
  { intros v J. apply In_keys_drop. split; [apply I, in_or_app; auto|]. intros K. eauto. }
  assert (M1 := means_sum vt F d (mf_left f) g x vs M0 Sx Nv Iv).
  assert (M2 := means_sum vt _ _ _ _ y ws M1 Sy Nw Iw).
  assert (M3 := means_sum vt F d (mf_left f) g z (vs ++ ws) M0 Sz N I).
  apply means_ok in M2, M3. destruct (gives_same _ _ _ _ _ _ _ _ _ M2 M3) as (r1 & r2 & E1 & E2 & T).
  - intros v l. rewrite drop_drop. tauto.
  - intros v. rewrite !without_In, in_app_iff. tauto.
  - intros o Fo. cbv beta. rewrite drop_drop in Fo.
    rewrite (SS (vs ++ ws) o Fo).
    rewrite pick_drop by (intros v A B; eauto).
    assert (E : forall q, In q (all_assignments (pick ws d)) -> full (drop vs d) (q ++ o)).
    { intros q Iq. apply (full_app_within ws); auto.
      - destruct WD as (A & B). split.
        + unfold drop. clear -A. induction d as [|[v l] D IH]; [constructor|].
          cbn [filter fst] in *. inversion A; subst. destruct (mem v vs); cbn [negb]; [auto|].
          simpl. constructor; [|auto]. intros J. apply H1. apply In_keys_drop in J. tauto.
        + intros v l J. apply drop_In in J as [J _]. eauto.
      - now rewrite pick_drop by (intros v C D; eauto).
      - rewrite drop_drop. auto. }
    transitivity (sm d ws (sm d vs (fv f)) (asg_of o)).
    + unfold sm at 1, sumdom. etransitivity; [|symmetry; apply bsum_qsum]. f_equal. apply map_ext_in. intros q Iq.
      rewrite (SS vs (q ++ o)) by auto.
      apply sm_ext_fun; [exact EX|intros w; apply asg_of_app].
    + rewrite <- sm_app; [| | |].
      * apply sm_set. intros v _. rewrite !in_app_iff. tauto.
      * auto.
      * exact EX.
      * intros v A B _. eauto.
  - exists r1, r2. auto.
Qed.

(** ** sums of products *)
Lemma drop_join vs d1 d2 : (forall v, In v vs -> ~ In v (keys d1)) ->
  drop vs (join d1 d2) = join d1 (drop vs d2).
Proof.
  intros A. unfold join, drop at 1. rewrite filter_app. fold (drop vs d1). fold (drop vs (drop (keys d1) d2)).
  f_equal; [now apply drop_none|]. rewrite !drop_drop.
  unfold drop. apply filter_ext. intros [v l]. cbn [fst]. rewrite !mem_app. f_equal. apply orb_comm.
Qed.

Lemma pick_join vs d1 d2 : (forall v, In v vs -> ~ In v (keys d1)) -> pick vs (join d1 d2) = pick vs d2.
Proof.
  intros A. unfold join, pick at 1. rewrite filter_app. fold (pick vs d1). fold (pick vs (drop (keys d1) d2)).
  rewrite pick_none by auto. cbn [app]. now apply pick_drop.
Qed.

Lemma push_in vt f g h k x vs : holds vt f g -> holds vt h k -> compatible (mf_domain f) (mf_domain h) ->
  spells x vs -> NoDup vs -> incl vs (mf_vars h) -> (forall v, In v vs -> ~ In v (mf_vars f)) ->
  let F := XVal (PFac f) in let G := XVal (PFac h) in
  exists r1 r2, py_eval (XOp OpPow (XOp OpMul F G) (XVal x)) = Ok (PFac r1) /\
    py_eval (XOp OpMul F (XOp OpPow G (XVal x))) = Ok (PFac r2) /\ mf_domain r1 = mf_domain r2 /\
    (forall v, In v (mf_left r1) <-> In v (mf_left r2)) /\
    forall o, full (mf_domain r1) o -> exists q, mf_get_value r1 o = Ok (Fin q) /\ mf_get_value r2 o = Ok (Fin q).
Proof.
  intros Hf Hh C S N I A F G.
  assert (M1 := means_factor vt f g Hf). assert (M2 := means_factor vt h k Hh).
  assert (M3 := means_mul vt _ _ _ _ _ _ _ _ M1 M2 C).
  assert (I3 : incl vs (keys (join (mf_domain f) (mf_domain h)))).
  { intros v J. apply join_keys. right. now apply I. }
  assert (M4 := means_sum vt _ _ _ _ x vs M3 S N I3).
  assert (M5 := means_sum vt _ _ _ _ x vs M2 S N I).
  assert (M6 := means_mul vt _ _ _ _ _ _ _ _ M1 M5 (compatible_drop _ _ vs C)).
  apply means_ok in M4, M6. fold F G in M4, M6.
  destruct M4 as (r1 & E1 & W1 & T1 & D1 & L1 & V1). destruct M6 as (r2 & E2 & W2 & T2 & D2 & L2 & V2).
  rewrite drop_join in D1 by auto. exists r1, r2. split; [auto|]. split; [auto|]. split; [congruence|]. split.
  { intros v. rewrite L1, L2. rewrite without_In, !in_app_iff, without_In.
    assert (Z : In v (mf_left f) -> ~ In v vs).
    { intros J K. apply (A v K). now apply mf_left_In in J. }
    tauto. }
  intros o Fo. assert (Fo1 := Fo). rewrite D1 in Fo.
  assert (Fj : full (drop vs (join (mf_domain f) (mf_domain h))) o) by (rewrite drop_join; auto).
  rewrite V1, V2 by auto. eexists. split; [reflexivity|]. f_equal. f_equal. cbv beta.
  rewrite pick_join by auto.
  assert (Ff : full (mf_domain f) o) by (eapply full_join_l; eauto).
  rewrite <- NetSem.qsum_scale. f_equal. apply map_ext_in. intros p Ip. f_equal.
  apply (holds_agree vt f g _ _ Hf); auto.
  - intros v l J. rewrite dget_app. destruct (dget v p) eqn:Gp; [|apply Ff; auto].
    exfalso. apply dget_In in Gp. apply (in_map fst) in Gp. change (In v (keys p)) in Gp.
    rewrite (all_assignments_keys _ _ Ip) in Gp. apply keys_In in Gp as (m & Gp). apply filter_In in Gp as (_ & Gp).
    cbn [fst] in Gp. apply mem_In in Gp. apply (A v Gp). apply keys_In. eauto.
  - intros v J. rewrite dget_app. destruct (dget v p) eqn:Gp; [|auto].
    exfalso. apply dget_In in Gp. apply (in_map fst) in Gp. change (In v (keys p)) in Gp.
    rewrite (all_assignments_keys _ _ Ip) in Gp. apply keys_In in Gp as (m & Gp). apply filter_In in Gp as (_ & Gp).
    cbn [fst] in Gp. apply mem_In in Gp. exact (A v Gp J).
Qed.

(** ** products over sums *)
Lemma distributive vt f1 g1 f2 g2 f3 g3 : holds vt f1 g1 -> holds vt f2 g2 -> holds vt f3 g3 ->
  compatible (mf_domain f1) (mf_domain f2) -> compatible (mf_domain f1) (mf_domain f3) ->
  compatible (mf_domain f2) (mf_domain f3) ->
  let A := XVal (PFac f1) in let B := XVal (PFac f2) in let C := XVal (PFac f3) in
  exists r1 r2, py_eval (XOp OpMul (XOp OpAdd A B) C) = Ok (PFac r1) /\
    py_eval (XOp OpAdd (XOp OpMul A C) (XOp OpMul B C)) = Ok (PFac r2) /\ same_table r1 r2.
Proof.
  intros H1 H2 H3 C12 C13 C23 A B C.
  assert (M1 := means_factor vt f1 g1 H1). assert (M2 := means_factor vt f2 g2 H2). assert (M3 := means_factor vt f3 g3 H3).
  assert (C33 := compatible_self _ (holds_nodup _ _ _ H3)).
  assert (CL : compatible (join (mf_domain f1) (mf_domain f2)) (mf_domain f3)) by (apply compatible_join; auto).
  assert (CR : compatible (join (mf_domain f1) (mf_domain f3)) (join (mf_domain f2) (mf_domain f3))).
  { apply compatible_join; apply compatible_sym, compatible_join; auto using compatible_sym. }
  assert (ML := means_mul vt _ _ _ _ _ _ _ _ (means_add vt _ _ _ _ _ _ _ _ M1 M2 C12) M3 CL).
  assert (MR := means_add vt _ _ _ _ _ _ _ _ (means_mul vt _ _ _ _ _ _ _ _ M1 M3 C13) (means_mul vt _ _ _ _ _ _ _ _ M2 M3 C23) CR).
  apply means_ok in ML, MR. destruct (gives_same _ _ _ _ _ _ _ _ _ ML MR) as (r1 & r2 & E1 & E2 & T).
  - intros v l. rewrite !join_In_iff by auto. tauto.
  - intros v. rewrite !in_app_iff. tauto.
  - intros o _. cbv beta. ring.
  - exists r1, r2. auto.
Qed.
