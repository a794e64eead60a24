(** Pruned trees: restriction, combination and summation. *)

From Coq Require Import String Bool Arith QArith Qcanon Lia List Permutation.
From Verif Require Import PyBase PyFacts Num NumFacts DomainModel NdArray StoreModel NumStore Spec StoreSpec
  DomainFacts TreeFacts TreeFacts2 StoreFacts StoreOps StoreMarg2 PropFacts1.
Import ListNotations.
Local Open Scope nat_scope.

Section Trees.
  Context {V : Type}.
  Implicit Types (v : var) (ch : list (state * tree V)) (t : tree V) (d : domain) (o : obs) (a : asg).

  Lemma tprun_total d t a : tprun d t -> valid d a -> exists x, teval t a = Some x.
  Proof.
    induction 1; intros Va; [simpl; eauto|]. rewrite teval_node.
    destruct (dget_child d v l ch a) as (c & E & I); auto. rewrite E.
    eapply H3; eauto. apply valid_dremove; auto.
  Qed.

  Lemma pteval_ext d t a b : tprun d t -> (forall v, In v (keys d) -> a v = b v) ->
    teval t a = teval t b.
  Proof.
    induction 1; intros E; auto. rewrite !teval_node. rewrite (E v).
    2:{ apply keys_In; eauto. }
    destruct (dget (b v) ch) eqn:G; auto. eapply H3.
    - apply dget_In; eauto.
    - intros w I. apply E. unfold dremove in I. rewrite keys_dfilter in I.
      apply filter_In in I. tauto.
  Qed.

  Lemma tprun_set d d' t : (forall e, In e d <-> In e d') -> tprun d t -> tprun d' t.
  Proof.
    intros E T. revert d' E. induction T; intros d' E.
    - constructor.
    - econstructor; eauto. apply E; eauto. intros s c I. eapply H3; eauto.
      intros e. unfold dremove, dfilter. rewrite !filter_In, E. tauto.
  Qed.

  Lemma tprun_sub d d' t : (forall e, In e d -> In e d') -> tprun d t -> tprun d' t.
  Proof.
    intros E T. revert d' E. induction T; intros d' E.
    - constructor.
    - econstructor; eauto. intros s c I. eapply H3; eauto.
      intros e. unfold dremove, dfilter. rewrite !filter_In. firstorder.
  Qed.

  Lemma ptrestrict_ok d t o : NoDup (keys d) -> tprun d t -> known d o ->
    exists t', trestrict t o = Ok t' /\ tprun (rest d o) t' /\
               forall a, teval t' a = teval t (over o a).
  Proof.
    intros ND T. revert o ND. induction T as [d x|d v l ch I NC KC TC IH]; intros o ND K.
    - exists (Leaf x). simpl. repeat split; constructor.
    - destruct o as [|p o0] eqn:Eo.
      + exists (Node v ch). rewrite trestrict_nil, rest_nil. split; [auto|split].
        * econstructor; eauto.
        * intros a. apply pteval_ext with (d := d); [econstructor; eauto|]. auto.
      + rewrite trestrict_node by congruence. rewrite <- Eo in *. clear Eo p o0.
        destruct (dget v o) as [s|] eqn:E.
        * assert (X : In s (keys ch)) by (apply KC; eapply K; eauto).
          apply dget_keys in X as (c & X). rewrite X.
          pose proof (dget_In _ _ _ X) as Ic.
          destruct (IH s c Ic (dremove v o)) as (t' & R & T' & Ev).
          -- apply NoDup_dremove; auto.
          -- apply known_dremove; auto.
          -- exists t'. split; auto. rewrite (rest_dremove d v o s E) in T'. split; auto.
             intros a. rewrite Ev, teval_node.
             assert (O : over o a v = s) by (unfold over; rewrite E; auto). rewrite O, X.
             eapply pteval_ext; [eapply TC; eauto|]. intros w Iw. unfold over.
             rewrite dget_dremove. unfold dremove in Iw. rewrite keys_dfilter in Iw.
             apply filter_In in Iw as [_ Iw]. destruct (eqd w v); [discriminate|auto].
        * assert (EX : exists ch', mapM (fun sc => let* c' := trestrict (snd sc) o in Ok (fst sc, c')) ch = Ok ch').
          { apply mapM_total. intros [s c] Ic. simpl.
            destruct (IH s c Ic o) as (t' & R & _); [apply NoDup_dremove; auto|apply known_dremove'; auto|].
            rewrite R. simpl. eauto. }
          destruct EX as (ch' & EX). rewrite EX. cbn [bind]. eexists. split; [reflexivity|].
          apply (mapM_children (fun sc => trestrict (snd sc) o)) in EX as (Kc & I1 & I2). split.
          -- apply tp_node with (l := l).
             ++ apply filter_In. split; auto. simpl. apply dmem_false in E. rewrite E. auto.
             ++ rewrite Kc; auto.
             ++ intros s. rewrite Kc. auto.
             ++ intros s c' Ic'. destruct (I1 _ _ Ic') as (c & Ic & R). simpl in R.
                destruct (IH s c Ic o) as (t' & R' & T' & _); [apply NoDup_dremove; auto|apply known_dremove'; auto|].
                rewrite R in R'. injection R' as <-. rewrite rest_dremove' in T'. auto.
          -- intros a. rewrite !teval_node.
             assert (O : over o a v = a v) by (unfold over; rewrite E; auto). rewrite O.
             destruct (dget (a v) ch) as [c|] eqn:G.
             ++ destruct (I2 _ _ G) as (c' & G' & R). rewrite G'. simpl in R.
                destruct (IH _ c (dget_In _ _ _ G) o) as (t' & R' & _ & Ev);
                  [apply NoDup_dremove; auto|apply known_dremove'; auto|].
                rewrite R in R'. injection R' as <-. auto.
             ++ destruct (dget (a v) ch') eqn:G'; auto. exfalso.
                assert (In (a v) (keys ch')) by (apply dget_keys; eauto).
                unfold keys in H. rewrite Kc in H. apply dget_None in G. auto.
  Qed.

  Lemma ptcombine_leaf_ok op x d t2 : tprun d t2 ->
    tprun d (tcombine_leaf op x t2) /\
    forall a, teval (tcombine_leaf op x t2) a =
              match teval t2 a with Some y => Some (op x y) | None => None end.
  Proof.
    induction 1 as [d y|d v l ch I NC KC TC IH].
    - split; [constructor|auto].
    - assert (KE : map fst (map (fun sc => match sc with (s, c) => (s, tcombine_leaf op x c) end) ch) = map fst ch).
      { rewrite map_map. apply map_ext. intros []; auto. }
      cbn [tcombine_leaf]. split.
      + apply tp_node with (l := l); auto.
        * rewrite KE; auto.
        * intros s. rewrite KE. auto.
        * intros s c Ic. apply in_map_iff in Ic as ([s' c'] & E & Ic). injection E as <- <-.
          eapply IH; eauto.
      + intros a. rewrite !teval_node, dget_map_child.
        destruct (dget (a v) ch) eqn:G; auto. eapply IH. apply dget_In; eauto.
  Qed.

  Lemma ptcombine_ok op d1 t1 : tprun d1 t1 -> forall d2 t2 d, NoDup (keys d2) -> tprun d2 t2 ->
    compatible d1 d2 -> (forall e, In e d <-> In e d1 \/ In e d2) ->
    exists t, tcombine op t1 t2 = Ok t /\ tprun d t /\
      forall a x y, teval t1 a = Some x -> teval t2 a = Some y -> teval t a = Some (op x y).
  Proof.
    induction 1 as [d1 x|d1 v l ch I NC KC TC IH]; intros d2 t2 d ND T2 C U.
    - cbn [tcombine]. eexists. split; [reflexivity|].
      destruct (ptcombine_leaf_ok op x d2 t2 T2) as [T E]. split.
      + eapply tprun_sub; [|exact T]. intros e Ie. apply U. auto.
      + intros a x' y E1 E2. simpl in E1. injection E1 as <-. rewrite E, E2. auto.
    - rewrite tcombine_node.
      assert (ST : forall s c, In (s, c) ch -> exists t2' c',
                 trestrict t2 [(v, s)] = Ok t2' /\ (forall a, teval t2' a = teval t2 (over [(v, s)] a)) /\
                 tcombine op c t2' = Ok c' /\ tprun (dremove v d) c' /\
                 forall a x y, teval c a = Some x -> teval t2' a = Some y -> teval c' a = Some (op x y)).
      { intros s c Ic.
        assert (Is : In s l) by (apply KC; apply (in_map fst) in Ic; auto).
        assert (Kn : known d2 [(v, s)]).
        { intros w m s' Iw E. simpl in E. destruct (eqd w v) as [->|]; [|discriminate].
          injection E as <-. rewrite <- (C v l m); auto. }
        destruct (ptrestrict_ok d2 t2 [(v, s)] ND T2 Kn) as (t2' & R & T2' & Ev).
        rewrite rest_single in T2'.
        destruct (IH s c Ic (dremove v d2) t2' (dremove v d)) as (c' & E & Tc & Ec); auto.
        - apply NoDup_dremove; auto.
        - apply compatible_dremove; auto.
        - intros e. rewrite !dremove_In, U. tauto.
        - exists t2', c'. auto. }
      set (f := fun sc : state * tree V => let* t2' := trestrict t2 [(v, fst sc)] in tcombine op (snd sc) t2').
      assert (EX : exists ch', mapM (fun sc => let* c' := f sc in Ok (fst sc, c')) ch = Ok ch').
      { apply mapM_total. intros [s c] Ic. unfold f. simpl.
        destruct (ST s c Ic) as (t2' & c' & R & _ & E & _). rewrite R. simpl. rewrite E. simpl. eauto. }
      destruct EX as (ch' & EX).
      exists (Node v ch'). split.
      { erewrite mapM_ext; [rewrite EX; reflexivity|]. intros [s c] _. unfold f. simpl.
        rewrite bind_assoc. auto. }
      apply mapM_children in EX as (Kc & I1 & I2). split.
      + apply tp_node with (l := l).
        * apply U. auto.
        * rewrite Kc; auto.
        * intros s. rewrite Kc; auto.
        * intros s c' Ic'. destruct (I1 _ _ Ic') as (c & Ic & F). unfold f in F. simpl in F.
          destruct (ST s c Ic) as (t2' & c'' & R & _ & E & Tc & _). rewrite R in F. simpl in F.
          rewrite E in F. injection F as <-. auto.
      + intros a x y E1 E2. rewrite teval_node in *.
        destruct (dget (a v) ch) as [c|] eqn:G; [|discriminate].
        destruct (I2 _ _ G) as (c' & G' & F). rewrite G'. unfold f in F. simpl in F.
        destruct (ST _ c (dget_In _ _ _ G)) as (t2' & c'' & R & Ev & E & Tc & Ec).
        rewrite R in F. simpl in F. rewrite E in F. injection F as <-.
        apply Ec; auto. rewrite Ev. rewrite <- E2. eapply pteval_ext; [exact T2|].
        intros w _. apply over_single. auto.
  Qed.

  Lemma pfold_tcombine_ok op D ts : NoDup (keys D) -> (forall t, In t ts -> tprun D t) ->
    forall t0, tprun D t0 ->
    exists t', foldM (tcombine op) ts t0 = Ok t' /\ tprun D t' /\
      forall a x0 xs, teval t0 a = Some x0 -> Forall2 (fun t x => teval t a = Some x) ts xs ->
                      teval t' a = Some (fold_left op xs x0).
  Proof.
    intros ND. induction ts as [|t ts IH]; intros H t0 T0.
    - exists t0. simpl. split; auto. split; auto. intros a x0 xs E F. inversion F; subst. auto.
    - cbn [foldM].
      destruct (ptcombine_ok op D t0 T0 D t D) as (t1 & E1 & T1 & Ev1); auto.
      { apply H; simpl; auto. } { apply compatible_refl; auto. } { intros; tauto. }
      rewrite E1. cbn [bind].
      destruct (IH (fun t' I => H t' (or_intror I)) t1 T1) as (t' & E & T' & Ev).
      exists t'. split; auto. split; auto. intros a x0 xs E0 F. inversion F; subst. simpl.
      eapply Ev; eauto.
  Qed.

  Lemma ptmarg_ok scale op k d t v l : (forall x, fold1 op (repeat x (length l)) = Some (scale x k)) ->
    wf_dom d -> tprun d t -> In (v, l) d ->
    exists t', tmarg scale op t v k = Ok t' /\ tprun (dremove v d) t' /\
      forall a, valid (dremove v d) a ->
        exists ks xs, Permutation ks l /\
          Forall2 (fun s x => teval t (upd a v s) = Some x) ks xs /\
          teval t' a = fold1 op xs.
  Proof.
    intros Hs W T. revert W. induction T as [d x|d w m ch I NC KC TC IH]; intros W Iv.
    { cbn [tmarg]. eexists. split; [reflexivity|]. split; [constructor|]. intros a Va.
      exists l, (repeat x (length l)). split; [auto|]. split; [|symmetry; apply Hs].
      clear. induction l; constructor; auto. }
    rewrite tmarg_node. destruct (eqd w v) as [->|N].
    - assert (m = l).
      { destruct W as [ND _]. apply In_dget in I; auto. apply In_dget in Iv; auto. congruence. }
      subst m. clear IH.
      destruct ch as [|[s0 c0] ch].
      { exfalso. apply W in I as [_ I]. destruct l as [|s l]; [congruence|].
        apply (proj2 (KC s)). simpl; auto. }
      cbn [map snd reduceM].
      destruct (pfold_tcombine_ok op (dremove v d) (map snd ch)) with (t0 := c0) as (t' & E & T' & Ev).
      + apply NoDup_dremove, W.
      + intros t It. apply in_map_iff in It as ([s c] & <- & Ic). apply (TC s); simpl; auto.
      + apply (TC s0); simpl; auto.
      + exists t'. split; auto. split; auto. intros a Va.
        assert (X : exists xs, Forall2 (fun s x => teval (Node v ((s0, c0) :: ch)) (upd a v s) = Some x)
                                 (map fst ((s0, c0) :: ch)) xs /\
                               Forall2 (fun t x => teval t a = Some x) (map snd ((s0, c0) :: ch)) xs).
        { assert (Y : forall ch', incl ch' ((s0, c0) :: ch) -> exists xs,
             Forall2 (fun s x => teval (Node v ((s0, c0) :: ch)) (upd a v s) = Some x) (map fst ch') xs /\
             Forall2 (fun t x => teval t a = Some x) (map snd ch') xs).
          { induction ch' as [|[s c] ch' IHc]; intros Inc; [exists []; split; constructor|].
            destruct IHc as (xs & F1 & F2); [intros e Ie; apply Inc; simpl; auto|].
            assert (Ic : In (s, c) ((s0, c0) :: ch)) by (apply Inc; simpl; auto).
            destruct (tprun_total (dremove v d) c a) as (x & Ex); [eapply TC; eauto|auto|].
            exists (x :: xs). split; constructor; auto. cbn [fst].
            rewrite teval_node. unfold upd at 1. rewrite eqd_refl.
            rewrite (In_dget s c) by auto. rewrite <- Ex.
            eapply pteval_ext; [eapply TC; eauto|]. intros u Iu. apply keys_dremove in Iu as [_ Iu].
            unfold upd. rewrite eqd_neq; auto. }
          apply (Y _ (incl_refl _)). }
        destruct X as (xs & F1 & F2). exists (map fst ((s0, c0) :: ch)), xs. split; [|split; auto].
        * apply NoDup_Permutation; auto. apply W in I. tauto.
        * inversion F2; subst. simpl. eapply Ev; eauto.
    - assert (W' : wf_dom (dremove w d)) by (apply wf_dom_filter; auto).
      assert (Iv' : In (v, l) (dremove w d)) by (apply dremove_In; simpl; auto).
      assert (EX : exists ch', mapM (fun sc => let* c' := tmarg scale op (snd sc) v k in Ok (fst sc, c')) ch = Ok ch').
      { apply mapM_total. intros [s c] Ic. simpl. destruct (IH s c Ic W' Iv') as (t' & E & _).
        rewrite E. simpl. eauto. }
      destruct EX as (ch' & EX). rewrite EX. cbn [bind]. eexists. split; [reflexivity|].
      apply (mapM_children (fun sc => tmarg scale op (snd sc) v k)) in EX as (Kc & I1 & I2). split.
      + apply tp_node with (l := m).
        * apply dremove_In. simpl. auto.
        * rewrite Kc; auto.
        * intros s. rewrite Kc; auto.
        * intros s c' Ic'. destruct (I1 _ _ Ic') as (c & Ic & F). simpl in F.
          destruct (IH s c Ic W' Iv') as (t' & E & Tc & _). rewrite E in F. injection F as <-.
          rewrite dremove_comm. auto.
      + intros a Va. rewrite teval_node.
        assert (Iw : In (a w) (map fst ch)).
        { apply KC. apply Va. apply dremove_In. auto. }
        apply (dget_keys (a w) ch) in Iw as (c & G).
        destruct (I2 _ _ G) as (c' & G' & F). simpl in F. rewrite G'.
        destruct (IH _ c (dget_In _ _ _ G) W' Iv') as (t' & E & Tc & Ev). rewrite E in F. injection F as <-.
        destruct (Ev a) as (ks & xs & P & F2 & E').
        { rewrite dremove_comm. apply valid_dremove. auto. }
        exists ks, xs. split; auto. split; auto. eapply Forall2_impl; [|exact F2]. intros s x Ex.
        rewrite teval_node. unfold upd at 1. rewrite eqd_neq by auto. rewrite G. auto.
  Qed.
End Trees.

Lemma over_asg_of o a w : over o a w = match dget w o with Some x => x | None => a w end.
Proof. reflexivity. Qed.

(** The value of a pruned store at a full observation. *)
Lemma get_pruned {V} d (t : tree V) o : wf_dom d -> tprun d t -> full d o ->
  exists x, teval t (asg_of o) = Some x /\ get_value (StTree d t) o = Ok x.
Proof.
  intros W T F. assert (A := full_agrees d o F). assert (Va := full_valid d o F).
  destruct (tprun_total d t _ T Va) as (x & Ex). exists x. split; [auto|].
  unfold get_value, get_value_raw, st_restrict. fold (ext o). cbn [st_restrict_ext].
  unfold tree_restrict. rewrite ext_has_list, ext_ones, rest_ext.
  destruct (ptrestrict_ok d t o (proj1 W) T (agrees_known _ _ _ Va A)) as (t' & E & T' & Ev). rewrite E. cbn [bind].
  rewrite (agrees_rest _ _ _ A) in *.
  assert (Et : t' = Leaf x).
  { destruct t' as [y|v ch]; [|inversion T'; subst; match goal with H : In _ [] |- _ => destruct H end].
    assert (X := Ev (asg_of o)). cbn [teval] in X.
    rewrite (pteval_ext d t (over o (asg_of o)) (asg_of o) T) in X; [congruence|].
    intros v I. unfold over at 1. rewrite (A v I). reflexivity. }
  subst t'. reflexivity.
Qed.

Lemma inject_succ n : Q2Qc (inject_Z (Z.of_nat (S n))) = (1 + Q2Qc (inject_Z (Z.of_nat n)))%Qc.
Proof.
  apply Qc_is_canon. change (Qred (inject_Z (Z.of_nat (S n))) == Qred (1 + Qred (inject_Z (Z.of_nat n))))%Q.
  rewrite !Qred_correct. rewrite Nat2Z.inj_succ. unfold Z.succ.
  rewrite inject_Z_plus. change (inject_Z 1) with 1%Q. ring.
Qed.

Lemma inject_succ_pos n : (0 < Q2Qc (inject_Z (Z.of_nat (S n))))%Qc.
Proof.
  unfold Qclt. change (Qred 0 < Qred (inject_Z (Z.of_nat (S n))))%Q. rewrite !Qred_correct.
  change (inject_Z 0 < inject_Z (Z.of_nat (S n)))%Q. rewrite <- Zlt_Qlt. lia.
Qed.

Lemma inf_scale b n : inf_times b (Q2Qc (inject_Z (Z.of_nat (S n)))) = if b then PInf else NInf.
Proof.
  assert (P := inject_succ_pos n). unfold inf_times. set (q := Q2Qc (inject_Z (Z.of_nat (S n)))) in *.
  assert (qzero q = false) as -> by (apply qzero_false; intros E; rewrite E in P; apply (Qclt_not_eq _ _ P); reflexivity).
  assert (qpos q = true) as -> by (apply qpos_spec; auto). destruct b; reflexivity.
Qed.

Lemma nscale_repeat x n : n <> 0 -> fold1 nadd (repeat x n) = Some (nscale x n).
Proof.
  destruct n as [|n]; [congruence|]. intros _. cbn [repeat fold1]. apply (f_equal Some).
  rewrite nsum_acc. unfold nscale.
  destruct x as [q| | |].
  - assert (E : nsum (repeat (Fin q) n) = Fin (q * Q2Qc (inject_Z (Z.of_nat n)))%Qc).
    { induction n as [|n IH].
      - cbn [repeat]. rewrite nsum_nil. unfold n0. apply (f_equal Fin).
        change (Q2Qc (inject_Z (Z.of_nat 0))) with (Q2Qc 0). change 0%Qc with (Q2Qc 0). ring.
      - cbn [repeat]. rewrite nsum_cons, IH. cbn [nadd]. apply (f_equal Fin). rewrite inject_succ. ring. }
    rewrite E. cbn [nadd nmul]. apply (f_equal Fin). rewrite inject_succ. ring.
  - reflexivity.
  - assert (E : nadd PInf (nsum (repeat PInf n)) = PInf).
    { clear. induction n as [|n IH]; [reflexivity|]. cbn [repeat]. rewrite nsum_cons, IH. reflexivity. }
    rewrite E. unfold nmul. rewrite inf_scale. reflexivity.
  - assert (E : nadd NInf (nsum (repeat NInf n)) = NInf).
    { clear. induction n as [|n IH]; [reflexivity|]. cbn [repeat]. rewrite nsum_cons, IH. reflexivity. }
    rewrite E. unfold nmul. rewrite inf_scale. reflexivity.
Qed.

Lemma drop_single v d : drop [v] d = dremove v d.
Proof.
  unfold drop, dremove, dfilter. apply filter_ext. intros [w l]. unfold mem. cbn [fst existsb].
  destruct (eqd w v); reflexivity.
Qed.

(** Summing a variable out of a pruned tree. *)
Lemma pruned_marginalize d (t : tree num) v l : wf_dom d -> tprun d t -> In (v, l) d ->
  exists t', st_marginalize (StTree d t) [v] = st_init VTree (drop [v] d) (tree_darg t') /\ tprun (drop [v] d) t' /\
    (forall w ch, t' = Node w ch -> st_marginalize (StTree d t) [v] = Ok (StTree (drop [v] d) t')) /\
    forall o, full (drop [v] d) o -> exists xs,
      Forall2 (fun s x => get_value (StTree d t) ((v, s) :: o) = Ok x) l xs /\
      get_value (StTree (drop [v] d) t') o = Ok (nsum xs).
Proof.
  intros W T I. rewrite drop_single. assert (Wd : wf_dom (dremove v d)) by (apply wf_dom_filter; auto).
  destruct (ptmarg_ok nscale nadd (length l) d t v l) as (t' & E & T' & Ev); auto.
  { intros x. apply nscale_repeat. apply W in I as [_ I]. destruct l; [congruence|discriminate]. }
  assert (Es : st_marginalize (StTree d t) [v] = st_init VTree (dremove v d) (tree_darg t')).
  { cbn [st_marginalize]. unfold tree_marg. cbn [foldM]. unfold dlook. rewrite (In_dget v l) by (auto; apply W).
    cbn [bind]. rewrite E. cbn [bind]. f_equal. unfold dom_without, dremove, dfilter.
    apply filter_ext. intros [w m]. unfold mem. cbn [fst existsb]. destruct (eqd w v); reflexivity. }
  exists t'. split; [auto|]. split; [auto|]. split.
  { intros w ch ->. rewrite Es. reflexivity. }
  intros o F. destruct (get_pruned (dremove v d) t' o Wd T' F) as (y & Ey & Gy).
  destruct (Ev (asg_of o)) as (ks & xs & P & F2 & E2); [apply full_valid; auto|].
  assert (Gs : forall s x, In s l -> teval t (upd (asg_of o) v s) = Some x -> get_value (StTree d t) ((v, s) :: o) = Ok x).
  { intros s x Is Ex. assert (Fs : full d ((v, s) :: o)).
    { intros w m J. cbn [dget]. destruct (eqd w v) as [->|N].
      - exists s. split; [auto|]. destruct W as [ND _]. apply In_dget in J; auto. apply In_dget in I; auto. congruence.
      - apply (F w m). apply dremove_In. auto. }
    destruct (get_pruned d t ((v, s) :: o) W T Fs) as (x' & Ex' & G).
    assert (x' = x); [|congruence]. 
    rewrite (pteval_ext d t _ (upd (asg_of o) v s) T) in Ex'; [congruence|].
    intros w J. unfold asg_of, over, upd. cbn [dget]. destruct (eqd w v) as [->|N]; reflexivity. }
  assert (H : exists ys, Forall2 (fun s x => teval t (upd (asg_of o) v s) = Some x) l ys /\ Permutation ys xs).
  { clear -F2 P. revert xs F2. assert (P' := Permutation_sym P). clear P.
    assert (X : forall l1 l2 : list state, Permutation l1 l2 -> forall xs, Forall2 (fun s x => teval t (upd (asg_of o) v s) = Some x) l1 xs ->
              exists ys, Forall2 (fun s x => teval t (upd (asg_of o) v s) = Some x) l2 ys /\ Permutation ys xs).
    { induction 1 as [|x l1 l2 P IH|x y l0|l1 l2 l3 P1 IH1 P2 IH2]; intros xs F.
      - exists xs. auto.
      - inversion F; subst. destruct (IH _ H3) as (ys & Fy & Py). eexists. split; [constructor; eauto|]. constructor; auto.
      - inversion F; subst. inversion H3; subst. eexists. split; [constructor; [eauto|constructor; eauto]|]. apply perm_swap.
      - destruct (IH1 _ F) as (ys & Fy & Py). destruct (IH2 _ Fy) as (zs & Fz & Pz). exists zs. split; [auto|].
        eapply perm_trans; eauto. }
    intros xs F. eapply X; [|exact F]. apply Permutation_sym; auto. }
  destruct H as (ys & Fy & Py). exists ys. split.
  - assert (X : forall l', incl l' l -> forall ys, Forall2 (fun s x => teval t (upd (asg_of o) v s) = Some x) l' ys ->
               Forall2 (fun s x => get_value (StTree d t) ((v, s) :: o) = Ok x) l' ys).
    { induction l' as [|s l' IH]; intros Inc zs Fz; inversion Fz; subst; constructor; auto.
      - apply Gs; auto. apply Inc; simpl; auto.
      - apply IH; auto. intros e Ie. apply Inc; simpl; auto. }
    apply (X l (incl_refl l) ys Fy).
  - rewrite Gy. apply (f_equal Ok). rewrite Ey in E2. destruct xs as [|x xs]; [discriminate|]. cbn [fold1] in E2.
    rewrite (nsum_perm ys (x :: xs)) by auto. rewrite nsum_cons. injection E2 as ->. apply nsum_acc.
Qed.

(** Combining two pruned trees. *)
Lemma pruned_combine (op : num -> num -> num) d1 (t1 : tree num) d2 t2 : wf_dom d1 -> wf_dom d2 -> compatible d1 d2 ->
  tprun d1 t1 -> tprun d2 t2 ->
  exists t, tree_combine op d1 t1 d2 t2 = st_init VTree (join d1 d2) (tree_darg t) /\ tprun (join d1 d2) t /\
    (forall w ch, t = Node w ch -> tree_combine op d1 t1 d2 t2 = Ok (StTree (join d1 d2) t)) /\
    forall o, full (join d1 d2) o -> exists x y,
      get_value (StTree d1 t1) o = Ok x /\ get_value (StTree d2 t2) o = Ok y /\ get_value (StTree (join d1 d2) t) o = Ok (op x y).
Proof.
  intros W1 W2 C T1 T2. unfold tree_combine. rewrite (join_dmerge d1 d2 W1 W2 C).
  destruct (ptcombine_ok op d1 t1 T1 d2 t2 (join d1 d2) (proj1 W2) T2 C) as (t & E & T & Ev).
  { intros e. rewrite <- (join_dmerge d1 d2 W1 W2 C). apply dmerge_In; auto; [apply W1|apply W2]. }
  rewrite E. cbn [bind]. exists t. split; [auto|]. split; [auto|]. split; [intros w ch ->; reflexivity|].
  assert (Wj : wf_dom (join d1 d2)) by (rewrite <- (join_dmerge d1 d2 W1 W2 C); apply wf_dom_dmerge; auto).
  intros o F. destruct (get_pruned d1 t1 o W1 T1 (full_join_l _ _ _ F)) as (x & Ex & Gx).
  destruct (get_pruned d2 t2 o W2 T2 (full_join_r _ _ _ C F)) as (y & Ey & Gy).
  destruct (get_pruned _ t o Wj T F) as (z & Ez & Gz). exists x, y. split; [auto|]. split; [auto|].
  rewrite (Ev _ _ _ Ex Ey) in Ez. congruence.
Qed.
