(** Combination, summation, update and construction of complete trees. *)

From Coq Require Import String Bool Arith Lia List Permutation.
From Verif Require Import PyBase PyFacts DomainModel NdArray StoreModel Spec StoreSpec
  DomainFacts TreeFacts.
Import ListNotations.

Lemma dremove_comm {K V} `{EqD K} (k k' : K) (d : dict K V) :
  dremove k (dremove k' d) = dremove k' (dremove k d).
Proof. unfold dremove. rewrite !dfilter_dfilter. apply dfilter_ext. intros. apply andb_comm. Qed.

Lemma dremove_In {K V} `{EqD K} (k : K) (d : dict K V) e :
  In e (dremove k d) <-> In e d /\ fst e <> k.
Proof.
  unfold dremove, dfilter. rewrite filter_In. destruct (eqd (fst e) k); split; intros []; split; congruence.
Qed.

Lemma keys_dremove {K V} `{EqD K} (k k' : K) (d : dict K V) :
  In k' (keys (dremove k d)) <-> In k' (keys d) /\ k' <> k.
Proof.
  unfold dremove. rewrite keys_dfilter, filter_In. destruct (eqd k' k); split; intros []; split; congruence.
Qed.

Definition fold1 {V} (op : V -> V -> V) (xs : list V) : option V :=
  match xs with [] => None | x :: r => Some (fold_left op r x) end.

Section Trees.
  Context {V : Type}.
  Implicit Types (v : var) (ch : list (state * tree V)) (t : tree V) (d : domain) (o : obs) (a : asg).

  Lemma dget_map_child (f : tree V -> tree V) (ch : list (state * tree V)) s :
    dget s (map (fun sc => match sc with (s, c) => (s, f c) end) ch)
    = match dget s ch with Some c => Some (f c) | None => None end.
  Proof. induction ch as [|[s' c] ch IH]; auto. cbn [map dget]. destruct (eqd s s'); auto. Qed.

  Lemma tcombine_leaf_ok op x d t2 : tcomp d t2 ->
    tcomp d (tcombine_leaf op x t2) /\
    forall a, teval (tcombine_leaf op x t2) a =
              match teval t2 a with Some y => Some (op x y) | None => None end.
  Proof.
    induction 1 as [y|d v l ch I NC KC TC IH].
    - split; [constructor|auto].
    - assert (KE : map fst (map (fun sc => match sc with (s, c) => (s, tcombine_leaf op x c) end) ch) = map fst ch).
      { rewrite map_map. apply map_ext. intros []; auto. }
      cbn [tcombine_leaf]. split.
      + apply tc_node with (l := l); auto.
        * rewrite KE; auto.
        * intros s. rewrite KE. auto.
        * intros s c Ic. apply in_map_iff in Ic as ([s' c'] & E & Ic). injection E as <- <-.
          eapply IH; eauto.
      + intros a. rewrite !teval_node, dget_map_child.
        destruct (dget (a v) ch) eqn:G; auto. eapply IH. apply dget_In; eauto.
  Qed.

  Lemma rest_single d v s : rest d [(v, s)] = dremove v d.
  Proof.
    unfold rest, dremove. apply dfilter_ext. intros k _. unfold dmem, mem. simpl.
    destruct (eqd k v); auto.
  Qed.

  Lemma over_single v s a : a v = s -> forall w, over [(v, s)] a w = a w.
  Proof. intros E w. unfold over. simpl. destruct (eqd w v) as [->|]; auto. Qed.

  Lemma compatible_dremove d1 d2 v : compatible d1 d2 -> compatible (dremove v d1) (dremove v d2).
  Proof. intros C w l1 l2 I1 I2. apply dremove_In in I1 as [I1 _]. apply dremove_In in I2 as [I2 _]. eauto. Qed.

  Lemma compatible_dremove_l d1 d2 v : compatible d1 d2 -> compatible (dremove v d1) d2.
  Proof. intros C w l1 l2 I1 I2. apply dremove_In in I1 as [I1 _]. eauto. Qed.

  Lemma tcombine_ok op d1 t1 : tcomp d1 t1 -> forall d2 t2 d, NoDup (keys d2) -> tcomp d2 t2 ->
    compatible d1 d2 -> (forall e, In e d <-> In e d1 \/ In e d2) ->
    exists t, tcombine op t1 t2 = Ok t /\ tcomp d t /\
      forall a x y, teval t1 a = Some x -> teval t2 a = Some y -> teval t a = Some (op x y).
  Proof.
    induction 1 as [x|d1 v l ch I NC KC TC IH]; intros d2 t2 d ND T2 C U.
    - cbn [tcombine]. eexists. split; [reflexivity|].
      destruct (tcombine_leaf_ok op x d2 t2 T2) as [T E]. split.
      + eapply tcomp_set; [|exact T]. intros e. rewrite U. simpl. tauto.
      + intros a x' y E1 E2. simpl in E1. injection E1 as <-. rewrite E, E2. auto.
    - rewrite tcombine_node.
      assert (ST : forall s c, In (s, c) ch -> exists t2' c',
                 trestrict t2 [(v, s)] = Ok t2' /\ (forall a, teval t2' a = teval t2 (over [(v, s)] a)) /\
                 tcombine op c t2' = Ok c' /\ tcomp (dremove v d) c' /\
                 forall a x y, teval c a = Some x -> teval t2' a = Some y -> teval c' a = Some (op x y)).
      { intros s c Ic.
        assert (Is : In s l) by (apply KC; apply (in_map fst) in Ic; auto).
        assert (Kn : known d2 [(v, s)]).
        { intros w m s' Iw E. simpl in E. destruct (eqd w v) as [->|]; [|discriminate].
          injection E as <-. rewrite <- (C v l m); auto. }
        destruct (trestrict_ok d2 t2 [(v, s)] ND T2 Kn) as (t2' & R & T2' & Ev).
        rewrite rest_single in T2'.
        destruct (IH s c Ic (dremove v d2) t2' (dremove v d)) as (c' & E & Tc & Ec); auto.
        - apply NoDup_dremove; auto.
        - apply compatible_dremove; auto.
        - intros e. rewrite !dremove_In, U. tauto.
        - exists t2', c'. auto. }
      set (f := fun sc : state * tree V => let* t2' := trestrict t2 [(v, fst sc)] in tcombine op (snd sc) t2').
      assert (EX : exists ch', mapM (fun sc => let* c' := f sc in Ok (fst sc, c')) ch = Ok ch').
      { apply mapM_total. intros [s c] Ic. unfold f. simpl.
        destruct (ST s c Ic) as (t2' & c' & R & _ & E & _). rewrite R. simpl. rewrite E. simpl. eauto. }
      destruct EX as (ch' & EX).
      exists (Node v ch'). split.
      { erewrite mapM_ext; [rewrite EX; reflexivity|]. intros [s c] _. unfold f. simpl.
        rewrite bind_assoc. auto. }
      apply mapM_children in EX as (Kc & I1 & I2). split.
      + apply tc_node with (l := l).
        * apply U. auto.
        * rewrite Kc; auto.
        * intros s. rewrite Kc; auto.
        * intros s c' Ic'. destruct (I1 _ _ Ic') as (c & Ic & F). unfold f in F. simpl in F.
          destruct (ST s c Ic) as (t2' & c'' & R & _ & E & Tc & _). rewrite R in F. simpl in F.
          rewrite E in F. injection F as <-. auto.
      + intros a x y E1 E2. rewrite teval_node in *.
        destruct (dget (a v) ch) as [c|] eqn:G; [|discriminate].
        destruct (I2 _ _ G) as (c' & G' & F). rewrite G'. unfold f in F. simpl in F.
        destruct (ST _ c (dget_In _ _ _ G)) as (t2' & c'' & R & Ev & E & Tc & Ec).
        rewrite R in F. simpl in F. rewrite E in F. injection F as <-.
        apply Ec; auto. rewrite Ev. rewrite <- E2. eapply teval_ext; [exact T2|].
        intros w _. apply over_single. auto.
  Qed.

  Lemma compatible_refl d : NoDup (keys d) -> compatible d d.
  Proof.
    intros ND v l1 l2 I1 I2. apply In_dget in I1; auto. apply In_dget in I2; auto. congruence.
  Qed.

  Lemma fold_tcombine_ok op D ts : NoDup (keys D) -> (forall t, In t ts -> tcomp D t) ->
    forall t0, tcomp D t0 ->
    exists t', foldM (tcombine op) ts t0 = Ok t' /\ tcomp D t' /\
      forall a x0 xs, teval t0 a = Some x0 -> Forall2 (fun t x => teval t a = Some x) ts xs ->
                      teval t' a = Some (fold_left op xs x0).
  Proof.
    intros ND. induction ts as [|t ts IH]; intros H t0 T0.
    - exists t0. simpl. split; auto. split; auto. intros a x0 xs E F. inversion F; subst. auto.
    - cbn [foldM].
      destruct (tcombine_ok op D t0 T0 D t D) as (t1 & E1 & T1 & Ev1); auto.
      { apply H; simpl; auto. } { apply compatible_refl; auto. } { intros; tauto. }
      rewrite E1. cbn [bind].
      destruct (IH (fun t' I => H t' (or_intror I)) t1 T1) as (t' & E & T' & Ev).
      exists t'. split; auto. split; auto. intros a x0 xs E0 F. inversion F; subst. simpl.
      eapply Ev; eauto.
  Qed.

  Lemma tmarg_ok scale op k d t v l : wf_dom d -> tcomp d t -> In (v, l) d ->
    exists t', tmarg scale op t v k = Ok t' /\ tcomp (dremove v d) t' /\
      forall a, valid (dremove v d) a ->
        exists ks xs, Permutation ks l /\
          Forall2 (fun s x => teval t (upd a v s) = Some x) ks xs /\
          teval t' a = fold1 op xs.
  Proof.
    intros W T. revert W. induction T as [x|d w m ch I NC KC TC IH]; intros W Iv; [destruct Iv|].
    rewrite tmarg_node. destruct (eqd w v) as [->|N].
    - assert (m = l).
      { destruct W as [ND _]. apply In_dget in I; auto. apply In_dget in Iv; auto. congruence. }
      subst m. clear IH.
      destruct ch as [|[s0 c0] ch].
      { exfalso. apply W in I as [_ I]. destruct l as [|s l]; [congruence|].
        apply (proj2 (KC s)). simpl; auto. }
      cbn [map snd reduceM].
      destruct (fold_tcombine_ok op (dremove v d) (map snd ch)) with (t0 := c0) as (t' & E & T' & Ev).
      + apply NoDup_dremove, W.
      + intros t It. apply in_map_iff in It as ([s c] & <- & Ic). apply (TC s); simpl; auto.
      + apply (TC s0); simpl; auto.
      + exists t'. split; auto. split; auto. intros a Va.
        assert (X : exists xs, Forall2 (fun s x => teval (Node v ((s0, c0) :: ch)) (upd a v s) = Some x)
                                 (map fst ((s0, c0) :: ch)) xs /\
                               Forall2 (fun t x => teval t a = Some x) (map snd ((s0, c0) :: ch)) xs).
        { assert (Y : forall ch', incl ch' ((s0, c0) :: ch) -> exists xs,
             Forall2 (fun s x => teval (Node v ((s0, c0) :: ch)) (upd a v s) = Some x) (map fst ch') xs /\
             Forall2 (fun t x => teval t a = Some x) (map snd ch') xs).
          { induction ch' as [|[s c] ch' IHc]; intros Inc; [exists []; split; constructor|].
            destruct IHc as (xs & F1 & F2); [intros e Ie; apply Inc; simpl; auto|].
            assert (Ic : In (s, c) ((s0, c0) :: ch)) by (apply Inc; simpl; auto).
            destruct (tcomp_total (dremove v d) c a) as (x & Ex); [eapply TC; eauto|auto|].
            exists (x :: xs). split; constructor; auto. cbn [fst].
            rewrite teval_node. unfold upd at 1. rewrite eqd_refl.
            rewrite (In_dget s c) by auto. rewrite <- Ex.
            eapply teval_ext; [eapply TC; eauto|]. intros u Iu. apply keys_dremove in Iu as [_ Iu].
            unfold upd. rewrite eqd_neq; auto. }
          apply (Y _ (incl_refl _)). }
        destruct X as (xs & F1 & F2). exists (map fst ((s0, c0) :: ch)), xs. split; [|split; auto].
        * apply NoDup_Permutation; auto. apply W in I. tauto.
        * inversion F2; subst. simpl. eapply Ev; eauto.
    - assert (W' : wf_dom (dremove w d)) by (apply wf_dom_filter; auto).
      assert (Iv' : In (v, l) (dremove w d)) by (apply dremove_In; simpl; auto).
      assert (EX : exists ch', mapM (fun sc => let* c' := tmarg scale op (snd sc) v k in Ok (fst sc, c')) ch = Ok ch').
      { apply mapM_total. intros [s c] Ic. simpl. destruct (IH s c Ic W' Iv') as (t' & E & _).
        rewrite E. simpl. eauto. }
      destruct EX as (ch' & EX). rewrite EX. cbn [bind]. eexists. split; [reflexivity|].
      apply (mapM_children (fun sc => tmarg scale op (snd sc) v k)) in EX as (Kc & I1 & I2). split.
      + apply tc_node with (l := m).
        * apply dremove_In. simpl. auto.
        * rewrite Kc; auto.
        * intros s. rewrite Kc; auto.
        * intros s c' Ic'. destruct (I1 _ _ Ic') as (c & Ic & F). simpl in F.
          destruct (IH s c Ic W' Iv') as (t' & E & Tc & _). rewrite E in F. injection F as <-.
          rewrite dremove_comm. auto.
      + intros a Va. rewrite teval_node.
        assert (Iw : In (a w) (map fst ch)).
        { apply KC. apply Va. apply dremove_In. auto. }
        apply (dget_keys (a w) ch) in Iw as (c & G).
        destruct (I2 _ _ G) as (c' & G' & F). simpl in F. rewrite G'.
        destruct (IH _ c (dget_In _ _ _ G) W' Iv') as (t' & E & Tc & Ev). rewrite E in F. injection F as <-.
        destruct (Ev a) as (ks & xs & P & F2 & E').
        { rewrite dremove_comm. apply valid_dremove. auto. }
        exists ks, xs. split; auto. split; auto. eapply Forall2_impl; [|exact F2]. intros s x Ex.
        rewrite teval_node. unfold upd at 1. rewrite eqd_neq by auto. rewrite G. auto.
  Qed.

  Lemma tset_ok d t o x : NoDup (keys d) -> tcomp d t -> full d o -> incl (keys o) (keys d) ->
    exists t', tset t o x = Ok t' /\ tcomp d t' /\
      (forall a, agrees o a (keys d) -> teval t' a = Some x) /\
      (forall a v, valid d a -> In v (keys d) -> dget v o <> Some (a v) -> teval t' a = teval t a).
  Proof.
    intros ND T. revert o ND. induction T as [y|d v l ch I NC KC TC IH]; intros o ND F In_o.
    - exists (Leaf x). simpl. repeat split; [constructor|]. intros a v _ [].
    - destruct (F v l I) as (s & E & Is).
      assert (NE : o <> []) by (intros ->; discriminate).
      rewrite tset_node by auto. rewrite E.
      assert (X : In s (keys ch)) by (apply KC; auto). apply dget_keys in X as (c & G). rewrite G.
      pose proof (dget_In _ _ _ G) as Ic.
      destruct (IH s c Ic (dremove v o)) as (c' & R & Tc & E1 & E2).
      + apply NoDup_dremove; auto.
      + intros w m Iw. apply dremove_In in Iw as [Iw N]. simpl in N.
        destruct (F w m Iw) as (s' & Es & Is'). exists s'. split; auto.
        rewrite dget_dremove, eqd_neq; auto.
      + intros w Iw. apply keys_dremove in Iw as [Iw N]. apply keys_dremove. auto.
      + rewrite R. cbn [bind]. eexists. split; [reflexivity|].
        assert (KE : map fst (dset s c' ch) = map fst ch).
        { pose proof (keys_dset s c' ch) as K. unfold keys in K. rewrite K.
          assert (M : mem s (map fst ch) = true) by (apply mem_In, KC; auto). rewrite M. auto. }
        split; [|split].
        * apply tc_node with (l := l); auto.
          -- rewrite KE; auto.
          -- intros s'. rewrite KE; auto.
          -- intros s' c1 Ic1. apply In_dget in Ic1; [|unfold keys; rewrite KE; auto].
             rewrite dget_dset in Ic1. destruct (eqd s' s) as [->|].
             ++ injection Ic1 as <-. auto.
             ++ apply TC with (s := s'). apply dget_In; auto.
        * intros a A. rewrite teval_node.
          assert (Ev : a v = s).
          { assert (In v (keys d)) by (apply keys_In; eauto). apply A in H. congruence. }
          rewrite Ev, dget_dset, eqd_refl. apply E1.
          intros w Iw. apply keys_dremove in Iw as [Iw N]. rewrite dget_dremove, eqd_neq; auto.
        * intros a w Va Iw N. rewrite !teval_node, dget_dset.
          destruct (eqd (a v) s) as [Ev|]; auto. rewrite Ev, G.
          apply (E2 a w); auto.
          -- apply valid_dremove; auto.
          -- apply keys_dremove. split; auto. intros ->. congruence.
          -- rewrite dget_dremove. destruct (eqd w v) as [->|]; congruence.
  Qed.

  (** Construction from a flat list. *)
  Lemma dget_combine {B} (l : list state) (xs : list B) s : NoDup l -> length xs = length l -> In s l ->
    dget s (combine l xs) = nth_error xs (pos s l).
  Proof.
    intros ND. revert xs. induction ND as [|s' l N ND IH]; intros xs L I; [destruct I|].
    destruct xs as [|x xs]; simpl in L; [lia|]. cbn [combine dget].
    unfold pos. cbn [index_of]. destruct (eqd s s') as [->|Ns]; auto.
    destruct I as [E|I]; [congruence|]. rewrite IH by (auto; lia). unfold pos.
    destruct (index_of_In s l I) as (i & ->). auto.
  Qed.

  Lemma keys_combine {B} (l : list state) (xs : list B) : length xs = length l -> map fst (combine l xs) = l.
  Proof.
    revert xs. induction l as [|s l IH]; intros [|x xs]; simpl; try lia; auto. intros L. rewrite IH; auto.
  Qed.

  Lemma nth_firstn_skipn (l : list V) n i j : j < n -> (i + 1) * n <= length l ->
    nth_error (firstn n (skipn (i * n) l)) j = nth_error l (i * n + j).
  Proof.
    intros L L2. rewrite <- (firstn_skipn (i * n) l) at 2.
    rewrite nth_error_app2 by (rewrite firstn_length; lia).
    rewrite firstn_length. replace (i * n + j - Nat.min (i * n) (length l)) with j by nia.
    set (l' := skipn (i * n) l). clearbody l'. revert j L. clear. revert l'.
    induction n; intros l' j L; [lia|]. destruct l'; auto. destruct j; auto. simpl. apply IHn. lia.
  Qed.

  Lemma build_flat_ok d (l : list V) : wf_dom d -> d <> [] -> length l = prodl (card d) ->
    exists t, build_flat d l = Ok t /\ tcomp d t /\
      forall a, valid d a -> teval t a = nth_error l (ravel (card d) (coords d a)).
  Proof.
    revert l. induction d as [|[v m] d IH]; intros l W NE L; [congruence|].
    apply wf_dom_cons in W as (Nv & Nm & NEm & W). rewrite card_cons, prodl_cons in L.
    assert (DR : dremove v ((v, m) :: d) = d).
    { unfold dremove. cbn [dfilter filter fst]. rewrite eqd_refl.
      change (dfilter (fun k' => if eqd k' v then false else true) d = d). apply dfilter_true.
      intros k Ik. rewrite eqd_neq; auto. intros ->. auto. }
    destruct d as [|p d].
    - cbn [build_flat]. rewrite Nat.mul_1_r in L.
      assert (L' : length (map Leaf l) = length m) by (rewrite map_length; auto).
      rewrite dict_of_id by (unfold keys; rewrite keys_combine; auto).
      eexists. split; [reflexivity|]. split.
      + apply tc_node with (l := m); simpl; auto.
        * rewrite keys_combine; auto.
        * rewrite keys_combine; auto. tauto.
        * intros s c Ic. apply in_combine_r in Ic. apply in_map_iff in Ic as (x & <- & _).
          rewrite eqd_refl. constructor.
      + intros a Va. apply valid_cons in Va as [Va _]. rewrite teval_node, dget_combine by auto.
        rewrite nth_error_map. cbn [coords card vals map fst snd ravel]. rewrite prodl_nil, Nat.mul_1_r, Nat.add_0_r.
        destruct (nth_error l (pos (a v) m)); auto.
    - set (D := p :: d) in *.
      change (build_flat ((v, m) :: D) l) with
        (let size := prodl (card D) in
         let* ch := mapM (fun si => let* t := build_flat D (firstn size (skipn (snd si * size) l)) in
                                    Ok (fst si, t)) (combine m (seq 0 (length m))) in
         Ok (Node v (dict_of ch))).
      assert (NED : D <> []) by (unfold D; congruence). clearbody D.
      cbv zeta. set (size := prodl (card D)) in *.
      assert (ST : forall i, i < length m -> exists t,
                 build_flat D (firstn size (skipn (i * size) l)) = Ok t /\ tcomp D t /\
                 forall a, valid D a -> teval t a = nth_error l (i * size + ravel (card D) (coords D a))).
      { intros i Li. destruct (IH (firstn size (skipn (i * size) l)) W) as (t & E & T & Ev).
        - auto.
        - rewrite firstn_length, skipn_length. fold size. nia.
        - exists t. split; auto. split; auto. intros a Va. rewrite Ev by auto.
          apply nth_firstn_skipn; [|nia]. apply ravel_lt, coords_bounds; auto. }
      assert (LS : length (seq 0 (length m)) = length m) by apply seq_length.
      assert (EX : exists ch, mapM (fun si => let* t := build_flat D (firstn size (skipn (snd si * size) l)) in
                                    Ok (fst si, t)) (combine m (seq 0 (length m))) = Ok ch).
      { apply mapM_total. intros [s i] Ii. apply in_combine_r, in_seq in Ii. simpl.
        destruct (ST i) as (t & E & _); [lia|]. rewrite E. simpl. eauto. }
      destruct EX as (ch & EX).
      assert (CK : map fst ch = m /\ (forall s c, dget s ch = Some c ->
                 build_flat D (firstn size (skipn (pos s m * size) l)) = Ok c)).
      { apply mapM_ok in EX. split.
        - assert (G : forall (sis : list (state * nat)) ch, Forall2 (fun si sc =>
            (let* t := build_flat D (firstn size (skipn (snd si * size) l)) in Ok (fst si, t)) = Ok sc) sis ch ->
             map fst ch = map fst sis).
          { clear. induction 1; auto. simpl. apply bind_ok in H as (t & _ & H). injection H as <-. simpl. congruence. }
          rewrite (G _ _ EX). apply keys_combine; auto.
        - intros s c Gs. apply dget_In in Gs.
          assert (G : forall (sis : list (state * nat)) ch, Forall2 (fun si sc =>
            (let* t := build_flat D (firstn size (skipn (snd si * size) l)) in Ok (fst si, t)) = Ok sc) sis ch ->
             forall s c, In (s, c) ch -> exists i, In (s, i) sis /\ build_flat D (firstn size (skipn (i * size) l)) = Ok c).
          { clear. induction 1; simpl; [tauto|]. intros s c [->|I].
            - apply bind_ok in H as (t & E & H). injection H as <- <-. destruct x as [s i]. exists i. auto.
            - destruct (IHForall2 _ _ I) as (i & Ii & E). eauto. }
          destruct (G _ _ EX _ _ Gs) as (i & Ii & E).
          assert (i = pos s m); [|subst; auto].
          apply In_dget in Ii; [|unfold keys; rewrite keys_combine; auto].
          assert (Is : In s m). { apply dget_In, in_combine_l in Ii. auto. }
          rewrite dget_combine in Ii; auto.
          assert (Lp := pos_lt s m Is).
          rewrite (nth_error_nth' _ 0) in Ii by (rewrite seq_length; auto).
          rewrite seq_nth in Ii by auto. injection Ii as <-. auto. }
      destruct CK as [CK1 CK2].
      rewrite EX. cbn [bind]. rewrite dict_of_id by (unfold keys; rewrite CK1; auto).
      eexists. split; [reflexivity|]. split.
      + apply tc_node with (l := m).
        * simpl; auto.
        * rewrite CK1; auto.
        * rewrite CK1. tauto.
        * intros s c Ic. rewrite DR. apply In_dget in Ic; [|unfold keys; rewrite CK1; auto].
          assert (Is : In s m). { rewrite <- CK1. apply (dget_keys s ch). eauto. }
          apply CK2 in Ic. destruct (ST (pos s m)) as (t & E & T & _); [apply pos_lt; auto|]. congruence.
      + intros a Va. apply valid_cons in Va as [V1 V2]. rewrite teval_node.
        assert (Is := V1). rewrite <- CK1 in Is. apply (dget_keys (a v) ch) in Is as (c & G). rewrite G.
        apply CK2 in G. destruct (ST (pos (a v) m)) as (t & E & T & Ev); [apply pos_lt; auto|].
        assert (c = t) by congruence. subst c. rewrite Ev by auto.
        rewrite card_cons. cbn [coords map ravel fst snd]. auto.
  Qed.
End Trees.
