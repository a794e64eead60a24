(** Marginalization and max-marginalization of stores: facts for every store
    type. *)

From Coq Require Import String Bool Arith ZArith QArith Qcanon Lia Permutation List.
From Verif Require Import PyBase PyFacts Num NumFacts DomainModel NdArray StoreModel NumStore
  Spec StoreSpec DomainFacts TreeFacts TreeFacts2 StoreFacts StoreOps BigSum.
Import ListNotations.
Local Open Scope nat_scope.

Lemma within_known d vs o : wf_dom d -> In o (all_assignments (dom_within d vs)) -> known d o.
Proof.
  intros W I. assert (WW : wf_dom (dom_within d vs)) by (apply wf_dom_filter; auto).
  apply all_assignments_In in I as (b & Vb & ->); auto.
  intros v l s Iv E.
  assert (K : In v (keys (dom_within d vs))).
  { apply dget_In in E. unfold obs_of in E. apply in_map_iff in E as (w & E & Iw). congruence. }
  rewrite obs_of_get in E by auto. injection E as <-.
  apply Vb. unfold dom_within, dfilter. apply filter_In. split; auto. cbn [fst].
  unfold dom_within in K. rewrite keys_dfilter in K. apply filter_In in K. tauto.
Qed.

Lemma within_rest d vs o : In o (all_assignments (dom_within d vs)) -> rest d o = dom_without d vs.
Proof.
  intros I. apply all_assignments_keys in I. unfold rest, dom_without. apply dfilter_ext.
  intros k Ik. f_equal. unfold dmem. rewrite I. unfold dom_within. rewrite keys_dfilter.
  destruct (mem k vs) eqn:E.
  - apply mem_In. apply filter_In. auto.
  - apply mem_nIn. intros J. apply filter_In in J. destruct J. congruence.
Qed.

Lemma within_valid d vs o a : wf_dom d -> In o (all_assignments (dom_within d vs)) ->
  valid (dom_without d vs) a -> valid d (over o a).
Proof.
  intros W I Va. apply valid_over; [eapply within_known; eauto|]. erewrite within_rest; eauto.
Qed.

Lemma all_assignments_ne d : wf_dom d -> all_assignments d <> [].
Proof.
  intros W E. pose proof (card_pos d W). rewrite <- all_assignments_length, E in H. simpl in H. lia.
Qed.

Lemma look_within {V} (s : store V) vs a : wf_store s -> valid (dom_without (st_domain s) vs) a ->
  exists xs, Forall2 (fun o x => look s (over o a) = Some x) (all_assignments (dom_within (st_domain s) vs)) xs.
Proof.
  intros W Va.
  assert (H : forall o, In o (all_assignments (dom_within (st_domain s) vs)) -> exists x, look s (over o a) = Some x).
  { intros o I. apply look_total; auto. eapply within_valid; eauto. apply W. }
  induction (all_assignments _) as [|o L IH]; [exists []; constructor|].
  destruct (H o (or_introl eq_refl)) as (x & E). destruct IH as (xs & F); [intros; apply H; simpl; auto|].
  exists (x :: xs). constructor; auto.
Qed.

Lemma Forall2_fun {A B} (f : A -> option B) l xs ys :
  Forall2 (fun o x => f o = Some x) l xs -> Forall2 (fun o x => f o = Some x) l ys -> xs = ys.
Proof.
  intros F. revert ys. induction F; intros ys G; inversion G; subst; auto.
  f_equal; [congruence|auto].
Qed.

Lemma nth_error_seq0 n i : i < n -> nth_error (seq 0 n) i = Some i.
Proof.
  intros L. rewrite (nth_error_nth' (seq 0 n) 0) by (rewrite seq_length; auto).
  rewrite seq_nth by auto. auto.
Qed.

Section Marg.
  Context {V : Type}.
  Implicit Types (s : store V) (d : domain) (o : obs) (a : asg).

  (** ** list *)
  Lemma list_marg_ok (red : list V -> res V) d (l : list V) vs :
    (forall xs, xs <> [] -> exists y, red xs = Ok y) -> wf_store (StList d l) ->
    exists s', list_marg red d l vs = Ok s' /\ wf_store s' /\ st_type s' = VList /\
      st_domain s' = dom_without d vs /\
      forall a xs, valid (dom_without d vs) a ->
        Forall2 (fun o x => look (StList d l) (over o a) = Some x) (all_assignments (dom_within d vs)) xs ->
        exists y, red xs = Ok y /\ look s' a = Some y.
  Proof.
    intros R WS. destruct WS as [W S]. simpl in W, S. unfold list_marg. rewrite assignment_space_all.
    set (WI := dom_within d vs). set (WO := dom_without d vs).
    assert (WWI : wf_dom WI) by (apply wf_dom_filter; auto).
    assert (WWO : wf_dom WO) by (apply wf_dom_filter; auto).
    assert (E1 : mapM (index_list d) (all_assignments WI) =
                 Ok (map (fun o => map (ravel (card d)) (product (sel d o))) (all_assignments WI))).
    { apply mapM_map_ok. intros o I. apply index_list_sel; [apply W|eapply within_known; eauto]. }
    rewrite E1. cbn [bind].
    set (F := fun i : nat => _).
    assert (HF : forall a, valid WO a -> exists xs,
       Forall2 (fun o x => look (StList d l) (over o a) = Some x) (all_assignments WI) xs /\
       F (ravel (card WO) (coords WO a)) = red xs).
    { intros a Va. destruct (look_within (StList d l) vs a) as (xs & FX); [split; auto|auto|].
      exists xs. split; auto. unfold F. rewrite mapM_map.
      assert (M : mapM (fun o => match nth_error (map (ravel (card d)) (product (sel d o)))
                    (ravel (card WO) (coords WO a)) with
                    | Some k => py_nth l k | None => Raise StopIteration end) (all_assignments WI) = Ok xs).
      { apply mapM_ok. eapply Forall2_impl_in; [|exact FX]. intros o x I E. cbn beta.
        rewrite nth_error_map. unfold WO. rewrite <- (within_rest d vs o) by auto.
        rewrite sel_nth; [|apply W|eapply within_known; eauto|erewrite within_rest; eauto].
        cbn [option_map]. apply py_nth_ok. exact E. }
      rewrite M. auto. }
    destruct (mapM_total F (seq 0 (prodl (card WO)))) as (l' & E2).
    { intros i Ii. apply in_seq in Ii. destruct (unravel (card WO) i) as (idx & B & <-); [lia|].
      destruct (coords_surj WO idx (fun _ => SInt 0%Z) WWO B) as (a & Va & <- & _).
      destruct (HF a Va) as (xs & FX & ->). apply R. intros ->. inversion FX.
      eapply (all_assignments_ne WI); eauto. }
    rewrite E2. cbn [bind].
    destruct (st_init_1d VList WO l') as (s' & Es & Ws & Ds & Ts & Lk); auto.
    { rewrite (mapM_length _ _ _ E2). apply seq_length. }
    exists s'. split; [auto|]. split; [auto|]. split; [auto|]. split; [auto|].
    intros a xs Va FX. rewrite Lk by auto.
    destruct (HF a Va) as (xs' & FX' & EF). rewrite (Forall2_fun _ _ _ _ FX FX').
    assert (B := ravel_lt _ _ (coords_bounds _ _ Va)).
    destruct (mapM_nth F _ _ (ravel (card WO) (coords WO a)) (ravel (card WO) (coords WO a)) E2) as (y & N & Fy).
    { apply nth_error_seq0; auto. }
    exists y. split; congruence.
  Qed.

  (** ** numpy *)

  Lemma seq_pos {K} `{EqD K} (l : list K) : NoDup l -> map (fun x => pos x l) l = seq 0 (length l).
  Proof.
    intros ND. assert (G : forall pre suf, l = pre ++ suf -> map (fun x => pos x l) suf = seq (length pre) (length suf)).
    { intros pre suf. revert pre. induction suf as [|x suf IH]; intros pre E; auto. cbn [map length seq].
      f_equal.
      - unfold pos. rewrite (index_of_nth l (length pre) x); auto. subst. rewrite nth_error_app2, Nat.sub_diag by lia. auto.
      - specialize (IH (pre ++ [x])). rewrite app_length, Nat.add_1_r in IH. apply IH. rewrite <- app_assoc. auto. }
    apply (G [] l). auto.
  Qed.

  Lemma kept_shape_ok d axes vs i :
    (forall j v, nth_error (keys d) j = Some v -> mem (i + j) axes = mem v vs) ->
    kept_shape (card d) i axes = card (dom_without d vs).
  Proof.
    revert i. induction d as [|[v l] d IH]; intros i H; auto. rewrite card_cons. cbn [kept_shape].
    pose proof (H 0 v eq_refl) as H0. rewrite Nat.add_0_r in H0. rewrite H0.
    unfold dom_without. cbn [dfilter filter fst]. rewrite (IH (S i)).
    - destruct (mem v vs); cbn [negb]; auto.
    - intros j w E. rewrite Nat.add_succ_l, <- Nat.add_succ_r. apply H. auto.
  Qed.

  Lemma reduce_items_ok d axes vs i a : wf_dom d ->
    (forall j v, nth_error (keys d) j = Some v -> mem (i + j) axes = mem v vs) ->
    product (reduce_items (card d) i axes (coords (dom_without d vs) a)) =
    map (fun o => coords d (over o a)) (all_assignments (dom_within d vs)).
  Proof.
    revert i. induction d as [|[v l] d IH]; intros i W H; auto.
    apply wf_dom_cons in W as (Nv & NL & NE & W).
    rewrite card_cons. cbn [reduce_items].
    pose proof (H 0 v eq_refl) as H0. rewrite Nat.add_0_r in H0. rewrite H0.
    assert (HS : forall j w, nth_error (keys d) j = Some w -> mem (S i + j) axes = mem w vs).
    { intros j w E. rewrite Nat.add_succ_l, <- Nat.add_succ_r. apply H. auto. }
    specialize (IH (S i) W HS).
    unfold dom_without, dom_within. cbn [dfilter filter fst].
    destruct (mem v vs) eqn:Mv; cbn [negb].
    - change (filter _ d) with (dom_without d vs) at 1.
      cbn [product all_assignments]. rewrite IH, <- (seq_pos l NL).
      change (filter (fun kv : var * list state => mem (fst kv) vs) d) with (dom_within d vs).
      clear IH H0 NE NL. set (P := fun x : state => pos x l).
      set (Q := fun o : obs => coords ((v, l) :: d) (over o a)).
      assert (HP : forall (s : state) o, In o (all_assignments (dom_within d vs)) ->
         Q ((v, s) :: o) = P s :: coords d (over o a)).
      { intros s o Io. unfold Q. cbn [coords map fst snd]. unfold over at 1. cbn [dget]. rewrite eqd_refl.
        f_equal. apply coords_ext. intros w Iw. unfold over. cbn [dget]. rewrite eqd_neq; auto.
        intros ->; auto. }
      clearbody P Q. clear - HP.
      induction l as [|s m IHm]; auto.
      + cbn [map flat_map]. rewrite map_app. apply f_equal2; [|exact IHm]. rewrite !map_map. apply map_ext_in.
        intros o Io. symmetry. apply HP; auto.
    - cbn [coords map fst snd product flat_map]. rewrite app_nil_r.
      change (filter (fun k => negb (mem (fst k) vs)) d) with (dom_without d vs).
      change (map (fun vl : var * list state => pos (a (fst vl)) (snd vl)) (dom_without d vs))
        with (coords (dom_without d vs) a).
      rewrite IH, map_map. apply map_ext_in. intros o Io.
      assert (Nw : dget v o = None).
      { apply dget_None. assert (Ko := all_assignments_keys _ _ Io).
        change (keys o = keys (dom_within d vs)) in Ko. rewrite Ko. unfold dom_within. rewrite keys_dfilter.
        intros J. apply filter_In in J. destruct J. congruence. }
      unfold over at 2. rewrite Nw. auto.
  Qed.

  Lemma nodupb_NoDup (l : list nat) : NoDup l -> nodupb l = true.
  Proof.
    induction 1; simpl; auto. apply mem_nIn in H. rewrite H. auto.
  Qed.

  Lemma np_reduce_ok {W'} (red : list V -> res W') d (x : nd V) vs :
    (forall xs, xs <> [] -> exists y, red xs = Ok y) -> wf_store (StNumpy d x) ->
    NoDup vs -> incl vs (keys d) ->
    exists y, np_reduce red x (map (fun v => pos v (keys d)) vs) = Ok y /\
      shape y = card (dom_without d vs) /\ nd_wf y /\
      forall a xs, valid (dom_without d vs) a ->
        Forall2 (fun o x' => look (StNumpy d x) (over o a) = Some x') (all_assignments (dom_within d vs)) xs ->
        exists z, red xs = Ok z /\
          nth_error (flat y) (ravel (card (dom_without d vs)) (coords (dom_without d vs) a)) = Some z.
  Proof.
    intros R WS NV IV. assert (WS' := WS). destruct WS as [W [S1 S2]]. simpl in W.
    assert (ND := proj1 W). set (axes := map _ vs). unfold np_reduce.
    assert (NA : NoDup axes).
    { unfold axes. clear axes. induction vs as [|v vs IH]; simpl; [constructor|]. inversion NV; subst.
      constructor; [|apply IH; auto; intros w Iw; apply IV; simpl; auto].
      intros I. apply in_map_iff in I as (w & E & I). apply pos_inj in E; [subst; auto| |]; apply IV; simpl; auto. }
    rewrite nodupb_NoDup by auto. cbn [negb].
    assert (FB : forallb (fun i => i <? length (shape x)) axes = true).
    { apply forallb_forall. intros i I. unfold axes in I. apply in_map_iff in I as (v & <- & I).
      apply Nat.ltb_lt. rewrite S1, card_length. replace (length d) with (length (keys d)) by (unfold keys; apply map_length).
      apply pos_lt. auto. }
    rewrite FB. cbn [negb].
    assert (H : forall j v, nth_error (keys d) j = Some v -> mem (0 + j) axes = mem v vs).
    { intros j v E. simpl. destruct (mem v vs) eqn:M.
      - apply mem_In in M. apply mem_In. unfold axes. apply in_map_iff. exists v. split; auto.
        unfold pos. rewrite (index_of_nth _ _ _ ND E). auto.
      - apply mem_nIn in M. apply mem_nIn. intros I. apply M. unfold axes in I.
        apply in_map_iff in I as (w & Ew & Iw). pose proof (pos_nth w (keys d) (IV w Iw)) as P.
        rewrite Ew, E in P. congruence. }
    set (WI := dom_within d vs). set (WO := dom_without d vs).
    assert (WWI : wf_dom WI) by (apply wf_dom_filter; auto).
    assert (WWO : wf_dom WO) by (apply wf_dom_filter; auto).
    rewrite S1, (kept_shape_ok d axes vs 0) by auto. fold WO.
    match goal with |- context [nd_build (card WO) ?f] => set (F := f) end.
    assert (HF : forall a, valid WO a -> exists xs,
       Forall2 (fun o x' => look (StNumpy d x) (over o a) = Some x') (all_assignments WI) xs /\
       F (coords WO a) = red xs).
    { intros a Va. destruct (look_within (StNumpy d x) vs a) as (xs & FX); auto.
      exists xs. split; auto. unfold F, WO. rewrite (reduce_items_ok d axes vs 0 a W H), mapM_map.
      assert (M : mapM (fun o => nd_get x (coords d (over o a))) (all_assignments (dom_within d vs)) = Ok xs).
      { apply mapM_ok. eapply Forall2_impl_in; [|exact FX]. intros o z I E. cbn beta.
        apply nd_get_flat; auto. rewrite S1. apply coords_bounds. eapply within_valid; eauto. }
      rewrite M. auto. }
    destruct (nd_build_total (card WO) F) as (y & Ey).
    { intros idx B. destruct (coords_surj WO idx (fun _ => SInt 0%Z) WWO B) as (a & Va & <- & _).
      destruct (HF a Va) as (xs & FX & ->). apply R. intros ->. inversion FX.
      eapply (all_assignments_ne WI); eauto. }
    rewrite Ey. apply nd_build_ok in Ey as (Sy & Wy & G).
    exists y. split; [auto|]. split; [auto|]. split; [auto|]. intros a xs Va FX.
    destruct (HF a Va) as (xs' & FX' & EF). rewrite (Forall2_fun _ _ _ _ FX FX').
    assert (B := coords_bounds _ _ Va). specialize (G _ B).
    destruct (nd_get_total y (coords WO a) Wy) as (z & Z); [congruence|].
    exists z. split; [congruence|]. fold WO. rewrite <- Sy. apply nd_get_flat; auto. congruence.
  Qed.

  Lemma np_marg_ok (red : list V -> res V) d (x : nd V) vs :
    (forall xs, xs <> [] -> exists y, red xs = Ok y) -> wf_store (StNumpy d x) ->
    NoDup vs -> incl vs (keys d) ->
    exists s', np_marg red d x vs = Ok s' /\ wf_store s' /\ st_type s' = VNumpy /\
      st_domain s' = dom_without d vs /\
      forall a xs, valid (dom_without d vs) a ->
        Forall2 (fun o x' => look (StNumpy d x) (over o a) = Some x') (all_assignments (dom_within d vs)) xs ->
        exists y, red xs = Ok y /\ look s' a = Some y.
  Proof.
    intros R WS NV IV. unfold np_marg.
    assert (E1 : mapM (get_var_index d) vs = Ok (map (fun v => pos v (keys d)) vs)).
    { apply mapM_map_ok. intros v Iv. unfold get_var_index, pos.
      destruct (index_of_In v (keys d)) as (i & ->); auto. }
    rewrite E1. cbn [bind].
    destruct (np_reduce_ok red d x vs R WS NV IV) as (y & Ey & Sy & Wy & H). rewrite Ey. cbn [bind st_init].
    assert (WWO : wf_dom (dom_without d vs)) by (apply wf_dom_filter; apply WS).
    rewrite Sy, eqd_refl, card_length, Nat.eqb_refl. cbn [andb].
    eexists. split; [reflexivity|]. split.
    { split; [auto|]. simpl. split; auto. unfold nd_wf in Wy. congruence. }
    split; [auto|]. split; [auto|]. intros a xs Va FX. cbn [look]. rewrite Sy. apply H; auto.
  Qed.

  (** ** generic (numpy1d) *)

  Lemma fold_generic (zero : V) (op : V -> V -> V) D ts :
    (forall t, In t ts -> wf_store t /\ st_type t = VNumpy1D /\ st_domain t = D) ->
    forall t0, wf_store t0 -> st_type t0 = VNumpy1D -> st_domain t0 = D ->
    exists t', foldM (generic_combine zero op) ts t0 = Ok t' /\ wf_store t' /\ st_type t' = VNumpy1D /\ st_domain t' = D /\
      forall a x0 xs, valid D a -> look t0 a = Some x0 -> Forall2 (fun t x => look t a = Some x) ts xs ->
                      look t' a = Some (fold_left op xs x0).
  Proof.
    induction ts as [|t ts IH]; intros H t0 W0 T0 D0.
    - exists t0. split; [auto|]. split; [auto|]. split; [auto|]. split; [auto|].
      intros a x0 xs Va E F. inversion F; subst. auto.
    - cbn [foldM]. destruct (H t (or_introl eq_refl)) as (Wt & Tt & Dt).
      assert (ND : NoDup (keys D)) by (rewrite <- D0; apply W0).
      destruct (generic_combine_ok zero op t0 t) as (t1 & E1 & W1 & T1 & D1 & L1); auto.
      { rewrite D0, Dt. apply compatible_refl; auto. }
      rewrite E1. cbn [bind].
      assert (DD : dmerge D D = D).
      { rewrite dmerge_agree; auto; [|intros; congruence].
        assert (N : dfilter (fun k => negb (dmem k D)) D = []).
        { destruct (dfilter _ D) as [|[k v] r] eqn:E; auto. exfalso.
          assert (I : In (k, v) (dfilter (fun k => negb (dmem k D)) D)) by (rewrite E; simpl; auto).
          unfold dfilter in I. apply filter_In in I as [I J]. cbn [fst] in J.
          assert (M : dmem k D = true) by (apply dmem_In, keys_In; eauto). rewrite M in J. discriminate. }
        rewrite N, app_nil_r. auto. }
      rewrite D0, Dt, DD in *.
      destruct (IH (fun t' I => H t' (or_intror I)) t1 W1) as (t' & E & W' & T' & D' & L'); auto; [congruence|].
      exists t'. split; [auto|]. split; [auto|]. split; [auto|]. split; [auto|].
      intros a x0 xs Va E0 F. inversion F; subst. cbn [fold_left]. apply L'; auto.
  Qed.

  Lemma generic_marg_ok (zero : V) (op : V -> V -> V) s vs : wf_store s -> st_type s = VNumpy1D ->
    exists s', generic_marg zero op s vs = Ok s' /\ wf_store s' /\ st_type s' = VNumpy1D /\
      st_domain s' = dom_without (st_domain s) vs /\
      forall a xs, valid (dom_without (st_domain s) vs) a ->
        Forall2 (fun o x => look s (over o a) = Some x) (all_assignments (dom_within (st_domain s) vs)) xs ->
        look s' a = fold1 op xs.
  Proof.
    intros W T. unfold generic_marg. rewrite assignment_space_all.
    set (d := st_domain s) in *. assert (Wd : wf_dom d) by apply W.
    assert (WWI : wf_dom (dom_within d vs)) by (apply wf_dom_filter; auto).
    pose proof (all_assignments_ne _ WWI) as NE.
    assert (H : forall o, In o (all_assignments (dom_within d vs)) ->
       exists s', st_restrict s o = Ok s' /\ (wf_store s' /\ st_type s' = VNumpy1D /\ st_domain s' = dom_without d vs) /\
         forall a, valid (dom_without d vs) a -> look s' a = look s (over o a)).
    { intros o I. destruct (st_restrict_ok s o W) as (s' & E & W' & T' & D' & L'); [eapply within_known; eauto|].
      fold d in D', L'. rewrite (within_rest d vs o I) in *.
      exists s'. split; [auto|]. split; [|auto]. split; [auto|]. split; [congruence|auto]. }
    assert (HM : exists rs, mapM (st_restrict s) (all_assignments (dom_within d vs)) = Ok rs /\
       (forall t, In t rs -> wf_store t /\ st_type t = VNumpy1D /\ st_domain t = dom_without d vs) /\
       (forall a, valid (dom_without d vs) a -> forall xs,
          Forall2 (fun o x => look s (over o a) = Some x) (all_assignments (dom_within d vs)) xs ->
          Forall2 (fun t x => look t a = Some x) rs xs)).
    { clear NE. induction (all_assignments (dom_within d vs)) as [|o L IH].
      - exists []. split; [auto|]. split; [intros ? []|]. intros a _ xs F. inversion F; constructor.
      - destruct (H o (or_introl eq_refl)) as (s' & E & P & Lk).
        destruct IH as (rs & Er & Pr & Fr); [intros; apply H; simpl; auto|].
        exists (s' :: rs). cbn [mapM]. rewrite E, Er. split; [auto|]. split.
        + intros t [<-|I]; auto.
        + intros a Va xs F. inversion F; subst. constructor; [rewrite Lk; auto|]. apply Fr; auto. }
    destruct HM as (rs & Er & Pr & Fr). rewrite Er. cbn [bind].
    destruct rs as [|t0 ts].
    - exfalso. apply mapM_length in Er. destruct (all_assignments _); [congruence|discriminate].
    - cbn [reduceM]. destruct (Pr t0 (or_introl eq_refl)) as (W0 & T0 & D0).
      destruct (fold_generic zero op (dom_without d vs) ts (fun t I => Pr t (or_intror I)) t0 W0 T0 D0)
        as (t' & E & W' & T' & D' & L').
      exists t'. split; [auto|]. split; [auto|]. split; [auto|]. split; [auto|].
      intros a xs Va F. apply (Fr a Va) in F. inversion F; subst. cbn [fold1]. apply L'; auto.
  Qed.
End Marg.
