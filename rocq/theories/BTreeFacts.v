(** Restriction of a numpy table to a list of states in domain order. *)

From Coq Require Import String Bool Arith ZArith QArith Qcanon Lia List.
From Verif Require Import PyBase Num DomainModel NdArray StoreModel NumStore PyFacts Spec DomainFacts
  StoreSpec StoreFacts PropFacts1 BTreeModel BTreeSpec.
Import ListNotations.
Local Open Scope nat_scope.
Local Arguments eqd : simpl never.

(** ** Indexing with one list *)

Lemma slices_shape sh sh' : slice_shape (repeat ISlice (length sh)) (sh ++ sh') = sh.
Proof. induction sh as [|n r IH]; cbn; [destruct sh'; reflexivity|]. now rewrite IH. Qed.

Lemma slice_shape_app (sh1 sh2 : list nat) it n (items : list item) :
  slice_shape (repeat ISlice (length sh1) ++ it :: items) (sh1 ++ n :: sh2)
  = sh1 ++ slice_shape (it :: items) (n :: sh2).
Proof. induction sh1 as [|m r IH]; cbn [length repeat app slice_shape]; [reflexivity|]. now rewrite IH. Qed.

Lemma slice_shape_one (sh1 sh2 : list nat) n L :
  slice_shape (repeat ISlice (length sh1) ++ IList L :: repeat ISlice (length sh2)) (sh1 ++ n :: sh2)
  = sh1 ++ sh2.
Proof.
  rewrite slice_shape_app. f_equal. cbn [slice_shape].
  pose proof (slices_shape sh2 []) as E. now rewrite app_nil_r in E.
Qed.

Lemma adv_len_slices k n : adv_len (repeat ISlice k) n = Ok n.
Proof. induction k; cbn; auto. Qed.

Lemma adv_len_app k items n : adv_len (repeat ISlice k ++ items) n = adv_len items n.
Proof. induction k; cbn; auto. Qed.

Lemma lead_one k L items : lead_slices (repeat ISlice k ++ IList L :: items) = k.
Proof. induction k; cbn; auto. Qed.

Lemma adjacent_one k L j : adjacent (repeat ISlice k ++ IList L :: repeat ISlice j) = true.
Proof.
  unfold adjacent. replace (drop_slices (repeat ISlice k ++ IList L :: repeat ISlice j))
    with (IList L :: repeat ISlice j) by (induction k; cbn; auto).
  cbn. destruct j; cbn; [reflexivity|]. induction j; cbn; auto.
Qed.

Lemma existsb_one k L j : existsb is_ilist (repeat ISlice k ++ IList L :: repeat ISlice j) = true.
Proof. induction k; cbn; auto. Qed.

Lemma merge_adv_slices i k : merge_adv (repeat ISlice (length i)) k i = Ok i.
Proof. induction i as [|x r IH]; cbn; [reflexivity|]. now rewrite IH. Qed.

Lemma merge_adv_one i1 i2 L k x : length L <> 1 -> nth_error L k = Some x ->
  merge_adv (repeat ISlice (length i1) ++ IList L :: repeat ISlice (length i2)) k (i1 ++ i2)
  = Ok (i1 ++ x :: i2).
Proof.
  intros N E. induction i1 as [|y r IH]; cbn [length repeat app merge_adv].
  - apply Nat.eqb_neq in N. rewrite N. unfold py_nth. rewrite E. cbn [bind].
    rewrite merge_adv_slices. reflexivity.
  - rewrite IH. reflexivity.
Qed.

Lemma in_bounds_app s1 s2 idx : in_bounds (s1 ++ s2) idx = true <->
  exists i1 i2, idx = i1 ++ i2 /\ in_bounds s1 i1 = true /\ in_bounds s2 i2 = true.
Proof.
  revert idx. induction s1 as [|n r IH]; intros idx; cbn [app].
  - split.
    + intros E. exists [], idx. auto.
    + intros (i1 & i2 & -> & E1 & E2). destruct i1; [exact E2|discriminate].
  - destruct idx as [|i idx].
    + split; [discriminate|]. intros (i1 & i2 & E & E1 & E2).
      destruct i1; [discriminate E1|discriminate E].
    + rewrite in_bounds_cons, IH. split.
      * intros (A & i1 & i2 & -> & B & C). exists (i :: i1), i2. rewrite in_bounds_cons. auto.
      * intros (i1 & i2 & E & E1 & E2). destruct i1 as [|j i1]; [discriminate E1|].
        injection E as -> ->. apply in_bounds_cons in E1. destruct E1. split; [auto|eauto].
Qed.

Lemma np_index_one {V} (a : nd V) sh1 n sh2 L : shape a = sh1 ++ n :: sh2 -> nd_wf a ->
  2 <= length L -> Forall (fun i => i < n) L ->
  exists b, np_index a (repeat ISlice (length sh1) ++ IList L :: repeat ISlice (length sh2)) = Ok b /\
    shape b = sh1 ++ length L :: sh2 /\ nd_wf b /\
    forall i1 k i2 x, in_bounds sh1 i1 = true -> in_bounds sh2 i2 = true -> nth_error L k = Some x ->
      nd_get b (i1 ++ k :: i2) = nd_get a (i1 ++ x :: i2).
Proof.
  intros SH W LL BL. unfold np_index.
  assert (E : negb (length (repeat ISlice (length sh1) ++ IList L :: repeat ISlice (length sh2))
                    =? length (shape a)) = false).
  { rewrite SH, !app_length. cbn [length]. rewrite !repeat_length, Nat.eqb_refl. reflexivity. }
  rewrite E, existsb_one, adjacent_one, lead_one, adv_len_app. cbn [adv_len].
  assert (E1 : length L =? 1 = false) by (apply Nat.eqb_neq; lia). rewrite E1.
  cbn [Nat.eqb]. rewrite adv_len_slices. cbn [bind]. rewrite SH, slice_shape_one.
  rewrite firstn_app, skipn_app, firstn_all, skipn_all, Nat.sub_diag. cbn [firstn skipn].
  rewrite app_nil_r. cbn [app].
  match goal with |- context [nd_build ?s ?g] => set (f := g); set (sh := s) end.
  assert (F : forall i1 k i2 x, in_bounds sh1 i1 = true -> in_bounds sh2 i2 = true ->
            nth_error L k = Some x -> f (i1 ++ k :: i2) = nd_get a (i1 ++ x :: i2)).
  { intros i1 k i2 x B1 B2 N. unfold f.
    assert (L1 : length i1 = length sh1) by (now apply in_bounds_length).
    assert (L2 : length i2 = length sh2) by (now apply in_bounds_length).
    unfold py_nth at 1. rewrite <- L1, nth_error_app2, Nat.sub_diag by lia. cbn [nth_error bind].
    rewrite firstn_app, firstn_all, Nat.sub_diag. cbn [firstn]. rewrite app_nil_r.
    change (match i1 ++ k :: i2 with [] => [] | _ :: l => skipn (length i1) l end)
      with (skipn (S (length i1)) (i1 ++ k :: i2)).
    rewrite skipn_app, skipn_all2 by lia.
    replace (S (length i1) - length i1) with 1 by lia. cbn [skipn app].
    rewrite <- L2, (merge_adv_one i1 i2 L k x) by (auto; lia). reflexivity. }
  assert (SHB : forall idx, in_bounds sh idx = true -> exists i1 k i2 x, idx = i1 ++ k :: i2 /\
            in_bounds sh1 i1 = true /\ in_bounds sh2 i2 = true /\ nth_error L k = Some x /\ x < n).
  { intros idx B. apply in_bounds_app in B. destruct B as (i1 & i2' & -> & B1 & B2).
    destruct i2' as [|k i2]; [discriminate B2|]. apply in_bounds_cons in B2. destruct B2 as [Hk B2].
    destruct (nth_error L k) as [x|] eqn:N.
    - exists i1, k, i2, x. repeat split; auto. rewrite Forall_forall in BL. apply BL.
      eapply nth_error_In; eauto.
    - apply nth_error_None in N. lia. }
  destruct (nd_build_total sh f) as (b & B).
  { intros idx HB. destruct (SHB _ HB) as (i1 & k & i2 & x & -> & B1 & B2 & N & Lx).
    rewrite (F _ _ _ _ B1 B2 N). apply nd_get_total; auto. rewrite SH.
    apply in_bounds_app. exists i1, (x :: i2). rewrite in_bounds_cons. auto. }
  exists b. split; [exact B|]. apply nd_build_ok in B. destruct B as (B1 & B2 & B3).
  split; [exact B1|]. split; [exact B2|]. intros i1 k i2 x I1 I2 N.
  rewrite B3; [apply F; auto|]. unfold sh. apply in_bounds_app. exists i1, (k :: i2).
  rewrite in_bounds_cons. repeat split; auto. apply nth_error_Some. congruence.
Qed.

(** ** Restriction to several states *)

(** The domain with the states of [v] replaced. *)
Definition narrow (v : var) (xs : list state) (d : domain) : domain :=
  map (fun vl => if eqd (fst vl) v then (fst vl, xs) else vl) d.

Lemma keys_narrow v xs d : keys (narrow v xs d) = keys d.
Proof.
  unfold keys, narrow. rewrite map_map. apply map_ext. intros [w l]. cbn.
  destruct (eqd w v); reflexivity.
Qed.

Lemma narrow_absent v xs d : ~ In v (keys d) -> narrow v xs d = d.
Proof.
  induction d as [|[w l] r IH]; intros N; [reflexivity|]. cbn [keys map fst] in N.
  change (narrow v xs ((w, l) :: r)) with ((if eqd w v then (w, xs) else (w, l)) :: narrow v xs r).
  rewrite IH by (intros I; apply N; right; exact I).
  rewrite eqd_neq; [reflexivity|]. intros ->. apply N. left. reflexivity.
Qed.

Lemma narrow_In v xs d w m : In (w, m) (narrow v xs d) <->
  (w = v /\ m = xs /\ In v (keys d)) \/ (w <> v /\ In (w, m) d).
Proof.
  unfold narrow. rewrite in_map_iff. split.
  - intros ([u l] & E & I). cbn in E. destruct (eqd u v) as [-> | N].
    + injection E as <- <-. left. split; [|split]; auto. apply keys_In. eauto.
    + injection E as <- <-. right. auto.
  - intros [(-> & -> & I) | (N & I)].
    + apply keys_In in I. destruct I as (l & I). exists (v, l). cbn. rewrite eqd_refl. auto.
    + exists (w, m). cbn. rewrite eqd_neq by auto. auto.
Qed.

Lemma dom_split v l (d : domain) : NoDup (keys d) -> In (v, l) d ->
  exists d1 d2, d = d1 ++ (v, l) :: d2 /\ ~ In v (keys d1) /\ ~ In v (keys d2).
Proof.
  intros ND I. apply in_split in I. destruct I as (d1 & d2 & ->). exists d1, d2.
  split; [reflexivity|]. unfold keys in *. rewrite map_app in ND. cbn in ND.
  apply NoDup_remove_2 in ND. rewrite in_app_iff in ND. tauto.
Qed.

Lemma card_app {A} (d1 d2 : dict var (list A)) : card (d1 ++ d2) = card d1 ++ card d2.
Proof. unfold card, vals. now rewrite !map_app. Qed.

Lemma coords_app d1 d2 a : coords (d1 ++ d2) a = coords d1 a ++ coords d2 a.
Proof. unfold coords. now rewrite map_app. Qed.

(** The states kept by the restriction are listed in the order of the domain. *)
Definition in_order (xs l : list state) : Prop := filter (fun x => mem x xs) l = xs.

Lemma in_order_incl xs l : in_order xs l -> incl xs l.
Proof. intros E x I. rewrite <- E in I. apply filter_In in I. tauto. Qed.

Lemma in_order_NoDup xs l : in_order xs l -> NoDup l -> NoDup xs.
Proof. intros E N. rewrite <- E. now apply NoDup_filter. Qed.

Lemma valid_app d1 d2 a : valid (d1 ++ d2) a <-> valid d1 a /\ valid d2 a.
Proof.
  unfold valid. split.
  - intros A. split; intros v l I; apply A; rewrite in_app_iff; auto.
  - intros [A B] v l I. apply in_app_iff in I. destruct I; eauto.
Qed.

Section Many.
  Context {V : Type}.
  Variables (v : var) (l xs : list state) (d1 d2 : domain) (x : nd V).
  Let d := d1 ++ (v, l) :: d2.
  Hypothesis (WD : wf_dom d) (N1 : ~ In v (keys d1)) (N2 : ~ In v (keys d2)).
  Hypothesis (SH : shape x = card d) (LEN : length (flat x) = prodl (card d)).
  Hypothesis (IO : in_order xs l) (L2 : 2 <= length xs).

  Lemma many_var : np_restrict_var [(v, Many xs)] (v, l) =
    Ok (IList (map (fun s => pos s l) xs), Some xs).
  Proof.
    unfold np_restrict_var. cbn [dget]. rewrite eqd_refl.
    destruct xs as [|a [|b r]]; cbn in L2; try lia.
    replace (mapM (np_where_first l) (a :: b :: r)) with (Ok (map (fun s => pos s l) (a :: b :: r))).
    - cbn [bind]. rewrite IO. reflexivity.
    - symmetry. pose proof (in_order_incl _ _ IO) as I. clear -I. induction (a :: b :: r) as [|y z IH]; [reflexivity|].
      cbn [mapM map]. rewrite pos_where by (apply I; left; auto). cbn [bind].
      rewrite IH; [reflexivity|]. intros w Hw. apply I. right. auto.
  Qed.

  Lemma many_other e : ~ In v (keys e) ->
    mapM (np_restrict_var [(v, Many xs)]) e = Ok (map (fun wl => (ISlice, Some (snd wl))) e).
  Proof.
    induction e as [|[w m] r IH]; intros N; [reflexivity|]. cbn [keys map fst] in N. cbn [mapM map].
    unfold np_restrict_var at 1. cbn [dget]. rewrite eqd_neq by (intros ->; apply N; left; reflexivity).
    cbn [bind]. rewrite IH; [reflexivity|]. intros I. apply N. right. exact I.
  Qed.

  Lemma mapM_app {A B} (f : A -> res B) u w : mapM f (u ++ w) =
    let* a := mapM f u in let* b := mapM f w in Ok (a ++ b).
  Proof.
    induction u as [|y r IH]; cbn [mapM app bind].
    - destruct (mapM f w); reflexivity.
    - destruct (f y); [|reflexivity]. cbn [bind]. rewrite IH. destruct (mapM f r); [|reflexivity].
      cbn [bind]. destruct (mapM f w); reflexivity.
  Qed.

  Lemma many_keep e : flat_map (fun p : var * (item * option (list state)) => match snd (snd p) with
      | Some d' => [(fst p, d')] | None => [] end)
    (combine (keys e) (map (fun wl => (ISlice, Some (snd wl))) e)) = e.
  Proof. induction e as [|[w m] r IH]; cbn; [reflexivity|]. now f_equal. Qed.

  Lemma combine_app' {A B} (a1 a2 : list A) (b1 b2 : list B) : length a1 = length b1 ->
    combine (a1 ++ a2) (b1 ++ b2) = combine a1 b1 ++ combine a2 b2.
  Proof.
    revert b1. induction a1 as [|a r IH]; intros [|b b1] E; cbn in *; try discriminate; [reflexivity|].
    now rewrite IH by lia.
  Qed.

  Lemma many_slices e : map fst (map (fun wl : var * list state => (ISlice, Some (snd wl))) e)
    = repeat ISlice (length (card e)).
  Proof. unfold card, vals. rewrite !map_length. induction e as [|w r IH]; cbn; [reflexivity|]. now f_equal. Qed.

  Lemma np_restrict_many : exists s', np_restrict d x [(v, Many xs)] = Ok s' /\ wf_store s' /\
    st_type s' = VNumpy /\ st_domain s' = narrow v xs d /\
    forall a, valid (narrow v xs d) a -> look s' a = nth_error (flat x) (ravel (card d) (coords d a)).
  Proof.
    unfold np_restrict. unfold d at 1. rewrite mapM_app, many_other by auto. cbn [bind mapM].
    rewrite many_var. cbn [bind]. rewrite many_other by auto. cbn [bind].
    set (its := _ ++ _).
    assert (IT : map fst its = repeat ISlice (length (card d1)) ++
              IList (map (fun s => pos s l) xs) :: repeat ISlice (length (card d2))).
    { unfold its. rewrite map_app. cbn [map fst]. now rewrite !many_slices. }
    assert (ND : flat_map (fun p : var * (item * option (list state)) => match snd (snd p) with
              | Some d' => [(fst p, d')] | None => [] end) (combine (keys d) its) = narrow v xs d).
    { unfold d, its, keys. rewrite map_app. cbn [map]. fold (keys d1) (keys d2).
      rewrite combine_app' by (unfold keys; now rewrite !map_length).
      rewrite flat_map_app. cbn [combine flat_map fst snd app]. rewrite !many_keep.
      unfold narrow. rewrite map_app. cbn [map fst]. rewrite eqd_refl.
      fold (narrow v xs d1) (narrow v xs d2). now rewrite !narrow_absent by auto. }
    rewrite IT, ND.
    destruct (np_index_one x (card d1) (length l) (card d2) (map (fun s => pos s l) xs))
      as (b & B & SB & WB & GB).
    { rewrite SH. unfold d. now rewrite card_app. }
    { unfold nd_wf. now rewrite SH. }
    { now rewrite map_length. }
    { apply Forall_forall. intros i Hi. apply in_map_iff in Hi. destruct Hi as (s & <- & Hs).
      apply pos_lt. apply (in_order_incl _ _ IO). exact Hs. }
    rewrite B. cbn [bind]. rewrite map_length in SB.
    assert (NE : narrow v xs d = d1 ++ (v, xs) :: d2).
    { unfold d, narrow. rewrite map_app. cbn [map fst]. rewrite eqd_refl.
      fold (narrow v xs d1) (narrow v xs d2). now rewrite !narrow_absent by auto. }
    assert (CE : card (narrow v xs d) = card d1 ++ length xs :: card d2).
    { rewrite NE, card_app. reflexivity. }
    assert (WN : wf_dom (narrow v xs d)).
    { destruct WD as [WD1 WD2]. split; [now rewrite keys_narrow|]. intros w m I.
      apply narrow_In in I. destruct I as [(-> & -> & I) | (N & I)]; [|apply (WD2 _ _ I)].
      split; [|destruct xs; cbn in L2; [lia|discriminate]].
      apply (in_order_NoDup _ l IO). apply (proj1 (WD2 v l ltac:(unfold d; rewrite in_app_iff; cbn; auto))). }
    destruct b as [sb fb]. cbn [shape] in SB. subst sb. cbn [st_init shape].
    rewrite <- CE. replace (length (card (narrow v xs d))) with (length (narrow v xs d))
      by (unfold card, vals; now rewrite !map_length).
    rewrite Nat.eqb_refl, eqd_refl. cbn [andb].
    eexists. split; [reflexivity|]. split.
    { split; [exact WN|]. cbn [st_domain shape flat]. split; [reflexivity|].
      unfold nd_wf in WB. cbn [shape flat] in WB. rewrite WB, CE. reflexivity. }
    split; [reflexivity|]. split; [reflexivity|].
    intros a VA. cbn [look shape flat].
    rewrite NE in VA. apply valid_app in VA. destruct VA as [VA1 VA2]. apply valid_cons in VA2.
    destruct VA2 as [VAv VA2].
    assert (VL : In (a v) l) by (now apply (in_order_incl _ _ IO)).
    rewrite CE, NE. unfold d. rewrite !coords_app, card_app.
    cbn [coords map fst snd]. fold (coords d2 a).
    assert (P : nth_error (map (fun s => pos s l) xs) (pos (a v) xs) = Some (pos (a v) l)).
    { apply (map_nth_error (fun s => pos s l)). now apply pos_nth. }
    specialize (GB (coords d1 a) (pos (a v) xs) (coords d2 a) (pos (a v) l)
                  (coords_bounds _ _ VA1) (coords_bounds _ _ VA2) P).
    assert (IB1 : in_bounds (card d1 ++ length xs :: card d2) (coords d1 a ++ pos (a v) xs :: coords d2 a) = true).
    { apply in_bounds_app. do 2 eexists. split; [reflexivity|]. split; [now apply coords_bounds|].
      apply in_bounds_cons. split; [now apply pos_lt|now apply coords_bounds]. }
    assert (IB2 : in_bounds (card d1 ++ length l :: card d2) (coords d1 a ++ pos (a v) l :: coords d2 a) = true).
    { apply in_bounds_app. do 2 eexists. split; [reflexivity|]. split; [now apply coords_bounds|].
      apply in_bounds_cons. split; [now apply pos_lt|now apply coords_bounds]. }
    unfold nd_get in GB. cbn [shape flat] in GB. rewrite SH in GB. rewrite IB1 in GB.
    replace (card d) with (card d1 ++ length l :: card d2) in GB by (unfold d; rewrite card_app; reflexivity).
    rewrite IB2 in GB. unfold py_nth in GB. cbn [card map]. fold (card d2).
    change (card ((v, l) :: d2)) with (length l :: card d2).
    destruct (nth_error fb _) eqn:Q1; destruct (nth_error (flat x) _) eqn:Q2; congruence.
  Qed.
End Many.
