(** Sum- and max-marginalization on numbers, for every store type. *)

From Coq Require Import String Bool Arith ZArith QArith Qcanon Lia Permutation List.
From Verif Require Import PyBase PyFacts Num NumFacts DomainModel NdArray StoreModel NumStore
  Spec StoreSpec DomainFacts TreeFacts TreeFacts2 StoreFacts StoreOps BigSum StoreMarg.
Import ListNotations.
Local Open Scope nat_scope.

Lemma nsum_bsum l : nsum l = bsum n0 nadd l.
Proof. induction l as [|x l IH]; auto. rewrite nsum_cons, IH. auto. Qed.

Lemma fold1_nadd xs : xs <> [] -> fold1 nadd xs = Some (nsum xs).
Proof.
  destruct xs as [|x xs]; [congruence|]. intros _. cbn [fold1]. rewrite nsum_acc, nsum_cons. auto.
Qed.

(** The entry of a store at an assignment, as a total function. *)
Definition val (s : store num) (a : asg) : num :=
  match look s a with Some x => x | None => n0 end.
Definition tval (t : tree num) (a : asg) : num :=
  match teval t a with Some x => x | None => n0 end.

Lemma val_ext s : wf_store s -> dep (keys (st_domain s)) (val s).
Proof. intros W a b E. unfold val. rewrite (look_ext s a b); auto. Qed.

Lemma val_look s a : wf_store s -> valid (st_domain s) a -> look s a = Some (val s a).
Proof. intros W Va. unfold val. destruct (look_total s a W Va) as (x & ->). auto. Qed.

Lemma tval_ext d t : tcomp d t -> dep (keys d) (tval t).
Proof. intros T a b E. unfold tval. erewrite teval_ext; eauto. Qed.

Lemma tval_teval d t a : tcomp d t -> valid d a -> teval t a = Some (tval t a).
Proof. intros T Va. unfold tval. destruct (tcomp_total d t a) as (x & ->); auto. Qed.

Lemma Forall2_val s L xs a : 
  Forall2 (fun o x => look s (over o a) = Some x) L xs -> xs = map (fun o => val s (over o a)) L.
Proof.
  induction 1; auto. cbn [map]. f_equal; auto. unfold val. rewrite H. auto.
Qed.

Notation nsumdom := (sumdom n0 nadd).

Lemma dom_without_cons d v vs : dom_without (dremove v d) vs = dom_without d (v :: vs).
Proof.
  unfold dom_without, dremove. rewrite dfilter_dfilter. apply dfilter_ext. intros k _.
  unfold mem. cbn [existsb]. fold (mem k vs). destruct (eqd k v) as [->|N]; auto.
Qed.

Lemma dom_within_cons d v vs : ~ In v vs -> dom_within (dremove v d) vs = dremove v (dom_within d (v :: vs)).
Proof.
  intros N. unfold dom_within, dremove. rewrite !dfilter_dfilter. apply dfilter_ext. intros k _.
  unfold mem. cbn [existsb]. fold (mem k vs). destruct (eqd k v) as [->|N']; auto; rewrite ?andb_true_r, ?andb_false_r; auto.
Qed.

Lemma dom_within_nil d : dom_within d [] = [].
Proof. induction d as [|[v l] d IH]; auto. Qed.

Lemma wf_dremove v d : wf_dom d -> wf_dom (dremove v d).
Proof. apply wf_dom_filter. Qed.

Lemma upd_over v s o a w : ~ In v (keys o) -> upd (over o a) v s w = over o (upd a v s) w.
Proof.
  intros N. unfold over, upd. destruct (eqd w v) as [->|]; auto.
  apply dget_None in N. rewrite N. auto.
Qed.

Lemma tree_fold_sum d0 vs : forall d (t : tree num), wf_dom d -> tcomp d t -> NoDup vs -> incl vs (keys d) ->
  (forall v l, dget v d = Some l -> dget v d0 = Some l) ->
  exists t', foldM (fun t v => let* dv := dlook v d0 in tmarg nscale nadd t v (length dv)) vs t = Ok t' /\
    tcomp (dom_without d vs) t' /\
    forall a, valid (dom_without d vs) a -> teval t' a = Some (nsumdom (dom_within d vs) (tval t) a).
Proof.
  induction vs as [|v vs IH]; intros d t W T NV IV H.
  - exists t. split; [auto|].
    assert (E : dom_without d [] = d) by (apply dfilter_true; auto). rewrite E. split; auto.
    intros a Va. rewrite dom_within_nil, sumdom_nil; auto using nadd_comm, nadd_0_l.
    + eapply tval_teval; eauto.
    + eapply dep_ext, tval_ext; eauto.
  - inversion NV; subst. assert (Iv : In v (keys d)) by (apply IV; simpl; auto).
    apply dget_keys in Iv as (l & El). assert (Il : In (v, l) d) by (apply dget_In; auto).
    cbn [foldM]. unfold dlook at 1. rewrite (H v l El). cbn [bind].
    destruct (tmarg_ok nscale nadd (length l) d t v l W T Il) as (t1 & E1 & T1 & Ev1).
    rewrite E1. cbn [bind].
    destruct (IH (dremove v d) t1) as (t' & E' & T' & Ev'); auto using wf_dremove.
    + intros w Iw. unfold dremove. rewrite keys_dfilter. apply filter_In. split; [apply IV; simpl; auto|].
      rewrite eqd_neq; auto. intros ->; auto.
    + intros w m Ew. rewrite dget_dremove in Ew. destruct (eqd w v); [discriminate|]. auto.
    + exists t'. split; [auto|]. rewrite dom_without_cons in T', Ev'. split; [auto|].
      intros a Va. rewrite Ev' by auto. f_equal. rewrite dom_within_cons by auto.
      set (DW := dom_within d (v :: vs)).
      assert (WD : wf_dom DW) by (apply wf_dom_filter; auto).
      assert (IDW : In (v, l) DW).
      { unfold DW, dom_within, dfilter. apply filter_In. split; auto. cbn [fst]. unfold mem. cbn [existsb].
        rewrite eqd_refl. auto. }
      assert (ExT : ext_fun (tval t)) by (eapply dep_ext, tval_ext; eauto).
      rewrite (sumdom_pull n0 nadd nadd_comm nadd_assoc nadd_0_l v l DW) by (auto; apply WD).
      transitivity (nsumdom (dremove v DW) (fun b => bsum n0 nadd (map (fun s => tval t (upd b v s)) l)) a).
      * apply sumdom_ext. intros o Io.
        assert (Io' : In o (all_assignments (dom_within (dremove v d) vs))) by (rewrite dom_within_cons; auto).
        assert (Vo : valid (dremove v d) (over o a)).
        { eapply within_valid; eauto using wf_dremove. rewrite dom_without_cons. auto. }
        destruct (Ev1 _ Vo) as (ks & xs & P & F & E).
        unfold tval at 1. rewrite E.
        assert (Ne : xs <> []).
        { intros ->. inversion F; subst. apply Permutation_nil in P. apply W in Il. tauto. }
        rewrite fold1_nadd by auto. rewrite nsum_bsum.
        assert (EX : xs = map (fun s => tval t (upd (over o a) v s)) ks).
        { clear - F. induction F; auto. cbn [map]. f_equal; auto. unfold tval. rewrite H. auto. }
        subst xs. apply bsum_perm; auto using nadd_comm, nadd_assoc, nadd_0_l. apply Permutation_map; auto.
      * unfold sumdom at 1. rewrite bsum_swap by auto using nadd_comm, nadd_assoc, nadd_0_l.
        f_equal. apply map_ext. intros s. unfold sumdom. f_equal. apply map_ext_in. intros o Io.
        apply ExT. intros w. apply upd_over.
        rewrite (all_assignments_keys _ _ Io). unfold dremove. rewrite keys_dfilter. intros J.
        apply filter_In in J as [_ J]. rewrite eqd_refl in J. discriminate.
Qed.

(** Marginalization: same class, the other variables with their states, and the
    sum over all assignments of the removed variables. *)
Theorem st_marginalize_ok s vs : wf_store s -> NoDup vs -> incl vs (keys (st_domain s)) ->
  exists s', st_marginalize s vs = Ok s' /\ wf_store s' /\ st_type s' = st_type s /\
    st_domain s' = dom_without (st_domain s) vs /\
    forall a, valid (dom_without (st_domain s) vs) a ->
      look s' a = Some (nsumdom (dom_within (st_domain s) vs) (val s) a).
Proof.
  intros W NV IV.
  assert (SUM : forall a xs,
    Forall2 (fun o x => look s (over o a) = Some x) (all_assignments (dom_within (st_domain s) vs)) xs ->
    nsum xs = nsumdom (dom_within (st_domain s) vs) (val s) a).
  { intros a xs F. apply Forall2_val in F. subst. apply nsum_bsum. }
  assert (NE : forall a xs, Forall2 (fun o x => look s (over o a) = Some x)
       (all_assignments (dom_within (st_domain s) vs)) xs -> xs <> []).
  { intros a xs F ->. inversion F. eapply all_assignments_ne; [|eauto]. apply wf_dom_filter. apply W. }
  destruct s as [d x|d l|d l|d t]; cbn [st_marginalize st_domain st_type] in *.
  - destruct (np_marg_ok red_sum d x vs) as (s' & E & W' & T & D & L); auto.
    { intros; unfold red_sum; eauto. }
    exists s'. split; [auto|]. split; [auto|]. split; [auto|]. split; [auto|].
    intros a Va. destruct (look_within _ vs a W Va) as (xs & F).
    destruct (L a xs Va F) as (y & E1 & E2). injection E1 as <-. rewrite E2. f_equal. eauto.
  - destruct (generic_marg_ok n0 nadd (StNp1 d l) vs W eq_refl) as (s' & E & W' & T & D & L).
    exists s'. split; [auto|]. split; [auto|]. split; [auto|]. split; [auto|].
    intros a Va. destruct (look_within _ vs a W Va) as (xs & F).
    rewrite (L a xs Va F), fold1_nadd by eauto. f_equal. eauto.
  - destruct (list_marg_ok red_sum d l vs) as (s' & E & W' & T & D & L); auto.
    { intros; unfold red_sum; eauto. }
    exists s'. split; [auto|]. split; [auto|]. split; [auto|]. split; [auto|].
    intros a Va. destruct (look_within _ vs a W Va) as (xs & F).
    destruct (L a xs Va F) as (y & E1 & E2). injection E1 as <-. rewrite E2. f_equal. eauto.
  - unfold tree_marg. destruct W as [W T]. simpl in W, T.
    destruct (tree_fold_sum d vs d t) as (t' & E & T' & Ev); auto.
    rewrite E. cbn [bind].
    destruct (st_init_tree (dom_without d vs) t') as (s' & E' & W' & D' & Ty & Lk); auto.
    { apply wf_dom_filter; auto. }
    exists s'. split; [auto|]. split; [auto|]. split; [auto|]. split; [auto|].
    intros a Va. rewrite Lk, Ev by auto. auto.
Qed.

(** ** maximum *)

Definition finite (s : store num) : Prop :=
  forall a, valid (st_domain s) a -> exists q, look s a = Some (Fin q).

(** [q] is the largest of the values of [g] over the assignments of [D] that
    agree with [a] outside [vs]. *)
Definition is_max (D : domain) (vs : list var) (g : asg -> option num) (a : asg) (q : Qc) : Prop :=
  (exists b, valid D b /\ (forall w, ~ In w vs -> b w = a w) /\ g b = Some (Fin q)) /\
  (forall b q', valid D b -> (forall w, ~ In w vs -> b w = a w) -> g b = Some (Fin q') -> (q' <= q)%Qc).

Lemma py_max_fin p q : exists r, py_max (Fin p) (Fin q) = Fin r /\ (r = p \/ r = q) /\ (p <= r)%Qc /\ (q <= r)%Qc.
Proof.
  unfold py_max, nltb. destruct (Qclt_le_dec p q) as [L|L].
  - exists q. repeat split; auto; qclra.
  - exists p. repeat split; auto; qclra.
Qed.

Lemma np_max_fin p q : exists r, np_max (Fin p) (Fin q) = Fin r /\ (r = p \/ r = q) /\ (p <= r)%Qc /\ (q <= r)%Qc.
Proof. apply py_max_fin. Qed.

Lemma fold_max_fin (mx : num -> num -> num) :
  (forall p q, exists r, mx (Fin p) (Fin q) = Fin r /\ (r = p \/ r = q) /\ (p <= r)%Qc /\ (q <= r)%Qc) ->
  forall qs q0, exists r, fold_left mx (map Fin qs) (Fin q0) = Fin r /\
    (r = q0 \/ In r qs) /\ (q0 <= r)%Qc /\ forall q, In q qs -> (q <= r)%Qc.
Proof.
  intros H. induction qs as [|q qs IH]; intros q0.
  - exists q0. simpl. split; auto. split; auto. split; [qclra|]. tauto.
  - cbn [map fold_left]. destruct (H q0 q) as (r & -> & E & L1 & L2).
    destruct (IH r) as (r' & -> & E' & L3 & L4). exists r'. split; [auto|]. split; [|split].
    + destruct E' as [->|I]; [|simpl; tauto]. destruct E as [->| ->]; simpl; auto.
    + eapply Qcle_trans; eauto.
    + intros u [<-|I]; auto. eapply Qcle_trans; eauto.
Qed.

Lemma fin_list {A} (f : A -> option num) L xs :
  (forall o, In o L -> exists q, f o = Some (Fin q)) ->
  Forall2 (fun o x => f o = Some x) L xs -> exists qs, xs = map Fin qs /\ Forall2 (fun o q => f o = Some (Fin q)) L qs.
Proof.
  intros H F. induction F as [|o x L xs E F IH].
  - exists []. auto.
  - destruct IH as (qs & -> & G); [intros; apply H; simpl; auto|].
    destruct (H o (or_introl eq_refl)) as (q & Eq). exists (q :: qs). split.
    + cbn [map]. f_equal. congruence.
    + constructor; auto.
Qed.

Lemma over_outside d vs o a w : In o (all_assignments (dom_within d vs)) -> ~ In w vs -> over o a w = a w.
Proof.
  intros I N. unfold over. destruct (dget w o) eqn:E; auto. exfalso. apply N.
  assert (J : In w (keys o)) by (apply dget_keys; eauto).
  rewrite (all_assignments_keys _ _ I) in J. unfold dom_within in J. rewrite keys_dfilter in J.
  apply filter_In in J as [_ J]. apply mem_In; auto.
Qed.

Lemma over_obs_of vs a b w : over (obs_of vs b) a w = if mem w vs then b w else a w.
Proof.
  unfold over. destruct (mem w vs) eqn:M.
  - apply mem_In in M. rewrite obs_of_get; auto.
  - apply mem_nIn in M. destruct (dget w (obs_of vs b)) eqn:E; auto. exfalso. apply M.
    apply dget_In in E. unfold obs_of in E. apply in_map_iff in E as (u & E & I). congruence.
Qed.

Lemma red_max_ok (mx : num -> num -> num) s vs a xs y : 
  (forall p q, exists r, mx (Fin p) (Fin q) = Fin r /\ (r = p \/ r = q) /\ (p <= r)%Qc /\ (q <= r)%Qc) ->
  wf_store s -> finite s -> valid (dom_without (st_domain s) vs) a ->
  Forall2 (fun o x => look s (over o a) = Some x) (all_assignments (dom_within (st_domain s) vs)) xs ->
  match xs with [] => Raise ValueError | x :: r => Ok (fold_left mx r x) end = Ok y ->
  exists q, y = Fin q /\ is_max (st_domain s) vs (look s) a q.
Proof.
  intros HM W Fi Va F E.
  destruct (fin_list (fun o => look s (over o a)) (all_assignments (dom_within (st_domain s) vs)) xs)
    as (qs & -> & G); [|exact F|].
  { intros o I. apply Fi. eapply within_valid; eauto. apply W. }
  destruct qs as [|q0 qs]; cbn [map] in E; [discriminate|].
  destruct (fold_max_fin mx HM qs q0) as (r & Er & A & B & C). rewrite Er in E. injection E as <-.
  exists r. split; auto. split.
  - assert (I : In r (q0 :: qs)) by (simpl; intuition).
    assert (K : exists o, In o (all_assignments (dom_within (st_domain s) vs)) /\ look s (over o a) = Some (Fin r)).
    { clear - G I. induction G; [destruct I|]. destruct I as [->|I]; [exists x; simpl; auto|].
      destruct (IHG I) as (o & Io & Eo). exists o. simpl; auto. }
    destruct K as (o & Io & Eo). exists (over o a). split; [eapply within_valid; eauto; apply W|].
    split; [|auto]. intros w Nw. eapply over_outside; eauto.
  - intros b q' Vb Hb Eb. set (DW := dom_within (st_domain s) vs) in *.
    assert (VbW : valid DW b).
    { eapply valid_incl; [|exact Vb]. intros e I. unfold DW, dom_within, dfilter in I. apply filter_In in I. tauto. }
    assert (Io : In (obs_of (keys DW) b) (all_assignments DW)).
    { eapply nth_error_In. apply all_assignments_nth. auto. }
    assert (Eo : look s (over (obs_of (keys DW) b) a) = Some (Fin q')).
    { rewrite <- Eb. apply look_ext; auto. intros w Iw. rewrite over_obs_of.
      destruct (mem w (keys DW)) eqn:M; auto. symmetry. apply Hb. intros J. apply mem_nIn in M. apply M.
      unfold DW, dom_within. rewrite keys_dfilter. apply filter_In. split; auto. apply mem_In; auto. }
    assert (Iq : In q' (q0 :: qs)).
    { clear - G Io Eo. induction G; [destruct Io|]. destruct Io as [->|Io]; [left; congruence|].
      right. auto. }
    destruct Iq as [<-|Iq]; auto.
Qed.

Lemma is_max_compose d v l vs (g g1 : asg -> option num) a q :
  wf_dom d -> In (v, l) d -> ~ In v vs -> ext_fun g ->
  (forall b, valid (dremove v d) b -> exists q1, g1 b = Some (Fin q1) /\ is_max d [v] g b q1) ->
  is_max (dremove v d) vs g1 a q -> is_max d (v :: vs) g a q.
Proof.
  intros W Il Nv Eg H [(b & Vb & Hb & Eb) U]. split.
  - destruct (H b Vb) as (q1 & E1 & (c & Vc & Hc & Ec) & _).
    exists c. split; auto. split; [|congruence]. intros w Nw. simpl in Nw.
    rewrite Hc by (simpl; tauto). apply Hb. tauto.
  - intros c q' Vc Hc Ec.
    set (b' := upd c v (a v)).
    assert (Vb' : valid (dremove v d) b').
    { intros w m I. apply dremove_In in I as [I N]. unfold b'. rewrite upd_other; auto. }
    destruct (H b' Vb') as (q1 & E1 & _ & U1).
    assert (L1 : (q' <= q1)%Qc).
    { apply (U1 c q'); auto. intros w Nw. unfold b'. rewrite upd_other; auto. intros ->. apply Nw; simpl; auto. }
    assert (L2 : (q1 <= q)%Qc).
    { apply (U b' q1); auto. intros w Nw. unfold b'. destruct (eqd w v) as [->|N].
      - apply upd_same.
      - rewrite upd_other by auto. apply Hc. simpl. intros [|]; auto. }
    eapply Qcle_trans; eauto.
Qed.

Lemma tree_fold_max vs : forall d (t : tree num), wf_dom d -> tcomp d t -> NoDup vs -> incl vs (keys d) ->
  (forall a, valid d a -> exists q, teval t a = Some (Fin q)) ->
  exists t', foldM (fun t v => tmarg nscale py_max t v 1) vs t = Ok t' /\
    tcomp (dom_without d vs) t' /\
    forall a, valid (dom_without d vs) a -> exists q, teval t' a = Some (Fin q) /\ is_max d vs (teval t) a q.
Proof.
  induction vs as [|v vs IH]; intros d t W T NV IV Fi.
  - exists t. split; [auto|].
    assert (E : dom_without d [] = d) by (apply dfilter_true; auto). rewrite E. split; auto.
    intros a Va. destruct (Fi a Va) as (q & Eq). exists q. split; auto. split.
    + exists a. auto.
    + intros b q' Vb Hb Eb. rewrite (teval_ext d t b a) in Eb; auto.
      assert (q' = q) by congruence. subst. qclra.
  - inversion NV; subst. assert (Iv : In v (keys d)) by (apply IV; simpl; auto).
    apply dget_keys in Iv as (l & El). assert (Il : In (v, l) d) by (apply dget_In; auto).
    cbn [foldM].
    destruct (tmarg_ok nscale py_max 1 d t v l W T Il) as (t1 & E1 & T1 & Ev1).
    rewrite E1. cbn [bind].
    assert (ExT : ext_fun (teval t)).
    { intros b c E. eapply teval_ext; eauto. }
    assert (H : forall b, valid (dremove v d) b -> exists q1, teval t1 b = Some (Fin q1) /\ is_max d [v] (teval t) b q1).
    { intros b Vb. destruct (Ev1 b Vb) as (ks & xs & P & F & E).
      assert (Vs : forall s, In s ks -> valid d (upd b v s)).
      { intros s Is w m Iw. destruct (eqd w v) as [->|N].
        - rewrite upd_same. apply In_dget in Iw; [|apply W]. assert (m = l) by congruence. subst m.
          eapply Permutation_in; eauto.
        - rewrite upd_other by auto. apply Vb. apply dremove_In. auto. }
      destruct (fin_list (fun s => teval t (upd b v s)) ks xs) as (qs & -> & G); auto.
      destruct qs as [|q0 qs].
      { inversion G; subst. apply Permutation_nil in P. apply W in Il. tauto. }
      cbn [map fold1] in E.
      destruct (fold_max_fin py_max py_max_fin qs q0) as (r & Er & A & B & C).
      rewrite Er in E. exists r. split; auto. split.
      - assert (I : In r (q0 :: qs)) by (simpl; intuition).
        assert (K : exists s, In s ks /\ teval t (upd b v s) = Some (Fin r)).
        { clear - G I. induction G; [destruct I|]. destruct I as [->|I]; [exists x; simpl; auto|].
          destruct (IHG I) as (s & Is & Es). exists s. simpl; auto. }
        destruct K as (s & Is & Es). exists (upd b v s). split; auto. split; auto.
        intros w Nw. apply upd_other. intros ->. apply Nw; simpl; auto.
      - intros c q' Vc Hc Ec.
        assert (Ics : In (c v) ks).
        { eapply Permutation_in; [symmetry; eauto|]. apply Vc; auto. }
        assert (Es : teval t (upd b v (c v)) = Some (Fin q')).
        { rewrite <- Ec. apply ExT. intros w. destruct (eqd w v) as [->|N].
          - apply upd_same.
          - rewrite upd_other by auto. symmetry. apply Hc. simpl. intros [|[]]; auto. }
        assert (Iq : In q' (q0 :: qs)).
        { clear - G Ics Es. induction G; [destruct Ics|]. destruct Ics as [->|I]; [left; congruence|].
          right. auto. }
        destruct Iq as [<-|Iq]; auto. }
    destruct (IH (dremove v d) t1) as (t' & E' & T' & Ev'); auto using wf_dremove.
    + intros w Iw. unfold dremove. rewrite keys_dfilter. apply filter_In. split; [apply IV; simpl; auto|].
      rewrite eqd_neq; auto. intros ->; auto.
    + intros b Vb. destruct (H b Vb) as (q1 & E & _). eauto.
    + exists t'. split; [auto|]. rewrite dom_without_cons in T', Ev'. split; [auto|].
      intros a Va. destruct (Ev' a Va) as (q & Eq & M). exists q. split; auto.
      eapply is_max_compose; eauto.
Qed.

Theorem st_maxmarginalize_ok s vs : wf_store s -> finite s -> NoDup vs -> incl vs (keys (st_domain s)) ->
  st_type s <> VNumpy1D ->
  exists s', st_maxmarginalize s vs = Ok s' /\ wf_store s' /\ st_type s' = st_type s /\
    st_domain s' = dom_without (st_domain s) vs /\
    forall a, valid (dom_without (st_domain s) vs) a ->
      exists q, look s' a = Some (Fin q) /\ is_max (st_domain s) vs (look s) a q.
Proof.
  intros W Fi NV IV NT.
  destruct s as [d x|d l|d l|d t]; cbn [st_maxmarginalize st_domain st_type] in *; try congruence.
  - destruct (np_marg_ok red_npmax d x vs) as (s' & E & W' & T & D & L); auto.
    { intros [|y xs] N; [congruence|]. simpl. eauto. }
    exists s'. split; [auto|]. split; [auto|]. split; [auto|]. split; [auto|].
    intros a Va. destruct (look_within _ vs a W Va) as (xs & F).
    destruct (L a xs Va F) as (y & E1 & E2).
    destruct (red_max_ok np_max (StNumpy d x) vs a xs y np_max_fin W Fi Va F E1) as (q & -> & M). eauto.
  - destruct (list_marg_ok red_pymax d l vs) as (s' & E & W' & T & D & L); auto.
    { intros [|y xs] N; [congruence|]. simpl. eauto. }
    exists s'. split; [auto|]. split; [auto|]. split; [auto|]. split; [auto|].
    intros a Va. destruct (look_within _ vs a W Va) as (xs & F).
    destruct (L a xs Va F) as (y & E1 & E2).
    destruct (red_max_ok py_max (StList d l) vs a xs y py_max_fin W Fi Va F E1) as (q & -> & M). eauto.
  - unfold tree_marg. destruct W as [W T]. simpl in W, T.
    destruct (tree_fold_max vs d t) as (t' & E & T' & Ev); auto.
    rewrite E. cbn [bind].
    destruct (st_init_tree (dom_without d vs) t') as (s' & E' & W' & D' & Ty & Lk); auto.
    { apply wf_dom_filter; auto. }
    exists s'. split; [auto|]. split; [auto|]. split; [auto|]. split; [auto|].
    intros a Va. rewrite Lk. apply Ev. auto.
Qed.
