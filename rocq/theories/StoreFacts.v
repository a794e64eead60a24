(** Denotation of stores ([look]) and the facts about construction, restrict,
    get_value and set_value, for every store type. *)

From Coq Require Import String Bool Arith ZArith Lia List Permutation.
From Verif Require Import PyBase PyFacts DomainModel NdArray StoreModel Spec StoreSpec
  DomainFacts TreeFacts TreeFacts2.
Import ListNotations.

Section Facts.
  Context {V : Type}.
  Implicit Types (s : store V) (d : domain) (o : obs) (a : asg).

  (** The entry of a store at an assignment. *)
  Definition look s a : option V :=
    match s with
    | StNumpy d x => nth_error (flat x) (ravel (shape x) (coords d a))
    | StNp1 d l | StList d l => nth_error l (ravel (card d) (coords d a))
    | StTree d t => teval t a
    end.

  Lemma look_ext s a b : wf_store s -> (forall v, In v (keys (st_domain s)) -> a v = b v) ->
    look s a = look s b.
  Proof.
    destruct s as [d x|d l|d l|d t]; simpl; intros [W S] E; try (rewrite (coords_ext d a b); auto).
    eapply teval_ext; eauto.
  Qed.

  Lemma look_total s a : wf_store s -> valid (st_domain s) a -> exists x, look s a = Some x.
  Proof.
    destruct s as [d x|d l|d l|d t]; simpl; intros [W S] Va.
    - destruct S as [S1 S2]. rewrite S1.
      pose proof (ravel_lt _ _ (coords_bounds d a Va)) as L. rewrite <- S2 in L.
      apply nth_error_Some in L. destruct (nth_error _ _); [eauto|congruence].
    - pose proof (ravel_lt _ _ (coords_bounds d a Va)) as L. rewrite <- S in L.
      apply nth_error_Some in L. destruct (nth_error _ _); [eauto|congruence].
    - pose proof (ravel_lt _ _ (coords_bounds d a Va)) as L. rewrite <- S in L.
      apply nth_error_Some in L. destruct (nth_error _ _); [eauto|congruence].
    - eapply tcomp_total; eauto.
  Qed.

  (** ** construction *)

  (** Flat data in the order of [assignment_space]. *)
  Lemma st_init_flat vt d (l : list V) :
    wf_dom d -> length l = prodl (card d) ->
    exists s, st_init vt d (DArr (mkNd (card d) l)) = Ok s /\ wf_store s /\
              st_domain s = d /\ st_type s = vt /\
              forall a, valid d a -> look s a = nth_error l (ravel (card d) (coords d a)).
  Proof.
    intros W L. destruct vt; cbn [st_init shape flat].
    - assert (LC : length (card d) = length d) by (unfold card, vals; rewrite !map_length; auto).
      rewrite LC, Nat.eqb_refl, eqd_refl. simpl. eexists. split; [reflexivity|].
      split; [split; simpl; auto|]. auto.
    - rewrite L, Nat.eqb_refl. eexists. split; [reflexivity|]. split; [split; simpl; auto|]. auto.
    - rewrite L, Nat.eqb_refl. eexists. split; [reflexivity|]. split; [split; simpl; auto|]. auto.
    - destruct d as [|p d].
      + cbn [card vals map] in *. rewrite prodl_nil in L.
        destruct l as [|x [|y l]]; simpl in L; try lia. cbn [st_init shape flat].
        eexists. split; [reflexivity|]. split; [split; simpl; auto; constructor|]. auto.
      + set (D := p :: d) in *.
        assert (NE : D <> []) by (unfold D; congruence).
        assert (E : build_default_tree D (mkNd (card D) l) = build_flat D l).
        { unfold build_default_tree. cbn [shape flat]. unfold D at 1. destruct p. cbn [card vals map]. auto. }
        rewrite E. destruct (build_flat_ok D l W NE L) as (t & Et & T & Ev). rewrite Et.
        cbn [bind]. eexists. split; [reflexivity|]. split; [split; simpl; auto|]. auto.
  Qed.

  (** One-dimensional data (used by the list-like stores internally). *)
  Lemma st_init_1d vt d (l : list V) : vt = VList \/ vt = VNumpy1D ->
    wf_dom d -> length l = prodl (card d) ->
    exists s, st_init vt d (DArr (mkNd [length l] l)) = Ok s /\ wf_store s /\
              st_domain s = d /\ st_type s = vt /\
              forall a, valid d a -> look s a = nth_error l (ravel (card d) (coords d a)).
  Proof.
    intros [->| ->] W L; cbn [st_init shape flat]; rewrite L, Nat.eqb_refl;
      (eexists; split; [reflexivity|]; split; [split; simpl; auto|]; auto).
  Qed.

  Lemma st_init_tree d t : wf_dom d -> tcomp d t ->
    exists s, st_init VTree d (tree_darg t) = Ok s /\ wf_store s /\
              st_domain s = d /\ st_type s = VTree /\ forall a, look s a = teval t a.
  Proof.
    intros W T. inversion T; subst; cbn [tree_darg st_init shape flat].
    - eexists. split; [reflexivity|]. split; [split; simpl; auto|]. auto.
    - eexists. split; [reflexivity|]. split; [split; simpl; auto|]. auto.
  Qed.

  (** ** restrict *)

  Definition ext (o : obs) : dict var oval := map (fun vs => (fst vs, One (snd vs))) o.

  Lemma ext_get o v : dget v (ext o) = match dget v o with Some x => Some (One x) | None => None end.
  Proof. unfold ext. induction o as [|[w x] o IH]; auto. cbn [map dget fst snd]. destruct (eqd v w); auto. Qed.

  Lemma ext_keys o : keys (ext o) = keys o.
  Proof. unfold ext, keys. rewrite map_map. apply map_ext. auto. Qed.

  Lemma ext_dmem o v : dmem v (ext o) = dmem v o.
  Proof. unfold dmem. rewrite ext_keys. auto. Qed.

  Lemma ext_has_list o : has_list (ext o) = false.
  Proof. unfold has_list, ext. induction o as [|[w x] o IH]; auto. Qed.

  Lemma ext_ones o : ones (ext o) = o.
  Proof. unfold ones, ext. induction o as [|[w x] o IH]; auto. cbn [map flat_map fst snd]. simpl. congruence. Qed.

  Lemma rest_ext d o : dfilter (fun k => negb (dmem k (ext o))) d = rest d o.
  Proof. unfold rest. apply dfilter_ext. intros. rewrite ext_dmem. auto. Qed.

  Lemma rest_In d o v l : In (v, l) (rest d o) <-> In (v, l) d /\ dget v o = None.
  Proof.
    unfold rest, dfilter. rewrite filter_In. simpl. rewrite negb_true_iff, dmem_false. tauto.
  Qed.

  Lemma valid_over d o a : known d o -> valid (rest d o) a -> valid d (over o a).
  Proof.
    intros K Va v l I. unfold over. destruct (dget v o) as [x|] eqn:E; [eauto|].
    apply Va, rest_In. auto.
  Qed.

  Lemma flat_restrict_ok vt d (l : list V) o : vt = VList \/ vt = VNumpy1D ->
    wf_dom d -> length l = prodl (card d) -> known d o ->
    exists s', flat_restrict vt d l (ext o) = Ok s' /\ wf_store s' /\ st_type s' = vt /\
               st_domain s' = rest d o /\
               forall a, valid (rest d o) a ->
                 look s' a = nth_error l (ravel (card d) (coords d (over o a))).
  Proof.
    intros Hvt W L K. unfold flat_restrict. rewrite ext_has_list, ext_ones, rest_ext.
    rewrite index_list_sel by (auto; apply W). cbn [bind]. rewrite mapM_map.
    assert (B : forall c, In c (product (sel d o)) -> in_bounds (card d) c = true).
    { intros c Ic. apply product_In in Ic. clear - Ic K W. revert c Ic.
      induction d as [|[v m] d IH]; intros c Ic; inversion Ic; subst; auto.
      rewrite card_cons. simpl. rewrite andb_true_iff, Nat.ltb_lt. apply wf_dom_cons in W as (_ & _ & _ & W).
      split.
      - simpl in H1. destruct (dget v o) as [x|] eqn:E.
        + destruct H1 as [<-|[]]. apply pos_lt. eapply K; eauto. simpl; auto.
        + apply in_seq in H1. lia.
      - apply IH; auto. intros w m' x' Iw. apply K. simpl; auto. }
    destruct (mapM_total (fun c => py_nth l (ravel (card d) c)) (product (sel d o))) as (l' & E).
    { intros c Ic. apply B in Ic. apply ravel_lt in Ic. rewrite <- L in Ic. unfold py_nth.
      apply nth_error_Some in Ic. destruct (nth_error l (ravel (card d) c)); [eauto|congruence]. }
    rewrite E. cbn [bind].
    destruct (st_init_1d vt (rest d o) l' Hvt) as (s' & E' & W' & D' & T' & Lk).
    - apply wf_dom_filter; auto.
    - rewrite (mapM_length _ _ _ E), product_length, sel_length. auto.
    - exists s'. split; auto. split; auto. split; auto. split; auto. intros a Va. rewrite Lk by auto.
      destruct (mapM_nth _ _ _ _ _ E (sel_nth d o a (proj1 W) K Va)) as (y & N & P).
      apply py_nth_ok in P. congruence.
  Qed.

  Definition np_item (o : obs) (vl : var * list state) : item * option (list state) :=
    match dget (fst vl) o with
    | Some x => (IInt (pos x (snd vl)), None)
    | None => (ISlice, Some (snd vl))
    end.

  Lemma np_items_ok d o : known d o ->
    mapM (np_restrict_var (ext o)) d = Ok (map (np_item o) d).
  Proof.
    intros K. apply mapM_map_ok. intros [v l] I. unfold np_restrict_var, np_item. cbn [fst snd].
    rewrite ext_get. destruct (dget v o) as [x|] eqn:E; auto.
    rewrite pos_where; auto. eapply K; eauto.
  Qed.

  Lemma np_restrict_ok d (x : nd V) o : wf_dom d -> shape x = card d -> length (flat x) = prodl (card d) ->
    known d o ->
    exists s', np_restrict d x (ext o) = Ok s' /\ wf_store s' /\ st_type s' = VNumpy /\
               st_domain s' = rest d o /\
               forall a, valid (rest d o) a ->
                 look s' a = nth_error (flat x) (ravel (card d) (coords d (over o a))).
  Proof.
    intros W S L K. unfold np_restrict. rewrite np_items_ok by auto. cbn [bind].
    assert (ND : flat_map (fun p : var * (item * option (list state)) =>
               match snd (snd p) with Some d' => [(fst p, d')] | None => [] end)
               (combine (keys d) (map (np_item o) d)) = rest d o).
    { clear. induction d as [|[v l] d IH]; auto. rewrite rest_cons. cbn [keys map combine flat_map fst snd].
      unfold np_item at 1. cbn [fst snd]. fold (keys d). destruct (dget v o) as [x|]; cbn [snd].
      - apply IH.
      - cbn [app]. f_equal. apply IH. }
    rewrite ND.
    unfold np_index. set (items := map fst (map (np_item o) d)).
    assert (LI : length items = length (shape x)).
    { unfold items. rewrite !map_length, S. unfold card, vals. rewrite !map_length. auto. }
    rewrite LI, Nat.eqb_refl. cbn [negb].
    assert (NL : existsb is_ilist items = false).
    { unfold items. clear. induction d as [|[v l] d IH]; auto. cbn [map existsb].
      unfold np_item at 1. cbn [fst snd]. destruct (dget v o); cbn [fst is_ilist orb]; auto. }
    rewrite NL.
    assert (SS : slice_shape items (shape x) = card (rest d o)).
    { rewrite S. unfold items. clear. induction d as [|[v l] d IH]; auto. rewrite card_cons, rest_cons.
      cbn [map]. unfold np_item at 1. cbn [fst snd]. destruct (dget v o); cbn [fst slice_shape]; auto.
      rewrite card_cons. f_equal. auto. }
    rewrite SS.
    assert (M : forall a, merge_idx items (coords (rest d o) a) = coords d (over o a)).
    { intros a. unfold items. clear. induction d as [|[v l] d IH]; auto. rewrite rest_cons.
      cbn [map coords]. unfold np_item at 1. cbn [fst snd]. unfold over at 1.
      destruct (dget v o) as [x|] eqn:E; cbn [fst merge_idx coords map snd]; f_equal; auto. }
    assert (WR : wf_dom (rest d o)) by (apply wf_dom_filter; auto).
    destruct (nd_build_total (card (rest d o)) (fun idx => nd_get x (merge_idx items idx))) as (x' & E).
    { intros idx B. destruct (coords_surj (rest d o) idx (fun _ => SInt 0%Z) WR B) as (a & Va & <- & _).
      rewrite M. apply nd_get_total; [unfold nd_wf; congruence|]. rewrite S. apply coords_bounds.
      apply valid_over; auto. }
    rewrite E. cbn [bind]. apply nd_build_ok in E as (S' & W' & G).
    cbn [st_init]. rewrite S', eqd_refl.
    assert (LC : length (card (rest d o)) = length (rest d o)) by (unfold card, vals; rewrite !map_length; auto).
    rewrite LC, Nat.eqb_refl. cbn [andb]. eexists. split; [reflexivity|].
    split; [split; [auto|simpl; split; auto; unfold nd_wf in W'; congruence]|].
    split; auto. split; auto. intros a Va. cbn [look]. rewrite S'.
    assert (B := coords_bounds _ _ Va).
    specialize (G _ B). rewrite M in G.
    assert (B2 : in_bounds (card d) (coords d (over o a)) = true)
      by (apply coords_bounds, valid_over; auto).
    unfold nd_get in G. rewrite S', B, S, B2 in G. unfold py_nth in G.
    destruct (nth_error (flat x') _), (nth_error (flat x) _); congruence.
  Qed.

  Theorem st_restrict_ok s o : wf_store s -> known (st_domain s) o ->
    exists s', st_restrict s o = Ok s' /\ wf_store s' /\ st_type s' = st_type s /\
               st_domain s' = rest (st_domain s) o /\
               forall a, valid (rest (st_domain s) o) a -> look s' a = look s (over o a).
  Proof.
    unfold st_restrict. fold (ext o). destruct s as [d x|d l|d l|d t]; simpl; intros [W S] K.
    - destruct S as [S1 S2]. rewrite S1. apply np_restrict_ok; auto.
    - apply flat_restrict_ok; auto.
    - apply flat_restrict_ok; auto.
    - unfold tree_restrict. rewrite ext_has_list, ext_ones, rest_ext.
      destruct (trestrict_ok d t o (proj1 W) S K) as (t' & E & T & Ev). rewrite E. cbn [bind].
      destruct (st_init_tree (rest d o) t') as (s' & E' & W' & D' & T' & Lk);
        [apply wf_dom_filter; auto|auto|].
      exists s'. split; [auto|]. split; [auto|]. split; [auto|]. split; [auto|].
      intros a Va. rewrite Lk. apply Ev.
  Qed.

  Theorem st_restrict_unknown s o v l x : wf_store s -> In (v, l) (st_domain s) ->
    dget v o = Some x -> ~ In x l -> exists e, st_restrict s o = Raise e.
  Proof.
    unfold st_restrict. fold (ext o). destruct s as [d y|d m|d m|d t]; simpl; intros [W S] I E N.
    - unfold np_restrict.
      assert (R : exists e, mapM (np_restrict_var (ext o)) d = Raise e).
      { destruct (mapM_raise_or (np_restrict_var (ext o)) d) as [(ys & Y)|(p & e & _ & _ & ->)]; eauto.
        exfalso. apply mapM_ok in Y. clear - Y I E N.
        induction Y; [destruct I|]. destruct I as [->|I]; auto. simpl in H. rewrite ext_get, E in H.
        unfold np_where_first in H. apply index_of_None in N. rewrite N in H. discriminate. }
      destruct R as (e & ->). simpl. eauto.
    - unfold flat_restrict. rewrite ext_has_list, ext_ones.
      rewrite (index_list_unknown d o v l x); auto; [|apply W]. simpl. eauto.
    - unfold flat_restrict. rewrite ext_has_list, ext_ones.
      rewrite (index_list_unknown d o v l x); auto; [|apply W]. simpl. eauto.
    - unfold tree_restrict. rewrite ext_has_list, ext_ones.
      destruct (trestrict_unknown d t o v l x W S I E N) as (e & ->). simpl. eauto.
  Qed.

  (** ** get_value *)

  Lemma agrees_known d o a : valid d a -> agrees o a (keys d) -> known d o.
  Proof.
    intros Va A v l x I E. assert (In v (keys d)) by (apply keys_In; eauto).
    apply A in H. assert (x = a v) by congruence. subst. auto.
  Qed.

  Lemma agrees_rest d o a : agrees o a (keys d) -> rest d o = [].
  Proof.
    intros A. destruct (rest d o) as [|[v l] r] eqn:E; auto. exfalso.
    assert (I : In (v, l) (rest d o)) by (rewrite E; simpl; auto).
    apply rest_In in I as [I N]. assert (In v (keys d)) by (apply keys_In; eauto).
    apply A in H. congruence.
  Qed.

  Theorem get_value_look s o a : wf_store s -> valid (st_domain s) a ->
    agrees o a (keys (st_domain s)) ->
    exists x, look s a = Some x /\ get_value s o = Ok x.
  Proof.
    intros W Va A.
    destruct (st_restrict_ok s o W (agrees_known _ _ _ Va A)) as (s' & E & W' & T & D & Lk).
    rewrite (agrees_rest _ _ _ A) in *.
    destruct (look_total s a W Va) as (x & Ex). exists x. split; auto.
    assert (V0 : valid [] a) by (intros ? ? []).
    assert (Ls : look s' a = Some x).
    { rewrite Lk by auto. rewrite <- Ex. apply look_ext; auto.
      intros v I. unfold over. rewrite (A v I). auto. }
    unfold get_value, get_value_raw. rewrite E. cbn [bind].
    destruct s' as [d y|d m|d m|d t]; cbn [st_domain] in D; subst d;
      cbn [look card coords vals map ravel] in Ls; destruct W' as [_ W'].
    - destruct W' as [S _]. cbn [card vals map] in S. rewrite S in *. unfold py_nth.
      cbn [ravel] in Ls. rewrite Ls. auto.
    - unfold py_nth. rewrite Ls. auto.
    - unfold py_nth. rewrite Ls. auto.
    - inversion W'; subst; simpl in Ls; [injection Ls as ->; auto|destruct H].
  Qed.

  (** The full observation of an assignment. *)
  Definition obs_of (vs : list var) (a : asg) : obs := map (fun v => (v, a v)) vs.

  Lemma obs_of_get vs a v : In v vs -> dget v (obs_of vs a) = Some (a v).
  Proof.
    unfold obs_of. induction vs as [|w vs IH]; simpl; [tauto|].
    destruct (eqd v w) as [->|N]; auto. intros [|I]; [congruence|auto].
  Qed.

  Lemma agrees_obs_of vs a : agrees (obs_of vs a) a vs.
  Proof. intros v I. apply obs_of_get; auto. Qed.

  (** An observation that covers the domain, as an assignment. *)
  Definition asg_of (o : obs) : asg := over o (fun _ => SInt 0%Z).

  Lemma full_agrees d o : full d o -> agrees o (asg_of o) (keys d).
  Proof.
    intros F v I. apply keys_In in I as (l & I). destruct (F v l I) as (x & E & _).
    unfold asg_of, over. rewrite E. auto.
  Qed.

  Lemma full_valid d o : full d o -> valid d (asg_of o).
  Proof.
    intros F v l I. destruct (F v l I) as (x & E & Ix). unfold asg_of, over. rewrite E. auto.
  Qed.

  Lemma valid_full d o a : valid d a -> agrees o a (keys d) -> full d o.
  Proof.
    intros Va A v l I. exists (a v). split; [|auto]. apply A. apply keys_In. eauto.
  Qed.

  Corollary get_value_full s o : wf_store s -> full (st_domain s) o ->
    exists x, look s (asg_of o) = Some x /\ get_value s o = Ok x.
  Proof.
    intros W F. apply get_value_look; auto using full_valid, full_agrees.
  Qed.

  (** ** set_value *)

  Lemma list_set_ok (l : list V) i x : i < length l ->
    exists l', list_set l i x = Ok l' /\ length l' = length l /\
      nth_error l' i = Some x /\ forall j, j <> i -> nth_error l' j = nth_error l j.
  Proof.
    revert i. induction l as [|y l IH]; intros i L; simpl in L; [lia|].
    destruct i; simpl.
    - eexists. split; [reflexivity|]. simpl. repeat split; auto. intros [|j] N; [lia|auto].
    - destruct (IH i) as (l' & E & L' & N1 & N2); [lia|]. rewrite E. simpl.
      eexists. split; [reflexivity|]. simpl. repeat split; auto. intros [|j] N; [auto|apply N2; lia].
  Qed.

  Lemma index_list_full d o a : wf_dom d -> valid d a -> agrees o a (keys d) ->
    index_list d o = Ok [ravel (card d) (coords d a)].
  Proof.
    intros W Va A. rewrite index_list_sel; [|apply W|eapply agrees_known; eauto].
    assert (P : product (sel d o) = [coords d a]).
    { clear - A. induction d as [|[v l] d IH]; auto. unfold sel. cbn [map fst snd]. fold (sel d o).
      rewrite (A v) by (simpl; auto). cbn [product flat_map]. rewrite IH; [auto|].
      intros w I. apply A. simpl; auto. }
    rewrite P. auto.
  Qed.

  Theorem st_set_value_ok s x o a0 : wf_store s -> valid (st_domain s) a0 ->
    agrees o a0 (keys (st_domain s)) ->
    exists s', st_set_value s x o = Ok s' /\ wf_store s' /\ st_type s' = st_type s /\
      st_domain s' = st_domain s /\ look s' a0 = Some x /\
      forall a, valid (st_domain s) a ->
        (exists v, In v (keys (st_domain s)) /\ a v <> a0 v) -> look s' a = look s a.
  Proof.
    intros W Va A.
    assert (INJ : forall d a, valid d a -> valid d a0 -> (exists v, In v (keys d) /\ a v <> a0 v) ->
                  ravel (card d) (coords d a) <> ravel (card d) (coords d a0)).
    { intros d a V1 V2 (v & I & N) E. apply ravel_inj in E; try (apply coords_bounds; auto).
      apply N. eapply coords_inj; eauto. }
    destruct s as [d y|d m|d m|d t]; simpl in *; destruct W as [W S]; simpl in *.
    - destruct S as [S1 S2].
      assert (E : mapM (fun vd => let* st := dlook (fst vd) o in np_where_first (snd vd) st) d = Ok (coords d a0)).
      { apply mapM_map_ok. intros [v l] I. simpl. unfold dlook.
        rewrite (A v) by (apply keys_In; eauto). simpl. apply pos_where. auto. }
      rewrite E. cbn [bind]. rewrite S1. rewrite coords_bounds by auto.
      destruct (list_set_ok (flat y) (ravel (card d) (coords d a0)) x) as (l' & E' & L' & N1 & N2).
      { rewrite S2. apply ravel_lt, coords_bounds; auto. }
      rewrite E'. cbn [bind]. eexists. split; [reflexivity|]. simpl.
      split; [split; [exact W|simpl; split; congruence]|].
      split; [auto|]. split; [auto|]. split; [auto|].
      intros a Va' Ne. rewrite ?S1. apply N2. auto.
    - rewrite (index_list_full d o a0) by auto. cbn [bind py_nth nth_error].
      destruct (list_set_ok m (ravel (card d) (coords d a0)) x) as (l' & E' & L' & N1 & N2).
      { rewrite S. apply ravel_lt, coords_bounds; auto. }
      rewrite E'. cbn [bind]. eexists. split; [reflexivity|]. simpl.
      split; [split; [exact W|simpl; congruence]|].
      split; [auto|]. split; [auto|]. split; [auto|].
      intros a Va' Ne. apply N2. auto.
    - rewrite (index_list_full d o a0) by auto. cbn [bind py_nth nth_error].
      destruct (list_set_ok m (ravel (card d) (coords d a0)) x) as (l' & E' & L' & N1 & N2).
      { rewrite S. apply ravel_lt, coords_bounds; auto. }
      rewrite E'. cbn [bind]. eexists. split; [reflexivity|]. simpl.
      split; [split; [exact W|simpl; congruence]|].
      split; [auto|]. split; [auto|]. split; [auto|].
      intros a Va' Ne. apply N2. auto.
    - set (o' := dfilter (fun v => dmem v d) o).
      assert (Go : forall v, In v (keys d) -> dget v o' = dget v o).
      { intros v I. unfold o'. rewrite dget_dfilter. apply dmem_In in I. rewrite I. auto. }
      destruct (tset_ok d t o' x (proj1 W) S) as (t' & E & T & E1 & E2).
      + intros v l I. exists (a0 v). split; [|auto]. rewrite Go by (apply keys_In; eauto).
        apply A. apply keys_In; eauto.
      + intros v I. unfold o' in I. rewrite keys_dfilter in I. apply filter_In in I as [_ I].
        apply dmem_In; auto.
      + rewrite E. cbn [bind]. eexists. split; [reflexivity|]. simpl.
        split; [split; [exact W|auto]|]. split; [auto|]. split; [auto|]. split.
        * apply E1. intros v I. rewrite Go by auto. apply A; auto.
        * intros a Va' (v & I & N). apply (E2 a v); auto. rewrite Go by auto. rewrite (A v I). congruence.
  Qed.

  (** ** assignment_space *)

  Lemma assignment_space_all d : assignment_space d = all_assignments d.
  Proof.
    unfold assignment_space, state_space. induction d as [|[v l] d IH]; auto.
    cbn [vals keys map snd fst product all_assignments].
    rewrite <- IH. clear IH. fold (vals d). fold (keys d). induction l as [|x l IH]; auto.
    cbn [flat_map]. rewrite map_app, IH. f_equal. rewrite !map_map. auto.
  Qed.

  Lemma all_assignments_nth d a : valid d a ->
    nth_error (all_assignments d) (ravel (card d) (coords d a)) = Some (obs_of (keys d) a).
  Proof.
    rewrite <- assignment_space_all. unfold assignment_space. intros Va. rewrite nth_error_map.
    assert (E : nth_error (state_space d) (ravel (card d) (coords d a)) = Some (map a (keys d))).
    { unfold state_space, card. apply product_nth.
      - unfold coords, vals. rewrite !map_length. auto.
      - induction d as [|[v l] d IH]; simpl; constructor.
        + simpl. apply valid_cons in Va as [Va _]. apply pos_nth; auto.
        + apply IH. apply valid_cons in Va. tauto. }
    rewrite E. cbn [option_map]. unfold obs_of. generalize (keys d). clear.
    intros ks. induction ks as [|k ks IH]; [auto|]. cbn [map combine]. injection IH as ->. auto.
  Qed.

  Lemma all_assignments_length d : length (all_assignments d) = prodl (card d).
  Proof. rewrite <- assignment_space_all. unfold assignment_space. rewrite map_length. apply product_length. Qed.

  Lemma all_assignments_In d o : wf_dom d -> In o (all_assignments d) ->
    exists a, valid d a /\ o = obs_of (keys d) a.
  Proof.
    intros [ND _]. revert o. induction d as [|[v l] d IH]; intros o I.
    - destruct I as [<-|[]]. exists (fun _ => SInt 0%Z). split; auto. intros ? ? [].
    - cbn [all_assignments] in I. apply in_flat_map in I as (x & Ix & I).
      apply in_map_iff in I as (o' & <- & I). simpl in ND. inversion ND; subst.
      destruct (IH H2 _ I) as (a & Va & ->). exists (upd a v x). split.
      + apply valid_cons. unfold upd at 1. rewrite eqd_refl. split; auto.
        eapply valid_ext; [|exact Va]. intros w Iw. unfold upd. rewrite eqd_neq; auto. intros ->. auto.
      + cbn [keys map fst obs_of]. unfold upd at 1. rewrite eqd_refl. f_equal. fold (keys d).
        unfold obs_of. apply map_ext_in. intros w Iw. unfold upd. rewrite eqd_neq; auto. intros ->. auto.
  Qed.

  Lemma values_list_ok s : wf_store s ->
    exists xs, values_list s = Ok xs /\ length xs = prodl (card (st_domain s)) /\
      forall a, valid (st_domain s) a -> nth_error xs (ravel (card (st_domain s)) (coords (st_domain s) a)) = look s a.
  Proof.
    intros W. unfold values_list. rewrite assignment_space_all.
    destruct (mapM_total (get_value s) (all_assignments (st_domain s))) as (xs & E).
    - intros o I. apply all_assignments_In in I as (a & Va & ->); [|apply W].
      destruct (get_value_look s _ a W Va (agrees_obs_of _ _)) as (x & _ & G). eauto.
    - exists xs. split; auto. split.
      + rewrite (mapM_length _ _ _ E). apply all_assignments_length.
      + intros a Va. destruct (mapM_nth _ _ _ _ _ E (all_assignments_nth _ _ Va)) as (y & N & G).
        destruct (get_value_look s _ a W Va (agrees_obs_of _ _)) as (x & L & G'). congruence.
  Qed.
End Facts.
