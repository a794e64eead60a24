(** Observations that leave variables free. *)

From Coq Require Import String Bool Arith Lia List Permutation.
From Verif Require Import PyBase PyFacts DomainModel NdArray StoreModel Spec StoreSpec
  DomainFacts TreeFacts TreeFacts2 StoreFacts PropFacts1 FactorFacts.
Import ListNotations.
Local Arguments eqd : simpl never.

Section Partial.
  Context {V : Type}.
  Implicit Types (t : tree V) (o : obs).

  Lemma full_dremove d v o : full d o -> full (dremove v d) (dremove v o).
  Proof.
    intros F w l I. apply dremove_In in I as [I N]. cbn in N. destruct (F w l I) as (s & E & J). exists s. split; [|exact J].
    rewrite dget_dremove, eqd_neq; auto.
  Qed.

  Lemma mapM_some {A B} (f : A -> res B) l : (forall a, In a l -> exists b, f a = Ok b) -> exists bs, mapM f l = Ok bs.
  Proof.
    induction l as [|a l IH]; intros X; [now exists []|]. destruct (X a (or_introl eq_refl)) as (b & E). destruct IH as (bs & Es); [intros; apply X; now right|].
    exists (b :: bs). cbn [mapM]. rewrite E. cbn [bind]. rewrite Es. reflexivity.
  Qed.

  Lemma tset_partial d t o x : NoDup (keys d) -> tcomp d t -> known d o -> incl (keys o) (keys d) ->
    exists t', tset t o x = Ok t' /\ forall o', full d o' ->
      ((forall v s, dget v o = Some s -> dget v o' = Some s) -> trestrict t' o' = Ok (Leaf x)) /\
      (forall v s, dget v o = Some s -> dget v o' <> Some s -> trestrict t' o' = trestrict t o').
  Proof.
    intros ND T. revert o ND. induction T as [y|d v l ch I NC KC TC IH]; intros o ND K Io.
    - exists (Leaf x). split; [reflexivity|]. intros o' _. split; [reflexivity|]. intros v s E. exfalso. apply (Io v). apply dget_keys. eauto.
    - destruct o as [|p o0]; [exists (Leaf x); split; [reflexivity|]; intros o' _; split; [reflexivity|discriminate]|].
      set (o := p :: o0) in *. assert (NE : o <> []) by discriminate. clearbody o. clear p o0. rewrite tset_node by exact NE.
      assert (NE' : forall o', full d o' -> o' <> []) by (intros o' F ->; destruct (F v l I) as (? & ? & _); discriminate).
      destruct (dget v o) as [s|] eqn:E.
      + assert (Js : In s l) by (eapply K; eauto). assert (X : In s (keys ch)) by (apply KC; auto). apply dget_keys in X as (c & G). rewrite G.
        destruct (IH s c (dget_In _ _ _ G) (dremove v o)) as (c' & R & Q).
        { now apply NoDup_dremove. }
        { intros w m s' Iw Ew. apply dremove_In in Iw as [Iw N]. cbn in N. rewrite dget_dremove, eqd_neq in Ew by auto. eapply K; eauto. }
        { intros w Iw. apply keys_dremove in Iw as [Iw N]. apply keys_dremove. auto. }
        rewrite R. cbn [bind]. eexists. split; [reflexivity|]. intros o' F. destruct (F v l I) as (s' & E' & Js').
        rewrite !trestrict_node by auto. rewrite E', dget_dset. destruct (Q (dremove v o') (full_dremove d v o' F)) as [Q1 Q2]. split.
        * intros M. assert (s' = s) by (apply M in E; congruence). subst s'. rewrite eqd_refl. apply Q1.
          intros w x' Ew. rewrite dget_dremove in *. destruct (eqd w v); [discriminate|auto].
        * intros w x' Ew Nw. destruct (eqd s' s) as [-> |]; [|reflexivity]. rewrite G. apply (Q2 w x'); rewrite dget_dremove; (destruct (eqd w v) as [-> |]; [congruence|assumption]).
      + destruct (mapM_some (fun sc => let* c' := tset (snd sc) o x in Ok (fst sc, c')) ch) as (ch' & Em).
        { intros [s c] J. destruct (IH s c J o) as (c' & R & _).
          - now apply NoDup_dremove.
          - intros w m s' Iw Ew. apply dremove_In in Iw as [Iw _]. eapply K; eauto.
          - intros w Iw. apply keys_dremove. split; [auto|]. intros ->. apply dget_keys in Iw as (? & ?). congruence.
          - cbn [fst snd]. rewrite R. eexists. reflexivity. }
        rewrite Em. cbn [bind]. eexists. split; [reflexivity|]. intros o' F. destruct (F v l I) as (s' & E' & Js').
        rewrite !trestrict_node by auto. rewrite E'. assert (X : In s' (keys ch)) by (apply KC; auto). apply dget_keys in X as (c & G).
        destruct (mapM_children (fun sc => tset (snd sc) o x) ch ch' Em) as (_ & _ & I2). destruct (I2 s' c G) as (c' & G' & R'). cbn [snd] in R'. rewrite G, G'.
        destruct (IH s' c (dget_In _ _ _ G) o) as (c'' & R & Q).
        { now apply NoDup_dremove. }
        { intros w m y Iw Ew. apply dremove_In in Iw as [Iw _]. eapply K; eauto. }
        { intros w Iw. apply keys_dremove. split; [auto|]. intros ->. apply dget_keys in Iw as (? & ?). congruence. }
        rewrite R in R'. injection R' as ->. destruct (Q (dremove v o') (full_dremove d v o' F)) as [Q1 Q2]. split.
        * intros M. apply Q1. intros w y Ew. rewrite dget_dremove. destruct (eqd w v) as [-> |]; [congruence|auto].
        * intros w y Ew Nw. apply (Q2 w y Ew). rewrite dget_dremove. destruct (eqd w v) as [-> |]; congruence.
  Qed.

  Lemma tree_get_leaf d t o x : full d o -> trestrict t o = Ok (Leaf x) -> get_value (StTree d t) o = Ok x.
  Proof.
    intros F R. unfold get_value, get_value_raw, st_restrict, st_restrict_ext, tree_restrict.
    change (map (fun vs : var * state => (fst vs, One (snd vs))) o) with (ext o). rewrite ext_has_list, ext_ones, R. cbn [bind tree_darg].
    assert (E : dfilter (fun k => negb (dmem k (ext o))) d = []).
    { unfold dfilter. assert (X : forall p, In p d -> negb (dmem (fst p) (ext o)) = false).
      { intros [v l] I. cbn. destruct (F v l I) as (s & G & _). apply negb_false_iff. apply dmem_In.
        unfold keys, ext. rewrite map_map. cbn. apply dget_keys. eauto. }
      revert X. induction d as [|p d IH]; intros X; [reflexivity|]. cbn. rewrite X by now left. apply IH; [|intros; apply X; now right].
      intros v l I. apply (F v l). now right. }
    rewrite E. reflexivity.
  Qed.

  Lemma tree_get_same d t t' o : trestrict t' o = trestrict t o -> get_value (StTree d t') o = get_value (StTree d t) o.
  Proof.
    intros R. unfold get_value, get_value_raw, st_restrict, st_restrict_ext, tree_restrict.
    change (map (fun vs : var * state => (fst vs, One (snd vs))) o) with (ext o). now rewrite ext_has_list, ext_ones, R.
  Qed.

  Lemma set_partial_tree d t o x : wf_store (StTree d t) -> Spec.known d o ->
    exists s', st_set_value (StTree d t) x o = Ok s' /\ st_type s' = VTree /\ st_domain s' = d /\
      forall o', full d o' ->
        ((forall v s, In v (keys d) -> dget v o = Some s -> dget v o' = Some s) -> get_value s' o' = Ok x) /\
        (forall v s, In v (keys d) -> dget v o = Some s -> dget v o' <> Some s ->
           get_value s' o' = get_value (StTree d t) o').
  Proof.
    intros [[ND WD] T] K. cbn [st_domain] in ND.
    set (oo := dfilter (fun v => dmem v d) o).
    assert (G : forall v s, dget v oo = Some s <-> In v (keys d) /\ dget v o = Some s).
    { intros v s. unfold oo. rewrite dget_dfilter. rewrite <- dmem_In. destruct (dmem v d); intuition discriminate. }
    destruct (tset_partial d t oo x ND T) as (t' & R & Q).
    { intros v l s I E. apply G in E as [_ E]. eapply K; eauto. }
    { intros v I. apply dget_keys in I as (s & E). apply G in E. tauto. }
    exists (StTree d t'). unfold st_set_value. fold oo. rewrite R. repeat split.
    - intros M. apply tree_get_leaf; [assumption|]. apply (Q o' H). intros v s E. apply G in E as [I E]. auto.
    - intros v s I E N. apply tree_get_same. apply (proj2 (Q o' H) v s); [apply G; auto|exact N].
  Qed.

  Lemma set_partial_numpy d (a : nd V) o x v : wf_store (StNumpy d a) -> Spec.known d o ->
    In v (keys d) -> ~ In v (keys o) -> st_set_value (StNumpy d a) x o = Raise KeyError.
  Proof.
    intros [[ND WD] _] K I N. cbn [st_domain] in *. unfold st_set_value.
    assert (E : mapM (fun vd : var * list state => let* st := dlook (fst vd) o in np_where_first (snd vd) st) d = Raise KeyError).
    { clear ND WD a. revert I K. induction d as [|[w l] d IH]; intros I K; [destruct I|]. cbn [mapM fst snd].
      unfold dlook at 1. destruct (dget w o) as [s|] eqn:E; [|reflexivity]. cbn [bind].
      destruct (np_where_first l s) as [i|e] eqn:P.
      - cbn [bind]. rewrite IH; [reflexivity| |].
        + destruct I as [<- |I]; [|exact I]. exfalso. apply N. apply dget_keys. cbn. eauto.
        + intros u m y J. apply K. now right.
      - exfalso. assert (J : In s l) by (apply (K w l s); [now left|exact E]).
        rewrite (pos_where s l J) in P. discriminate. }
    rewrite E. reflexivity.
  Qed.

  Lemma positions_head {A} (p : A -> bool) l n : (exists a, In a l /\ p a = true) ->
    exists i a r, positions p l n = (n + i) :: r /\ nth_error l i = Some a /\ p a = true /\
      forall j b, j < i -> nth_error l j = Some b -> p b = false.
  Proof.
    revert n. induction l as [|b l IH]; intros n (a & I & P); [destruct I|]. cbn [positions]. destruct (p b) eqn:E.
    - exists 0, b, (positions p l (S n)). rewrite Nat.add_0_r. repeat split; auto. intros; lia.
    - destruct (IH (S n)) as (i & c & r & E1 & E2 & E3 & E4). { exists a. destruct I as [-> |I]; [congruence|auto]. }
      exists (S i), c, r. rewrite E1. repeat split; auto; [f_equal; lia|]. intros [|j] y L Y; cbn in Y; [congruence|]. apply (E4 j); [lia|exact Y].
  Qed.

  Lemma matching d o : (forall v l, In (v, l) d -> l <> []) -> Spec.known d o ->
    exists a, In a (assignment_space d) /\ consistent o a = true.
  Proof.
    intros NE K.
    rewrite assignment_space_all. induction d as [|[v l] d IH]; [exists []; split; [now left|reflexivity]|].
    destruct IH as (a & I & C). { intros w m J. apply (NE w m). now right. } { intros w m y J. apply (K w m y). now right. }
    assert (Y : exists s, In s l /\ match dget v o with Some s' => if eqd s' s then true else false | None => true end = true).
    { destruct (dget v o) as [s|] eqn:G.
      - exists s. split; [apply (K v l s); [now left|exact G]|]. now rewrite eqd_refl.
      - destruct l as [|s l]; [destruct (NE v []); [now left|reflexivity]|]. exists s. split; [now left|reflexivity]. }
    destruct Y as (s & Is & Cs). exists ((v, s) :: a). split.
    - cbn [all_assignments]. apply in_flat_map. exists s. split; [exact Is|]. apply in_map_iff. eauto.
    - unfold consistent in *. cbn [forallb fst snd]. now rewrite Cs, C.
  Qed.

  Lemma set_partial_list d (l : list V) o x : wf_store (StList d l) -> Spec.known d o ->
    exists i a l', nth_error (assignment_space d) i = Some a /\ consistent o a = true /\
      (forall j b, j < i -> nth_error (assignment_space d) j = Some b -> consistent o b = false) /\
      st_set_value (StList d l) x o = Ok (StList d l') /\ st_set_value (StNp1 d l) x o = Ok (StNp1 d l') /\
      length l' = length l /\ nth_error l' i = Some x /\ (forall j, j <> i -> nth_error l' j = nth_error l j).
  Proof.
    intros [[ND WD] L] K. cbn [st_domain] in *.
    destruct (matching d o) as (a0 & I0 & C0); [intros v m I; now apply (WD v m)|exact K|].
    destruct (positions_head (consistent o) (assignment_space d) 0) as (i & a & r & P & Ea & Ca & Fa); [eauto|].
    assert (Li : i < length l).
    { rewrite L, <- size_prodl. rewrite <- (proj1 (enumeration_ok d ND)). apply nth_error_Some. intros Z. pose proof (eq_trans (eq_sym Ea) Z). discriminate. }
    destruct (list_set_ok l i x Li) as (l' & S & S1 & S2 & S3). exists i, a, l'. repeat split; auto.
    all: unfold st_set_value; rewrite index_list_positions by (auto; intros v m I; now apply (WD v m)); rewrite P; cbn [bind py_nth nth_error plus]; unfold py_nth; cbn; rewrite S; reflexivity.
  Qed.

  Lemma get_partial_list d (l : list V) o : wf_store (StList d l) -> Spec.known d o ->
    exists i a x, nth_error (assignment_space d) i = Some a /\ consistent o a = true /\
      (forall j b, j < i -> nth_error (assignment_space d) j = Some b -> consistent o b = false) /\
      nth_error l i = Some x /\ get_value (StList d l) o = Ok x /\ get_value (StNp1 d l) o = Ok x.
  Proof.
    intros W K. assert (W' : wf_store (StNp1 d l)) by exact W. pose proof W as [[ND WD] L]. cbn [st_domain] in *.
    destruct (matching d o) as (a0 & I0 & C0); [intros v m I; now apply (WD v m)|exact K|].
    destruct (positions_head (consistent o) (assignment_space d) 0) as (i & a & r & P & Ea & Ca & Fa); [eauto|].
    assert (Li : i < length l).
    { rewrite L, <- size_prodl. rewrite <- (proj1 (enumeration_ok d ND)). apply nth_error_Some. intros Z. pose proof (eq_trans (eq_sym Ea) Z). discriminate. }
    destruct (nth_error l i) as [x|] eqn:Ex; [|apply nth_error_None in Ex; lia]. exists i, a, x. repeat split; auto.
    1: destruct (restrict_obs (StList d l) o W K) as (s' & R & _). 2: destruct (restrict_obs (StNp1 d l) o W' K) as (s' & R & _).
    all: unfold get_value, get_value_raw; rewrite R; cbn [bind]; revert R; unfold st_restrict, st_restrict_ext, flat_restrict;
      change (map (fun vs : var * state => (fst vs, One (snd vs))) o) with (ext o); rewrite ext_has_list, ext_ones;
      rewrite index_list_positions by (auto; intros v m I; now apply (WD v m)); rewrite P; cbn [bind mapM plus];
      unfold py_nth at 1; rewrite Ex; cbn [bind]; destruct (mapM (py_nth l) r) as [l'|]; [|discriminate]; cbn [bind st_init flat];
      match goal with |- (if ?c then _ else _) = _ -> _ => destruct c; [|discriminate] end; intros [= <-]; reflexivity.
  Qed.

  Lemma get_partial_tree d t o v : wf_store (StTree d t) -> Spec.known d o -> In v (keys d) -> ~ In v (keys o) ->
    get_value (StTree d t) o = Raise NotScalar.
  Proof.
    intros W K I N. destruct (restrict_obs (StTree d t) o W K) as (s' & R & W' & T & D & _).
    unfold get_value, get_value_raw. rewrite R. cbn [bind]. destruct s' as [d' a|d' l|d' l|d' t']; cbn in T; try discriminate.
    destruct t' as [x|w ch]; [|reflexivity]. exfalso. destruct W' as [_ W']. cbn [st_domain] in D. cbn in W'.
    assert (J : In v (keys (drop (keys o) d))) by (apply In_keys_drop; auto). rewrite <- D in J. clear -W' J. inversion W'; subst. exact J.
  Qed.

  Lemma get_partial_numpy d (a : nd V) o : wf_store (StNumpy d a) -> Spec.known d o ->
    (forall v s l, drop (keys o) d = [(v, s :: l)] -> exists x, get_value (StNumpy d a) o = Ok x /\ get_value (StNumpy d a) (o ++ [(v, s)]) = Ok x) /\
    (2 <= length (drop (keys o) d) -> get_value (StNumpy d a) o = Raise NotScalar).
  Proof.
    intros W K. destruct (restrict_obs (StNumpy d a) o W K) as (s' & R & W' & T & D & Q). cbn [st_domain] in *.
    destruct s' as [d' b|d' l|d' l|d' t']; cbn in T; try discriminate. cbn [st_domain] in D. destruct W' as [WD [Sh L]]. cbn [st_domain] in WD. split.
    - intros v s l E. assert (F : full (drop (keys o) d) [(v, s)]).
      { rewrite E. intros w m [J|[]]. injection J as <- <-. exists s. cbn. rewrite eqd_refl. auto. }
      destruct (Q _ F) as (x & G1 & G2). exists x. split; [|exact G2].
      assert (W'' : wf_store (StNumpy d' b)) by (split; [exact WD|split; [exact Sh|exact L]]).
      destruct (get_full (StNumpy d' b) [(v, s)] W'') as (y & Ly & Gy); [cbn; rewrite D; exact F|].
      assert (y = x) by congruence. subst y. unfold get_value, get_value_raw. rewrite R. cbn [bind].
      assert (D' : d' = [(v, s :: l)]) by congruence. clear D F Q G1 G2 R. subst d'. cbn [look] in Ly. rewrite Sh in Ly |- *.
      assert (P0 : ravel (card [(v, s :: l)]) (coords [(v, s :: l)] (asg_of [(v, s)])) = 0).
      { unfold coords, asg_of, over. cbn [map fst snd dget]. rewrite eqd_refl. unfold pos. cbn [index_of]. destruct (eqd s s) as [_|X]; [cbn; lia|now destruct X]. }
      rewrite P0 in Ly. cbn [card map snd]. unfold py_nth. rewrite Ly. reflexivity.
    - intros G. unfold get_value, get_value_raw. rewrite R. cbn [bind]. rewrite Sh, D. rewrite D in WD.
      destruct (drop (keys o) d) as [|[v1 l1] [|[v2 l2] r]]; cbn [length] in G; try lia. cbn [card map snd].
      destruct l1 as [|s1 l1]; [exfalso; apply (proj2 (proj2 WD v1 [] (or_introl eq_refl))); reflexivity|]. reflexivity.
  Qed.
End Partial.
