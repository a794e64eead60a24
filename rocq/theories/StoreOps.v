(** Combination of stores (multiply, addition, subtract, divide): facts for
    every store type. *)

From Coq Require Import String Bool Arith ZArith Lia List Permutation.
From Verif Require Import PyBase PyFacts DomainModel NdArray StoreModel Spec StoreSpec
  DomainFacts TreeFacts TreeFacts2 StoreFacts.
Import ListNotations.

(** ** domains of combined stores *)

Lemma compatible_dget d1 d2 : NoDup (keys d1) -> NoDup (keys d2) -> compatible d1 d2 ->
  forall k v v', dget k d1 = Some v -> dget k d2 = Some v' -> v = v'.
Proof. intros N1 N2 C k v v' E1 E2. apply dget_In in E1. apply dget_In in E2. eauto. Qed.

Lemma dmerge_In d1 d2 : NoDup (keys d1) -> NoDup (keys d2) -> compatible d1 d2 ->
  forall e, In e (dmerge d1 d2) <-> In e d1 \/ In e d2.
Proof.
  intros N1 N2 C [v l]. rewrite dmerge_agree by (auto; eapply compatible_dget; eauto).
  rewrite in_app_iff. unfold dfilter. rewrite filter_In. cbn [fst].
  split; [tauto|]. intros [H|H]; auto.
  destruct (dmem v d1) eqn:E; auto. left. apply dmem_In, dget_keys in E as (l' & E).
  apply dget_In in E. rewrite (C v l' l E H) in E. auto.
Qed.

Lemma wf_dom_dmerge d1 d2 : wf_dom d1 -> wf_dom d2 -> compatible d1 d2 -> wf_dom (dmerge d1 d2).
Proof.
  intros [N1 H1] [N2 H2] C. split; [apply NoDup_dmerge; auto|].
  intros v l I. apply dmerge_In in I; auto. destruct I; eauto.
Qed.

Lemma valid_dmerge d1 d2 a : NoDup (keys d1) -> NoDup (keys d2) -> compatible d1 d2 ->
  (valid (dmerge d1 d2) a <-> valid d1 a /\ valid d2 a).
Proof.
  intros N1 N2 C. split.
  - intros H. split; intros v l I; apply H; apply dmerge_In; auto.
  - intros [H1 H2] v l I. apply dmerge_In in I; auto. destruct I; eauto.
Qed.

Lemma dget_eq_dom (d D : domain) : NoDup (keys d) -> NoDup (keys D) ->
  keys d = keys D -> (forall v, dget v d = dget v D) -> d = D.
Proof.
  revert D. induction d as [|[v l] d IH]; intros [|[w m] D] N1 N2 K E; try discriminate; auto.
  simpl in K, N1, N2. injection K as -> K. inversion N1; inversion N2; subst.
  pose proof (E w) as Ew. simpl in Ew. rewrite !eqd_refl in Ew.
  injection Ew as ->. f_equal. apply IH; auto. intros u. specialize (E u). simpl in E.
  destruct (eqd u w) as [->|]; auto.
  assert (A : dget w d = None) by (apply dget_None; auto).
  assert (B : dget w D = None) by (apply dget_None; auto). congruence.
Qed.

Lemma dget_keys_eq (d D : domain) : (forall v, dget v d = dget v D) ->
  forall v, In v (keys d) <-> In v (keys D).
Proof. intros E v. rewrite !dget_keys, E. tauto. Qed.

(** ** multi-index arithmetic *)

Lemma ravel_app s1 s2 i1 i2 : length i1 = length s1 ->
  ravel (s1 ++ s2) (i1 ++ i2) = ravel s1 i1 * prodl s2 + ravel s2 i2.
Proof.
  revert i1. induction s1 as [|n s1 IH]; intros [|i i1] L; simpl in L; try discriminate; simpl; auto.
  rewrite IH by lia. rewrite prodl_app. lia.
Qed.

Lemma coords_app d1 d2 a : coords (d1 ++ d2) a = coords d1 a ++ coords d2 a.
Proof. unfold coords. apply map_app. Qed.

Lemma coords_length d a : length (coords d a) = length (card d).
Proof. unfold coords, card, vals. rewrite !map_length. auto. Qed.

Lemma card_length (d : domain) : length (card d) = length d.
Proof. unfold card, vals. rewrite !map_length. auto. Qed.

Lemma card_app (d1 d2 : domain) : card (d1 ++ d2) = card d1 ++ card d2.
Proof. unfold card, vals. rewrite !map_app. auto. Qed.

Lemma nth_repeat' {A} (x : A) k j : j < k -> nth_error (repeat x k) j = Some x.
Proof. revert j. induction k; intros j L; [lia|]. destruct j; simpl; auto. apply IHk. lia. Qed.

Lemma obs_of_inj vs a b : obs_of vs a = obs_of vs b <-> forall v, In v vs -> a v = b v.
Proof.
  unfold obs_of. split.
  - induction vs as [|w vs IH]; intros E v [].
    + subst. simpl in E. injection E as E _. auto.
    + simpl in E. injection E as _ E. auto.
  - intros H. apply map_ext_in. intros v I. rewrite H; auto.
Qed.

Lemma valid_dec d a : {valid d a} + {~ valid d a}.
Proof.
  induction d as [|[v l] d [H|H]].
  - left. intros ? ? [].
  - destruct (in_dec (fun x y : state => eqd x y) (a v) l).
    + left. apply valid_cons; auto.
    + right. rewrite valid_cons. tauto.
  - right. rewrite valid_cons. tauto.
Qed.

Section Combine.
  Context {V : Type}.
  Implicit Types (s : store V) (d : domain) (o : obs) (a : asg).

  (** ** list *)

  Lemma list_combine_ok op d1 (l1 : list V) d2 (l2 : list V) :
    wf_store (StList d1 l1) -> wf_store (StList d2 l2) -> compatible d1 d2 ->
    exists s, list_combine op d1 l1 d2 l2 = Ok s /\ wf_store s /\ st_type s = VList /\
      st_domain s = dmerge d1 d2 /\
      forall a x y, valid (dmerge d1 d2) a -> look (StList d1 l1) a = Some x ->
        look (StList d2 l2) a = Some y -> look s a = Some (op x y).
  Proof.
    intros [W1 S1] [W2 S2] C. simpl in W1, W2, S1, S2. unfold list_combine.
    set (D := dmerge d1 d2). set (F := fun o => _).
    assert (WD : wf_dom D) by (apply wf_dom_dmerge; auto).
    assert (HF : forall a x y, valid D a -> look (StList d1 l1) a = Some x ->
       look (StList d2 l2) a = Some y -> F (obs_of (keys D) a) = Ok (op x y)).
    { intros a x y Va E1 E2. unfold F. apply valid_dmerge in Va as [V1 V2]; try apply W1; try apply W2; auto.
      rewrite (index_list_full d1 _ a) by
        (auto; intros v I; apply obs_of_get, keys_dmerge_In; auto).
      rewrite (index_list_full d2 _ a) by
        (auto; intros v I; apply obs_of_get, keys_dmerge_In; auto).
      simpl in E1, E2. cbn [bind py_nth nth_error]. unfold py_nth at 1 2. rewrite E1, E2. auto. }
    assert (HT : forall a, valid D a -> exists x y, look (StList d1 l1) a = Some x /\ look (StList d2 l2) a = Some y).
    { intros a Va. apply valid_dmerge in Va as [V1 V2]; try apply W1; try apply W2; auto.
      destruct (look_total (StList d1 l1) a) as (x & E1); [split; auto|auto|].
      destruct (look_total (StList d2 l2) a) as (y & E2); [split; auto|auto|]. eauto. }
    rewrite assignment_space_all.
    destruct (mapM_total F (all_assignments D)) as (l & E).
    { intros o I. apply all_assignments_In in I as (a & Va & ->); auto.
      destruct (HT a Va) as (x & y & E1 & E2). eauto. }
    rewrite E. cbn [bind].
    destruct (st_init_1d VList D l) as (s & Es & Ws & Ds & Ts & Lk); auto.
    { rewrite (mapM_length _ _ _ E). apply all_assignments_length. }
    exists s. split; [auto|]. split; [auto|]. split; [auto|]. split; [auto|].
    intros a x y Va E1 E2. rewrite Lk by auto.
    destruct (mapM_nth _ _ _ _ _ E (all_assignments_nth _ _ Va)) as (z & N & Fz).
    rewrite (HF a x y) in Fz by auto. congruence.
  Qed.

  (** ** generic (numpy1d) *)

  Lemma gen_fold op (s1 s2 : store V) (D : domain) (L : list obs) :
    wf_store s1 -> wf_store s2 ->
    (forall e, In e (st_domain s1) -> In e D) -> (forall e, In e (st_domain s2) -> In e D) ->
    (forall o, In o L -> exists a, valid D a /\ o = obs_of (keys D) a) ->
    forall r : store V, wf_store r -> st_domain r = D ->
    exists r', foldM (fun r o => let* x := get_value s1 o in
                        let* y := get_value s2 o in
                        st_set_value r (op x y) o) L r = Ok r' /\
      wf_store r' /\ st_domain r' = D /\ st_type r' = st_type r /\
      forall a x y, valid D a -> look s1 a = Some x -> look s2 a = Some y ->
        look r' a = if in_dec (fun o o' : obs => eqd o o') (obs_of (keys D) a) L then Some (op x y) else look r a.
  Proof.
    intros W1 W2 I1 I2. induction L as [|o L IH]; intros HL r Wr Dr.
    - exists r. simpl. split; auto.
    - cbn [foldM]. destruct (HL o (or_introl eq_refl)) as (a0 & V0 & ->).
      assert (K1 : incl (keys (st_domain s1)) (keys D)).
      { intros v Iv. apply keys_In in Iv as (l & Iv). apply keys_In. eauto. }
      assert (K2 : incl (keys (st_domain s2)) (keys D)).
      { intros v Iv. apply keys_In in Iv as (l & Iv). apply keys_In. eauto. }
      destruct (get_value_look s1 (obs_of (keys D) a0) a0) as (x0 & Lx & Gx); auto.
      { eapply valid_incl; [|exact V0]; auto. }
      { intros v Iv. apply obs_of_get; auto. }
      destruct (get_value_look s2 (obs_of (keys D) a0) a0) as (y0 & Ly & Gy); auto.
      { eapply valid_incl; [|exact V0]; auto. }
      { intros v Iv. apply obs_of_get; auto. }
      rewrite Gx, Gy. cbn [bind].
      destruct (st_set_value_ok r (op x0 y0) (obs_of (keys D) a0) a0) as (r1 & E1 & Wr1 & T1 & D1 & L1 & L2); auto.
      { rewrite Dr; auto. } { rewrite Dr; apply agrees_obs_of. }
      rewrite E1. cbn [bind].
      destruct (IH (fun o I => HL o (or_intror I)) r1 Wr1) as (r' & E & W' & D' & T' & Lk); [congruence|].
      exists r'. split; [auto|]. split; [auto|]. split; [auto|]. split; [congruence|].
      intros a x y Va Ex Ey. rewrite (Lk a x y) by auto.
      destruct (in_dec _ (obs_of (keys D) a) L) as [I|N].
      + destruct (in_dec _ (obs_of (keys D) a) _) as [|N']; auto. exfalso. apply N'. simpl; auto.
      + destruct (in_dec _ (obs_of (keys D) a) (_ :: L)) as [I'|N'].
        * destruct I' as [E0|I']; [|tauto]. rewrite obs_of_inj in E0.
          rewrite (look_ext r1 a a0); auto.
          2:{ rewrite D1, Dr. intros v Iv. symmetry. auto. }
          rewrite L1. f_equal. f_equal.
          -- rewrite (look_ext s1 a a0) in Ex; [congruence|auto|]. intros v Iv. symmetry; auto.
          -- rewrite (look_ext s2 a a0) in Ey; [congruence|auto|]. intros v Iv. symmetry; auto.
        * apply L2; rewrite Dr; auto.
          assert (ND : NoDup (keys D)) by (rewrite <- Dr; apply Wr).
          assert (DEC : forall ks, {forall v, In v ks -> a v = a0 v} + {exists v, In v ks /\ a v <> a0 v}).
          { induction ks as [|k ks [H|H]].
            - left. intros ? [].
            - destruct (eqd (a k) (a0 k)).
              + left. intros v [<-|Iv]; auto.
              + right. exists k. simpl; auto.
            - right. destruct H as (v & Iv & Nv). exists v. simpl; auto. }
          destruct (DEC (keys D)) as [H|H]; auto. exfalso. apply N'. left. symmetry. apply obs_of_inj; auto.
  Qed.

  Lemma generic_combine_ok zero op s1 s2 :
    st_type s1 = VNumpy1D -> st_type s2 = VNumpy1D ->
    wf_store s1 -> wf_store s2 -> compatible (st_domain s1) (st_domain s2) ->
    exists s, generic_combine zero op s1 s2 = Ok s /\ wf_store s /\ st_type s = st_type s1 /\
      st_domain s = dmerge (st_domain s1) (st_domain s2) /\
      forall a x y, valid (dmerge (st_domain s1) (st_domain s2)) a -> look s1 a = Some x ->
        look s2 a = Some y -> look s a = Some (op x y).
  Proof.
    intros T1 T2 W1 W2 C. unfold generic_combine. rewrite T1, T2, eqd_refl.
    set (D := dmerge _ _).
    assert (WD : wf_dom D) by (apply wf_dom_dmerge; [apply W1|apply W2|auto]).
    unfold st_default.
    assert (E0 : exists r, st_init VNumpy1D D (DArr (mkNd [prodl (card D)] (repeat zero (prodl (card D))))) = Ok r /\
       wf_store r /\ st_domain r = D /\ st_type r = VNumpy1D).
    { destruct (st_init_1d VNumpy1D D (repeat zero (prodl (card D)))) as (r & E & Wr & Dr & Tr & _); auto.
      - apply repeat_length.
      - rewrite repeat_length in E. eauto. }
    destruct E0 as (r0 & E0 & Wr & Dr & Tr). rewrite E0. cbn [bind]. rewrite assignment_space_all.
    destruct (gen_fold op s1 s2 D (all_assignments D)) with (r := r0) as (r & E & W & D' & T & Lk); auto.
    { intros e I. apply dmerge_In; auto; [apply W1|apply W2]. }
    { intros e I. apply dmerge_In; auto; [apply W1|apply W2]. }
    { intros o I. apply all_assignments_In; auto. }
    exists r. split; [auto|]. split; [auto|]. split; [congruence|]. split; [auto|].
    intros a x y Va Ex Ey. rewrite (Lk a x y) by auto.
    destruct (in_dec _ _ _) as [|N]; auto. exfalso. apply N.
    eapply nth_error_In. apply all_assignments_nth; auto.
  Qed.

  (** ** numpy *)

  Lemma np_extend_ok d (x : nd V) D : wf_store (StNumpy d x) -> wf_dom D ->
    (forall v l, dget v d = Some l -> dget v D = Some l) ->
    exists e y, np_extend d x D = Ok (StNumpy e y) /\ wf_store (StNumpy e y) /\
      (forall v, dget v e = dget v D) /\
      forall a, valid e a -> look (StNumpy e y) a = look (StNumpy d x) a.
  Proof.
    intros [W [S1 S2]] WD H. simpl in W. unfold np_extend.
    set (ex := dfilter (fun v => negb (dmem v d)) D).
    assert (Wex : wf_dom ex) by (apply wf_dom_filter; auto).
    assert (DJ : forall k, In k (keys ex) -> ~ In k (keys d)).
    { intros k I J. unfold ex in I. rewrite keys_dfilter in I. apply filter_In in I as [_ I].
      apply dmem_In in J. rewrite J in I. discriminate. }
    rewrite (dmerge_disjoint d ex) by (auto; apply Wex).
    set (l := flat_map (fun x0 : V => repeat x0 (prodl (card ex))) (flat x)).
    assert (Ll : length l = prodl (card (d ++ ex))).
    { unfold l. rewrite (length_flat_map_uniform _ _ (prodl (card ex))).
      - rewrite S2, card_app, prodl_app. auto.
      - intros; apply repeat_length. }
    unfold np_reshape, np_repeat. cbn [flat]. fold l. rewrite S1, <- card_app, Ll, Nat.eqb_refl.
    cbn [bind].
    assert (We : wf_dom (d ++ ex)).
    { split.
      - unfold keys. rewrite map_app. apply NoDup_app_iff. split; [apply W|]. split; [apply Wex|].
        intros k I J. eapply DJ; eauto.
      - intros v m I. apply in_app_iff in I as [I|I]; [eapply W|eapply Wex]; eauto. }
    cbn [st_init shape]. rewrite eqd_refl, card_length, Nat.eqb_refl. cbn [andb].
    exists (d ++ ex), (mkNd (card (d ++ ex)) l). split; [reflexivity|].
    split; [split; [auto|simpl; auto]|]. split.
    - intros v. rewrite dget_app. destruct (dget v d) as [m|] eqn:E.
      + symmetry. auto.
      + unfold ex. rewrite dget_dfilter. apply dmem_false in E. rewrite E. auto.
    - intros a Va. cbn [look shape flat]. rewrite S1.
      assert (V1 : valid d a) by (eapply valid_incl; [|exact Va]; intros e I; apply in_app_iff; auto).
      assert (V2 : valid ex a) by (eapply valid_incl; [|exact Va]; intros e I; apply in_app_iff; auto).
      rewrite card_app, coords_app, ravel_app by apply coords_length.
      pose proof (ravel_lt _ _ (coords_bounds _ _ V1)) as B1.
      pose proof (ravel_lt _ _ (coords_bounds _ _ V2)) as B2.
      rewrite <- S2 in B1. destruct (nth_error (flat x) (ravel (card d) (coords d a))) as [z|] eqn:E.
      2:{ apply nth_error_None in E. lia. }
      unfold l. rewrite (nth_flat_map_uniform _ _ (prodl (card ex)) _ _ z); auto.
      + apply nth_repeat'; auto.
      + intros; apply repeat_length.
  Qed.

  Lemma index_of_map_pos (l : list var) (ks : list var) j v :
    NoDup ks -> NoDup l -> (forall w, In w ks -> In w l) -> In v ks -> nth_error l j = Some v ->
    index_of j (map (fun w => pos w l) ks) = Some (pos v ks).
  Proof.
    intros NK NL H Iv E.
    apply index_of_nth.
    - clear Iv E. induction ks as [|k ks IH]; simpl; [constructor|]. inversion NK; subst.
      constructor; [|apply IH; auto; intros; apply H; simpl; auto].
      intros I. apply in_map_iff in I as (w & E & I). apply pos_inj in E.
      + subst; auto.
      + apply H; simpl; auto.
      + apply H; simpl; auto.
    - rewrite nth_error_map, (pos_nth v ks) by auto. simpl. f_equal. unfold pos.
      rewrite (index_of_nth l j v); auto.
  Qed.

  Lemma nth_seq_map {A} (l : list A) : forall n, length l = n ->
    mapM (fun j => py_nth l j) (seq 0 n) = Ok l.
  Proof.
    intros n <-. assert (G : forall pre, mapM (fun j => py_nth (pre ++ l) j) (seq (length pre) (length l)) = Ok l).
    { induction l as [|x l IH]; intros pre; [auto|]. cbn [length seq mapM].
      unfold py_nth at 1. rewrite nth_error_app2, Nat.sub_diag by lia. cbn [nth_error bind].
      specialize (IH (pre ++ [x])). rewrite <- app_assoc in IH. simpl in IH.
      rewrite app_length in IH. simpl in IH. rewrite Nat.add_1_r in IH. rewrite IH. auto. }
    apply (G []).
  Qed.

  (** mapping over positions of a list that is the image of [l] *)
  Lemma mapM_seq_nth {A B} (f : nat -> res B) (g : A -> B) (l : list A) n :
    length l = n ->
    (forall j x, nth_error l j = Some x -> f j = Ok (g x)) ->
    mapM f (seq 0 n) = Ok (map g l).
  Proof.
    intros <- H. assert (G : forall pre suf, l = pre ++ suf ->
       mapM f (seq (length pre) (length suf)) = Ok (map g suf)).
    { intros pre suf. revert pre. induction suf as [|x suf IH]; intros pre E; [auto|].
      cbn [length seq mapM map]. rewrite (H (length pre) x).
      - cbn [bind]. specialize (IH (pre ++ [x])). rewrite app_length, Nat.add_1_r in IH.
        rewrite IH; auto. rewrite <- app_assoc. auto.
      - subst. rewrite nth_error_app2, Nat.sub_diag by lia. auto. }
    apply (G [] l). auto.
  Qed.

  Lemma nth_keys (d : domain) j v : nth_error (keys d) j = Some v ->
    exists l, nth_error d j = Some (v, l).
  Proof.
    unfold keys. rewrite nth_error_map. destruct (nth_error d j) as [[w l]|]; simpl; [|discriminate].
    intros E. injection E as ->. eauto.
  Qed.

  Lemma pos_keys_nth (d : domain) v l : NoDup (keys d) -> In (v, l) d ->
    nth_error d (pos v (keys d)) = Some (v, l).
  Proof.
    intros ND I. assert (Iv : In v (keys d)) by (apply keys_In; eauto).
    destruct (nth_keys d (pos v (keys d)) v) as (m & E); [apply pos_nth; auto|].
    pose proof (nth_error_In _ _ E) as J. apply In_dget in I; auto. apply In_dget in J; auto. congruence.
  Qed.

  Lemma np_reorder_ok d (x : nd V) D : wf_store (StNumpy d x) -> wf_dom D ->
    (forall v, dget v d = dget v D) -> keys d <> keys D ->
    exists y, np_reorder d x (keys D) = Ok (StNumpy D y) /\ wf_store (StNumpy D y) /\
      forall a, valid D a -> look (StNumpy D y) a = look (StNumpy d x) a.
  Proof.
    intros [W [S1 S2]] WD H NE. simpl in W. unfold np_reorder.
    assert (KE : forall v, In v (keys d) <-> In v (keys D)) by (apply dget_keys_eq; auto).
    assert (ND := proj1 W). assert (NDD := proj1 WD).
    assert (LK : length (keys d) = length (keys D)).
    { apply Nat.le_antisymm; apply NoDup_incl_length; auto; intros v Iv; apply KE; auto. }
    assert (L2 : (length (keys d) <? 2) = false).
    { apply Nat.ltb_ge. destruct (keys d) as [|k [|k' ks]] eqn:E1; simpl; try lia.
      - exfalso. apply NE. destruct (keys D); simpl in LK; [auto|discriminate].
      - exfalso. apply NE. destruct (keys D) as [|w [|]]; simpl in LK; try discriminate.
        assert (In k [w]) by (apply KE; simpl; auto). destruct H0 as [->|[]]. auto. }
    rewrite L2.
    assert (O1 : filter (fun v => dmem v d) (keys D) = keys D).
    { assert (G : forall ks, (forall k, In k ks -> In k (keys d)) -> filter (fun v => dmem v d) ks = ks).
      { induction ks as [|k ks IH]; intros G; auto. cbn [filter].
        assert (M : dmem k d = true) by (apply dmem_In, G; simpl; auto). rewrite M, IH; auto.
        intros; apply G; simpl; auto. }
      apply G. intros k I. apply KE; auto. }
    rewrite O1.
    assert (O2 : filter (fun v => negb (mem v (keys D))) (keys d) = []).
    { assert (G : forall ks, (forall k, In k ks -> In k (keys D)) -> filter (fun v => negb (mem v (keys D))) ks = []).
      { induction ks as [|k ks IH]; intros G; auto. cbn [filter].
        assert (M : mem k (keys D) = true) by (apply mem_In, G; simpl; auto). rewrite M. simpl. apply IH.
        intros; apply G; simpl; auto. }
      apply G. intros k I. apply KE; auto. }
    rewrite O2, app_nil_r.
    assert (E1 : mapM (fun v => match index_of v (keys D) with Some i => Ok i | None => Raise ValueError end) (keys d)
                 = Ok (map (fun w => pos w (keys D)) (keys d))).
    { apply mapM_map_ok. intros v Iv. unfold pos. destruct (index_of_In v (keys D)) as (i & ->); auto. apply KE; auto. }
    rewrite E1. cbn [bind]. unfold np_moveaxis.
    assert (LS : length (shape x) = length (keys D)).
    { rewrite S1, card_length, <- LK. unfold keys. rewrite map_length. auto. }
    rewrite LS.
    rewrite (mapM_seq_nth _ (fun v => pos v (keys d)) (keys D)); auto.
    2:{ intros j v Ej. rewrite (index_of_map_pos _ _ j v); auto.
        - intros w Iw; apply KE; auto.
        - apply KE. eapply nth_error_In; eauto. }
    cbn [bind]. unfold np_transpose.
    assert (E2 : mapM (py_nth (shape x)) (map (fun v => pos v (keys d)) (keys D)) = Ok (card D)).
    { rewrite mapM_map. unfold card, vals, keys. rewrite map_map. rewrite mapM_map.
      apply mapM_map_ok. intros [v l] I. cbn [fst snd]. rewrite S1. apply py_nth_ok.
      unfold card, vals. rewrite map_map, nth_error_map. fold (keys d).
      rewrite (pos_keys_nth d v l); auto. apply dget_In. rewrite H. apply In_dget; auto. }
    rewrite E2. cbn [bind]. rewrite LS.
    assert (SRC : forall a, mapM (fun i => match index_of i (map (fun v => pos v (keys d)) (keys D)) with
                      | Some j => py_nth (coords D a) j | None => Raise ValueError end)
                     (seq 0 (length (keys D))) = Ok (coords d a)).
    { intros a. unfold coords at 2. apply (mapM_seq_nth _ (fun vl => pos (a (fst vl)) (snd vl)) d).
      - rewrite <- LK. unfold keys. rewrite map_length. auto.
      - intros j [v l] Ej.
        assert (Kj : nth_error (keys d) j = Some v) by (unfold keys; rewrite nth_error_map, Ej; auto).
        rewrite (index_of_map_pos (keys d) (keys D) j v); auto.
        + cbn [fst snd]. apply py_nth_ok. unfold coords. rewrite nth_error_map.
          rewrite (pos_keys_nth D v l); auto. apply dget_In. rewrite <- H. apply In_dget; auto.
          eapply nth_error_In; eauto.
        + intros w Iw; apply KE; auto.
        + apply KE. eapply nth_error_In; eauto. }
    assert (VE : forall a, valid D a -> valid d a).
    { intros a Va v l I. apply Va. apply dget_In. rewrite <- H. apply In_dget; auto. }
    match goal with |- context [nd_build (card D) ?f] =>
      destruct (nd_build_total (card D) f) as (y & Ey) end.
    { intros idx B. destruct (coords_surj D idx (fun _ => SInt 0%Z) WD B) as (a & Va & <- & _).
      rewrite SRC. cbn [bind]. apply nd_get_total; [unfold nd_wf; congruence|].
      rewrite S1. apply coords_bounds. auto. }
    rewrite Ey. cbn [bind]. apply nd_build_ok in Ey as (Sy & Wy & G).
    assert (E3 : mapM (fun v => let* x0 := dlook v d in Ok (v, x0)) (keys D) = Ok D).
    { unfold keys. rewrite mapM_map. rewrite (mapM_map_ok _ (fun vl => vl)).
      - rewrite map_id. auto.
      - intros [v l] I. cbn [fst]. unfold dlook. rewrite H, (In_dget v l D); auto. }
    rewrite E3. cbn [bind st_init]. rewrite Sy, eqd_refl, card_length, Nat.eqb_refl. cbn [andb].
    exists y. split; [auto|]. split.
    { split; [auto|]. simpl. split; auto. unfold nd_wf in Wy. congruence. }
    intros a Va. cbn [look]. rewrite Sy, S1. specialize (G _ (coords_bounds _ _ Va)).
    rewrite SRC in G. cbn [bind] in G. unfold nd_get in G. rewrite Sy, S1, !coords_bounds in G by auto.
    unfold py_nth in G. destruct (nth_error (flat y) _), (nth_error (flat x) _); congruence.
  Qed.

  Lemma np_align1 d (x : nd V) D : wf_store (StNumpy d x) -> wf_dom D ->
    (forall v l, dget v d = Some l -> dget v D = Some l) ->
    exists e y, (if length d <? length D then np_extend d x D else Ok (StNumpy d x)) = Ok (StNumpy e y) /\
      wf_store (StNumpy e y) /\ (forall v, dget v e = dget v D) /\
      forall a, valid e a -> look (StNumpy e y) a = look (StNumpy d x) a.
  Proof.
    intros W WD H. destruct (length d <? length D) eqn:E.
    - apply np_extend_ok; auto.
    - exists d, x. split; [auto|]. split; [auto|]. split; [|auto].
      apply Nat.ltb_ge in E.
      assert (I : incl (keys d) (keys D)).
      { intros v Iv. apply dget_keys in Iv as (l & Iv). apply dget_keys. eauto. }
      assert (J : incl (keys D) (keys d)).
      { apply NoDup_length_incl; auto. apply W. unfold keys. rewrite !map_length. auto. }
      intros v. destruct (dget v d) as [l|] eqn:Ed; [symmetry; auto|].
      symmetry. apply dget_None. apply dget_None in Ed. auto.
  Qed.

  Lemma np_align2 e (y : nd V) D : wf_store (StNumpy e y) -> wf_dom D ->
    (forall v, dget v e = dget v D) ->
    exists z, (if eqd (keys e) (keys D) then Ok (StNumpy e y) else np_reorder e y (keys D)) = Ok (StNumpy D z) /\
      wf_store (StNumpy D z) /\
      forall a, valid D a -> look (StNumpy D z) a = look (StNumpy e y) a.
  Proof.
    intros W WD H. destruct (eqd (keys e) (keys D)) as [K|N].
    - assert (e = D) by (apply dget_eq_dom; auto; [apply W|apply WD]). subst e.
      exists y. auto.
    - apply np_reorder_ok; auto.
  Qed.

  Lemma bshape_refl sh : bshape sh sh = Ok sh.
  Proof. induction sh as [|n sh IH]; simpl; auto. rewrite IH. simpl. rewrite Nat.eqb_refl. auto. Qed.

  Lemma bidx_in sh idx : in_bounds sh idx = true -> bidx sh idx = idx.
  Proof.
    revert idx. induction sh as [|n sh IH]; intros [|i idx] B; simpl in *; try discriminate; auto.
    apply andb_true_iff in B as [B1 B2]. apply Nat.ltb_lt in B1. rewrite IH by auto.
    destruct (n =? 1) eqn:E; auto. apply Nat.eqb_eq in E. f_equal. lia.
  Qed.

  Lemma np_combine_ok op d1 (x1 : nd V) d2 (x2 : nd V) :
    wf_store (StNumpy d1 x1) -> wf_store (StNumpy d2 x2) -> compatible d1 d2 ->
    exists s, np_combine op d1 x1 d2 x2 = Ok s /\ wf_store s /\ st_type s = VNumpy /\
      st_domain s = dmerge d1 d2 /\
      forall a x y, valid (dmerge d1 d2) a -> look (StNumpy d1 x1) a = Some x ->
        look (StNumpy d2 x2) a = Some y -> look s a = Some (op x y).
  Proof.
    intros W1 W2 C. unfold np_combine. set (D := dmerge d1 d2).
    assert (WD : wf_dom D) by (apply wf_dom_dmerge; [apply W1|apply W2|auto]).
    assert (N1 : NoDup (keys d1)) by apply W1. assert (N2 : NoDup (keys d2)) by apply W2.
    assert (H1 : forall v l, dget v d1 = Some l -> dget v D = Some l).
    { intros v l E. apply In_dget; [apply WD|]. apply dmerge_In; auto. left. apply dget_In; auto. }
    assert (H2 : forall v l, dget v d2 = Some l -> dget v D = Some l).
    { intros v l E. apply In_dget; [apply WD|]. apply dmerge_In; auto. right. apply dget_In; auto. }
    destruct (np_align1 d1 x1 D W1 WD H1) as (e1 & y1 & E1 & We1 & De1 & L1).
    destruct (np_align1 d2 x2 D W2 WD H2) as (e2 & y2 & E2 & We2 & De2 & L2).
    rewrite E1, E2. cbn [bind np_parts].
    destruct (np_align2 e1 y1 D We1 WD De1) as (z1 & F1 & Wf1 & M1).
    destruct (np_align2 e2 y2 D We2 WD De2) as (z2 & F2 & Wf2 & M2).
    rewrite F1, F2. cbn [bind np_parts]. unfold np_binop.
    destruct Wf1 as [_ [Sz1 Lz1]]. destruct Wf2 as [_ [Sz2 Lz2]].
    rewrite Sz1, Sz2, bshape_refl. cbn [bind].
    assert (HG : forall a, valid D a -> exists x y, nd_get z1 (coords D a) = Ok x /\ nd_get z2 (coords D a) = Ok y /\
              look (StNumpy d1 x1) a = Some x /\ look (StNumpy d2 x2) a = Some y).
    { intros a Va. assert (B := coords_bounds _ _ Va).
      destruct (nd_get_total z1 (coords D a)) as (x & X); [unfold nd_wf; congruence|congruence|].
      destruct (nd_get_total z2 (coords D a)) as (y & Y); [unfold nd_wf; congruence|congruence|].
      exists x, y. split; auto. split; auto.
      apply nd_get_flat in X; [|congruence]. apply nd_get_flat in Y; [|congruence].
      assert (Ve1 : valid e1 a).
      { intros v l I. apply Va. apply dget_In. rewrite <- De1. apply In_dget; auto. apply We1. }
      assert (Ve2 : valid e2 a).
      { intros v l I. apply Va. apply dget_In. rewrite <- De2. apply In_dget; auto. apply We2. }
      rewrite <- L1, <- L2, <- M1, <- M2 by auto. cbn [look]. auto. }
    match goal with |- context [nd_build (card D) ?f] =>
      destruct (nd_build_total (card D) f) as (y & Ey) end.
    { intros idx B. rewrite !bidx_in by auto.
      destruct (coords_surj D idx (fun _ => SInt 0%Z) WD B) as (a & Va & <- & _).
      destruct (HG a Va) as (u & w & -> & -> & _). simpl. eauto. }
    rewrite Ey. cbn [bind st_init]. apply nd_build_ok in Ey as (Sy & Wy & G).
    rewrite Sy, eqd_refl, card_length, Nat.eqb_refl. cbn [andb].
    eexists. split; [reflexivity|]. split.
    { split; [auto|]. simpl. split; auto. unfold nd_wf in Wy. congruence. }
    split; [auto|]. split; [auto|]. intros a u w Va Eu Ew. cbn [look]. rewrite Sy.
    assert (B := coords_bounds _ _ Va). specialize (G _ B). rewrite !bidx_in in G by auto.
    destruct (HG a Va) as (u' & w' & A1 & A2 & A3 & A4). rewrite A1, A2 in G. cbn [bind] in G.
    apply nd_get_flat in G; [|congruence]. rewrite Sy in G. congruence.
  Qed.

  (** ** all store types *)

  Theorem st_combine_ok zero op s1 s2 :
    wf_store s1 -> wf_store s2 -> st_type s1 = st_type s2 -> compatible (st_domain s1) (st_domain s2) ->
    exists s, st_combine zero op s1 s2 = Ok s /\ wf_store s /\ st_type s = st_type s1 /\
      st_domain s = dmerge (st_domain s1) (st_domain s2) /\
      forall a x y, valid (dmerge (st_domain s1) (st_domain s2)) a -> look s1 a = Some x ->
        look s2 a = Some y -> look s a = Some (op x y).
  Proof.
    intros W1 W2 T C. destruct s1 as [d1 x1|d1 l1|d1 l1|d1 t1], s2 as [d2 x2|d2 l2|d2 l2|d2 t2];
      try discriminate; cbn [st_combine st_domain st_type] in *.
    - apply np_combine_ok; auto.
    - apply (generic_combine_ok zero op (StNp1 d1 l1) (StNp1 d2 l2)); auto.
    - apply list_combine_ok; auto.
    - unfold tree_combine. destruct W1 as [W1 T1], W2 as [W2 T2]. simpl in *.
      destruct (tcombine_ok op d1 t1 T1 d2 t2 (dmerge d1 d2)) as (t & E & Tt & Ev); auto; [apply W2| |].
      { apply dmerge_In; auto; [apply W1|apply W2]. }
      rewrite E. cbn [bind].
      destruct (st_init_tree (dmerge d1 d2) t) as (s & Es & Ws & Ds & Ts & Lk); auto.
      { apply wf_dom_dmerge; auto. }
      exists s. split; [auto|]. split; [auto|]. split; [auto|]. split; [auto|].
      intros a x y _ Ex Ey. rewrite Lk. eauto.
  Qed.

  (** Stores of different classes are rejected. *)
  Lemma st_combine_types zero op s1 s2 : st_type s1 <> st_type s2 ->
    st_combine zero op s1 s2 = Raise ValueError.
  Proof. destruct s1, s2; simpl; intros; auto; congruence. Qed.
End Combine.
