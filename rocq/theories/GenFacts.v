(** Facts about normalize_array and the generated tables. *)

From Coq Require Import String Ascii Bool Arith ZArith QArith Qcanon Lia Permutation List.
From Verif Require Import PyBase Num DomainModel NdArray StoreModel NumStore FactorModel GenModel PyFacts Spec DomainFacts
  StoreSpec TreeFacts TreeFacts2 StoreFacts NumFacts StoreOps BigSum StoreMarg StoreMarg2 PropFacts1 StoreExpr PropFacts2
  FactorSpec FactorFacts FactorFacts2 FactorFacts3.
Import ListNotations.
Local Open Scope nat_scope.

(** Shape and index with the axes of the variables [C] collapsed. *)
Definition csh (d : domain) (C : list var) : list nat :=
  map (fun vl => if mem (fst vl) C then 1 else length (snd vl)) d.
Definition czs (d : domain) (C : list var) (a : asg) : list nat :=
  map (fun vl => if mem (fst vl) C then 0 else pos (a (fst vl)) (snd vl)) d.

Lemma put_length {A} (l : list A) i x : length (put l i x) = length l.
Proof. revert i. induction l; intros [|i]; simpl; auto. Qed.

Lemma put_map {A} (F : var * list state -> A) (d : domain) v z : NoDup (keys d) ->
  In v (keys d) ->
  put (map F d) (pos v (keys d)) z = map (fun vl => if eqd (fst vl) v then z else F vl) d.
Proof.
  induction d as [|[w l] d IH]; intros N I; [destruct I|]. simpl in N. inversion N as [|? ? N1 N2]; subst.
  change (keys ((w, l) :: d)) with (w :: keys d). unfold pos. cbn [index_of]. destruct (eqd v w) as [->|n].
  - cbn [map put fst]. rewrite eqd_refl. f_equal. apply map_ext_in. intros [u m] J. cbn [fst].
    rewrite eqd_neq; auto. intros ->. apply N1. apply keys_In. eauto.
  - destruct I as [E|I]; [simpl in E; congruence|].
    destruct (index_of_In v (keys d) I) as (i & Ei). rewrite Ei. cbn [map put fst].
    rewrite eqd_neq by auto. f_equal. rewrite <- IH by auto. unfold pos. rewrite Ei. auto.
Qed.

Lemma nth_map_pos {A} (F : var * list state -> A) (d : domain) v l z : NoDup (keys d) -> In (v, l) d ->
  nth (pos v (keys d)) (map F d) z = F (v, l).
Proof.
  induction d as [|[w m] d IH]; intros N I; [destruct I|]. simpl in N. inversion N as [|? ? N1 N2]; subst.
  change (keys ((w, m) :: d)) with (w :: keys d). unfold pos. cbn [index_of]. destruct I as [E|I].
  - injection E as -> ->. rewrite eqd_refl. reflexivity.
  - rewrite eqd_neq; [|intros ->; apply N1, keys_In; eauto].
    assert (K : In v (keys d)) by (apply keys_In; eauto).
    destruct (index_of_In v (keys d) K) as (i & Ei). rewrite Ei. cbn [map nth]. rewrite <- IH by auto.
    unfold pos. rewrite Ei. auto.
Qed.

Lemma csh_cons d v C : NoDup (keys d) -> In v (keys d) -> put (csh d C) (pos v (keys d)) 1 = csh d (v :: C).
Proof.
  intros N I. unfold csh at 1. rewrite put_map by auto. apply map_ext_in. intros [w l] J. cbn [fst snd mem].
  unfold mem. fold (mem w C). simpl. destruct (eqd w v); auto.
Qed.

Lemma czs_put d v l C a s k : NoDup (keys d) -> NoDup l -> In (v, l) d -> nth_error l k = Some s -> ~ In v C ->
  put (czs d (v :: C) a) (pos v (keys d)) k = czs d C (upd a v s).
Proof.
  intros N Nl I Nk NC. unfold czs at 1. rewrite put_map; auto; [|apply keys_In; eauto].
  apply map_ext_in. intros [w m] J. cbn [fst snd].
  destruct (eqd w v) as [->|n].
  - apply mem_nIn in NC. rewrite NC, upd_same.
    assert (m = l) by (apply (In_dget _ _ _ N) in I; apply (In_dget _ _ _ N) in J; congruence). subst m.
    unfold pos. rewrite (index_of_nth l k s) by auto. auto.
  - rewrite upd_other by auto. assert (mem w (v :: C) = mem w C) as ->; auto.
    rewrite mem_cons. rewrite eqd_neq by auto. auto.
Qed.

Lemma csh_bounds d C a : valid d a -> in_bounds (csh d C) (czs d C a) = true.
Proof.
  induction d as [|[v l] d IH]; intros V; [reflexivity|]. apply valid_cons in V as [V1 V2].
  unfold csh, czs. cbn [map fst snd]. apply in_bounds_cons. split; [|apply IH; auto].
  destruct (mem v C); [lia|]. apply pos_lt; auto.
Qed.

Lemma csh_surj d C idx : wf_dom d -> in_bounds (csh d C) idx = true ->
  exists a, valid d a /\ czs d C a = idx.
Proof.
  intros W B. assert (B' : in_bounds (card d) idx = true).
  { revert idx B. destruct W as [_ W]. induction d as [|[v l] d IH]; intros idx B; [exact B|].
    unfold csh in B. cbn [map fst snd] in B. destruct idx as [|i idx]; [discriminate|]. rewrite card_cons.
    apply in_bounds_cons in B as [B1 B2]. apply in_bounds_cons. split.
    - destruct (mem v C); auto. destruct (W v l (or_introl eq_refl)) as [_ E]. destruct l; [congruence|]. simpl. lia.
    - apply IH; auto. intros w m J. apply (W w). right; auto. }
  destruct (coords_surj d idx (fun _ => SInt 0%Z) W B') as (a & V & E & _). exists a. split; auto.
  clear W B'. subst idx. unfold csh, czs, coords in *. induction d as [|[v l] d IH]; [reflexivity|].
  cbn [map fst snd] in *. apply in_bounds_cons in B as [B1 B2]. apply valid_cons in V as [V1 V2].
  f_equal; auto. destruct (mem v C); auto. lia.
Qed.

(** [x] tabulates [G], with the axes of [C] collapsed. *)
Definition tabulates (d : domain) (C : list var) (x : nd num) (G : asg -> num) : Prop :=
  nd_wf x /\ shape x = csh d C /\ forall a, valid d a -> nd_get x (czs d C a) = Ok (G a).

Lemma Forall2_seq {A B} (P : nat -> B -> Prop) (g : A -> B) l : forall k0,
  (forall k s, nth_error l k = Some s -> P (k0 + k) (g s)) -> Forall2 P (seq k0 (length l)) (map g l).
Proof.
  induction l as [|s l IH]; intros k0 H; cbn [length seq map]; constructor.
  - rewrite <- (Nat.add_0_r k0). apply H. reflexivity.
  - apply IH. intros k s' Nk. replace (S k0 + k) with (k0 + S k) by lia. apply H. auto.
Qed.

Lemma np_sum_keep_ok d C x G v l : wf_dom d -> tabulates d C x G -> In (v, l) d -> ~ In v C ->
  exists y, np_sum_keep x (pos v (keys d)) = Ok y /\
    tabulates d (v :: C) y (fun a => nsum (map (fun s => G (upd a v s)) l)).
Proof.
  intros W (Wx & Sx & Hx) I NC. unfold np_sum_keep.
  assert (K : In v (keys d)) by (apply keys_In; eauto).
  assert (Lp : pos v (keys d) < length (shape x)).
  { rewrite Sx. unfold csh. rewrite map_length. assert (P := pos_lt v (keys d) K).
    unfold keys in P at 2. rewrite map_length in P. auto. }
  assert ((length (shape x) <=? pos v (keys d)) = false) as -> by (apply Nat.leb_gt; auto).
  rewrite Sx, csh_cons by (auto; apply W).
  assert (Nl := proj2 W v l I).
  assert (nth (pos v (keys d)) (csh d C) 0 = length l) as ->.
  { unfold csh. rewrite (nth_map_pos _ d v l) by (auto; apply W). cbn [fst snd]. apply mem_nIn in NC. rewrite NC. auto. }
  set (f := fun idx => let* l0 := mapM (fun k => nd_get x (put idx (pos v (keys d)) k)) (seq 0 (length l)) in Ok (nsum l0)).
  assert (Hf : forall a, valid d a -> f (czs d (v :: C) a) = Ok (nsum (map (fun s => G (upd a v s)) l))).
  { intros a V. unfold f.
    assert (E : mapM (fun k => nd_get x (put (czs d (v :: C) a) (pos v (keys d)) k)) (seq 0 (length l)) =
                Ok (map (fun s => G (upd a v s)) l)).
    { apply mapM_ok.
      assert (Hk : forall k s, nth_error l k = Some s -> nd_get x (put (czs d (v :: C) a) (pos v (keys d)) k) = Ok (G (upd a v s))).
      { intros k s Nk. rewrite (czs_put d v l C a s k); auto; try apply W; try apply Nl. apply Hx.
        intros w m J. unfold upd. destruct (eqd w v) as [->|n]; [|apply V; auto].
        assert (m = l). { apply (In_dget _ _ _ (proj1 W)) in I. apply (In_dget _ _ _ (proj1 W)) in J. congruence. }
        subst m. eapply nth_error_In; eauto. }
      apply Forall2_seq. exact Hk. }
    rewrite E. reflexivity. }
  destruct (nd_build_total (csh d (v :: C)) f) as (y & Ey).
  { intros idx B. destruct (csh_surj d (v :: C) idx W B) as (a & V & <-). eauto. }
  exists y. split; [exact Ey|]. destruct (nd_build_ok _ _ _ Ey) as (Sy & Wy & Hy).
  split; [auto|]. split; [auto|]. intros a V. rewrite Hy by (apply csh_bounds; auto). auto.
Qed.

Lemma tabulates_ext d C x G G' : tabulates d C x G -> (forall a, valid d a -> G a = G' a) -> tabulates d C x G'.
Proof. intros (A & B & H) E. split; [auto|]. split; [auto|]. intros a V. rewrite <- E; auto. Qed.

Lemma nsumdom_1 v l (G : asg -> num) a : ext_fun G -> nsumdom [(v, l)] G a = nsum (map (fun s => G (upd a v s)) l).
Proof.
  intros E. rewrite (sumdom_cons n0 nadd nadd_assoc nadd_0_l) by (auto; intros []).
  rewrite nsum_bsum. f_equal. apply map_ext. intros s. apply (sumdom_nil n0 nadd nadd_comm nadd_0_l). auto.
Qed.

Lemma sum_keeps d : wf_dom d -> forall D C x G, ext_fun G -> tabulates d C x G ->
  (forall v l, In (v, l) D -> In (v, l) d) -> NoDup (keys D) -> (forall v, In v C -> ~ In v (keys D)) ->
  exists y, foldM np_sum_keep (map (fun v => pos v (keys d)) (keys D)) x = Ok y /\
    exists C', (forall v, In v C' <-> In v C \/ In v (keys D)) /\ tabulates d C' y (nsumdom D G).
Proof.
  intros W D. induction D as [|[v l] D IH]; intros C x G E T I N Dj.
  - exists x. split; [reflexivity|]. exists C. split; [intros; simpl; tauto|].
    eapply tabulates_ext; eauto. intros a _. symmetry. apply (sumdom_nil n0 nadd nadd_comm nadd_0_l). auto.
  - change (keys ((v, l) :: D)) with (v :: keys D) in *. cbn [map foldM].
    inversion N as [|? ? N1 N2]; subst.
    destruct (np_sum_keep_ok d C x G v l W T (I v l (or_introl eq_refl))) as (y & Ey & Ty).
    { intros J. apply (Dj v J). left; auto. }
    rewrite Ey. cbn [bind].
    set (G1 := nsumdom [(v, l)] G).
    assert (E1 : ext_fun G1) by (apply sumdom_ext_fun; auto).
    assert (T1 : tabulates d (v :: C) y G1).
    { eapply tabulates_ext; eauto. intros a _. symmetry. apply nsumdom_1; auto. }
    destruct (IH (v :: C) y G1 E1 T1) as (z & Ez & C' & HC & Tz); auto.
    { intros w m J. apply I. right; auto. }
    { intros w [<-|J] J'; [auto|]. apply (Dj w J). right; auto. }
    exists z. split; [exact Ez|]. exists C'. split.
    + intros w. rewrite HC. simpl. tauto.
    + eapply tabulates_ext; eauto. intros a _. unfold G1.
      rewrite <- (sumdom_app n0 nadd nadd_comm nadd_assoc nadd_0_l); auto.
      * apply (sumdom_perm n0 nadd nadd_comm nadd_assoc nadd_0_l); auto.
        { rewrite keys_app. simpl. apply (Permutation_NoDup (Permutation_cons_append _ _)). constructor; auto. }
        apply Permutation_sym, Permutation_cons_append.
      * rewrite keys_app. simpl. apply (Permutation_NoDup (Permutation_cons_append _ _)). constructor; auto.
Qed.

Lemma left_dims_pos dom r : NoDup (keys dom) ->
  left_dims dom r = map (fun v => pos v (keys dom)) (keys (dfilter (fun v => negb (mem v r)) dom)).
Proof.
  intros N. unfold left_dims. rewrite keys_dfilter.
  assert (H : forall k l, flat_map (fun iv : nat * var => if mem (snd iv) r then [] else [fst iv]) (combine (seq k (length l)) l)
               = map (fun v => k + pos v l) (filter (fun v => negb (mem v r)) l) \/ ~ NoDup l).
  { intros k l. revert k. induction l as [|v l IH]; intros k; [left; reflexivity|].
    destruct (IH (S k)) as [E|E]; [|right; intros M; inversion M; auto].
    destruct (mem v l) eqn:M; [right; intros M'; inversion M'; subst; apply mem_In in M; auto|]. apply mem_nIn in M.
    left. cbn [length seq combine flat_map fst snd filter]. rewrite E.
    assert (R : map (fun u => S k + pos u l) (filter (fun u => negb (mem u r)) l) =
                map (fun u => k + pos u (v :: l)) (filter (fun u => negb (mem u r)) l)).
    { apply map_ext_in. intros u J. apply filter_In in J as [J _]. unfold pos. cbn [index_of].
      rewrite eqd_neq by (intros ->; auto). destruct (index_of_In u l J) as (i & ->). lia. }
    rewrite R. destruct (mem v r); [reflexivity|]. cbn [negb map app]. f_equal. unfold pos. cbn [index_of]. rewrite eqd_refl. lia. }
  destruct (H 0 (keys dom)) as [E|E]; [exact E|contradiction].
Qed.

Lemma card_csh d : card d = csh d [].
Proof. unfold csh, card, vals. rewrite map_map. reflexivity. Qed.
Lemma coords_czs d a : coords d a = czs d [] a.
Proof. reflexivity. Qed.

Lemma bshape_csh d C : bshape (card d) (csh d C) = Ok (card d).
Proof.
  induction d as [|[v l] d IH]; [reflexivity|]. rewrite card_cons. unfold csh. cbn [map fst snd bshape].
  fold (csh d C). rewrite IH. cbn [bind]. destruct (mem v C).
  - destruct (length l =? 1) eqn:E; [reflexivity|]. cbn [Nat.eqb]. reflexivity.
  - rewrite Nat.eqb_refl. reflexivity.
Qed.

Lemma bidx_same d a : valid d a -> bidx (card d) (coords d a) = coords d a.
Proof.
  induction d as [|[v l] d IH]; intros V; [reflexivity|]. apply valid_cons in V as [V1 V2]. rewrite card_cons.
  unfold coords. cbn [map fst snd bidx]. f_equal; [|apply IH; auto].
  assert (P := pos_lt _ _ V1). destruct (Nat.eqb_spec (length l) 1); auto. lia.
Qed.

Lemma bidx_csh d C a : valid d a -> bidx (csh d C) (coords d a) = czs d C a.
Proof.
  induction d as [|[v l] d IH]; intros V; [reflexivity|]. apply valid_cons in V as [V1 V2].
  unfold coords, csh, czs. cbn [map fst snd bidx]. f_equal; [|apply IH; auto].
  assert (P := pos_lt _ _ V1). destruct (mem v C); [reflexivity|]. destruct (Nat.eqb_spec (length l) 1); auto. lia.
Qed.

(** The value of a row-major list at an assignment. *)
Definition at_asg (d : domain) (xs : list num) (a : asg) : num :=
  nth (ravel (card d) (coords d a)) xs n0.

Lemma at_asg_dep d xs : dep (keys d) (at_asg d xs).
Proof. intros a b E. unfold at_asg. rewrite (coords_ext d a b); auto. Qed.

Lemma tabulates_flat d xs : length xs = prodl (card d) -> tabulates d [] (mkNd (card d) xs) (at_asg d xs).
Proof.
  intros L. split; [exact L|]. split; [apply card_csh|]. intros a V. rewrite <- coords_czs.
  assert (B := coords_bounds d a V).
  apply nd_get_flat; [exact B|]. cbn [flat shape]. unfold at_asg. apply nth_error_nth'. rewrite L. apply ravel_lt; auto.
Qed.

Lemma normalize_ok d xs r : wf_dom d -> length xs = prodl (card d) ->
  exists ys, normalize_array (mkNd (card d) xs) (left_dims d r) = Ok (mkNd (card d) ys) /\ length ys = prodl (card d) /\
    forall a, valid d a ->
      at_asg d ys a = ndiv (at_asg d xs a) (nsumdom (dfilter (fun v => negb (mem v r)) d) (at_asg d xs) a).
Proof.
  intros W L. unfold normalize_array. rewrite left_dims_pos by apply W.
  set (D := dfilter (fun v => negb (mem v r)) d).
  destruct (sum_keeps d W D [] (mkNd (card d) xs) (at_asg d xs)) as (y & Ey & C & _ & Ty & Sy & Hy).
  { eapply dep_ext, at_asg_dep. } { apply tabulates_flat; auto. }
  { intros v l J. apply filter_In in J. apply J. } { apply (wf_dom_filter _ d W). } { intros v []. }
  rewrite Ey. cbn [bind]. unfold np_binop. cbn [shape]. rewrite Sy, bshape_csh. cbn [bind].
  set (f := fun idx => let* x := nd_get (mkNd (card d) xs) (bidx (card d) idx) in
                       let* z := nd_get y (bidx (csh d C) idx) in Ok (ndiv x z)).
  assert (Hf : forall a, valid d a -> f (coords d a) = Ok (ndiv (at_asg d xs a) (nsumdom D (at_asg d xs) a))).
  { intros a V. unfold f. rewrite bidx_same, bidx_csh by auto.
    destruct (tabulates_flat d xs L) as (_ & _ & H). rewrite coords_czs, H by auto. cbn [bind]. rewrite Hy by auto. reflexivity. }
  destruct (nd_build_total (card d) f) as (z & Ez).
  { intros idx B. destruct (coords_surj d idx (fun _ => SInt 0%Z) W B) as (a & V & <- & _). eauto. }
  rewrite Ez. destruct (nd_build_ok _ _ _ Ez) as (Sz & Wz & Hz).
  exists (flat z). split; [destruct z as [sz fz]; cbn [shape flat] in *; congruence|].
  split; [unfold nd_wf in Wz; congruence|]. intros a V. assert (B := coords_bounds d a V).
  assert (G := Hz _ B). rewrite Hf in G by auto. apply nd_get_flat in G; [|rewrite Sz; auto].
  unfold at_asg at 1. rewrite Sz in G. apply nth_error_nth with (d := n0) in G. exact G.
Qed.

(** A factor whose values sum to one over the left variables at every
    configuration of the right variables. *)
Lemma normalised_table dom r vt xs ys f : usable dom -> NoDup r -> incl r (keys dom) ->
  length xs = prodl (card dom) ->
  (forall o, full (pick r dom) o -> exists q, q <> 0%Qc /\
      nsumdom (drop r dom) (at_asg dom xs) (asg_of o) = Fin q) ->
  (forall o, full dom o -> exists q, at_asg dom xs (asg_of o) = Fin q) ->
  length ys = prodl (card dom) ->
  (forall a, valid dom a -> at_asg dom ys a = ndiv (at_asg dom xs a) (nsumdom (drop r dom) (at_asg dom xs) a)) ->
  mf_init dom (FArr (mkNd (card dom) ys)) None (Some r) vt = Ok f ->
  wf_mf f /\ mf_domain f = dom /\ mf_right f = r /\ mf_vtype f = vt /\ normalised f /\
  forall o, full dom o -> exists q s, at_asg dom xs (asg_of o) = Fin q /\
    nsumdom (drop r dom) (at_asg dom xs) (asg_of o) = Fin s /\ mf_get_value f o = Ok (Fin (q / s)).
Proof.
  intros U Nr Ir Lx Tot Fin_ Ly Hy E.
  assert (W := usable_wf _ U).
  destruct (mf_init_ok dom (FArr (mkNd (card dom) ys)) ys None (Some r) r vt) as (f' & E' & Ws & D & T & R & H & _); auto.
  { rewrite size_prodl; auto. } { right; left; auto. }
  assert (f' = f) by congruence. subst f'.
  assert (Wf : wf_mf f).
  { split; [auto|]. rewrite D. split; [auto|]. rewrite R. split; [auto|]. unfold mf_vars. rewrite D. auto. }
  split; [auto|]. split; [auto|]. split; [auto|]. split; [auto|].
  assert (HL : forall v, In v (mf_left f) <-> In v (keys dom) /\ ~ In v r).
  { intros v. rewrite mf_left_In. unfold mf_vars. rewrite D, R. tauto. }
  assert (Hval : forall o s, full dom o -> nsumdom (drop r dom) (at_asg dom xs) (asg_of o) = Fin s -> s <> 0%Qc ->
            exists q, at_asg dom xs (asg_of o) = Fin q /\ mf_get_value f o = Ok (Fin (q / s))).
  { intros o s F Hs Ns. destruct (H o F) as (z & Gz & Nz). rewrite rowpos_ravel in Nz by auto.
    assert (Ez : at_asg dom ys (asg_of o) = z) by (apply nth_error_nth with (d := n0) in Nz; exact Nz).
    rewrite Hy, Hs in Ez by (apply full_valid; auto). destruct (Fin_ _ F) as (q & Hq). exists q. split; [auto|].
    rewrite Gz. rewrite Hq in Ez. cbn [ndiv] in Ez.
    assert (qzero s = false) as Q by (apply qzero_false; auto). rewrite Q in Ez. congruence. }
  split.
  2:{ intros o F. destruct (Tot o) as (s & Ns & Hs).
      { intros v l J. apply F. apply filter_In in J. apply J. }
      destruct (Hval o s F Hs Ns) as (q & A & B). eauto. }
  unfold normalised. rewrite D, R. intros o F.
  destruct (Tot o F) as (s & Ns & Hs).
  assert (Hv : forall p, In p (all_assignments (drop r dom)) -> 
               exists q, at_asg dom xs (over p (asg_of o)) = Fin q /\ mf_get_value f (p ++ o) = Ok (Fin (q / s)%Qc)).
  { intros p Ip.
    assert (Fp : full dom (p ++ o)).
    { intros v l J. assert (Kp := all_assignments_keys _ _ Ip). rewrite dget_app.
      destruct (mem v r) eqn:M.
      - assert (dget v p = None) as ->.
        { apply dget_None. rewrite Kp, In_keys_drop. apply mem_In in M. tauto. }
        apply (F v l). apply filter_In. auto.
      - destruct (all_assignments_In _ _ (usable_wf _ (usable_drop r _ U)) Ip) as (b & Vb & ->).
        assert (Jd : In (v, l) (drop r dom)) by (apply filter_In; cbn [fst]; rewrite M; auto).
        rewrite obs_of_get by (apply keys_In; eauto). exists (b v). split; auto. }
    assert (Hs' : nsumdom (drop r dom) (at_asg dom xs) (asg_of (p ++ o)) = Fin s).
    { rewrite <- Hs. apply (sumdom_dep n0 nadd (drop r dom) (at_asg dom xs) (keys dom) (at_asg_dep dom xs)).
      intros w J. apply filter_In in J as [J1 J2]. apply negb_true_iff, mem_nIn in J2.
      rewrite asg_of_app. unfold over. assert (dget w p = None) as ->; auto.
      apply dget_None. rewrite (all_assignments_keys _ _ Ip). auto. }
    destruct (Hval _ s Fp Hs' Ns) as (q & A & B). exists q. split; [|auto].
    rewrite <- A. apply at_asg_dep. intros w _. symmetry. apply asg_of_app. }
  assert (Hsum : exists qs, Forall2 (fun p q => mf_get_value f (p ++ o) = Ok (Fin (q / s)%Qc)) (all_assignments (drop r dom)) qs /\
                            map Fin qs = map (fun p => at_asg dom xs (over p (asg_of o))) (all_assignments (drop r dom))).
  { clear -Hv. induction (all_assignments (drop r dom)) as [|p ps IH]; [exists []; auto|].
    destruct (IH (fun p' I' => Hv p' (or_intror I'))) as (qs & E1 & E2).
    destruct (Hv p (or_introl eq_refl)) as (q & A & B). exists (q :: qs). cbn [map]. split; [auto|congruence]. }
  destruct Hsum as (qs & E1 & E2).
  assert (Etot : Fin (qsum qs) = Fin s).
  { rewrite <- nsum_Fin, E2, <- Hs, nsum_bsum. reflexivity. }
  injection Etot as Etot. exists (map Fin (map (fun q => (q / s)%Qc) qs)). split.
  { clear -E1. induction E1; cbn [map]; auto. }
  rewrite nsum_Fin. unfold n1. f_equal.
  assert (E4 : forall l, qsum (map (fun q => (q / s)%Qc) l) = (qsum l / s)%Qc).
  { induction l as [|q l IHl]; simpl; [|rewrite IHl]; unfold Qcdiv; ring. }
  rewrite E4, Etot. unfold Qcdiv. apply Qcmult_inv_r. auto.
Qed.
