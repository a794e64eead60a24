(** Facts about constants, renaming, arrays and deterministic factors. *)

From Coq Require Import String Ascii Bool Arith ZArith QArith Qcanon Lia Permutation List.
From Verif Require Import PyBase Num DomainModel NdArray StoreModel NumStore FactorModel PyFacts Spec DomainFacts
  StoreSpec TreeFacts StoreFacts NumFacts StoreOps BigSum StoreMarg StoreMarg2 PropFacts1 StoreExpr PropFacts2
  FactorSpec FactorFacts.
Import ListNotations.
Local Open Scope nat_scope.

(** ** constant *)

Lemma filter_mem_filter {K} `{EqD K} (p : K -> bool) (l : list K) :
  filter (fun v => mem v (filter p l)) l = filter p l.
Proof.
  apply filter_ext_in. intros v I. destruct (p v) eqn:P.
  - apply mem_In, filter_In. auto.
  - apply mem_nIn. intros J. apply filter_In in J as [_ J]. congruence.
Qed.

Lemma left_domain_keys f : keys (mf_left_domain f) = mf_left f.
Proof. unfold mf_left_domain. rewrite keys_dfilter. apply filter_mem_filter. Qed.

Lemma left_domain_one f v : wf_mf f -> mf_left f = [v] ->
  exists l, mf_left_domain f = [(v, l)] /\ In (v, l) (mf_domain f).
Proof.
  intros W L. assert (K := left_domain_keys f). rewrite L in K.
  destruct (mf_left_domain f) as [|[w l] [|? ?]] eqn:E; try discriminate. simpl in K. injection K as ->.
  exists l. split; auto. assert (I : In (v, l) (mf_left_domain f)) by (rewrite E; left; auto).
  apply filter_In in I. apply I.
Qed.

Lemma usable_one v l d : usable d -> In (v, l) d -> usable [(v, l)].
Proof.
  intros (W & T & U) I. split.
  - split; [repeat constructor; intros []|]. intros w m [E|[]]. injection E as <- <-. apply (proj2 W v l I).
  - split.
    + intros w m x y [E|[]] Ix Iy. injection E as <- <-. eapply T; eauto.
    + intros w s [<-|[]]. apply U. apply keys_In. eauto.
Qed.

Lemma list_set_nth {V} (l : list V) i x : i < length l ->
  exists l', list_set l i x = Ok l' /\ length l' = length l /\
    forall j, nth_error l' j = if j =? i then Some x else nth_error l j.
Proof.
  intros B. destruct (list_set_ok l i x B) as (l' & E & L & A & O). exists l'. split; [auto|]. split; [auto|].
  intros j. destruct (Nat.eqb_spec j i) as [->|N]; auto.
Qed.

Lemma mf_constant_ok f v l x : wf_mf f -> mf_left f = [v] -> In (v, l) (mf_domain f) -> In x l ->
  exists f', mf_constant f x = Ok f' /\ wf_mf f' /\ mf_vtype f' = mf_vtype f /\
    mf_domain f' = [(v, l)] /\ mf_left f' = [v] /\ mf_right f' = [] /\
    forall o s, dget v o = Some s -> In s l -> mf_get_value f' o = Ok (if eqd s x then n1 else n0).
Proof.
  intros W Lf I Ix. destruct (left_domain_one f v W Lf) as (l' & E & I').
  assert (l' = l).
  { assert (N := proj1 (usable_wf _ (proj1 (proj2 W)))). apply (In_dget _ _ _ N) in I. apply (In_dget _ _ _ N) in I'. congruence. }
  subst l'. clear I'. unfold mf_constant. rewrite E, Lf. cbn [py_nth nth_error bind dlook dget].
  unfold dlook. cbn [dget]. rewrite eqd_refl. cbn [bind length Nat.eqb negb].
  assert (M := proj2 (mem_In x l) Ix). rewrite M. cbn [negb].
  destruct (index_of_In x l Ix) as (i & Ei). rewrite Ei. destruct (index_of_Some _ _ _ Ei) as [Ni Bi].
  destruct (list_set_nth (repeat n0 (length l)) i n1) as (d & Ed & Ld & Hd); [rewrite repeat_length; auto|].
  rewrite Ed. cbn [bind mf_builder]. rewrite Lf.
  assert (U : usable [(v, l)]) by (eapply usable_one; eauto; apply W).
  rewrite repeat_length in Ld.
  assert (Wl : NoDup l) by (apply (proj2 (usable_wf _ U) v l); left; auto).
  destruct (mf_init_ok [(v, l)] (flist d) d (Some [v]) None [] (mf_vtype f)) as (f' & Ef & Ws & D & T & R & H & _); auto.
  - cbn [size]. lia.
  - left; auto.
  - simpl. rewrite eqd_refl. reflexivity.
  - exists f'. split; [auto|].
    assert (Wf : wf_mf f').
    { split; [auto|]. rewrite D. split; [auto|]. rewrite R. split; [constructor|intros ? []]. }
    split; [auto|]. split; [auto|]. split; [auto|]. split.
    { unfold mf_left, mf_vars. rewrite D, R. reflexivity. }
    split; [auto|]. intros o s G Is.
    destruct (H o) as (y & Gy & Ny).
    { intros w m [J|[]]. injection J as <- <-. eauto. }
    rewrite Gy. f_equal. cbn [rowpos size] in Ny. rewrite G in Ny.
    destruct (index_of_In s l Is) as (j & Ej). rewrite Ej, Nat.mul_1_r, Nat.add_0_r, Hd in Ny.
    destruct (index_of_Some _ _ _ Ej) as [Nj Bj].
    destruct (Nat.eqb_spec j i) as [Eij|Nij].
    + assert (s = x) by (subst j; eapply index_of_inj; eauto). subst. rewrite eqd_refl. congruence.
    + rewrite eqd_neq by (intros ->; congruence). rewrite nth_error_repeat in Ny by auto. congruence.
Qed.

Lemma mf_constant_bad f x : wf_mf f ->
  (mf_left f = [] -> mf_constant f x = Raise IndexError) /\
  (forall v l, mf_left f = [v] -> In (v, l) (mf_domain f) -> ~ In x l -> mf_constant f x = Raise ValueError) /\
  (1 < length (mf_left f) -> mf_constant f x = Raise ValueError).
Proof.
  intros W. split; [|split].
  - intros L. unfold mf_constant. rewrite L. reflexivity.
  - intros v l Lf I Nx. destruct (left_domain_one f v W Lf) as (l' & E & I').
    assert (l' = l).
    { assert (N := proj1 (usable_wf _ (proj1 (proj2 W)))). apply (In_dget _ _ _ N) in I. apply (In_dget _ _ _ N) in I'. congruence. }
    subst l'. unfold mf_constant. rewrite E, Lf. cbn [py_nth nth_error bind].
    unfold dlook. cbn [dget]. rewrite eqd_refl. cbn [bind length Nat.eqb negb].
    apply mem_nIn in Nx. rewrite Nx. reflexivity.
  - intros B. unfold mf_constant. assert (K := left_domain_keys f).
    destruct (mf_left f) as [|v r] eqn:Lf; [simpl in B; lia|]. cbn [py_nth nth_error bind].
    unfold py_nth. cbn [nth_error bind].
    assert (I : In v (keys (mf_left_domain f))) by (rewrite K; left; auto).
    apply dget_keys in I as (l & G). unfold dlook. rewrite G. cbn [bind].
    assert (Le : length (mf_left_domain f) = length (v :: r)).
    { rewrite <- K. unfold keys. symmetry. apply map_length. }
    rewrite Le. assert ((length (v :: r) =? 1) = false) as -> by (apply Nat.eqb_neq; lia). reflexivity.
Qed.

(** ** values_array *)


Lemma rowpos_ravel_idx d o idx : full d o -> (forall v l, In (v, l) d -> NoDup l) ->
  Forall2 (fun vl i => exists s, dget (fst vl) o = Some s /\ nth_error (snd vl) i = Some s) d idx ->
  in_bounds (card d) idx = true /\ ravel (card d) idx = rowpos d o.
Proof.
  intros F N H. induction H as [|[v l] i d idx (s & G & Ni) H IH]; [auto|].
  destruct IH as [B E].
  { intros w m I. apply F. right; auto. }
  { intros w m I. apply (N w). right; auto. }
  rewrite card_cons. cbn [fst snd] in *. split.
  - apply in_bounds_cons. split; auto. apply nth_error_Some. congruence.
  - cbn [ravel rowpos]. rewrite G, E, size_prodl.
    rewrite (index_of_nth l i s); auto. apply (N v). left; auto.
Qed.

Lemma values_array_gen {V} dom (s : store V) order : wf_store s -> NoDup (keys dom) ->
  (forall v l, In (v, l) dom -> NoDup l /\ l <> []) ->
  (forall v l, In (v, l) (st_domain s) -> In (v, l) dom) ->
  NoDup order -> incl order (keys dom) -> incl (keys (st_domain s)) order ->
  (order = [] -> keys dom = []) ->
  exists a, values_array dom s order = Ok a /\ nd_wf a /\
    Forall2 (fun v n => exists l, dget v dom = Some l /\ n = length l) order (shape a) /\
    forall o idx, full (st_domain s) o ->
      Forall2 (fun v i => exists l x, dget v dom = Some l /\ dget v o = Some x /\ nth_error l i = Some x) order idx ->
      exists x, get_value s o = Ok x /\ nd_get a idx = Ok x.
Proof.
  intros W ND NS Hs No Io Is Hnil. unfold values_array.
  assert (HO : match order with [] => keys dom | _ => order end = order) by (destruct order; auto).
  rewrite HO. set (dl := fun v => match dget v dom with Some l => l | None => [] end).
  assert (Hg : forall v, In v order -> dget v dom = Some (dl v)).
  { intros v I. apply Io in I. apply dget_keys in I as (l & G). unfold dl. rewrite G. auto. }
  set (od := map (fun v => (v, dl v)) order).
  assert (E1 : mapM (fun v => let* x := dlook v dom in Ok (v, x)) order = Ok od).
  { apply mapM_map_ok. intros v I. unfold dlook. rewrite (Hg v I). reflexivity. }
  rewrite E1. cbn [bind].
  assert (Ko : keys od = order).
  { unfold od, keys. rewrite map_map. simpl. apply map_id. }
  rewrite dict_of_id by (rewrite Ko; auto).
  assert (Wo : wf_dom od).
  { split; [rewrite Ko; auto|]. intros v l I. apply in_map_iff in I as (w & E & I). injection E as -> <-.
    apply (NS v). apply dget_In. apply Hg; auto. }
  assert (Go : forall v, In v order -> dget v od = Some (dl v)).
  { intros v I. apply In_dget; [rewrite Ko; auto|]. apply in_map_iff. eauto. }
  assert (E2 : mapM (fun v => let* x := dlook v od in Ok (length x)) order = Ok (card od)).
  { rewrite (mapM_map_ok _ (fun v => length (dl v))).
    - f_equal. unfold card, vals, od. rewrite !map_map. reflexivity.
    - intros v I. unfold dlook. rewrite (Go v I). reflexivity. }
  rewrite E2. cbn [bind]. rewrite assignment_space_all.
  assert (Fs : forall o, full od o -> full (st_domain s) o).
  { intros o F v l I. apply F. apply in_map_iff. exists v.
    assert (J : In v order) by (apply Is, keys_In; eauto). split; auto. f_equal.
    apply Hs, In_dget in I; auto. rewrite (Hg v J) in I. congruence. }
  destruct (mapM_total (get_value s) (all_assignments od)) as (vs & Ev).
  { intros o I. apply all_assignments_In_full in I as [_ F]; [|apply Wo].
    destruct (get_full s o W (Fs o F)) as (x & _ & G). eauto. }
  rewrite Ev. cbn [bind]. assert (Lv := mapM_length _ _ _ Ev). rewrite all_assignments_length in Lv.
  unfold np_reshape. cbn [flat]. rewrite Lv, Nat.eqb_refl. eexists. split; [reflexivity|].
  split; [exact Lv|]. split.
  - cbn [shape]. unfold card, vals, od. rewrite !map_map. cbn [snd]. apply Forall2_map_in. intros v I. eauto.
  - intros o idx F H.
    assert (Fo : full od o).
    { intros v l I. apply in_map_iff in I as (w & E & I). injection E as -> <-.
      clear -H I Hg. induction H as [|w i r idx (l & x & A & B & C) H IH]; [destruct I|].
      destruct I as [->|I].
      - exists x. split; auto. rewrite (Hg v (or_introl eq_refl)) in A. injection A as ->. eapply nth_error_In; eauto.
      - apply IH; auto. intros w' I'. apply Hg. right; auto. }
    destruct (rowpos_ravel_idx od o idx) as [B R]; auto.
    { intros v l I. apply (proj2 Wo v l I). }
    { clear -H Hg. unfold od. induction H as [|w i r idx (l & x & A & B & C) H IH]; simpl; constructor.
      - cbn [fst snd]. exists x. split; auto. rewrite (Hg w (or_introl eq_refl)) in A. injection A as ->. auto.
      - apply IH. intros w' I'. apply Hg. right; auto. }
    destruct (get_full s o W F) as (x & _ & G). exists x. split; auto.
    unfold nd_get. cbn [shape flat]. rewrite B, R.
    assert (Nth : nth_error (all_assignments od) (rowpos od o) = Some (obs_of (keys od) (asg_of o))).
    { rewrite rowpos_ravel by auto. apply all_assignments_nth. apply full_valid; auto. }
    destruct (mapM_nth _ _ _ _ _ Ev Nth) as (y & Ny & Gy).
    apply py_nth_ok. rewrite Ny. f_equal.
    rewrite (get_value_agree s o) in Gy; auto; [congruence|].
    intros v I. rewrite obs_of_get by (rewrite Ko; apply Is; auto).
    unfold asg_of, over. apply keys_In in I as (l & I). destruct (F v l I) as (z & -> & _). auto.
Qed.

Lemma mf_values_array_ok f order : wf_mf f -> Permutation order (mf_vars f) ->
  exists a, mf_values_array f order = Ok a /\ nd_wf a /\
    Forall2 (fun v n => exists l, dget v (mf_domain f) = Some l /\ n = length l) order (shape a) /\
    forall o idx, full (mf_domain f) o ->
      Forall2 (fun v i => exists l x, dget v (mf_domain f) = Some l /\ dget v o = Some x /\ nth_error l i = Some x)
              order idx ->
      exists x, mf_get_value f o = Ok x /\ nd_get a idx = Ok x.
Proof.
  intros (W & U & N & I) P. unfold mf_values_array. apply values_array_gen; auto.
  - apply (usable_wf _ U).
  - apply (usable_wf _ U).
  - eapply Permutation_NoDup; [apply Permutation_sym; eauto|]. apply (usable_wf _ U).
  - intros v J. eapply Permutation_in; eauto.
  - intros v J. eapply Permutation_in; [apply Permutation_sym; eauto|]. auto.
  - intros ->. apply Permutation_nil in P. auto.
Qed.

Lemma mf_values_array_default f : mf_values_array f [] = mf_values_array f (mf_vars f).
Proof. unfold mf_values_array, values_array, mf_vars. destruct (keys (mf_domain f)); reflexivity. Qed.

(** ** renaming *)

Lemma dget_rename {A} m (d : dict var A) v : (forall x y, In x (v :: keys d) -> In y (v :: keys d) ->
    rename1 m x = rename1 m y -> x = y) ->
  dget (rename1 m v) (map (fun vs => (rename1 m (fst vs), snd vs)) d) = dget v d.
Proof.
  induction d as [|[w x] d IH]; intros Inj; [reflexivity|]. cbn [map dget fst snd].
  destruct (eqd v w) as [->|N].
  - rewrite eqd_refl. auto.
  - rewrite eqd_neq.
    + apply IH. intros a b Ia Ib. apply Inj; simpl in *; tauto.
    + intros E. apply N. apply Inj; simpl; auto.
Qed.

Lemma size_rename m d : size (map (fun vd : var * list state => (rename1 m (fst vd), snd vd)) d) = size d.
Proof. induction d as [|[v l] d IH]; simpl; auto. Qed.

Lemma rowpos_rename m d o : (forall x y, In x (keys d ++ keys o) -> In y (keys d ++ keys o) ->
    rename1 m x = rename1 m y -> x = y) ->
  rowpos (map (fun vd : var * list state => (rename1 m (fst vd), snd vd)) d) (rename_obs m o) = rowpos d o.
Proof.
  induction d as [|[v l] d IH]; intros Inj; [reflexivity|]. cbn [map rowpos fst snd].
  rewrite size_rename, IH.
  - unfold rename_obs. rewrite dget_rename; [reflexivity|].
    intros x y Ix Iy. apply Inj; simpl in *; rewrite in_app_iff; tauto.
  - intros x y Ix Iy. apply Inj; simpl; auto.
Qed.

Lemma NoDup_map_inj {A B} (f : A -> B) l : (forall x y, In x l -> In y l -> f x = f y -> x = y) -> NoDup l -> NoDup (map f l).
Proof.
  intros Inj N. induction N as [|x l I N IH]; simpl; constructor.
  - intros J. apply in_map_iff in J as (y & E & J). apply Inj in E; simpl; auto. subst. auto.
  - apply IH. intros a b Ia Ib. apply Inj; simpl; auto.
Qed.

Lemma mf_rename_ok f m : wf_mf f ->
  (forall x y, In x (mf_vars f) -> In y (mf_vars f) -> rename1 m x = rename1 m y -> x = y) ->
  (forall v s, In v (mf_vars f) -> rename1 m v <> String "_"%char s) ->
  exists f', mf_rename f m = Ok f' /\ wf_mf f' /\ mf_vtype f' = mf_vtype f /\
    mf_domain f' = map (fun vl => (rename1 m (fst vl), snd vl)) (mf_domain f) /\
    mf_right f' = map (rename1 m) (mf_right f) /\ mf_left f' = map (rename1 m) (mf_left f) /\
    forall o, full (mf_domain f) o -> incl (keys o) (mf_vars f) ->
      exists x, mf_get_value f o = Ok x /\ mf_get_value f' (rename_obs m o) = Ok x.
Proof.
  intros (W & U & N & I) Inj Und. unfold mf_rename, mf_values.
  destruct (values_list_ok (mf_store f) W) as (xs & Ex & Lx & Hx). rewrite Ex. cbn [bind mf_builder].
  set (nd := map (fun vl : var * list state => (rename1 m (fst vl), snd vl)) (mf_domain f)).
  assert (Knd : keys nd = map (rename1 m) (mf_vars f)).
  { unfold nd, keys, mf_vars, keys. rewrite !map_map. reflexivity. }
  assert (Wd := usable_wf _ U).
  assert (Nnd : NoDup (keys nd)).
  { rewrite Knd. apply NoDup_map_inj; auto. apply Wd. }
  assert (Ed : rename_domain m (mf_domain f) = nd) by (apply dict_of_id; auto).
  rewrite Ed.
  assert (Und' : usable nd).
  { destruct U as (W1 & T & _). split.
    - split; auto. intros v l J. apply in_map_iff in J as ([w l'] & E & J). injection E as <- <-. apply (proj2 W1 w l' J).
    - split.
      + intros v l x y J. apply in_map_iff in J as ([w l'] & E & J). injection E as <- <-. eapply T; eauto.
      + intros v s J. rewrite Knd in J. apply in_map_iff in J as (w & <- & J). auto. }
  assert (LI : forall v, In v (mf_left f) -> In v (mf_vars f)) by (intros v J; apply mf_left_In in J; apply J).
  assert (R : exists rv, set_variables (keys nd) (Some (map (rename1 m) (mf_left f))) (Some (map (rename1 m) (mf_right f))) = Ok rv).
  { apply set_variables_both. rewrite Knd. split.
    - intros v. rewrite <- in_app_iff, <- map_app. rewrite !in_map_iff.
      assert (P := wf_mf_partitioned f (conj W (conj U (conj N I)))). destruct P as (_ & _ & _ & P & _).
      split; intros (w & E & J); exists w; split; auto; [apply in_app_iff, P; auto|apply P, in_app_iff; auto].
    - intros v [A B]. apply in_map_iff in A as (x & Ex' & A). apply in_map_iff in B as (y & Ey & B).
      assert (x = y) by (apply Inj; auto; congruence). subst y. apply mf_left_In in A. tauto. }
  destruct R as (rv & R).
  assert (rv = map (rename1 m) (mf_right f)).
  { cbn [set_variables] in R. destruct (_ && _) in R; congruence. }
  subst rv.
  destruct (mf_init_ok nd (flist xs) xs (Some (map (rename1 m) (mf_left f))) (Some (map (rename1 m) (mf_right f)))
    (map (rename1 m) (mf_right f)) (mf_vtype f)) as (f' & E & Ws & D & T & Rf & H & _); auto.
  { unfold nd. rewrite size_rename, size_prodl. auto. }
  { left; auto. }
  exists f'. split; [exact E|]. split.
  { split; [auto|]. rewrite D. split; [auto|]. rewrite Rf. split.
    - apply NoDup_map_inj; auto.
    - unfold mf_vars. rewrite D, Knd. intros v J. apply in_map_iff in J as (w & <- & J). apply in_map; auto. }
  split; [auto|]. split; [auto|]. split; [auto|]. split.
  { unfold mf_left, mf_vars. rewrite D, Rf, Knd. fold (mf_vars f).
    clear -Inj I. assert (Inj' : forall x y, In x (mf_vars f) -> In y (mf_right f) -> rename1 m x = rename1 m y -> x = y).
    { intros; apply Inj; auto. }
    clear Inj I. induction (mf_vars f) as [|v vs IH]; [reflexivity|]. cbn [map filter].
    assert (mem (rename1 m v) (map (rename1 m) (mf_right f)) = mem v (mf_right f)) as ->.
    { destruct (mem v (mf_right f)) eqn:M.
      - apply mem_In, in_map, mem_In; auto.
      - apply mem_nIn. intros J. apply in_map_iff in J as (w & E & J). apply mem_nIn in M. apply M.
        rewrite (Inj' v w); auto. left; auto. }
    rewrite IH by (intros; apply Inj'; auto; right; auto). destruct (negb (mem v (mf_right f))); reflexivity. }
  intros o F K. destruct (get_full (mf_store f) o W F) as (x & Lk & G). exists x. split; auto.
  destruct (H (rename_obs m o)) as (y & Gy & Ny).
  { intros v l J. apply in_map_iff in J as ([w l'] & E' & J). injection E' as <- <-.
    unfold rename_obs. cbn [fst snd]. rewrite dget_rename; [apply F; auto|].
    intros a b Ia Ib. apply Inj.
    - destruct Ia as [<-|Ia]; [apply keys_In; eauto|auto].
    - destruct Ib as [<-|Ib]; [apply keys_In; eauto|auto]. }
  rewrite Gy. f_equal. unfold nd in Ny. rewrite rowpos_rename in Ny.
  - rewrite rowpos_ravel in Ny by auto. unfold mf_domain in Ny. rewrite Hx in Ny by (apply full_valid; auto). congruence.
  - intros a b Ia Ib. apply Inj; apply in_app_or in Ia as [Ia|Ia]; apply in_app_or in Ib as [Ib|Ib]; auto.
Qed.

Lemma mf_rename_underscore f m v s : wf_mf f ->
  (forall x y, In x (mf_vars f) -> In y (mf_vars f) -> rename1 m x = rename1 m y -> x = y) ->
  In v (mf_vars f) -> rename1 m v = String "_"%char s -> mf_rename f m = Raise ValueError.
Proof.
  intros (W & U & N & I) Inj Iv E. unfold mf_rename, mf_values.
  destruct (values_list_ok (mf_store f) W) as (xs & Ex & _). rewrite Ex. cbn [bind mf_builder].
  unfold mf_init. assert (C : check_domain (rename_domain m (mf_domain f)) = Raise ValueError).
  { set (d := rename_domain m (mf_domain f)).
    assert (Nd : NoDup (keys d)) by (apply NoDup_dmerge; constructor).
    destruct (check_domain d) as [[]|e] eqn:C.
    - exfalso. apply check_domain_spec in C as [_ C]; auto. apply (C (rename1 m v) s); [|auto].
      unfold d, rename_domain, dict_of. apply keys_dmerge_In. right. unfold keys. rewrite map_map.
      cbn [fst]. unfold mf_vars, keys in Iv. apply in_map_iff in Iv as (p & <- & Iv). apply in_map_iff. eauto.
    - unfold check_domain in C. destruct (negb (forallb _ _)); [congruence|]. destruct (existsb _ _); congruence. }
  rewrite C. reflexivity.
Qed.
