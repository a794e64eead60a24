(** Facts about multinomial factors. *)

From Coq Require Import String Ascii Bool Arith ZArith QArith Qcanon Lia Permutation List.
From Verif Require Import PyBase Num DomainModel NdArray StoreModel NumStore FactorModel PyFacts Spec DomainFacts
  StoreSpec TreeFacts StoreFacts NumFacts StoreOps BigSum StoreMarg StoreMarg2 PropFacts1 StoreExpr PropFacts2 FactorSpec.
Import ListNotations.
Local Open Scope nat_scope.

(** ** domains *)

Lemma nodup_one {A} (dec : forall x y : A, {x = y} + {x <> y}) (l : list A) :
  (length (nodup dec l) =? 1) = true <-> l <> [] /\ forall x y, In x l -> In y l -> x = y.
Proof.
  split.
  - intros B. apply Nat.eqb_eq in B. split.
    + intros ->. discriminate.
    + intros x y Ix Iy. rewrite <- (nodup_In dec) in Ix. rewrite <- (nodup_In dec) in Iy.
      destruct (nodup dec l) as [|a [|b r]]; try discriminate. destruct Ix as [<-|[]], Iy as [<-|[]]. auto.
  - intros [N H]. apply Nat.eqb_eq. destruct l as [|x l]; [congruence|].
    assert (ND := NoDup_nodup dec (x :: l)). assert (I : In x (nodup dec (x :: l))) by (apply nodup_In; left; auto).
    assert (U : forall y, In y (nodup dec (x :: l)) -> y = x).
    { intros y Iy. apply nodup_In in Iy. apply H; auto. left; auto. }
    destruct (nodup dec (x :: l)) as [|a [|b r]]; auto; [destruct I|].
    exfalso. inversion_clear ND as [|? ? N1 N2]. apply N1. left. 
    rewrite (U a), (U b); [auto|right; left; auto|left; auto].
Qed.

Lemma underscored_spec v : underscored v = true <-> exists s, v = String "_"%char s.
Proof.
  destruct v as [|c s]; simpl.
  - split; [discriminate|]. intros (s & E); discriminate.
  - rewrite Ascii.eqb_eq. split; [intros ->; eauto|]. intros (s' & E). congruence.
Qed.

Lemma check_domain_spec d : NoDup (keys d) ->
  (check_domain d = Ok tt <->
   (forall v l, In (v, l) d -> l <> [] /\ forall x y, In x l -> In y l -> type_of x = type_of y) /\
   (forall v s, In v (keys d) -> v <> String "_"%char s)).
Proof.
  intros ND. unfold check_domain.
  destruct (forallb (fun l => length (nodup eqd (map type_of l)) =? 1) (vals d)) eqn:A; simpl.
  - destruct (existsb underscored (keys d)) eqn:B.
    + split; [discriminate|]. intros [_ H]. exfalso. apply existsb_exists in B as (v & I & U).
      apply underscored_spec in U as (s & ->). eapply H; eauto.
    + split; auto. intros _. split.
      * intros v l I. rewrite forallb_forall in A. assert (X := A l (proj2 (vals_In d l) (ex_intro _ v I))).
        apply nodup_one in X as [N H]. split.
        { intros ->. apply N. reflexivity. }
        intros x y Ix Iy. apply H; apply in_map; auto.
      * intros v s I ->. assert (X : existsb underscored (keys d) = true); [|congruence].
        apply existsb_exists. exists (String "_"%char s). split; [exact I|reflexivity].
  - split; [discriminate|]. intros [H _]. exfalso.
    assert (X : forallb (fun l => length (nodup eqd (map type_of l)) =? 1) (vals d) = true); [|congruence].
    apply forallb_forall. intros l I. apply vals_In in I as (v & I). destruct (H v l I) as [N S].
    apply nodup_one. split.
    + destruct l; [congruence|discriminate].
    + intros x y Ix Iy. apply in_map_iff in Ix as (x' & <- & Ix). apply in_map_iff in Iy as (y' & <- & Iy). auto.
Qed.

Lemma usable_check d : usable d -> check_domain d = Ok tt.
Proof.
  intros ((ND & W) & T & U). apply check_domain_spec; auto. split; auto.
  intros v l I. destruct (W v l I). split; auto. intros. eapply T; eauto.
Qed.

Lemma usable_wf d : usable d -> wf_dom d.
Proof. intros H. apply H. Qed.

Lemma usable_drop vs d : usable d -> usable (drop vs d).
Proof.
  intros (W & T & U). split; [apply wf_drop; auto|]. split.
  - intros v l x y I. apply filter_In in I as [I _]. eapply T; eauto.
  - intros v s I. apply keys_In in I as (l & I). apply filter_In in I as [I _]. apply U. apply keys_In. eauto.
Qed.

Lemma usable_pick vs d : usable d -> usable (pick vs d).
Proof.
  intros (W & T & U). split; [apply wf_pick; auto|]. split.
  - intros v l x y I. apply filter_In in I as [I _]. eapply T; eauto.
  - intros v s I. apply keys_In in I as (l & I). apply filter_In in I as [I _]. apply U. apply keys_In. eauto.
Qed.

Lemma join_In d1 d2 v l : In (v, l) (join d1 d2) -> In (v, l) d1 \/ In (v, l) d2.
Proof. intros I. apply in_app_or in I as [I|I]; auto. apply filter_In in I as [I _]. auto. Qed.

Lemma join_keys d1 d2 v : In v (keys (join d1 d2)) <-> In v (keys d1) \/ In v (keys d2).
Proof.
  split.
  - intros I. apply keys_In in I as (l & I). apply join_In in I as [I|I]; [left|right]; apply keys_In; eauto.
  - intros [I|I].
    + unfold join. rewrite keys_app. apply in_or_app; auto.
    + unfold join. rewrite keys_app. apply in_or_app.
      destruct (mem v (keys d1)) eqn:M; [left; apply mem_In; auto|right].
      apply mem_In. rewrite mem_keys_drop, M. apply mem_In in I. rewrite I. reflexivity.
Qed.

Lemma usable_join d1 d2 : usable d1 -> usable d2 -> compatible d1 d2 -> usable (join d1 d2).
Proof.
  intros (W1 & T1 & U1) (W2 & T2 & U2) C. split.
  - rewrite <- join_dmerge by auto. apply wf_dom_dmerge; auto.
  - split.
    + intros v l x y I. apply join_In in I as [I|I]; eauto.
    + intros v s I. apply join_keys in I as [I|I]; auto.
Qed.

Lemma usable_nil : usable [].
Proof. split; [split; [constructor|intros ? ? []]|]. split; [intros ? ? ? ? []|intros ? ? []]. Qed.

(** ** the constructor on the data of a store *)

Lemma process_st_data {V} (s : store V) : wf_store s ->
  (let* data := process_values (st_domain s) (st_data s) in st_init (st_type s) (st_domain s) data) = Ok s.
Proof.
  intros [W H]. destruct s as [d a|d l|d l|d t]; cbn [st_domain st_type st_data] in *.
  - destruct H as [Sh Le]. destruct a as [sh fl]. simpl in Sh, Le. subst sh.
    cbn [process_values shape flat].
    assert (G : st_init VNumpy d (DArr (mkNd (card d) fl)) = Ok (StNumpy d (mkNd (card d) fl))).
    { cbn [st_init shape]. rewrite eqd_refl, card_length, Nat.eqb_refl. reflexivity. }
    destruct (card d) as [|n [|m r]] eqn:Ec.
    + destruct fl as [|x [|y r]]; try discriminate. cbn [prodl fold_left repeat bind].
      rewrite <- Ec at 1. rewrite Ec. exact G.
    + unfold np_reshape. cbn [flat]. rewrite Le, Nat.eqb_refl. cbn [bind]. exact G.
    + cbn [bind]. exact G.
  - cbn [process_values flist shape flat]. unfold np_reshape. cbn [flat]. rewrite H, Nat.eqb_refl.
    cbn [bind st_init flat]. rewrite H, Nat.eqb_refl. reflexivity.
  - cbn [process_values flist shape flat]. unfold np_reshape. cbn [flat]. rewrite H, Nat.eqb_refl.
    cbn [bind st_init flat]. rewrite H, Nat.eqb_refl. reflexivity.
  - destruct t as [x|v ch].
    + inversion H; subst. cbn [process_values bind st_init]. reflexivity.
    + cbn [process_values bind st_init]. reflexivity.
Qed.

Lemma builder_id f (s : store num) r : wf_store s -> usable (st_domain s) -> st_type s = mf_vtype f ->
  mf_builder f (st_domain s) (st_data s) None (Some r) = Ok (MkM s r).
Proof.
  intros W U T. cbn [mf_builder]. unfold mf_init. rewrite usable_check by auto. cbn [bind].
  assert (P := process_st_data s W). rewrite T in P.
  destruct (process_values (st_domain s) (st_data s)) as [data|e]; [|discriminate].
  cbn [bind] in *. rewrite P. reflexivity.
Qed.

(** ** values given to the constructor *)

Lemma list_nth_eq {A} (l1 l2 : list A) : (forall i, nth_error l1 i = nth_error l2 i) -> l1 = l2.
Proof.
  revert l2; induction l1 as [|x l1 IH]; intros [|y l2] H; auto.
  - specialize (H 0). discriminate.
  - specialize (H 0). discriminate.
  - f_equal; [specialize (H 0); simpl in H; congruence|]. apply IH. intros i. apply (H (S i)).
Qed.

Lemma init_store {V} vt dom (xs : list V) : wf_dom dom -> length xs = size dom ->
  exists s, st_init vt dom (DArr (mkNd (card dom) xs)) = Ok s /\ wf_store s /\ st_domain s = dom /\ st_type s = vt /\
    (forall o, full dom o -> exists x, get_value s o = Ok x /\ nth_error xs (rowpos dom o) = Some x) /\
    values_list s = Ok xs.
Proof.
  intros W L. assert (L' := L). rewrite size_prodl in L'.
  destruct (st_init_flat vt dom xs W L') as (s & E & Ws & D & T & Lk).
  exists s. split; [auto|]. split; [auto|]. split; [auto|]. split; [auto|]. split.
  - intros o F. assert (F' : full (st_domain s) o) by (rewrite D; auto).
    destruct (get_full s o Ws F') as (x & Lx & Gx). exists x. split; auto.
    rewrite Lk in Lx by (apply full_valid; auto). rewrite rowpos_ravel; auto.
  - destruct (values_list_ok s Ws) as (ys & Ey & Ly & Hy). rewrite Ey. f_equal.
    rewrite D in *. apply list_nth_eq. intros i. destruct (Nat.lt_ge_cases i (prodl (card dom))) as [B|B].
    + destruct (unravel _ _ B) as (idx & Bi & <-).
      destruct (coords_surj dom idx (fun _ => SInt 0%Z) W Bi) as (a & Va & <- & _).
      rewrite Hy, Lk; auto.
    + rewrite !(proj2 (nth_error_None _ _)) by lia. reflexivity.
Qed.

Lemma process_given dom v xs : length xs = size dom -> given_values dom v xs ->
  process_values dom v = Ok (DArr (mkNd (card dom) xs)).
Proof.
  intros L [->|[->|(x & -> & ->)]]; cbn [process_values flist shape flat].
  - unfold np_reshape. cbn [flat]. rewrite L, size_prodl, Nat.eqb_refl. reflexivity.
  - assert (L' := L). rewrite size_prodl in L'. destruct (card dom) as [|n [|m r]] eqn:Ec; auto.
    + destruct xs as [|x [|y r]]; try discriminate. reflexivity.
    + unfold np_reshape. cbn [flat]. rewrite L', Nat.eqb_refl. reflexivity.
  - rewrite size_prodl. reflexivity.
Qed.

Lemma mf_init_ok dom v xs l r rv vt : usable dom -> length xs = size dom -> given_values dom v xs ->
  set_variables (keys dom) l r = Ok rv ->
  exists f, mf_init dom v l r vt = Ok f /\ wf_store (mf_store f) /\ mf_domain f = dom /\ mf_vtype f = vt /\
    mf_right f = rv /\
    (forall o, full dom o -> exists x, mf_get_value f o = Ok x /\ nth_error xs (rowpos dom o) = Some x) /\
    mf_values f = Ok xs.
Proof.
  intros U L G R. unfold mf_init. rewrite usable_check, (process_given dom v xs), R by auto. cbn [bind].
  destruct (init_store vt dom xs (usable_wf _ U) L) as (s & E & W & D & T & H & Vl).
  rewrite E. cbn [bind]. eexists. split; [reflexivity|]. unfold mf_domain, mf_vtype, mf_get_value, mf_values.
  cbn [mf_store mf_right]. auto 10.
Qed.

Lemma mf_init_length dom xs l r vt : length xs <> size dom ->
  mf_init dom (flist xs) l r vt = Raise ValueError.
Proof.
  intros N. unfold mf_init, check_domain.
  destruct (negb (forallb _ _)); [reflexivity|]. destruct (existsb underscored (keys dom)); [reflexivity|].
  cbn [bind process_values flist shape]. unfold np_reshape. cbn [flat]. rewrite size_prodl in N.
  apply Nat.eqb_neq in N. rewrite N. reflexivity.
Qed.

(** ** left and right variables *)

Lemma wf_mf_partitioned f : wf_mf f -> partitioned f.
Proof.
  intros (W & U & N & I). assert (NV : NoDup (mf_vars f)) by apply (usable_wf _ U).
  split; [auto|]. split; [apply NoDup_filter; auto|]. split; [auto|]. split.
  - intros v. split.
    + intros J. destruct (mem v (mf_right f)) eqn:M; [right; apply mem_In; auto|left].
      apply filter_In. rewrite M. auto.
    + intros [J|J]; [apply filter_In in J; apply J|auto].
  - intros v [A B]. apply filter_In in A as [_ A]. apply mem_In in B. rewrite B in A. discriminate.
Qed.

Lemma set_variables_ok vars l r rv : NoDup vars ->
  (forall r', r = Some r' -> NoDup r') -> (forall r', l = None -> r = Some r' -> incl r' vars) ->
  set_variables vars l r = Ok rv -> NoDup rv /\ incl rv vars.
Proof.
  intros N Nr Ir. destruct l as [l|], r as [r|]; cbn [set_variables].
  - destruct (_ && _) eqn:B; [|discriminate]. intros E. injection E as <-. split; auto.
    apply andb_true_iff in B as [B _]. apply andb_true_iff in B as [B _]. rewrite forallb_forall in B.
    intros v I. apply mem_In. apply B. apply in_or_app. auto.
  - intros E. injection E as <-. split; [apply NoDup_filter; auto|]. intros v I. apply filter_In in I. apply I.
  - intros E. injection E as <-. auto.
  - intros E. injection E as <-. split; [constructor|]. intros v [].
Qed.

Lemma mf_init_wf dom v xs l r vt f : usable dom -> length xs = size dom -> given_values dom v xs ->
  (forall r', r = Some r' -> NoDup r') -> (forall r', l = None -> r = Some r' -> incl r' (keys dom)) ->
  mf_init dom v l r vt = Ok f -> wf_mf f.
Proof.
  intros U L G N I E. destruct (set_variables (keys dom) l r) as [rv|e] eqn:R.
  - destruct (mf_init_ok dom v xs l r rv vt U L G R) as (f' & E' & W & D & _ & Rf & _).
    rewrite E in E'. injection E' as <-. destruct (set_variables_ok _ _ _ _ (proj1 (usable_wf _ U)) N I R).
    split; [auto|]. unfold mf_vars. rewrite D, Rf. auto.
  - unfold mf_init in E. rewrite usable_check, (process_given dom v xs) in E by auto. cbn [bind] in E.
    destruct (init_store vt dom xs (usable_wf _ U) L) as (s & Es & _). rewrite Es, R in E. discriminate.
Qed.

Lemma set_variables_both vars l r :
  (exists rv, set_variables vars (Some l) (Some r) = Ok rv) <->
  (forall v, In v vars <-> In v l \/ In v r) /\ (forall v, ~ (In v l /\ In v r)).
Proof.
  cbn [set_variables]. split.
  - intros (rv & E). destruct (_ && _) eqn:B in E; [|discriminate].
    apply andb_true_iff in B as [B B3]. apply andb_true_iff in B as [B1 B2].
    rewrite forallb_forall in B1, B2, B3. split.
    + intros v. split.
      * intros I. apply B2, mem_In, in_app_or in I. tauto.
      * intros I. apply mem_In, B1, in_or_app. tauto.
    + intros v [I J]. apply B3 in J. apply mem_In in I. rewrite I in J. discriminate.
  - intros [A B]. assert (X : forallb (fun v => mem v vars) (r ++ l) && forallb (fun v => mem v (r ++ l)) vars
         && forallb (fun v => negb (mem v l)) r = true).
    { rewrite !andb_true_iff, !forallb_forall. repeat split.
      - intros v I. apply mem_In, A. apply in_app_or in I. tauto.
      - intros v I. apply mem_In, in_or_app. apply A in I. tauto.
      - intros v I. destruct (mem v l) eqn:M; auto. apply mem_In in M. exfalso. eapply B; eauto. }
    rewrite X. eauto.
Qed.

Lemma set_variables_raise vars l r e : set_variables vars l r = Raise e -> e = ValueError.
Proof. destruct l, r; simpl; try discriminate. destruct (_ && _); congruence. Qed.

(** ** operations *)

Lemma In_keys_drop v vs d : In v (keys (drop vs d)) <-> In v (keys d) /\ ~ In v vs.
Proof.
  rewrite <- (mem_In v (keys (drop vs d))), mem_keys_drop, andb_true_iff, negb_true_iff, mem_nIn, mem_In. tauto.
Qed.

Lemma mf_left_In f v : In v (mf_left f) <-> In v (mf_vars f) /\ ~ In v (mf_right f).
Proof. unfold mf_left. rewrite filter_In, negb_true_iff, mem_nIn. tauto. Qed.

Lemma existsb_mem_false (l vs : list var) : existsb (fun v => mem v vs) l = false -> forall v, In v l -> ~ In v vs.
Proof.
  intros E v I J. assert (X : existsb (fun v => mem v vs) l = true); [|congruence].
  apply existsb_exists. exists v. split; auto. apply mem_In; auto.
Qed.

Lemma drop_none vs d : (forall v, In v vs -> ~ In v (keys d)) -> drop vs d = d.
Proof.
  intros H. induction d as [|[v l] d IH]; [reflexivity|]. rewrite drop_cons.
  destruct (mem v vs) eqn:M.
  - exfalso. apply mem_In in M. apply (H v M). left; auto.
  - f_equal. apply IH. intros w I J. apply (H w I). right; auto.
Qed.

Lemma pick_none vs d : (forall v, In v vs -> ~ In v (keys d)) -> pick vs d = [].
Proof.
  intros H. induction d as [|[v l] d IH]; [reflexivity|]. unfold pick. cbn [filter fst].
  destruct (mem v vs) eqn:M.
  - exfalso. apply mem_In in M. apply (H v M). left; auto.
  - apply IH. intros w I J. apply (H w I). right; auto.
Qed.

Lemma get_value_agree {V} (s : store V) o o' : wf_store s -> full (st_domain s) o ->
  (forall v, In v (keys (st_domain s)) -> dget v o' = dget v o) -> get_value s o' = get_value s o.
Proof.
  intros W F H. destruct (get_full s o W F) as (x & Lx & ->).
  assert (F' : full (st_domain s) o').
  { intros v l I. rewrite H by (apply keys_In; eauto). apply F; auto. }
  apply get_look; auto. rewrite <- Lx. apply look_ext; auto. intros v I. unfold asg_of, over. rewrite H; auto.
Qed.

Lemma mf_restrict_ok f o : wf_mf f ->
  (forall v l x, In (v, l) (mf_domain f) -> dget v o = Some x -> In x l) ->
  exists f', mf_restrict f o = Ok f' /\ wf_mf f' /\ mf_vtype f' = mf_vtype f /\
    mf_domain f' = drop (keys o) (mf_domain f) /\
    (forall v, In v (mf_right f') <-> In v (mf_right f) /\ ~ In v (keys o)) /\
    (forall v, In v (mf_left f') <-> In v (mf_left f) /\ ~ In v (keys o)) /\
    forall o', full (drop (keys o) (mf_domain f)) o' ->
      exists x, mf_get_value f' o' = Ok x /\ mf_get_value f (o ++ o') = Ok x.
Proof.
  intros (W & U & N & I) K. unfold mf_restrict.
  destruct (existsb (fun v => mem v (mf_vars f)) (keys o)) eqn:X; cbn [negb].
  - destruct (restrict_obs (mf_store f) o W K) as (s & E & Ws & T & D & H). rewrite E. cbn [bind].
    assert (Us : usable (st_domain s)) by (rewrite D; apply usable_drop; auto).
    rewrite builder_id by auto. eexists. split; [reflexivity|].
    assert (RI : forall v, In v (filter (fun v => mem v (mf_right f)) (st_variables s)) <->
        In v (mf_right f) /\ ~ In v (keys o)).
    { intros v. rewrite filter_In, mem_In. unfold st_variables. rewrite D, In_keys_drop.
      split; [tauto|]. intros [A B]. split; [split; [apply I; exact A|exact B]|exact A]. }
    assert (WF : wf_mf (MkM s (filter (fun v => mem v (mf_right f)) (st_variables s)))).
    { split; [auto|]. split; [auto|]. cbn [mf_right]. split; [apply NoDup_filter; apply (usable_wf _ Us)|].
      intros v J. apply filter_In in J. apply J. }
    split; [auto|]. split; [exact T|]. split; [exact D|]. split; [exact RI|]. split; [|exact H].
    intros v. rewrite !mf_left_In. cbn [mf_right]. rewrite RI.
    assert (A : In v (mf_vars (MkM s (filter (fun v => mem v (mf_right f)) (st_variables s)))) <->
       In v (mf_vars f) /\ ~ In v (keys o)).
    { unfold mf_vars, mf_domain. cbn [mf_store]. rewrite D. apply In_keys_drop. }
    rewrite A. tauto.
  - assert (Z := existsb_mem_false _ _ X). exists f. split; [auto|]. split; [exact (conj W (conj U (conj N I)))|].
    split; [auto|]. rewrite drop_none by auto. split; [auto|].
    assert (Z1 : forall v, In v (mf_vars f) -> ~ In v (keys o)) by (intros v A B; eapply Z; eauto).
    split; [intros v; split; [intros A; split; auto|tauto]|].
    split; [intros v; split; [intros A; split; auto; apply Z1; apply mf_left_In in A; apply A|tauto]|].
    intros o' F. destruct (get_full (mf_store f) o' W F) as (x & _ & G). exists x. split; auto.
    unfold mf_get_value. rewrite <- G. apply get_value_agree; auto. intros v J. rewrite dget_app.
    assert (dget v o = None) as -> by (apply dget_None; auto). reflexivity.
Qed.

Lemma mf_marginalize_ok f vs : wf_mf f -> NoDup vs -> incl vs (mf_vars f) ->
  exists f', mf_marginalize f vs = Ok f' /\ wf_mf f' /\ mf_vtype f' = mf_vtype f /\
    mf_domain f' = drop vs (mf_domain f) /\
    (forall v, In v (mf_right f') <-> In v (mf_right f) /\ ~ In v vs) /\
    (forall v, In v (mf_left f') <-> In v (mf_left f) /\ ~ In v vs) /\
    forall o, full (drop vs (mf_domain f)) o ->
      exists xs, Forall2 (fun p x => mf_get_value f (p ++ o) = Ok x) (all_assignments (pick vs (mf_domain f))) xs /\
                 mf_get_value f' o = Ok (nsum xs).
Proof.
  intros (W & U & N & I) NV IV. unfold mf_marginalize.
  destruct (existsb (fun v => mem v (mf_vars f)) vs) eqn:X; cbn [negb].
  - destruct (marginalize_obs (mf_store f) vs W NV IV) as (s & E & Ws & T & D & H). rewrite E. cbn [bind].
    assert (Us : usable (st_domain s)) by (rewrite D; apply usable_drop; auto).
    rewrite builder_id by auto. eexists. split; [reflexivity|].
    assert (RI : forall v, In v (filter (fun v => mem v (mf_right f)) (st_variables s)) <->
        In v (mf_right f) /\ ~ In v vs).
    { intros v. rewrite filter_In, mem_In. unfold st_variables. rewrite D, In_keys_drop.
      split; [tauto|]. intros [A B]. split; [split; [apply I; exact A|exact B]|exact A]. }
    assert (WF : wf_mf (MkM s (filter (fun v => mem v (mf_right f)) (st_variables s)))).
    { split; [auto|]. split; [auto|]. cbn [mf_right]. split; [apply NoDup_filter; apply (usable_wf _ Us)|].
      intros v J. apply filter_In in J. apply J. }
    split; [auto|]. split; [exact T|]. split; [exact D|]. split; [exact RI|]. split; [|exact H].
    intros v. rewrite !mf_left_In. cbn [mf_right]. rewrite RI.
    assert (A : In v (mf_vars (MkM s (filter (fun v => mem v (mf_right f)) (st_variables s)))) <->
       In v (mf_vars f) /\ ~ In v vs).
    { unfold mf_vars, mf_domain. cbn [mf_store]. rewrite D. apply In_keys_drop. }
    rewrite A. tauto.
  - assert (Z := existsb_mem_false _ _ X). assert (vs = []) as ->.
    { destruct vs as [|v vs]; auto. exfalso. apply (Z v); [left; auto|apply IV; left; auto]. }
    exists f. split; [auto|]. split; [exact (conj W (conj U (conj N I)))|].
    split; [auto|]. rewrite drop_none by auto. split; [auto|].
    split; [intros v; simpl; tauto|]. split; [intros v; simpl; tauto|].
    intros o F. rewrite pick_none by auto. cbn [all_assignments].
    destruct (get_full (mf_store f) o W F) as (x & _ & G). exists [x]. split; [constructor; [exact G|constructor]|].
    unfold mf_get_value. rewrite G, nsum_cons, nsum_nil, nadd_0_r. reflexivity.
Qed.

Lemma mf_maxmarginalize_ok f vs : wf_mf f -> NoDup vs -> incl vs (mf_vars f) ->
  (forall o, full (mf_domain f) o -> exists q, mf_get_value f o = Ok (Fin q)) -> mf_vtype f <> VNumpy1D ->
  exists f', mf_maxmarginalize f vs = Ok f' /\ wf_mf f' /\ mf_vtype f' = mf_vtype f /\
    mf_domain f' = drop vs (mf_domain f) /\
    (forall v, In v (mf_right f') <-> In v (mf_right f) /\ ~ In v vs) /\
    (forall v, In v (mf_left f') <-> In v (mf_left f) /\ ~ In v vs) /\
    forall o, full (drop vs (mf_domain f)) o ->
      exists q, mf_get_value f' o = Ok (Fin q) /\
        (exists p, In p (all_assignments (pick vs (mf_domain f))) /\ mf_get_value f (p ++ o) = Ok (Fin q)) /\
        (forall p q', In p (all_assignments (pick vs (mf_domain f))) ->
           mf_get_value f (p ++ o) = Ok (Fin q') -> (q' <= q)%Qc).
Proof.
  intros (W & U & N & I) NV IV Fi T1. unfold mf_maxmarginalize.
  destruct (existsb (fun v => mem v (mf_vars f)) vs) eqn:X; cbn [negb].
  - destruct (maxmarginalize_obs (mf_store f) vs W Fi NV IV T1) as (s & E & Ws & T & D & H). rewrite E. cbn [bind].
    assert (Us : usable (st_domain s)) by (rewrite D; apply usable_drop; auto).
    rewrite builder_id by auto. eexists. split; [reflexivity|].
    assert (RI : forall v, In v (filter (fun v => mem v (mf_right f)) (st_variables s)) <->
        In v (mf_right f) /\ ~ In v vs).
    { intros v. rewrite filter_In, mem_In. unfold st_variables. rewrite D, In_keys_drop.
      split; [tauto|]. intros [A B]. split; [split; [apply I; exact A|exact B]|exact A]. }
    assert (WF : wf_mf (MkM s (filter (fun v => mem v (mf_right f)) (st_variables s)))).
    { split; [auto|]. split; [auto|]. cbn [mf_right]. split; [apply NoDup_filter; apply (usable_wf _ Us)|].
      intros v J. apply filter_In in J. apply J. }
    split; [auto|]. split; [exact T|]. split; [exact D|]. split; [exact RI|]. split; [|exact H].
    intros v. rewrite !mf_left_In. cbn [mf_right]. rewrite RI.
    assert (A : In v (mf_vars (MkM s (filter (fun v => mem v (mf_right f)) (st_variables s)))) <->
       In v (mf_vars f) /\ ~ In v vs).
    { unfold mf_vars, mf_domain. cbn [mf_store]. rewrite D. apply In_keys_drop. }
    rewrite A. tauto.
  - assert (Z := existsb_mem_false _ _ X). assert (vs = []) as ->.
    { destruct vs as [|v vs]; auto. exfalso. apply (Z v); [left; auto|apply IV; left; auto]. }
    exists f. split; [auto|]. split; [exact (conj W (conj U (conj N I)))|].
    split; [auto|]. rewrite drop_none by auto. split; [auto|].
    split; [intros v; simpl; tauto|]. split; [intros v; simpl; tauto|].
    intros o F. rewrite pick_none by auto. cbn [all_assignments].
    destruct (Fi o F) as (q & G). exists q. split; [auto|]. split; [exists []; split; [left; auto|exact G]|].
    intros p q' [<-|[]] G'. simpl in G'. assert (q' = q) by congruence. subst. apply Qcle_refl.
Qed.

Lemma mf_arith_ok op f g : wf_mf f -> wf_mf g -> mf_vtype f = mf_vtype g ->
  compatible (mf_domain f) (mf_domain g) ->
  exists h, mf_arith (st_combine n0 op) f (OFac g) = Ok h /\ wf_mf h /\ mf_vtype h = mf_vtype f /\
    mf_domain h = join (mf_domain f) (mf_domain g) /\
    (forall v, In v (mf_left h) <-> In v (mf_left f) \/ In v (mf_left g)) /\
    (forall v, In v (mf_right h) <-> In v (mf_vars h) /\ ~ In v (mf_left f) /\ ~ In v (mf_left g)) /\
    forall o, full (join (mf_domain f) (mf_domain g)) o ->
      exists x y, mf_get_value f o = Ok x /\ mf_get_value g o = Ok y /\ mf_get_value h o = Ok (op x y).
Proof.
  intros (W1 & U1 & N1 & I1) (W2 & U2 & N2 & I2) T C. unfold mf_arith. cbn [prepare_operand bind].
  destruct (combine_obs n0 op (mf_store f) (mf_store g) W1 W2 T C) as (s & E & Ws & Ts & D & H).
  rewrite E. cbn [bind].
  assert (Us : usable (st_domain s)) by (rewrite D; apply usable_join; auto).
  rewrite builder_id by auto. eexists. split; [reflexivity|].
  set (R := filter (fun v => negb (mem v (mf_left f)) && negb (mem v (mf_left g))) (st_variables s)).
  assert (RI : forall v, In v R <-> In v (st_variables s) /\ ~ In v (mf_left f) /\ ~ In v (mf_left g)).
  { intros v. unfold R. rewrite filter_In, andb_true_iff, !negb_true_iff, !mem_nIn. tauto. }
  assert (WF : wf_mf (MkM s R)).
  { split; [auto|]. split; [auto|]. cbn [mf_right]. split; [apply NoDup_filter; apply (usable_wf _ Us)|].
    intros v J. apply filter_In in J. apply J. }
  split; [auto|]. split; [exact Ts|]. split; [exact D|]. split; [|split; [exact RI|exact H]].
  intros v. rewrite mf_left_In. cbn [mf_right]. rewrite RI.
  assert (A : In v (mf_vars (MkM s R)) <-> In v (mf_vars f) \/ In v (mf_vars g)).
  { unfold mf_vars at 1, mf_domain. cbn [mf_store]. rewrite D. apply join_keys. }
  change (st_variables s) with (mf_vars (MkM s R)). rewrite A.
  assert (Lf : In v (mf_left f) -> In v (mf_vars f)) by (rewrite mf_left_In; tauto).
  assert (Lg : In v (mf_left g) -> In v (mf_vars g)) by (rewrite mf_left_In; tauto).
  destruct (mem v (mf_left f)) eqn:M1; destruct (mem v (mf_left g)) eqn:M2;
    rewrite ?mem_In, ?mem_nIn in *; tauto.
Qed.

Lemma mf_divide_ok f g : wf_mf f -> wf_mf g -> mf_vtype f = mf_vtype g ->
  compatible (mf_domain f) (mf_domain g) ->
  exists h, mf_divide f (OFac g) = Ok h /\ wf_mf h /\ mf_vtype h = mf_vtype f /\
    mf_domain h = join (mf_domain f) (mf_domain g) /\
    (forall v, In v (mf_left h) <-> In v (mf_left f) /\ ~ In v (mf_vars g)) /\
    (forall v, In v (mf_right h) <-> In v (mf_right f) \/ In v (mf_vars g)) /\
    forall o, full (join (mf_domain f) (mf_domain g)) o ->
      exists x y, mf_get_value f o = Ok x /\ mf_get_value g o = Ok y /\
                  mf_get_value h o = Ok (div_op (mf_vtype f) x y).
Proof.
  intros (W1 & U1 & N1 & I1) (W2 & U2 & N2 & I2) T C. unfold mf_divide. cbn [prepare_operand bind].
  unfold st_divide.
  destruct (combine_obs n0 (div_op (st_type (mf_store f))) (mf_store f) (mf_store g) W1 W2 T C) as (s & E & Ws & Ts & D & H).
  rewrite E. cbn [bind].
  assert (Us : usable (st_domain s)) by (rewrite D; apply usable_join; auto).
  rewrite builder_id by auto. eexists. split; [reflexivity|].
  set (R := filter (fun v => mem v (mf_right f) || mem v (mf_vars g)) (st_variables s)).
  assert (A : forall v, In v (mf_vars (MkM s R)) <-> In v (mf_vars f) \/ In v (mf_vars g)).
  { intros v. unfold mf_vars at 1, mf_domain. cbn [mf_store]. rewrite D. apply join_keys. }
  assert (RI : forall v, In v R <-> In v (mf_right f) \/ In v (mf_vars g)).
  { intros v. unfold R. rewrite filter_In, orb_true_iff, !mem_In. change (st_variables s) with (mf_vars (MkM s R)).
    rewrite A. split; [tauto|]. intros [J|J]; auto. }
  assert (WF : wf_mf (MkM s R)).
  { split; [auto|]. split; [auto|]. cbn [mf_right]. split; [apply NoDup_filter; apply (usable_wf _ Us)|].
    intros v J. apply filter_In in J. apply J. }
  split; [auto|]. split; [exact Ts|]. split; [exact D|]. split; [|split; [exact RI|exact H]].
  intros v. rewrite !mf_left_In. cbn [mf_right]. rewrite RI, A. tauto.
Qed.

(** Scalar operands *)
Lemma prepare_scalar f x : mf_vtype f = mf_vtype f ->
  exists g, prepare_operand f (ONum x) = Ok g /\ wf_mf g /\ mf_vtype g = mf_vtype f /\ mf_domain g = [] /\
    forall o, mf_get_value g o = Ok x.
Proof.
  intros _. cbn [prepare_operand mf_builder].
  destruct (mf_init_ok [] (flist [x]) [x] (Some (mf_left f)) None [] (mf_vtype f)) as
    (g & E & W & D & T & R & H & _); auto.
  - apply usable_nil.
  - left. reflexivity.
  - rewrite E. exists g. split; [auto|]. split.
    + split; [auto|]. rewrite D. split; [apply usable_nil|]. rewrite R. split; [constructor|intros ? []].
    + split; [auto|]. split; [auto|]. intros o. destruct (H o) as (y & Gy & Ny); [intros ? ? []|].
      simpl in Ny. congruence.
Qed.

Lemma mf_scalar_ok op f x : wf_mf f ->
  exists h, mf_arith (st_combine n0 op) f (ONum x) = Ok h /\ wf_mf h /\ mf_vtype h = mf_vtype f /\
    mf_domain h = mf_domain f /\
    (forall v, In v (mf_left h) <-> In v (mf_left f)) /\ (forall v, In v (mf_right h) <-> In v (mf_right f)) /\
    forall o, full (mf_domain f) o ->
      exists y, mf_get_value f o = Ok y /\ mf_get_value h o = Ok (op y x).
Proof.
  intros W. destruct (prepare_scalar f x eq_refl) as (g & E & Wg & Tg & Dg & Hg).
  destruct (mf_arith_ok op f g W Wg) as (h & Eh & Wh & Th & Dh & L & R & H); auto.
  { rewrite Dg. intros v l1 l2 _ []. }
  exists h. split.
  { unfold mf_arith in *. rewrite E. exact Eh. }
  split; [auto|]. split; [auto|].
  assert (J : join (mf_domain f) (mf_domain g) = mf_domain f).
  { rewrite Dg. unfold join. apply app_nil_r. }
  assert (Lg : forall v, ~ In v (mf_left g)).
  { intros v I. apply mf_left_In in I as [I _]. unfold mf_vars in I. rewrite Dg in I. destruct I. }
  split; [congruence|]. split.
  - intros v. rewrite L. specialize (Lg v). tauto.
  - split.
    + intros v. rewrite R. unfold mf_vars. rewrite Dh, J. fold (mf_vars f). rewrite mf_left_In.
      specialize (Lg v). destruct W as (_ & _ & _ & I). split.
      * intros (A & B & _). destruct (mem v (mf_right f)) eqn:M; [apply mem_In; auto|].
        apply mem_nIn in M. tauto.
      * intros A. split; [apply I; auto|]. tauto.
    + intros o F. destruct (H o) as (a & b & A & B & G). { rewrite J. auto. }
      exists a. split; auto. rewrite Hg in B. congruence.
Qed.
