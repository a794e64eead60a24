(** Facts about random_multinomial, uniform_multinomial and
    random_deterministic. *)

From Coq Require Import String Ascii Bool Arith ZArith QArith Qcanon Lia Permutation List.
From Verif Require Import PyBase Num DomainModel NdArray StoreModel NumStore FactorModel GenModel PyFacts Spec DomainFacts
  StoreSpec TreeFacts TreeFacts2 StoreFacts NumFacts StoreOps BigSum StoreMarg StoreMarg2 PropFacts1 StoreExpr PropFacts2
  GenSpec FactorSpec FactorFacts FactorFacts2 FactorFacts3 GenFacts.
Import ListNotations.
Local Open Scope nat_scope.

Lemma qsum_pos (l : list Qc) : (forall q, In q l -> (0 <= q)%Qc) -> (exists q, In q l /\ (0 < q)%Qc) -> (0 < qsum l)%Qc.
Proof.
  assert (N : forall l, (forall q, In q l -> (0 <= q)%Qc) -> (0 <= qsum l)%Qc).
  { clear. induction l as [|x l IH]; intros H; cbn [qsum]; [qclra|].
    assert (A := H x (or_introl eq_refl)). assert (B := IH (fun q J => H q (or_intror J))). qclra. }
  induction l as [|x l IH]; intros H (q & I & P); [destruct I|]. cbn [qsum].
  assert (A := H x (or_introl eq_refl)). destruct I as [->|I].
  - assert (B := N l (fun q J => H q (or_intror J))). qclra.
  - assert (B := IH (fun q J => H q (or_intror J)) (ex_intro _ q (conj I P))). qclra.
Qed.

Lemma Qclt_irrefl0 : ~ (0 < 0)%Qc.
Proof. intros H. qclra. Qed.
Lemma Qc_div_nonneg q s : (0 <= q)%Qc -> (0 < s)%Qc -> (0 <= q / s)%Qc.
Proof.
  intros A B. assert (C : (q / s * s = q)%Qc).
  { unfold Qcdiv. rewrite <- Qcmult_assoc, (Qcmult_comm (/ s)), Qcmult_inv_r, Qcmult_1_r; auto.
    intros ->. revert B. apply Qclt_irrefl0. }
  destruct (Qclt_le_dec (q / s) 0) as [D|D]; auto. exfalso. revert A. rewrite <- C. intros A. generalize dependent (q / s)%Qc. intros t C D A. qcnra.
Qed.

Lemma Qc_div_pos q s : (0 < q)%Qc -> (0 < s)%Qc -> (0 < q / s)%Qc.
Proof.
  intros A B. assert (C : (q / s * s = q)%Qc).
  { unfold Qcdiv. rewrite <- Qcmult_assoc, (Qcmult_comm (/ s)), Qcmult_inv_r, Qcmult_1_r; auto.
    intros ->. revert B. apply Qclt_irrefl0. }
  destruct (Qclt_le_dec 0 (q / s)) as [D|D]; auto. exfalso. revert A. rewrite <- C. intros A. generalize dependent (q / s)%Qc. intros t C D A. qcnra.
Qed.

Lemma at_asg_rowpos dom xs o : full dom o -> at_asg dom xs (asg_of o) = nth (rowpos dom o) xs n0.
Proof. intros F. unfold at_asg. rewrite rowpos_ravel; auto. Qed.

Lemma full_join_within r dom p o : wf_dom dom -> In p (all_assignments (drop r dom)) -> full (pick r dom) o ->
  full dom (p ++ o).
Proof.
  intros W Ip F v l J. assert (Kp := all_assignments_keys _ _ Ip). rewrite dget_app.
  destruct (mem v r) eqn:M.
  - assert (dget v p = None) as ->.
    { apply dget_None. rewrite Kp, In_keys_drop. apply mem_In in M. tauto. }
    apply (F v l). apply filter_In. auto.
  - assert (Wd : wf_dom (drop r dom)) by (apply (wf_dom_filter (fun v => negb (mem v r)) dom W)).
    destruct (all_assignments_In _ _ Wd Ip) as (b & Vb & ->).
    assert (Jd : In (v, l) (drop r dom)) by (apply filter_In; cbn [fst]; rewrite M; auto).
    rewrite obs_of_get by (apply keys_In; eauto). exists (b v). split; auto.
Qed.

(** The table made from the non-negative numbers [raw]. *)
Lemma table_ok dom r vt raw : usable dom -> NoDup r -> incl r (keys dom) -> length raw = size dom ->
  (forall x, In x raw -> exists q, x = Fin q /\ (0 <= q)%Qc) ->
  (forall o, full (pick r dom) o -> exists p q, In p (all_assignments (drop r dom)) /\
     nth_error raw (rowpos dom (p ++ o)) = Some (Fin q) /\ (0 < q)%Qc) ->
  exists f, (let* data := normalize_array (mkNd (card dom) raw) (left_dims dom r) in
             mf_init dom (FArr data) None (Some r) vt) = Ok f /\
    wf_mf f /\ mf_domain f = dom /\ mf_right f = r /\ mf_vtype f = vt /\ normalised f /\
    forall o, full dom o -> exists q, mf_get_value f o = Ok (Fin q) /\ (0 <= q)%Qc /\
      forall x, nth_error raw (rowpos dom o) = Some (Fin x) -> (0 < x)%Qc -> (0 < q)%Qc.
Proof.
  intros U Nr Ir L Pos Some_. assert (W := usable_wf _ U). rewrite size_prodl in L.
  destruct (normalize_ok dom raw r W L) as (ys & E & Ly & Hy). rewrite E. cbn [bind].
  destruct (mf_init_ok dom (FArr (mkNd (card dom) ys)) ys None (Some r) r vt) as (f & Ef & _); auto.
  { rewrite size_prodl; auto. } { right; left; auto. }
  assert (Fn : forall o, full dom o -> exists q, at_asg dom raw (asg_of o) = Fin q /\ (0 <= q)%Qc).
  { intros o F. apply Pos. unfold at_asg. apply nth_In. rewrite L. apply ravel_lt, coords_bounds, full_valid; auto. }
  assert (Tot : forall o, full (pick r dom) o -> exists q, (0 < q)%Qc /\
            nsumdom (drop r dom) (at_asg dom raw) (asg_of o) = Fin q).
  { intros o F. destruct (Some_ o F) as (p & q & Ip & Nq & Q).
    assert (H : exists qs, map (fun p => at_asg dom raw (over p (asg_of o))) (all_assignments (drop r dom)) = map Fin qs /\
              (forall q, In q qs -> (0 <= q)%Qc) /\
              forall p, In p (all_assignments (drop r dom)) -> exists q, In q qs /\ at_asg dom raw (over p (asg_of o)) = Fin q).
    { assert (Hp : forall p, In p (all_assignments (drop r dom)) -> exists q, at_asg dom raw (over p (asg_of o)) = Fin q /\ (0 <= q)%Qc).
      { intros p' I'. destruct (Fn (p' ++ o)) as (q' & A & B); [apply (full_join_within r); auto|]. exists q'. split; auto.
        rewrite <- A. apply at_asg_dep. intros w _. symmetry. apply asg_of_app. }
      clear -Hp. induction (all_assignments (drop r dom)) as [|p ps IH].
      - exists []. split; [reflexivity|]. split; [intros ? []|intros ? []].
      - destruct (IH (fun p' I' => Hp p' (or_intror I'))) as (qs & A & B & C).
        destruct (Hp p (or_introl eq_refl)) as (q & D & P). exists (q :: qs). cbn [map]. split; [congruence|]. split.
        + intros q' [<-|I]; auto.
        + intros p' [<-|I]; [exists q; simpl; auto|]. destruct (C p' I) as (q' & J & K). exists q'; simpl; auto. }
    destruct H as (qs & A & B & C). exists (qsum qs). split.
    - apply qsum_pos; auto. destruct (C p Ip) as (q' & I' & E'). exists q'. split; auto.
      assert (E2 : at_asg dom raw (over p (asg_of o)) = Fin q).
      { transitivity (at_asg dom raw (asg_of (p ++ o))).
        - apply at_asg_dep. intros w _. symmetry. apply asg_of_app.
        - rewrite at_asg_rowpos by (apply (full_join_within r); auto). apply nth_error_nth. exact Nq. }
      assert (q = q') by congruence. subst. auto.
    - unfold sumdom. rewrite A, <- nsum_bsum. apply nsum_Fin. }
  destruct (normalised_table dom r vt raw ys f U Nr Ir L) as (Wf & D & R & T & Nm & Hg); auto.
  { intros o F. destruct (Tot o F) as (q & Q & E'). exists q. split; auto. intros ->. revert Q. apply Qclt_irrefl0. }
  { intros o F. destruct (Fn o F) as (q & A & _). eauto. }
  exists f. repeat (split; [now auto|]).
  intros o F. destruct (Hg o F) as (q & s & A & B & C). exists (q / s)%Qc. split; auto.
  destruct (Fn o F) as (q' & A' & P). assert (q' = q) by congruence. subst q'.
  destruct (Tot o) as (s' & Q & B'). { intros v l J. apply F. apply filter_In in J. apply J. }
  assert (s' = s) by congruence. subst s'.
  split; [apply Qc_div_nonneg; auto|]. intros x Nx Px.
  assert (x = q).
  { rewrite at_asg_rowpos in A by auto. rewrite (nth_error_nth _ _ _ Nx) in A. congruence. }
  subst x. now apply Qc_div_pos.
Qed.

Lemma random_multinomial_ok dom r vt (az : bool) draw : usable dom -> NoDup r -> incl r (keys dom) -> length draw = size dom ->
  (forall x, In x draw -> exists q, x = Fin q /\ if az then (0 <= q)%Qc else (q < 0)%Qc) ->
  (az = true -> forall o, full (pick r dom) o -> exists p q, In p (all_assignments (drop r dom)) /\
     nth_error draw (rowpos dom (p ++ o)) = Some (Fin q) /\ (0 < q)%Qc) ->
  exists f, random_multinomial dom r vt az draw = Ok f /\
    wf_mf f /\ mf_domain f = dom /\ mf_right f = r /\ mf_vtype f = vt /\ normalised f /\
    forall o, full dom o -> exists q, mf_get_value f o = Ok (Fin q) /\ (0 <= q)%Qc /\ (az = false -> (0 < q)%Qc).
Proof.
  intros U Nr Ir L H P. assert (W := usable_wf _ U). unfold random_multinomial.
  destruct (table_ok dom r vt (if az then draw else map (nmul (Fin (- (1))%Qc)) draw) U Nr Ir) as (f & Ef & f1 & f2 & f3 & f4 & f5 & f6).
  4:{ exists f. split; [exact Ef|]. do 5 (split; [assumption|]). intros o Fo. destruct (f6 o Fo) as (q & Gq & Q & Pq). exists q.
      split; [auto|]. split; [auto|]. intros ->.
      assert (B : rowpos dom o < length draw).
      { rewrite L, size_prodl, rowpos_ravel by auto. apply ravel_lt, coords_bounds, full_valid; auto. }
      destruct (nth_error draw (rowpos dom o)) as [y|] eqn:N; [|apply nth_error_None in N; lia].
      destruct (H y) as (x & -> & X); [eapply nth_error_In; eauto|].
      apply (Pq (- (1) * x)%Qc); [|qclra]. rewrite (map_nth_error _ _ _ N). reflexivity. }
  - destruct az; [auto|]. rewrite map_length. auto.
  - destruct az; [exact H|]. intros x J. apply in_map_iff in J as (y & <- & J). destruct (H y J) as (q & -> & Q).
    exists (- (1) * q)%Qc. split; [reflexivity|]. qclra.
  - destruct az; [auto|]. intros o F.
    destruct (all_assignments (drop r dom)) as [|p ps] eqn:E.
    { assert (Z := all_assignments_length (drop r dom)). rewrite E in Z. simpl in Z.
      assert (Wd : wf_dom (drop r dom)) by (apply (wf_dom_filter (fun v => negb (mem v r)) dom W)).
      assert (Y := card_pos _ Wd). lia. }
    assert (Ip : In p (all_assignments (drop r dom))) by (rewrite E; left; auto).
    assert (Fp := full_join_within r dom p o W Ip F).
    assert (B : rowpos dom (p ++ o) < length draw).
    { rewrite L, size_prodl, rowpos_ravel by auto. apply ravel_lt, coords_bounds, full_valid; auto. }
    destruct (nth_error draw (rowpos dom (p ++ o))) as [y|] eqn:N; [|apply nth_error_None in N; lia].
    destruct (H y) as (q & -> & Q); [eapply nth_error_In; eauto|].
    exists p, (- (1) * q)%Qc. split; [left; auto|]. split; [|qclra].
    rewrite (map_nth_error _ _ _ N). reflexivity.
Qed.

Lemma uniform_multinomial_ok dom r vt : usable dom -> NoDup r -> incl r (keys dom) ->
  exists f, uniform_multinomial dom r vt = Ok f /\
    wf_mf f /\ mf_domain f = dom /\ mf_right f = r /\ mf_vtype f = vt /\ normalised f /\
    forall o, full dom o -> mf_get_value f o = Ok (ndiv n1 (nsum (repeat n1 (size (drop r dom))))).
Proof.
  intros U Nr Ir. assert (W := usable_wf _ U). unfold uniform_multinomial.
  set (raw := repeat n1 (prodl (card dom))).
  assert (L : length raw = prodl (card dom)) by apply repeat_length.
  assert (Z : forall a, valid dom a -> at_asg dom raw a = n1).
  { intros a V. unfold at_asg, raw. assert (B := ravel_lt _ _ (coords_bounds dom a V)).
    assert (In (nth (ravel (card dom) (coords dom a)) (repeat n1 (prodl (card dom))) n0) raw) by (apply nth_In; fold raw; lia).
    eapply repeat_spec; eauto. }
  destruct (table_ok dom r vt raw) as (f & E & Wf & D & R & T & Nm & Hp); auto.
  { rewrite size_prodl. auto. }
  { intros x J. apply repeat_spec in J. subst. exists 1%Qc. split; [reflexivity|]. qclra. }
  { intros o F. destruct (all_assignments (drop r dom)) as [|p ps] eqn:E.
    { assert (Y := all_assignments_length (drop r dom)). rewrite E in Y. simpl in Y.
      assert (Wd : wf_dom (drop r dom)) by (apply (wf_dom_filter (fun v => negb (mem v r)) dom W)).
      assert (X := card_pos _ Wd). lia. }
    assert (Ip : In p (all_assignments (drop r dom))) by (rewrite E; left; auto).
    assert (Fp := full_join_within r dom p o W Ip F).
    exists p, 1%Qc. split; [left; auto|]. split; [|qclra].
    assert (B : rowpos dom (p ++ o) < length raw).
    { rewrite L, rowpos_ravel by auto. apply ravel_lt, coords_bounds, full_valid; auto. }
    destruct (nth_error raw (rowpos dom (p ++ o))) as [y|] eqn:N; [|apply nth_error_None in N; lia].
    f_equal. apply nth_error_In in N. apply repeat_spec in N. exact N. }
  exists f. repeat (split; [now auto|]). intros o F.
  destruct (normalize_ok dom raw r W L) as (ys & E2 & Ly & Hy). fold raw in E. rewrite E2 in E. cbn [bind] in E.
  destruct (mf_init_ok dom (FArr (mkNd (card dom) ys)) ys None (Some r) r vt) as (f' & Ef & _ & _ & _ & _ & H & _); auto.
  { rewrite size_prodl; auto. } { right; left; auto. }
  assert (f' = f) by congruence. subst f'. destruct (H o F) as (x & -> & N). f_equal.
  apply nth_error_nth with (d := n0) in N. rewrite <- at_asg_rowpos in N by auto.
  rewrite Hy in N by (apply full_valid; auto). rewrite <- N, Z by (apply full_valid; auto). f_equal.
  change (dfilter (fun v => negb (mem v r)) dom) with (drop r dom). unfold sumdom. rewrite <- nsum_bsum. f_equal.
  rewrite size_prodl, <- all_assignments_length.
  assert (Hz : forall p, In p (all_assignments (drop r dom)) -> at_asg dom raw (over p (asg_of o)) = n1).
  { intros p Ip. rewrite <- (Z (asg_of (p ++ o))).
    - apply at_asg_dep. intros w _. symmetry. apply asg_of_app.
    - apply full_valid. apply (full_join_within r); auto. intros v l J. apply F. apply filter_In in J. apply J. }
  clear -Hz. induction (all_assignments (drop r dom)) as [|p ps IH]; [reflexivity|]. cbn [map length repeat].
  rewrite Hz by (left; auto). f_equal. apply IH. intros p' I. apply Hz. right; auto.
Qed.

(** ** random_deterministic *)

Lemma list_eq_dec_nat (x y : list nat) : {x = y} + {x <> y}.
Proof. decide equality. apply Nat.eq_dec. Qed.

Lemma nd_set_fold {R} (row : R -> list nat) (x : num) sh : sh <> [] -> forall rows (a : nd num), shape a = sh -> nd_wf a ->
  (forall r, In r rows -> in_bounds sh (row r) = true) ->
  exists b, foldM (fun a r => nd_set a (row r) x) rows a = Ok b /\ shape b = sh /\ nd_wf b /\
    (forall r, In r rows -> nd_get b (row r) = Ok x) /\
    forall idx, in_bounds sh idx = true -> (forall r, In r rows -> row r <> idx) -> nd_get b idx = nd_get a idx.
Proof.
  intros Ns. induction rows as [|r rows IH]; intros a Sa Wa B; cbn [foldM].
  - exists a. split; [reflexivity|]. split; [auto|]. split; [auto|]. split; [intros ? []|auto].
  - assert (Br := B r (or_introl eq_refl)).
    assert (Lt : ravel sh (row r) < length (flat a)) by (unfold nd_wf in Wa; rewrite Wa, Sa; apply ravel_lt; auto).
    destruct (list_set_ok (flat a) (ravel sh (row r)) x Lt) as (l' & El & Ll & Hs & Ho).
    assert (E1 : nd_set a (row r) x = Ok (mkNd sh l')).
    { unfold nd_set. rewrite Sa. destruct sh as [|n sh']; [congruence|]. rewrite Br, El. reflexivity. }
    rewrite E1. cbn [bind].
    assert (W1 : nd_wf (mkNd sh l')). { unfold nd_wf in *. cbn [flat shape]. congruence. }
    destruct (IH (mkNd sh l') eq_refl W1) as (b & Eb & Sb & Wb & H1 & H2).
    { intros r' I'. apply B. right; auto. }
    exists b. repeat (split; [now auto|]). split.
    + intros r' [<-|I']; [|auto].
      destruct (in_dec list_eq_dec_nat (row r) (map row rows)) as [J|J].
      * apply in_map_iff in J as (r' & E' & J). rewrite <- E'. auto.
      * rewrite H2; auto.
        -- apply nd_get_flat; auto.
        -- intros r' I' E'. apply J. apply in_map_iff. eauto.
    + intros idx Bi Ni. rewrite H2; auto.
      * assert (Bi2 : in_bounds (shape a) idx = true) by (rewrite Sa; auto). destruct (nd_get_total a idx Wa Bi2) as (y & Ey). rewrite Ey.
        apply nd_get_flat; [auto|]. cbn [flat shape]. rewrite Ho.
        -- apply nd_get_flat in Ey; [|rewrite Sa; auto]. rewrite Sa in Ey. exact Ey.
        -- intros E'. apply (Ni r (or_introl eq_refl)). symmetry. exact (ravel_inj sh idx (row r) Bi Br E').
      * intros r' I'. apply Ni. right; auto.
Qed.

Lemma order_dom_keys dom r : keys (order_dom dom r) = r.
Proof. unfold order_dom, keys. rewrite map_map. simpl. apply map_id. Qed.

Lemma order_dom_In dom r v l : NoDup (keys dom) -> incl r (keys dom) ->
  (In (v, l) (order_dom dom r) <-> In v r /\ In (v, l) dom).
Proof.
  intros N I. unfold order_dom. rewrite in_map_iff. split.
  - intros (w & E & J). injection E as -> <-. split; [auto|]. apply I in J. apply dget_keys in J as (l & El). rewrite El.
    apply dget_In; auto.
  - intros (J & K). exists v. split; [|auto]. rewrite (In_dget v l dom); auto.
Qed.

Lemma order_dom_wf dom r : wf_dom dom -> NoDup r -> incl r (keys dom) -> wf_dom (order_dom dom r).
Proof.
  intros W N I. split; [rewrite order_dom_keys; auto|]. intros v l J. apply order_dom_In in J as [_ J]; [|apply W|auto].
  apply (proj2 W v l J).
Qed.

(** The multi-index of the [k]-th row when the right variables have the
    numeric assignment [idx]. *)
Definition row_of (dom : domain) (r : list var) (choose : nat -> var -> nat) (k : nat) (idx : list nat) : list nat :=
  map (fun v => if mem v r then nth (pos v r) idx 0 else choose k v) (keys dom).

Lemma combine_keys (r : list var) (idx : list nat) : length idx = length r -> keys (combine r idx) = r.
Proof.
  revert idx. unfold keys. induction r as [|w r IH]; intros [|i idx] L; try discriminate L; [reflexivity|].
  cbn [combine map fst]. f_equal. apply IH. simpl in L. congruence.
Qed.

Lemma nth_error_combine {A B} (l : list A) (m : list B) i : nth_error (combine l m) i =
  match nth_error l i, nth_error m i with Some x, Some y => Some (x, y) | _, _ => None end.
Proof.
  revert m i. induction l as [|x l IH]; intros [|y m] [|i]; try reflexivity; cbn [combine nth_error]; auto.
  destruct (nth_error l i); reflexivity.
Qed.

Lemma dget_combine (r : list var) (idx : list nat) v : length idx = length r -> 
  dget v (combine r idx) = if mem v r then Some (nth (pos v r) idx 0) else None.
Proof.
  revert idx. induction r as [|w r IH]; intros [|i idx] L; try discriminate L; [reflexivity|].
  cbn [combine dget]. rewrite mem_cons. unfold pos. cbn [index_of].
  destruct (eqd v w) as [->|N].
  - reflexivity.
  - rewrite orb_false_l, IH by (simpl in L; congruence). unfold pos.
    destruct (index_of v r) eqn:E; [reflexivity|]. apply index_of_None in E.
    assert (mem v r = false) as -> by (apply mem_nIn; auto). reflexivity.
Qed.

Lemma random_assignment_ok dom r choose : wf_dom dom -> NoDup r -> incl r (keys dom) ->
  random_assignment (to_numeric_domains dom) r choose =
  Ok (map (fun ki => combine (keys dom) (row_of dom r choose (fst ki) (snd ki)))
          (combine (seq 0 (prodl (card (order_dom dom r)))) (indices (card (order_dom dom r))))).
Proof.
  intros W Nr Ir. unfold random_assignment.
  assert (D : forall v l, In (v, l) dom -> dget v (to_numeric_domains dom) = Some (seq 0 (length l))).
  { intros v l J. unfold to_numeric_domains. rewrite (dget_map_snd (fun _ l => seq 0 (length l))).
    rewrite (In_dget v l dom); auto. apply W. }
  assert (E1 : mapM (fun v => let* d := dlook v (to_numeric_domains dom) in Ok (v, d)) r =
               Ok (to_numeric_domains (order_dom dom r))).
  { unfold to_numeric_domains at 2, order_dom. rewrite map_map. apply mapM_map_ok. intros v J. cbn [fst snd].
    apply Ir, keys_In in J as (l & J). unfold dlook. rewrite (D v l J). cbn [bind].
    rewrite (In_dget v l dom); auto. apply W. }
  rewrite E1. cbn [bind].
  assert (K : keys (to_numeric_domains (order_dom dom r)) = r) by (rewrite keys_numeric; apply order_dom_keys).
  assert (E2 : dict_of (to_numeric_domains (order_dom dom r)) = to_numeric_domains (order_dom dom r)).
  { apply dict_of_id. rewrite K. auto. }
  rewrite E2.
  assert (E3 : assignment_space (to_numeric_domains (order_dom dom r)) = map (combine r) (indices (card (order_dom dom r)))).
  { unfold assignment_space. rewrite K. f_equal. unfold state_space, indices. f_equal. unfold to_numeric_domains, card, vals.
    rewrite !map_map. reflexivity. }
  rewrite E3, map_length, indices_length.
  rewrite keys_numeric.
  assert (E4 : forall n L, combine (seq n (length L)) (map (combine r) L) =
           map (fun ki : nat * list nat => (fst ki, combine r (snd ki))) (combine (seq n (length L)) L)).
  { intros n L. revert n. induction L as [|x L IH]; intros n; [reflexivity|]. cbn [length seq map combine]. rewrite IH. reflexivity. }
  specialize (E4 0 (indices (card (order_dom dom r)))). rewrite indices_length in E4.
  match goal with |- mapM ?F ?L = _ => transitivity (mapM F (map (fun ki : nat * list nat => (fst ki, combine r (snd ki)))
    (combine (seq 0 (prodl (card (order_dom dom r)))) (indices (card (order_dom dom r)))))); [f_equal; exact E4|] end.
  rewrite mapM_map. apply mapM_map_ok. intros [k idx] J. cbn [fst snd].
  assert (Li : length idx = length r).
  { apply in_combine_r, indices_In, in_bounds_length in J. rewrite J. unfold card, vals, order_dom. rewrite !map_length. reflexivity. }
  assert (E5 : forall vs, mapM (fun v => let* x := dlook v (dmerge (map (fun v => (v, choose k v))
                 (filter (fun v => negb (mem v r)) (keys dom))) (combine r idx)) in Ok (v, x)) vs =
               Ok (map (fun v => (v, if mem v r then nth (pos v r) idx 0 else choose k v)) vs) \/ ~ incl vs (keys dom)).
  { intros vs. destruct (forallb (fun v => mem v (keys dom)) vs) eqn:B.
    - left. apply mapM_map_ok. intros v Jv. rewrite forallb_forall in B. apply B, mem_In in Jv.
      unfold dlook. rewrite dget_dmerge by (rewrite combine_keys; auto). rewrite dget_combine by auto.
      destruct (mem v r) eqn:M; [reflexivity|].
      assert (dget v (map (fun v => (v, choose k v)) (filter (fun v => negb (mem v r)) (keys dom))) = Some (choose k v)) as ->; [|reflexivity].
      apply In_dget.
      + unfold keys at 1. rewrite map_map. cbn [fst]. rewrite map_id. apply NoDup_filter, W.
      + apply in_map_iff. exists v. split; auto. apply filter_In. rewrite M. auto.
    - right. intros I. assert (forallb (fun v => mem v (keys dom)) vs = true); [|congruence].
      apply forallb_forall. intros v Jv. apply mem_In. auto. }
  destruct (E5 (keys dom)) as [E|E]; [|exfalso; apply E; apply incl_refl].
  rewrite E. apply (f_equal Ok). unfold row_of. clear. induction (keys dom) as [|v vs IH]; [reflexivity|]. cbn [map combine]. rewrite IH. reflexivity.
Qed.

Lemma vals_combine (vs : list var) (idx : list nat) : length idx = length vs -> vals (combine vs idx) = idx.
Proof.
  revert idx. induction vs as [|v vs IH]; intros [|i idx] L; try discriminate L; [reflexivity|].
  unfold vals in *. cbn [combine map snd]. f_equal. apply IH. simpl in L. congruence.
Qed.

Lemma row_bounds dom r choose k idx : wf_dom dom -> NoDup r -> incl r (keys dom) ->
  (forall v l, In (v, l) dom -> ~ In v r -> choose k v < length l) ->
  in_bounds (card (order_dom dom r)) idx = true -> in_bounds (card dom) (row_of dom r choose k idx) = true.
Proof.
  intros W Nr Ir C B. unfold row_of.
  assert (Hr : forall v l, In (v, l) dom -> In v r -> nth (pos v r) idx 0 < length l).
  { intros v l J Jr. destruct (coords_surj _ idx (fun _ => SInt 0%Z) (order_dom_wf dom r W Nr Ir) B) as (a & Va & <- & _).
    unfold coords, order_dom. rewrite map_map. cbn [fst snd].
    assert (P := pos_lt v r Jr). set (g := fun w => pos (a w) match dget w dom with Some l0 => l0 | None => [] end).
    assert (E : nth (pos v r) (map g r) 0 = g v).
    { apply nth_error_nth. apply map_nth_error. apply pos_nth; auto. }
    rewrite E. unfold g. rewrite (In_dget v l dom) by (auto; apply W). apply pos_lt. apply (Va v l).
    apply order_dom_In; auto. apply W. }
  revert C Hr. clear. induction dom as [|[v l] dom IH]; intros C Hr; [reflexivity|].
  unfold keys. cbn [map fst]. rewrite card_cons. apply in_bounds_cons. split.
  - destruct (mem v r) eqn:M.
    + apply Hr; [left; auto|apply mem_In; auto].
    + apply C; [left; auto|apply mem_nIn; auto].
  - apply IH.
    + intros w m J. apply C. right; auto.
    + intros w m J. apply Hr. right; auto.
Qed.

Lemma random_deterministic_ok dom r vt choose : usable dom -> dom <> [] -> NoDup r -> incl r (keys dom) ->
  (forall k v l, In (v, l) dom -> choose k v < length l) ->
  exists f, random_deterministic dom (Some r) vt choose = Ok f /\
    wf_mf f /\ mf_domain f = dom /\ mf_right f = r /\ mf_vtype f = vt /\
    forall o, full (pick r dom) o -> exists p, In p (all_assignments (drop r dom)) /\
      mf_get_value f (p ++ o) = Ok n1 /\
      forall p', In p' (all_assignments (drop r dom)) -> p' <> p -> mf_get_value f (p' ++ o) = Ok n0.
Proof.
  intros U Ne Nr Ir C. assert (W := usable_wf _ U). unfold random_deterministic.
  rewrite random_assignment_ok by auto. cbn [bind].
  set (rd := order_dom dom r). set (KI := combine (seq 0 (prodl (card rd))) (indices (card rd))).
  set (row := fun ki : nat * list nat => row_of dom r choose (fst ki) (snd ki)).
  assert (E1 : forall z, foldM (fun a row => nd_set a (vals row) n1) (map (fun ki => combine (keys dom) (row_of dom r choose (fst ki) (snd ki))) KI) z =
               foldM (fun a ki => nd_set a (row ki) n1) KI z).
  { clear. induction KI as [|ki l IH]; intros z; [reflexivity|]. cbn [map foldM].
    rewrite vals_combine by (unfold row_of; apply map_length). fold (row ki). destruct (nd_set z (row ki) n1); cbn [bind]; auto. }
  rewrite E1. set (zeros := mkNd (card dom) (repeat n0 (prodl (card dom)))).
  assert (HKI : forall k idx, In (k, idx) KI <-> in_bounds (card rd) idx = true /\ k = ravel (card rd) idx).
  { intros k idx. unfold KI. split.
    - intros J. apply In_nth_error in J as (i & J). rewrite nth_error_combine in J.
      destruct (nth_error (seq 0 (prodl (card rd))) i) as [k'|] eqn:E2; [|discriminate].
      destruct (nth_error (indices (card rd)) i) as [idx'|] eqn:E3; [|discriminate]. injection J as -> ->.
      assert (Bi : in_bounds (card rd) idx = true) by (apply indices_In; eapply nth_error_In; eauto). split; [auto|].
      assert (i < prodl (card rd)). { rewrite <- (seq_length (prodl (card rd)) 0). apply nth_error_Some. congruence. }
      rewrite (nth_error_nth' _ 0) in E2 by (rewrite seq_length; auto). rewrite seq_nth in E2 by auto. injection E2 as <-. simpl.
      assert (E4 := indices_nth _ _ Bi).
      assert (NoDup (indices (card rd))) as Nd by (apply product_NoDup; intros l Jl; apply in_map_iff in Jl as (n & <- & _); apply seq_NoDup).
      rewrite NoDup_nth_error in Nd. apply Nd; [rewrite indices_length; auto|]. congruence.
    - intros (B & ->). apply nth_error_In with (n := ravel (card rd) idx). rewrite nth_error_combine.
      rewrite (indices_nth _ _ B). assert (L := ravel_lt _ _ B).
      rewrite (nth_error_nth' _ 0) by (rewrite seq_length; auto). rewrite seq_nth by auto. reflexivity. }
  destruct (nd_set_fold row n1 (card dom) ltac:(destruct dom as [|[? ?] ?]; [congruence|rewrite card_cons; discriminate]) KI zeros eq_refl) as (b & Eb & Sb & Wb & H1 & H2).
  { unfold nd_wf, zeros. cbn [flat shape]. apply repeat_length. }
  { intros [k idx] J. apply HKI in J as [B _]. apply row_bounds; auto. }
  rewrite Eb. cbn [bind]. destruct b as [sb xs]. cbn [shape] in Sb. subst sb.
  assert (Lx : length xs = size dom) by (rewrite size_prodl; exact Wb).
  destruct (mf_init_ok dom (FArr (mkNd (card dom) xs)) xs None (Some r) r vt) as (f & Ef & Ws & D & T & R & H & _); auto.
  { right; left; auto. }
  exists f. split; [exact Ef|]. split.
  { split; [auto|]. rewrite D. split; [auto|]. rewrite R. split; [auto|]. unfold mf_vars. rewrite D. auto. }
  split; [auto|]. split; [auto|]. split; [auto|]. intros o F.
  assert (Hget : forall p, In p (all_assignments (drop r dom)) ->
            mf_get_value f (p ++ o) = nd_get (mkNd (card dom) xs) (coords dom (asg_of (p ++ o)))).
  { intros p Ip. assert (Fp := full_join_within r dom p o W Ip F). destruct (H _ Fp) as (x & -> & N). symmetry.
    apply nd_get_flat; [apply coords_bounds, full_valid; auto|]. cbn [shape flat]. rewrite <- rowpos_ravel by auto. exact N. }
  assert (Wr : wf_dom rd) by (apply order_dom_wf; auto).
  assert (Vo : valid rd (asg_of o)).
  { intros v l J. apply order_dom_In in J as [J1 J2]; [|apply W|auto]. destruct (F v l) as (s & Es & Is).
    - apply filter_In. split; [auto|]. apply mem_In. auto.
    - unfold asg_of, over. rewrite Es. auto. }
  set (idx := coords rd (asg_of o)). assert (Bi : in_bounds (card rd) idx = true) by (apply coords_bounds; auto).
  set (k := ravel (card rd) idx).
  assert (Ik : In (k, idx) KI) by (apply HKI; auto).
  assert (Brow : in_bounds (card dom) (row (k, idx)) = true).
  { apply row_bounds; auto. }
  destruct (coords_surj dom _ (fun _ => SInt 0%Z) W Brow) as (a & Va & Ea & _).
  assert (Ha : forall v l, In (v, l) dom -> pos (a v) l = if mem v r then pos (asg_of o v) l else choose k v).
  { intros v l J. unfold coords, row, row_of, keys in Ea. cbn [fst snd] in Ea. rewrite map_map in Ea.
    assert (P := @ext_in_map _ _ _ _ _ Ea (v, l) J). cbn [fst snd] in P. rewrite P.
    destruct (mem v r) eqn:M; [|reflexivity]. apply mem_In in M. unfold idx, rd, coords, order_dom. rewrite map_map. cbn [fst snd].
    set (g := fun w => pos (asg_of o w) match dget w dom with Some l0 => l0 | None => [] end).
    assert (E : nth (pos v r) (map g r) 0 = g v).
    { apply nth_error_nth. apply map_nth_error. apply pos_nth; auto. }
    rewrite E. unfold g. rewrite (In_dget v l dom) by (auto; apply W). reflexivity. }
  set (p := obs_of (keys (drop r dom)) a).
  assert (Ip : In p (all_assignments (drop r dom))).
  { eapply nth_error_In. apply all_assignments_nth. eapply valid_incl; [|exact Va]. intros x J. apply filter_In in J. apply J. }
  assert (Wd : wf_dom (drop r dom)) by (apply (wf_dom_filter (fun v => negb (mem v r)) dom W)).
  assert (Ep : coords dom (asg_of (p ++ o)) = row (k, idx)).
  { rewrite <- Ea. apply coords_ext. intros v J. rewrite asg_of_app. unfold p. rewrite over_obs_of.
    destruct (mem v (keys (drop r dom))) eqn:M; [reflexivity|]. apply keys_In in J as (l & J).
    assert (Jr : In v r).
    { apply mem_nIn in M. rewrite In_keys_drop in M. destruct (in_dec string_dec v r) as [|Z]; auto. exfalso. apply M.
      split; [apply keys_In; eauto|auto]. }
    assert (Q := Ha v l J). assert (mem v r = true) as Mr by (apply mem_In; auto). rewrite Mr in Q.
    symmetry. apply (pos_inj _ _ l); auto. apply (Vo v l). apply order_dom_In; auto. apply W. }
  exists p. split; [auto|]. split.
  - rewrite Hget, Ep by auto. apply (H1 (k, idx)); auto.
  - intros p' Ip' Np. rewrite Hget by auto. assert (Fp' := full_join_within r dom p' o W Ip' F).
    assert (Vp' := full_valid _ _ Fp'). rewrite H2.
    + unfold nd_get, zeros. cbn [shape flat]. rewrite (coords_bounds _ _ Vp'). unfold py_nth.
      assert (B := ravel_lt _ _ (coords_bounds _ _ Vp')).
      destruct (nth_error (repeat n0 (prodl (card dom))) (ravel (card dom) (coords dom (asg_of (p' ++ o))))) as [x|] eqn:N.
      * apply nth_error_In, repeat_spec in N. subst. reflexivity.
      * apply nth_error_None in N. rewrite repeat_length in N. lia.
    + apply coords_bounds; auto.
    + intros [k' idx'] J E. apply HKI in J as [B' Ek'].
      destruct (coords_surj rd idx' (fun _ => SInt 0%Z) Wr B') as (a' & Va' & Ea' & _).
      assert (Hc : forall v l, In (v, l) dom -> pos (asg_of (p' ++ o) v) l = if mem v r then pos (a' v) l else choose k' v).
      { intros v l J. symmetry in E. unfold coords, row, row_of, keys in E. cbn [fst snd] in E. rewrite map_map in E.
        assert (P := @ext_in_map _ _ _ _ _ E (v, l) J). cbn [fst snd] in P. rewrite P.
        destruct (mem v r) eqn:M; [|reflexivity]. apply mem_In in M. rewrite <- Ea'. unfold rd, coords, order_dom. rewrite map_map. cbn [fst snd].
        set (g := fun w => pos (a' w) match dget w dom with Some l0 => l0 | None => [] end).
        assert (E2 : nth (pos v r) (map g r) 0 = g v).
        { apply nth_error_nth. apply map_nth_error. apply pos_nth; auto. }
        rewrite E2. unfold g. rewrite (In_dget v l dom) by (auto; apply W). reflexivity. }
      assert (Ho : forall v, In v r -> asg_of (p' ++ o) v = asg_of o v).
      { intros v J. rewrite asg_of_app. unfold over. assert (dget v p' = None) as ->; [|reflexivity].
        apply dget_None. rewrite (all_assignments_keys _ _ Ip'), In_keys_drop. tauto. }
      assert (Ei : idx' = idx).
      { unfold idx. rewrite <- Ea'. apply coords_ext. unfold rd. rewrite order_dom_keys. intros v J.
        assert (Jd := Ir v J). apply keys_In in Jd as (l & Jd). assert (Q := Hc v l Jd).
        assert (mem v r = true) as Mr by (apply mem_In; auto). rewrite Mr, Ho in Q by auto. symmetry.
        assert (Jo : In (v, l) rd) by (apply order_dom_In; auto; apply W).
        apply (pos_inj _ _ l); auto. }
      assert (Ekk : k' = k) by (unfold k; congruence). apply Np.
      destruct (all_assignments_In _ _ Wd Ip') as (b & Vb & Eb'). rewrite Eb'. unfold p, obs_of. apply map_ext_in.
      intros v J. f_equal. assert (J2 := J). apply keys_In in J as (l & J). assert (J3 := J). apply filter_In in J as [J Jn]. cbn [fst] in Jn.
      apply negb_true_iff in Jn. apply (pos_inj _ _ l); [apply (Vb v l J3)|apply (Va v l J)|].
      rewrite (Ha v l J), Jn. assert (Q := Hc v l J). rewrite Jn in Q.
      assert (Eq : asg_of (p' ++ o) v = b v). { rewrite asg_of_app, Eb', over_obs_of. apply mem_In in J2. rewrite J2. reflexivity. }
      rewrite Eq in Q. congruence.
Qed.
