(** Facts about LaplaceInference. *)

From Coq Require Import String Bool Arith ZArith QArith Qcanon Lia List Permutation.
From Verif Require Import PyBase Num DomainModel NdArray StoreModel NumStore PyFacts Spec DomainFacts StoreSpec StoreFacts NumFacts
  FactorModel FactorSpec FactorFacts FactorFacts2 FactorFacts3 PropFacts1 GraphModel GraphSpec GraphFacts ModelModel ModelSpec BigSum NetSem NetSpec FactorSem NetFacts VeFacts4
  CfFacts LearnModel DataModel DataSpec DataFacts DataFacts2 DataFacts3.
Import ListNotations.
Local Open Scope nat_scope.
Local Arguments eqd : simpl never.

Lemma fold_left_sum l : forall a, fold_left Nat.add l a = a + list_sum l.
Proof. induction l as [|x r IH]; intros a; [cbn; lia|]. cbn [fold_left list_sum fold_right]. rewrite IH. unfold list_sum. lia. Qed.

Lemma not_incomplete data D vs v : wf_frame data -> incl vs (f_cols data) -> complete data D vs -> In v vs -> mem v (incomplete_columns data) = false.
Proof.
  intros W I C K. apply mem_nIn. intros J. unfold incomplete_columns in J. apply filter_In in J as (_ & E). apply existsb_exists in E as (r & Jr & E).
  destruct (proj1 (complete_cell data D vs W I) C r v Jr K) as (l & s & _ & _ & Q). rewrite Q in E. discriminate.
Qed.
Lemma add_nan_id data doms D : wf_frame data -> complete data D (f_cols data) -> add_nan data doms = Ok doms.
Proof.
  intros W C. unfold add_nan. assert (G : forall vs, incl vs (f_cols data) -> foldM (fun doms v => if mem v (incomplete_columns data) then
             let* l := dlook v doms in
             if forallb (fun s => match s with SStr _ => true | _ => false end) l
             then Ok (dset v (l ++ [SStr "nan"]) doms) else Raise ValueError
           else Ok doms) vs doms = Ok doms); [|apply G; apply incl_refl].
  induction vs as [|v vs IH]; intros I; [reflexivity|]. cbn [foldM].
  rewrite (not_incomplete data D (f_cols data) v) by (auto using incl_refl; apply I; now left). cbn [bind]. apply IH. intros w J. apply I. now right.
Qed.

Lemma cells_match data r (p : obs) : wf_frame data -> In r (f_rows data) -> incl (keys p) (f_cols data) ->
  (map (cell (f_cols data) r) (keys p) = map Some (vals p) <-> matches (f_cols data) p r = true).
Proof.
  intros W J I. rewrite matches_iff. unfold keys, vals in *. induction p as [|[v s] p IH]; [split; [intros _ v s []|reflexivity]|].
  cbn [map fst snd]. assert (Iv : In v (f_cols data)) by (apply I; now left). assert (Ip : incl (map fst p) (f_cols data)) by (intros w K; apply I; now right). specialize (IH Ip).
  split.
  - intros E w x [Q|Q]; injection E as E1 E2.
    + injection Q as <- <-. rewrite (cell_some data r v W J Iv). congruence.
    + now apply IH.
  - intros X. f_equal; [|apply IH; intros w x Q; apply X; now right]. assert (E := X v s (or_introl eq_refl)). rewrite (cell_some data r v W J Iv) in E. congruence.
Qed.

(** the counts, as to_counts computes them *)
Lemma to_counts_eq dflt D T data e nz : usable D -> wf_frame data -> incl (keys (pick T D)) (f_cols data) -> incl (keys e) (f_cols data) ->
  complete data D (keys (pick T D)) -> pick T D <> [] ->
  to_counts dflt (pick T D) (Some (mkF (f_cols data) (filter (matches (f_cols data) e) (f_rows data)))) nz =
  let counts := map (fun p => count data (p ++ e)) (all_assignments (pick T D)) in
  let z c := inject_Z (Z.of_nat c) in
  let* values := if nz then
                   let N := fold_left Nat.add counts 0 in
                   if (N =? 0) && (0 <? length counts) then Raise ZeroDivisionError
                   else Ok (map (fun c => Fin (Q2Qc (z c) / Q2Qc (z N))) counts)
                 else Ok (map (fun c => Fin (Q2Qc (z c))) counts) in
  mf_init (pick T D) (flist values) None None dflt.
Proof.
  intros U W I Ie C Ne. set (doms := pick T D) in *. set (d := mkF (f_cols data) (filter (matches (f_cols data) e) (f_rows data))).
  assert (Wd : wf_frame d) by (now apply wf_filter). assert (WP : wf_dom doms) by (apply wf_pick; apply U).
  unfold to_counts. rewrite select_ok by (auto). cbn [bind]. destruct doms as [|d0 ds] eqn:Ed; [congruence|]. rewrite <- Ed in *. clear d0 ds Ed.
  rewrite (add_nan_id (chosen d (keys doms)) doms D); [|apply wf_chosen; apply WP|].
  2: { cbn [chosen f_cols]. apply complete_chosen; auto using incl_refl; [apply WP|]. now apply complete_filter. }
  cbn [bind]. set (counts := map _ (state_space doms)).
  assert (Ec : counts = map (fun p => count data (p ++ e)) (all_assignments doms)).
  { unfold counts. destruct (enumeration_ok doms (proj1 WP)) as (_ & In_sp & _ & _ & Es). rewrite Es, map_map, assignment_space_all. apply map_ext_in. intros p Jp.
    apply all_assignments_In_full in Jp as (Kp & Fp); [|apply WP].
    cbn [chosen f_rows]. rewrite filter_map_comm, map_length. rewrite count_matches by auto. cbn [d f_rows]. rewrite filter_and. f_equal.
    apply filter_ext_in. intros r Jr. rewrite matches_app, andb_comm. f_equal. cbn [d f_cols]. rewrite <- Kp. apply eq_true_iff_eq.
    assert (Ip : incl (keys p) (f_cols data)) by (rewrite Kp; exact I).
    rewrite <- (cells_match data r p W Jr Ip). destruct (eqd (map (cell (f_cols data) r) (keys p)) (map Some (vals p))) as [Q | Q]; split; auto; try discriminate; contradiction. }
  rewrite Ec. reflexivity.
Qed.

Lemma to_counts_ok dflt D T data e : usable D -> wf_frame data -> incl (keys (pick T D)) (f_cols data) -> incl (keys e) (f_cols data) ->
  complete data D (keys (pick T D)) -> pick T D <> [] -> count data e <> 0 ->
  exists f, to_counts dflt (pick T D) (Some (mkF (f_cols data) (filter (matches (f_cols data) e) (f_rows data)))) true = Ok f /\
    wf_mf f /\ mf_vtype f = dflt /\ mf_domain f = pick T D /\ mf_right f = [] /\
    forall p, In p (all_assignments (pick T D)) -> mf_get_value f p = Ok (Fin (ratio (count data (p ++ e)) (count data e))).
Proof.
  intros U W I Ie C Ne N0. rewrite to_counts_eq by assumption. cbv zeta. set (doms := pick T D) in *. assert (WP : wf_dom doms) by (apply wf_pick; apply U).
  set (counts := map (fun p => count data (p ++ e)) (all_assignments doms)).
  assert (Ec : counts = map (fun p => count data (p ++ e)) (all_assignments doms)) by reflexivity.
  assert (EN : fold_left Nat.add counts 0 = count data e).
  { rewrite fold_left_sum, Ec. cbn [plus]. apply count_total; auto. apply U. }
  rewrite EN. assert (B : ((count data e =? 0) && (0 <? length counts))%nat = false) by (apply andb_false_iff; left; now apply Nat.eqb_neq). rewrite B. cbn [bind].
  set (values := map _ counts). assert (UP : usable doms) by (now apply usable_pick).
  destruct (enumeration_ok doms (proj1 WP)) as (Ls & _ & _ & Nth & _).
  destruct (mf_init_ok doms (flist values) values None None [] dflt UP) as (f & Ef & Wf & Df & Tf & Rf & Xf & _).
  - unfold values. rewrite map_length, Ec, map_length, <- assignment_space_all. exact Ls.
  - now left.
  - reflexivity.
  - exists f. split; [exact Ef|]. split.
    { split; [exact Wf|]. split; [rewrite Df; exact UP|]. rewrite Rf. split; [constructor|intros v []]. }
    split; [exact Tf|]. split; [exact Df|]. split; [exact Rf|]. intros p Jp. apply all_assignments_In_full in Jp as (Kp & Fp); [|apply WP].
    destruct (Xf p Fp) as (x & Ex & Nx). rewrite Ex. apply (f_equal Ok). rewrite assignment_space_all in Nth.
    assert (Q := Nth p Kp Fp). unfold values in Nx. rewrite Ec, map_map in Nx. rewrite (map_nth_error _ _ _ Q) in Nx. injection Nx as <-. reflexivity.
Qed.

Lemma to_counts_zero dflt D T data e : usable D -> wf_frame data -> incl (keys (pick T D)) (f_cols data) -> incl (keys e) (f_cols data) ->
  complete data D (keys (pick T D)) -> pick T D <> [] -> count data e = 0 ->
  to_counts dflt (pick T D) (Some (mkF (f_cols data) (filter (matches (f_cols data) e) (f_rows data)))) true = Raise ZeroDivisionError.
Proof.
  intros U W I Ie C Ne N0. rewrite to_counts_eq by assumption. cbv zeta.
  assert (EN : fold_left Nat.add (map (fun p => count data (p ++ e)) (all_assignments (pick T D))) 0 = 0).
  { rewrite fold_left_sum. cbn [plus]. rewrite <- N0. apply count_total; auto. apply U. }
  rewrite EN. assert (B : ((0 =? 0) && (0 <? length (map (fun p => count data (p ++ e)) (all_assignments (pick T D)))))%nat = true); [|now rewrite B].
  cbn [Nat.eqb andb]. apply Nat.ltb_lt. rewrite map_length. destruct (some_valid (pick T D)) as (x & Vx); [apply wf_pick; apply U|].
  assert (J := obs_of_all (pick T D) x (proj1 (wf_pick T D (proj1 U))) Vx). destruct (all_assignments (pick T D)); [destruct J|cbn; lia].
Qed.

(** ** Queries *)

Section Queries.
  Variable set_order : list (list var) -> list var.
  Hypothesis Hs : is_set_order set_order.
  Variables (dflt : vtype) (data : frame) (D : domain) (pre : bool) (e : obs).
  Hypothesis U : usable D.
  Hypothesis W : wf_frame data.
  Hypothesis Ie : incl (keys e) (f_cols data).

  Lemma compile_ok T : NoDup T -> incl T (f_cols data) -> (forall v, In v T -> ~ In v (keys e)) ->
    exists im, laplace_compile set_order data pre T e = Ok im /\ wf_frame im /\ incl (T ++ keys e) (f_cols im) /\
      (forall o, incl (keys o) (T ++ keys e) -> count im o = count data o) /\ (forall vs, incl vs T -> complete data D vs -> complete im D vs).
  Proof.
    intros N I Dj. unfold laplace_compile. assert (E1 : negb (length (nodup eqd T) =? length T) = false).
    { rewrite nodup_fixed_point by exact N. now rewrite Nat.eqb_refl. }
    rewrite E1. assert (E2 : existsb (fun v => mem v (keys e)) T = false).
    { apply not_true_is_false. intros X. apply existsb_exists in X as (v & J & M). apply mem_In in M. exact (Dj v J M). }
    rewrite E2. destruct (Hs [T; keys e]) as (NA & SA). cbn [concat] in SA. rewrite app_nil_r in SA.
    assert (I2 : incl (set_order [T; keys e]) (f_cols data)) by (intros v J; apply SA in J; apply in_app_or in J as [J|J]; auto).
    destruct pre.
    - exists (chosen data (set_order [T; keys e])). split; [now apply select_ok|]. split; [now apply wf_chosen|]. split; [intros v J; cbn; now apply SA|].
      split; [intros o Io; apply count_chosen; auto; intros v J; apply SA; now apply Io|]. intros vs Iv C. apply complete_chosen; auto.
      intros v J. apply SA. apply in_or_app. left. now apply Iv.
    - exists data. split; [reflexivity|]. split; [exact W|]. split; [intros v J; apply in_app_or in J as [J|J]; auto|]. auto.
  Qed.

  Lemma keys_pick' T v : In v (keys (pick T D)) <-> In v (keys D) /\ In v T.
  Proof. apply keys_pick. Qed.

  Lemma laplace_ok T : NoDup T -> T <> [] -> incl T (keys D) -> incl T (f_cols data) -> (forall v, In v T -> ~ In v (keys e)) -> complete data D T -> count data e <> 0 ->
    exists im f, laplace_compile set_order data pre T e = Ok im /\ laplace_run dflt D im T e = Ok f /\ wf_mf f /\ mf_vtype f = dflt /\ mf_domain f = pick T D /\ mf_right f = [] /\
      forall t, keys t = T -> full (pick T D) t -> mf_get_value f t = Ok (Fin (ratio (count data (t ++ e)) (count data e))).
  Proof.
    intros N Ne ID I Dj C N0. destruct (compile_ok T N I Dj) as (im & Ec & Wi & Ii & Ci & Cc). exists im.
    assert (KP : forall v, In v (keys (pick T D)) <-> In v T) by (intros v; rewrite keys_pick'; split; [tauto|auto]).
    assert (C' : complete im D (keys (pick T D))).
    { assert (X := Cc T (incl_refl T) C). intros r v c J K. apply X; [exact J|now apply KP]. }
    destruct (to_counts_ok dflt D T im e U Wi) as (f & Ef & Wf & Tf & Df & Rf & Xf); auto.
    - intros v J. apply Ii, in_or_app. left. now apply KP.
    - intros v J. apply Ii, in_or_app. now right.
    - intros E. destruct T as [|v T']; [congruence|]. assert (J : In v (keys (pick (v :: T') D))) by (apply KP; now left). rewrite E in J. destruct J.
    - rewrite Ci; [exact N0|]. intros v J. apply in_or_app. now right.
    - exists f. split; [exact Ec|]. split.
      { unfold laplace_run. rewrite filter_data_ok by (intros v J; apply Ii, in_or_app; now right). exact Ef. }
      split; [exact Wf|]. split; [exact Tf|]. split; [exact Df|]. split; [exact Rf|].
      intros t Kt Ft. assert (WP : wf_dom (pick T D)) by (apply wf_pick; apply U). set (p := obs_of (keys (pick T D)) (asg_of t)).
      assert (Gt : forall v, In v T -> dget v p = dget v t).
      { intros v J. unfold p. rewrite obs_of_get by (now apply KP). assert (K := proj2 (KP v) J). apply keys_In in K as (l & K). destruct (Ft v l K) as (s & E & _).
        unfold asg_of, over. now rewrite E. }
      assert (Kp : keys p = keys (pick T D)) by (apply keys_obs_of).
      assert (Fp : full (pick T D) p). { intros v l J. destruct (Ft v l J) as (s & E & Js). exists s. split; [|exact Js]. rewrite Gt; [exact E|]. apply KP. apply keys_In. eauto. }
      assert (Jp : In p (all_assignments (pick T D))) by (apply all_assignments_In_full; [apply WP|auto]).
      assert (Ep := Xf p Jp). assert (Et : mf_get_value f t = mf_get_value f p).
      { apply get_value_agree; [apply Wf|fold (mf_domain f); now rewrite Df|]. fold (mf_domain f). rewrite Df. intros v J. symmetry. apply Gt. now apply KP. }
      rewrite Et, Ep. rewrite !Ci.
      + rewrite (count_same data (p ++ e) (t ++ e)); [reflexivity|]. intros q. rewrite !in_app_iff. assert (X := obs_mem p t). rewrite X; [tauto| | | |].
        * rewrite Kp. apply WP.
        * now rewrite Kt.
        * intros v. rewrite Kp, Kt. apply KP.
        * intros v J. apply Gt. rewrite Kp in J. now apply KP.
      + intros v J. apply in_or_app. now right.
      + unfold keys. rewrite map_app. fold (keys p) (keys e). rewrite Kp. intros v J. apply in_app_or in J as [J|J]; apply in_or_app; [left; now apply KP|now right].
  Qed.

  Lemma ratio_div a b n : n <> 0 -> b <> 0 -> (ratio a n / ratio b n)%Qc = ratio a b.
  Proof.
    intros N B. unfold ratio. assert (X : forall k, k <> 0 -> Q2Qc (inject_Z (Z.of_nat k)) <> 0%Qc).
    { intros k K E. apply Q2Qc_eq_iff in E. unfold Qeq, inject_Z in E. cbn in E. lia. }
    field. split; apply X; assumption.
  Qed.
  Lemma ratio_nz a n : a <> 0 -> n <> 0 -> ratio a n <> 0%Qc.
  Proof.
    intros A N E. unfold ratio in E. assert (X : forall k, k <> 0 -> Q2Qc (inject_Z (Z.of_nat k)) <> 0%Qc).
    { intros k K Ek. apply Q2Qc_eq_iff in Ek. unfold Qeq, inject_Z in Ek. cbn in Ek. lia. }
    apply (X a A). replace (Q2Qc (inject_Z (Z.of_nat a))) with (Q2Qc (inject_Z (Z.of_nat a)) / Q2Qc (inject_Z (Z.of_nat n)) * Q2Qc (inject_Z (Z.of_nat n)))%Qc.
    - rewrite E. ring.
    - field. now apply X.
  Qed.
  Lemma ratio_sum l n : qsum (map (fun a => ratio a n) l) = ratio (list_sum l) n.
  Proof.
    induction l as [|a l IH]; [unfold ratio, list_sum, Qcdiv; cbn [map fold_right qsum]; symmetry; change (Q2Qc (inject_Z (Z.of_nat 0))) with 0%Qc; ring|]. cbn [map list_sum fold_right]. fold (list_sum l).
    change (qsum (ratio a n :: map (fun a => ratio a n) l)) with (ratio a n + qsum (map (fun a => ratio a n) l))%Qc. rewrite IH. unfold ratio.
    replace (Q2Qc (inject_Z (Z.of_nat (a + list_sum l)))) with (Q2Qc (inject_Z (Z.of_nat a)) + Q2Qc (inject_Z (Z.of_nat (list_sum l))))%Qc; [unfold Qcdiv; ring|].
    rewrite Nat2Z.inj_add, inject_Z_plus. unfold Qcplus. apply Q2Qc_eq_iff. cbn [this Q2Qc]. rewrite !Qred_correct. reflexivity.
  Qed.
  Lemma ratio_zero n : ratio 0 n = 0%Qc.
  Proof. unfold ratio, Qcdiv. change (Q2Qc (inject_Z (Z.of_nat 0))) with 0%Qc. ring. Qed.

  Lemma query_ok T : NoDup T -> T <> [] -> incl T (keys D) -> incl T (f_cols data) -> (forall v, In v T -> ~ In v (keys e)) -> complete data D T -> count data e <> 0 ->
    exists f, laplace_query set_order dflt data D pre T None e = Ok f /\ wf_mf f /\ mf_vtype f = dflt /\ mf_domain f = pick T D /\ mf_right f = [] /\
      forall t, assigns D T t -> mf_get_value f t = Ok (Fin (ratio (count data (t ++ e)) (count data e))).
  Proof.
    intros N Ne ID I Dj C N0. destruct (laplace_ok T N Ne ID I Dj C N0) as (im & f & Ec & Er & Wf & Tf & Df & Rf & Xf).
    exists f. unfold laplace_query. rewrite Ec. cbn [bind]. rewrite Er. do 5 (split; [first [reflexivity | assumption]|]). intros t (Kt & Ft). now apply Xf.
  Qed.

  Lemma query_none T : NoDup T -> T <> [] -> incl T (keys D) -> incl T (f_cols data) -> (forall v, In v T -> ~ In v (keys e)) -> complete data D T -> count data e = 0 ->
    laplace_query set_order dflt data D pre T None e = Raise ZeroDivisionError.
  Proof.
    intros N Ne ID I Dj C N0. destruct (compile_ok T N I Dj) as (im & Ec & Wi & Ii & Ci & Cc). unfold laplace_query. rewrite Ec. cbn [bind].
    unfold laplace_run. rewrite filter_data_ok by (intros v J; apply Ii, in_or_app; now right). cbn [bind].
    assert (KP : forall v, In v (keys (pick T D)) <-> In v T) by (intros v; rewrite keys_pick'; split; [tauto|auto]).
    apply to_counts_zero; auto.
    - intros v J. apply Ii, in_or_app. left. now apply KP.
    - intros v J. apply Ii, in_or_app. now right.
    - assert (X := Cc T (incl_refl T) C). intros r v c J K. apply X; [exact J|now apply KP].
    - intros E. destruct T as [|v T']; [congruence|]. assert (J : In v (keys (pick (v :: T') D))) by (apply KP; now left). rewrite E in J. destruct J.
    - rewrite Ci; [exact N0|]. intros v J. apply in_or_app. now right.
  Qed.

  Lemma query_given_ok T C : NoDup T -> T <> [] -> NoDup C -> incl T (keys D) -> incl C (keys D) -> incl (T ++ C) (f_cols data) -> (forall v, In v (T ++ C) -> ~ In v (keys e)) ->
    (forall v, In v T -> ~ In v C) -> complete data D (T ++ C) -> count data e <> 0 ->
    exists r, laplace_query set_order dflt data D pre T (Some C) e = Ok r /\ wf_mf r /\ mf_vtype r = dflt /\
      same_set (mf_vars r) (T ++ C) /\ same_set (mf_left r) T /\ same_set (mf_right r) C /\
      (forall v l, In (v, l) (mf_domain r) -> In (v, l) D) /\
      forall t c, assigns D T t -> assigns D C c ->
        (count data (c ++ e) <> 0 -> mf_get_value r (t ++ c) = Ok (Fin (ratio (count data (t ++ c ++ e)) (count data (c ++ e))))) /\
        (count data (c ++ e) = 0 -> mf_get_value r (t ++ c) = Ok (match dflt with VNumpy => Fin 0%Qc | _ => NaN end)).
  Proof.
    intros NT T0 NC ITD ICD I Dj TC Cm N0. set (al := set_order [T; C]). assert (WD : wf_dom D) by apply U.
    destruct (Hs [T; C]) as [NA EA]. fold al in NA, EA. cbn [concat] in EA. rewrite app_nil_r in EA.
    assert (IA : forall v, In v al <-> In v T \/ In v C) by (intros v; rewrite (EA v), in_app_iff; tauto).
    assert (A0 : al <> []). { destruct T as [|t0 T']; [congruence|]. intros E. assert (J : In t0 al) by (apply IA; left; now left). rewrite E in J. destruct J. }
    destruct (laplace_ok al NA A0) as (im & p & Ec & Er & Wp & Tp & Dp & Rp & Xp); auto.
    { intros v J; apply IA in J as [J|J]; auto. } { intros v J. apply I. now apply EA. } { intros v J. apply Dj. now apply EA. } { intros r v c J K. apply Cm; [exact J|now apply EA]. }
    assert (Vp : forall v, In v (mf_vars p) <-> In v al). { intros v. unfold mf_vars. rewrite Dp, keys_pick'. rewrite (IA v). split; [tauto|]. intros [J|J]; auto. }
    assert (Gp : good D dflt p).
    { split; [exact Wp|]. split; [exact Tp|]. split; [intros v l J; rewrite Dp in J; now apply filter_In in J|].
      intros o Fo. rewrite Dp in Fo. eexists.
      set (t := obs_of al (asg_of o)). assert (Gt : forall v, In v al -> dget v o = dget v t).
      { intros v J. unfold t. rewrite obs_of_get by exact J. assert (K : In v (keys (pick al D))) by (apply Vp in J; unfold mf_vars in J; now rewrite Dp in J).
        apply keys_In in K as (l & K). destruct (Fo v l K) as (s & E & _). unfold asg_of, over. now rewrite E. }
      assert (Ft : full (pick al D) t). { intros v l J. destruct (Fo v l J) as (s & E & Js). exists s. split; [|exact Js]. rewrite <- Gt; [exact E|]. apply Vp. unfold mf_vars. rewrite Dp. apply keys_In. eauto. }
      assert (Et : mf_get_value p o = mf_get_value p t).
      { apply get_value_agree; [apply Wp|fold (mf_domain p); now rewrite Dp|]. intros v J. apply Gt. now apply Vp. }
      rewrite Et. apply Xp; [apply keys_obs_of|exact Ft]. }
    destruct (good_marg D WD dflt p T Gp NT) as (q & Eq & Gq & Dq & Vq & _ & Xq). { intros v J. apply Vp, IA. auto. }
    destruct (good_div D WD dflt p q Gp Gq) as (r & Erd & Wr & Tr & Dr & Lr & Rr & Xr).
    assert (Lp : forall v, In v (mf_left p) <-> In v al).
    { intros v. rewrite <- (Vp v). destruct (wf_mf_partitioned p (proj1 Gp)) as (_ & _ & _ & Pt & _). rewrite (Pt v), Rp. cbn. tauto. }
    assert (Vq' : forall v, In v (mf_vars q) <-> In v C).
    { intros v. rewrite (Vq v), (Vp v), (IA v). split; [tauto|]. intros J. split; auto. intros J'. exact (TC v J' J). }
    exists r. split.
    { unfold laplace_query. assert (E1 : existsb (fun v => mem v C) T = false).
      { apply not_true_is_false. intros E. apply existsb_exists in E as (v & J & K). apply mem_In in K. now apply (TC v). }
      rewrite E1. fold al. rewrite Ec. cbn [bind]. rewrite Er. cbn [bind]. rewrite Eq. exact Erd. }
    split; [exact Wr|]. split; [exact Tr|]. split.
    { intros v. unfold mf_vars. rewrite Dr, join_keys. fold (mf_vars p) (mf_vars q). rewrite (Vp v), Vq', (IA v), in_app_iff. tauto. }
    split. { intros v. rewrite Lr, Lp, Vq', (IA v). split; [tauto|]. intros J. auto. }
    split. { intros v. rewrite Rr, Rp, Vq'. cbn. tauto. }
    split. { intros v l J. rewrite Dr in J. apply join_In in J as [J|J]; [now apply Gp|now apply Gq]. }
    intros t c At Ac. destruct (some_valid D WD) as (a0 & Va0).
    set (b := over t (over c a0)). assert (Vb : valid D b) by (apply (assigns_valid D T); auto; apply (assigns_valid D C); auto).
    assert (Ab : forall v, In v al -> dget v (t ++ c) = Some (b v)).
    { intros v J. rewrite dget_app. unfold b, over. destruct (dget v t) eqn:Et; auto. destruct (dget v c) eqn:Ecv; auto. exfalso.
      apply dget_None in Et. apply dget_None in Ecv. rewrite (proj1 At) in Et. rewrite (proj1 Ac) in Ecv. apply IA in J. tauto. }
    assert (Vq'' : incl (mf_vars q) al) by (intros v J; apply IA; right; now apply Vq').
    assert (Fa : forall a o, valid D a -> (forall v, In v al -> dget v o = Some (a v)) -> full (mf_domain p) o).
    { intros a o Va G v l J. exists (a v). split; [apply G, Vp; unfold mf_vars; apply keys_In; eauto|]. apply Va. now apply Gp. }
    (* the values of the joint *)
    assert (Px : forall d, valid D d -> fv p d = ratio (count data (obs_of al d ++ e)) (count data e)).
    { intros d Vd. assert (E := Xp (obs_of al d) (keys_obs_of al d)). rewrite <- Dp in E. specialize (E (Fa d _ Vd (fun v J => obs_of_get al d v J))).
      rewrite (fv_get D dflt p d (obs_of al d) Gp Vd) in E; [congruence|]. intros v J. apply obs_of_get. now apply Vp. }
    assert (Cab : forall d, valid D d -> (forall w, ~ In w T -> d w = b w) -> count data (obs_of al d ++ e) = count data (obs_of T d ++ c ++ e)).
    { intros d Vd Ed. apply count_same. intros [v s]. rewrite !in_app_iff. unfold obs_of. rewrite !in_map_iff.
      assert (Cc : In (v, s) c <-> exists x, (x, d x) = (v, s) /\ In x C).
      { split.
        - intros J. assert (Kv : In v C) by (rewrite <- (proj1 Ac); apply keys_In; eauto). exists v. split; [|exact Kv]. f_equal. rewrite Ed by (intros X; exact (TC v X Kv)).
          unfold b, over. assert (N1 : dget v t = None) by (apply dget_None; rewrite (proj1 At); intros X; exact (TC v X Kv)). rewrite N1.
          rewrite (In_dget v s c); [reflexivity|rewrite (proj1 Ac); exact NC|exact J].
        - intros (x & E & Kx). injection E as -> <-. rewrite Ed by (intros X; exact (TC v X Kx)). unfold b, over.
          assert (N1 : dget v t = None) by (apply dget_None; rewrite (proj1 At); intros X; exact (TC v X Kx)). rewrite N1.
          assert (Kc : In v (keys c)) by (rewrite (proj1 Ac); exact Kx). apply dget_keys in Kc as (y & Ey). rewrite Ey. now apply dget_In. }
      rewrite Cc. split.
      - intros [(x & E & J)|J]; [|tauto]. apply IA in J as [J|J]; eauto.
      - intros [(x & E & J)|[(x & E & J)|J]]; [left; exists x; split; [exact E|apply IA; tauto]|left; exists x; split; [exact E|apply IA; tauto]|tauto]. }
    assert (Tb : obs_of T b = t).
    { transitivity (obs_of T (over t b)); [|exact (obs_of_over T t b (proj1 At) NT)]. unfold obs_of. apply map_ext. intros v. unfold b, over. destruct (dget v t); auto. }
    assert (Ep : fv p b = ratio (count data (t ++ c ++ e)) (count data e)).
    { rewrite (Px b Vb), (Cab b Vb) by reflexivity. now rewrite Tb. }
    assert (Eq' : fv q b = ratio (count data (c ++ e)) (count data e)).
    { rewrite (Xq b Vb).
      rewrite (sm_ext D WD T (fv p) (fun d => ratio (count data (obs_of T d ++ c ++ e)) (count data e)) b Vb) by (intros d Vd Ed; rewrite (Px d Vd), (Cab d Vd Ed); reflexivity).
      unfold sm, sumdom. rewrite bsum_qsum.
      rewrite (map_ext_in _ (fun o => ratio (count data (o ++ c ++ e)) (count data e))).
      - rewrite <- (map_map (fun o => count data (o ++ c ++ e)) (fun k => ratio k (count data e))), ratio_sum. f_equal. apply count_total; auto.
        + intros v J. apply I, in_or_app. left. now apply keys_pick' in J.
        + intros x v k J K. apply Cm; [exact J|]. apply in_or_app. left. now apply keys_pick' in K.
      - intros o Jo. apply all_assignments_In_full in Jo as (Ko & Fo); [|apply (wf_pick T D WD)]. f_equal. apply count_same. intros [v s]. rewrite !in_app_iff.
        assert (X : In (v, s) (obs_of T (over o b)) <-> In (v, s) o); [|rewrite X; tauto].
        assert (KT : forall w, In w T <-> In w (keys o)) by (intros w; rewrite Ko, keys_pick'; split; [auto|tauto]).
        apply (obs_mem (obs_of T (over o b)) o).
        + now rewrite keys_obs_of.
        + rewrite Ko. apply (wf_pick T D WD).
        + intros w. rewrite keys_obs_of. apply KT.
        + intros w J. rewrite keys_obs_of in J. rewrite obs_of_get by exact J. apply KT, dget_keys in J as (y & Ey). unfold over. now rewrite Ey. }
    destruct (Xr (t ++ c)) as (x & y & X & Y & Z).
    { intros v l J. assert (JD : In (v, l) D /\ In v al).
      { apply join_In in J as [J|J]; split; try (now apply Gp); try (now apply Gq).
        - apply Vp. unfold mf_vars, keys. apply (in_map fst) in J. auto.
        - apply Vq''. unfold mf_vars, keys. apply (in_map fst) in J. auto. }
      exists (b v). split; [apply Ab; tauto|]. now apply Vb. }
    rewrite Z.
    rewrite (fv_get D dflt p b (t ++ c) Gp Vb) in X by (intros v J; apply Ab; now apply Vp). injection X as <-.
    rewrite (fv_get D dflt q b (t ++ c) Gq Vb) in Y by (intros v J; apply Ab; auto). injection Y as <-.
    rewrite Ep, Eq'. split.
    - intros Nc. rewrite div_fin.
      + apply (f_equal Ok). f_equal. now apply ratio_div.
      + now apply ratio_nz.
    - intros Zc. rewrite Zc. assert (Zt : count data (t ++ c ++ e) = 0) by (assert (Q := count_le data t (c ++ e) W); lia). rewrite Zt, ratio_zero.
      destruct dflt; reflexivity.
  Qed.
End Queries.

Lemma laplace_rejects so dflt data D pre T e : 
  (~ NoDup T -> laplace_query so dflt data D pre T None e = Raise ValueError) /\
  (NoDup T -> forall v, In v T -> In v (keys e) -> laplace_query so dflt data D pre T None e = Raise ValueError) /\
  (forall C v, In v T -> In v C -> laplace_query so dflt data D pre T (Some C) e = Raise ValueError).
Proof.
  split; [|split].
  - intros N. unfold laplace_query, laplace_compile. assert (E : negb (length (nodup eqd T) =? length T) = true); [|now rewrite E].
    apply negb_true_iff, Nat.eqb_neq. intros L. apply N. clear N. induction T as [|v T IH]; [constructor|]. cbn [nodup] in L. destruct (in_dec eqd v T) as [J|J].
    + exfalso. assert (Q : length (nodup eqd T) <= length T). { clear. induction T as [|w T IH]; [cbn; lia|]. cbn [nodup]. destruct (in_dec eqd w T); cbn [length]; lia. }
      cbn [length] in L. lia.
    + constructor; [exact J|]. apply IH. cbn [length] in L. lia.
  - intros N v J K. unfold laplace_query, laplace_compile. rewrite nodup_fixed_point, Nat.eqb_refl by exact N. cbn [negb].
    assert (E : existsb (fun v => mem v (keys e)) T = true); [|now rewrite E]. apply existsb_exists. exists v. split; [exact J|now apply mem_In].
  - intros C v J K. unfold laplace_query. assert (E : existsb (fun v => mem v C) T = true); [|now rewrite E]. apply existsb_exists. exists v. split; [exact J|now apply mem_In].
Qed.

(** a column that does not exist *)
Lemma laplace_key_error so dflt data D pre T e v : is_set_order so -> NoDup T -> (forall v, In v T -> ~ In v (keys e)) -> wf_frame data ->
  ~ In v (f_cols data) -> In v (keys e) \/ (In v T /\ In v (keys D)) -> laplace_query so dflt data D pre T None e = Raise KeyError.
Proof.
  intros Hs N Dj W Nv J. unfold laplace_query, laplace_compile. rewrite nodup_fixed_point, Nat.eqb_refl by exact N. cbn [negb].
  assert (E2 : existsb (fun v => mem v (keys e)) T = false).
  { apply not_true_is_false. intros X. apply existsb_exists in X as (w & Jw & M). apply mem_In in M. exact (Dj w Jw M). }
  rewrite E2. destruct (Hs [T; keys e]) as (_ & SA). cbn [concat] in SA. rewrite app_nil_r in SA.
  destruct pre.
  - rewrite (select_raises data _ v); [reflexivity| |exact Nv]. apply SA, in_or_app. tauto.
  - cbn [bind]. unfold laplace_run. destruct J as [J|(J & K)]; [now rewrite (filter_data_raises data e v J Nv)|].
    destruct (forallb (fun w => mem w (f_cols data)) (keys e)) eqn:F.
    + rewrite filter_data_ok. * cbn [bind]. unfold to_counts. rewrite (select_raises _ _ v); [reflexivity| |exact Nv].
        change (dfilter (fun v0 => mem v0 T) D) with (pick T D). apply keys_pick. auto.
      * intros w Jw. apply mem_In. rewrite forallb_forall in F. now apply F.
    + assert (exists w, In w (keys e) /\ ~ In w (f_cols data)) as (w & Jw & Nw).
      { clear - F. induction (keys e) as [|w l IH]; [discriminate|]. cbn [forallb] in F. destruct (mem w (f_cols data)) eqn:M; [|exists w; split; [now left|now apply mem_nIn]].
        destruct (IH F) as (x & Jx & Nx). exists x. split; [now right|exact Nx]. }
      now rewrite (filter_data_raises data e w Jw Nw).
Qed.
