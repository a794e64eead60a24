(** Facts about counting the rows of data frames. *)

From Coq Require Import String Bool Arith ZArith QArith Qcanon Lia List Permutation.
From Verif Require Import PyBase Num DomainModel NdArray StoreModel NumStore PyFacts Spec DomainFacts StoreSpec StoreFacts NumFacts
  FactorModel FactorSpec FactorFacts FactorFacts2 FactorFacts3 PropFacts1 GraphModel GraphFacts ModelModel NetSem NetSpec FactorSem NetFacts VeFacts4
  LearnModel DataModel DataSpec DataFacts DataFacts2.
Import ListNotations.
Local Open Scope nat_scope.
Local Arguments eqd : simpl never.

(** ** Cells *)

Definition cell (cols : list var) (r : list (option state)) (v : var) : option state :=
  match dget v (row_dict cols r) with Some c => c | None => None end.

Lemma keys_combine {A B} (l1 : list A) (l2 : list B) : length l2 = length l1 -> map fst (combine l1 l2) = l1.
Proof. revert l2. induction l1 as [|a l1 IH]; intros [|b l2] L; try discriminate; [reflexivity|]. cbn. f_equal. apply IH. cbn in L. lia. Qed.

Lemma row_dict_id data r : wf_frame data -> In r (f_rows data) -> row_dict (f_cols data) r = combine (f_cols data) r.
Proof. intros (ND & L) J. unfold row_dict. apply dict_of_id. unfold keys. rewrite keys_combine; auto. Qed.

Lemma cell_some data r v : wf_frame data -> In r (f_rows data) -> In v (f_cols data) -> dget v (row_dict (f_cols data) r) = Some (cell (f_cols data) r v).
Proof.
  intros W J K. unfold cell. destruct (dget v (row_dict (f_cols data) r)) as [c|] eqn:E; [reflexivity|]. exfalso.
  apply dget_None in E. apply E. rewrite row_dict_id by auto. unfold keys. rewrite keys_combine; [exact K|]. now apply W.
Qed.

Lemma shows_cell data r v s : wf_frame data -> In r (f_rows data) -> (shows data r v s = true <-> dget v (row_dict (f_cols data) r) = Some (Some s)).
Proof.
  intros W J. rewrite row_dict_id by auto. assert (ND : NoDup (keys (combine (f_cols data) r))) by (unfold keys; rewrite keys_combine; [apply W|now apply W]).
  unfold shows. rewrite existsb_exists. split.
  - intros ([w c] & K & E). destruct (eqd (w, c) (v, Some s)) as [Q | Q]; [|discriminate]. injection Q as -> ->. now apply In_dget.
  - intros E. exists (v, Some s). split; [|now rewrite eqd_refl]. now apply dget_In.
Qed.

Lemma matches_shows data r o : wf_frame data -> In r (f_rows data) ->
  matches (f_cols data) o r = forallb (fun vs => shows data r (fst vs) (snd vs)) o.
Proof.
  intros W J. unfold matches. induction o as [|[v s] o IH]; [reflexivity|]. cbn [forallb fst snd]. rewrite IH. f_equal.
  destruct (shows data r v s) eqn:E.
  - apply shows_cell in E; auto. rewrite E. now rewrite eqd_refl.
  - destruct (dget v (row_dict (f_cols data) r)) as [[x|]|] eqn:Ed; auto. destruct (eqd x s) as [-> | N]; auto.
    apply shows_cell in Ed; auto. congruence.
Qed.

Lemma count_matches data o : wf_frame data -> count data o = length (filter (matches (f_cols data) o) (f_rows data)).
Proof.
  intros W. unfold count. f_equal. apply filter_ext_in. intros r J. symmetry. now apply matches_shows.
Qed.

Lemma matches_app cols o1 o2 r : matches cols (o1 ++ o2) r = matches cols o1 r && matches cols o2 r.
Proof. unfold matches. apply forallb_app. Qed.

Lemma matches_iff cols o r : matches cols o r = true <-> forall v s, In (v, s) o -> dget v (row_dict cols r) = Some (Some s).
Proof.
  unfold matches. rewrite forallb_forall. split.
  - intros X v s J. specialize (X _ J). cbn [fst snd] in X. destruct (dget v (row_dict cols r)) as [[x|]|]; try discriminate.
    destruct (eqd x s) as [-> | N]; [reflexivity|discriminate].
  - intros X [v s] J. cbn [fst snd]. rewrite (X v s J). now rewrite eqd_refl.
Qed.

(** the count only depends on the pairs of the observation *)
Lemma count_same data o o' : (forall p, In p o <-> In p o') -> count data o = count data o'.
Proof.
  intros E. unfold count. f_equal. apply filter_ext. intros r. apply eq_true_iff_eq. rewrite !forallb_forall. split; intros X p J; apply X; now apply E.
Qed.
Lemma obs_mem (o o' : obs) : NoDup (keys o) -> NoDup (keys o') -> (forall v, In v (keys o) <-> In v (keys o')) -> (forall v, In v (keys o) -> dget v o = dget v o') ->
  forall p, In p o <-> In p o'.
Proof.
  intros N N' K G [v s]. split; intros J.
  - assert (Kv : In v (keys o)) by (apply keys_In; eauto). apply dget_In. rewrite <- G by auto. now apply In_dget.
  - assert (Kv : In v (keys o')) by (apply keys_In; eauto). apply dget_In. rewrite G by (now apply K). now apply In_dget.
Qed.

(** ** Selections and filters *)

Lemma wf_filter data p : wf_frame data -> wf_frame (mkF (f_cols data) (filter p (f_rows data))).
Proof. intros (N & L). split; [exact N|]. cbn. intros r J. apply filter_In in J as [J _]. now apply L. Qed.

Lemma filter_and {A} (p q : A -> bool) l : filter p (filter q l) = filter (fun x => q x && p x) l.
Proof.
  induction l as [|x r IH]; [reflexivity|]. cbn [filter]. destruct (q x); cbn [andb filter]; [destruct (p x)|]; now rewrite IH.
Qed.

Lemma filter_data_ok data e : incl (keys e) (f_cols data) -> filter_data data e = Ok (mkF (f_cols data) (filter (matches (f_cols data) e) (f_rows data))).
Proof.
  unfold filter_data. destruct data as [cols rows]. cbn [f_cols f_rows]. revert rows. induction e as [|[v s] e IH]; intros rows I.
  - cbn [foldM]. apply (f_equal Ok). f_equal. symmetry. erewrite filter_ext with (g := fun _ => true); [|reflexivity]. clear. induction rows as [|r l IH]; [reflexivity|]. cbn. now rewrite IH.
  - cbn [foldM fst f_cols f_rows]. assert (M : mem v cols = true) by (apply mem_In; apply I; now left). rewrite M. cbn [bind f_cols f_rows].
    rewrite IH by (intros w J; apply I; now right). rewrite filter_and. apply (f_equal Ok). f_equal. apply filter_ext. intros r.
    symmetry. change ((v, s) :: e) with ([(v, s)] ++ e). apply matches_app.
Qed.
Lemma filter_data_raises data e v : In v (keys e) -> ~ In v (f_cols data) -> filter_data data e = Raise KeyError.
Proof.
  unfold filter_data. destruct data as [cols rows]. cbn [f_cols]. intros J N. revert rows. induction e as [|[w s] e IH]; intros rows; [destruct J|].
  cbn [foldM fst f_cols f_rows]. destruct (mem w cols) eqn:M; [|reflexivity]. cbn [bind]. destruct J as [<-|J]; [|now apply IH].
  apply mem_In in M. contradiction.
Qed.

Definition chosen (data : frame) (vs : list var) : frame := mkF vs (map (fun r => map (cell (f_cols data) r) vs) (f_rows data)).

Lemma row_cells data r vs : wf_frame data -> In r (f_rows data) -> incl vs (f_cols data) ->
  mapM (fun v => dlook v (row_dict (f_cols data) r)) vs = Ok (map (cell (f_cols data) r) vs).
Proof.
  intros W J. induction vs as [|v vs IHv]; intros I; [reflexivity|]. cbn [mapM map]. unfold dlook at 1.
  rewrite (cell_some data r v W J) by (apply I; now left). cbn [bind]. rewrite IHv by (intros w Jw; apply I; now right). reflexivity.
Qed.
Lemma select_ok data vs : wf_frame data -> incl vs (f_cols data) -> select data vs = Ok (chosen data vs).
Proof.
  intros W I. unfold select. assert (M : forallb (fun v => mem v (f_cols data)) vs = true) by (apply forallb_forall; intros v J; apply mem_In; now apply I).
  rewrite M. assert (E : mapM (fun r => mapM (fun v => dlook v (row_dict (f_cols data) r)) vs) (f_rows data) =
    Ok (map (fun r => map (cell (f_cols data) r) vs) (f_rows data))).
  { assert (G : forall rows, incl rows (f_rows data) -> mapM (fun r => mapM (fun v => dlook v (row_dict (f_cols data) r)) vs) rows =
      Ok (map (fun r => map (cell (f_cols data) r) vs) rows)); [|apply G; apply incl_refl].
    induction rows as [|r rows IH]; intros Ir; [reflexivity|]. cbn [mapM map]. 
    assert (Er : mapM (fun v => dlook v (row_dict (f_cols data) r)) vs = Ok (map (cell (f_cols data) r) vs)).
    { apply row_cells; auto. apply Ir. now left. }
    rewrite Er. cbn [bind]. rewrite IH by (intros x J; apply Ir; now right). reflexivity. }
  rewrite E. reflexivity.
Qed.
Lemma select_raises data vs v : In v vs -> ~ In v (f_cols data) -> select data vs = Raise KeyError.
Proof.
  intros J N. unfold select. assert (M : forallb (fun v => mem v (f_cols data)) vs = false); [|now rewrite M].
  apply not_true_is_false. intros M. rewrite forallb_forall in M. apply N. apply mem_In. now apply M.
Qed.

Lemma wf_chosen data vs : NoDup vs -> wf_frame (chosen data vs).
Proof. intros N. split; [exact N|]. cbn. intros r J. apply in_map_iff in J as (r' & <- & _). apply map_length. Qed.

Lemma dget_combine_map (c : var -> option state) vs v : In v vs -> dget v (combine vs (map c vs)) = Some (c v).
Proof. induction vs as [|w vs IH]; intros J; [destruct J|]. cbn [map combine dget]. destruct (eqd v w) as [-> | N]; [reflexivity|]. apply IH. destruct J; congruence. Qed.

Lemma cell_chosen data vs r v : NoDup vs -> In v vs -> dget v (row_dict vs (map (cell (f_cols data) r) vs)) = Some (cell (f_cols data) r v).
Proof.
  intros N J. unfold row_dict. rewrite dict_of_id; [|unfold keys; rewrite keys_combine; [exact N|apply map_length]].
  now apply dget_combine_map.
Qed.
Lemma matches_chosen data vs r o : wf_frame data -> In r (f_rows data) -> incl vs (f_cols data) -> NoDup vs -> incl (keys o) vs ->
  matches vs o (map (cell (f_cols data) r) vs) = matches (f_cols data) o r.
Proof.
  intros W J I N K. apply eq_true_iff_eq. rewrite !matches_iff. split; intros X v s Jp; specialize (X v s Jp).
  - assert (Kv : In v vs) by (apply K; apply keys_In; eauto). rewrite cell_chosen in X by auto. rewrite (cell_some data r v W J) by auto. exact X.
  - assert (Kv : In v vs) by (apply K; apply keys_In; eauto). rewrite cell_chosen by auto. rewrite (cell_some data r v W J) in X by auto. exact X.
Qed.

Lemma filter_map_comm {A B} (f : A -> B) (p : B -> bool) l : filter p (map f l) = map f (filter (fun x => p (f x)) l).
Proof. induction l as [|x r IH]; [reflexivity|]. cbn [map filter]. destruct (p (f x)); cbn [map]; now rewrite IH. Qed.

Lemma count_chosen data vs o : wf_frame data -> incl vs (f_cols data) -> NoDup vs -> incl (keys o) vs -> count (chosen data vs) o = count data o.
Proof.
  intros W I N K. rewrite !count_matches by (auto using wf_chosen). cbn [chosen f_cols f_rows]. rewrite filter_map_comm, map_length. f_equal.
  apply filter_ext_in. intros r J. now apply matches_chosen.
Qed.

Lemma complete_cell data D vs : wf_frame data -> incl vs (f_cols data) ->
  (complete data D vs <-> forall r v, In r (f_rows data) -> In v vs -> exists l s, In (v, l) D /\ In s l /\ dget v (row_dict (f_cols data) r) = Some (Some s)).
Proof.
  intros W I. unfold complete. split.
  - intros C r v J K. destruct (C r v (cell (f_cols data) r v) J K) as (l & s & Jl & Js & E).
    + rewrite <- (row_dict_id data r W J). apply dget_In. apply cell_some; auto.
    + exists l, s. split; [exact Jl|]. split; [exact Js|]. rewrite (cell_some data r v W J (I v K)), E. reflexivity.
  - intros C r v c J K Jc. destruct (C r v J K) as (l & s & Jl & Js & E). exists l, s. split; [exact Jl|]. split; [exact Js|].
    rewrite (row_dict_id data r W J) in E. assert (N : NoDup (keys (combine (f_cols data) r))) by (unfold keys; rewrite keys_combine; [apply W|now apply W]).
    rewrite (In_dget v c _ N Jc) in E. congruence.
Qed.
Lemma complete_chosen data D vs ws : wf_frame data -> incl vs (f_cols data) -> NoDup vs -> incl ws vs -> complete data D ws -> complete (chosen data vs) D ws.
Proof.
  intros W I N Iw C. apply complete_cell; [now apply wf_chosen|exact Iw|]. intros r v J K. cbn [chosen f_rows] in J. apply in_map_iff in J as (r' & <- & J).
  assert (I' : incl ws (f_cols data)) by (intros x Jx; apply I; now apply Iw).
  destruct (proj1 (complete_cell data D ws W I') C r' v J K) as (l & s & Jl & Js & E). exists l, s. split; [exact Jl|]. split; [exact Js|].
  cbn [chosen f_cols]. rewrite cell_chosen by auto. rewrite (cell_some data r' v W J (I' v K)) in E. exact E.
Qed.
Lemma complete_filter data D vs p : complete data D vs -> complete (mkF (f_cols data) (filter p (f_rows data))) D vs.
Proof. intros C r v c J. cbn [f_rows f_cols] in *. apply filter_In in J as [J _]. now apply C. Qed.

(** ** Sums of counts *)

Lemma list_sum_map_add {A} (f g : A -> nat) l : list_sum (map (fun x => f x + g x) l) = list_sum (map f l) + list_sum (map g l).
Proof. induction l as [|x r IH]; [reflexivity|]. cbn [map list_sum fold_right] in *. unfold list_sum in *. lia. Qed.

Lemma count_swap {A B} (q : A -> B -> bool) (P : list A) (R : list B) :
  list_sum (map (fun p => length (filter (q p) R)) P) = list_sum (map (fun r => length (filter (fun p => q p r) P)) R).
Proof.
  induction R as [|r R IH].
  - cbn. induction P as [|p P IHp]; [reflexivity|]. cbn. exact IHp.
  - cbn [map list_sum fold_right]. fold (list_sum (map (fun r => length (filter (fun p => q p r) P)) R)). rewrite <- IH.
    assert (E : length (filter (fun p => q p r) P) = list_sum (map (fun p => if q p r then 1 else 0) P)).
    { clear. induction P as [|p P IHp]; [reflexivity|]. cbn [filter map list_sum fold_right]. destruct (q p r); cbn [length]; unfold list_sum in *; lia. }
    rewrite E. rewrite <- list_sum_map_add. f_equal. apply map_ext. intros p. cbn [filter]. destruct (q p r); reflexivity.
Qed.

Lemma filter_unique {A} (p : A -> bool) l x : NoDup l -> In x l -> p x = true -> (forall y, In y l -> p y = true -> y = x) -> length (filter p l) = 1.
Proof.
  induction l as [|y l IH]; intros N J P U; [destruct J|]. apply NoDup_cons_iff in N as (Ny & N). cbn [filter]. destruct (p y) eqn:E.
  - assert (y = x) by (apply U; [now left|exact E]). subst y. cbn [length]. f_equal.
    assert (Q : filter p l = []). { destruct (filter p l) as [|z zs] eqn:F; [reflexivity|]. assert (Jz : In z (filter p l)) by (rewrite F; now left).
      apply filter_In in Jz as (Jz & Pz). assert (z = x) by (apply U; [now right|exact Pz]). subst z. contradiction. }
    now rewrite Q.
  - apply IH; auto; [|intros z Jz; apply U; now right]. destruct J as [->|J]; [congruence|exact J].
Qed.

(** a complete row matches exactly one assignment *)
Lemma one_match data D vs r : wf_frame data -> wf_dom D -> incl (keys (pick vs D)) (f_cols data) -> complete data D (keys (pick vs D)) -> In r (f_rows data) ->
  length (filter (fun p => matches (f_cols data) p r) (all_assignments (pick vs D))) = 1.
Proof.
  intros W WD I C J. assert (WP := wf_pick vs D WD). set (d := pick vs D) in *.
  assert (Cc := proj1 (complete_cell data D (keys d) W I) C r).
  set (st := fun v => match dget v (row_dict (f_cols data) r) with Some (Some s) => s | _ => SInt 0 end).
  assert (St : forall v, In v (keys d) -> dget v (row_dict (f_cols data) r) = Some (Some (st v)) /\ exists l, In (v, l) d /\ In (st v) l).
  { intros v K. destruct (Cc v J K) as (l & s & Jl & Js & E). unfold st. rewrite E. split; [reflexivity|]. exists l. split; [|exact Js].
    unfold d, pick. apply filter_In. split; [exact Jl|]. cbn [fst]. apply keys_In in K as (k & K). unfold d, pick in K. apply filter_In in K as [_ K]. exact K. }
  apply (filter_unique _ _ (obs_of (keys d) st)).
  - apply all_assignments_NoDup. apply WP.
  - apply all_assignments_In_full; [apply WP|]. split; [unfold keys, obs_of; rewrite map_map; apply map_id|].
    intros v l Jl. assert (K : In v (keys d)) by (apply keys_In; eauto). exists (st v). split; [now apply obs_of_get|]. destruct (St v K) as (_ & l' & Jl' & Js).
    assert (l = l') as -> by (eapply (dom_unique d); eauto; apply WP). exact Js.
  - apply matches_iff. intros v s Jp. unfold obs_of in Jp. apply in_map_iff in Jp as (w & E & K). injection E as -> <-. now apply St.
  - intros p Jp M. apply all_assignments_In_full in Jp as (Kp & Fp); [|apply WP].
    apply (same_row p (keys d)); auto; [apply WP| |unfold keys, obs_of; rewrite map_map; apply map_id].
    intros v K. rewrite obs_of_get by exact K. assert (Kv := K). apply keys_In in Kv as (l & Jl). destruct (Fp v l Jl) as (s & E & _). rewrite E.
    rewrite matches_iff in M. assert (X := M v s (dget_In _ _ _ E)). rewrite (proj1 (St v K)) in X. congruence.
Qed.

Lemma list_sum_ones {A} (f : A -> nat) l : (forall x, In x l -> f x = 1) -> list_sum (map f l) = length l.
Proof.
  induction l as [|x r IH]; intros X; [reflexivity|]. cbn [map list_sum fold_right length]. rewrite (X x (or_introl eq_refl)). fold (list_sum (map f r)).
  rewrite IH by (intros; apply X; now right). reflexivity.
Qed.

(** the counts of the assignments of complete columns add up *)
Lemma count_total data D vs o : wf_frame data -> wf_dom D -> incl (keys (pick vs D)) (f_cols data) -> complete data D (keys (pick vs D)) ->
  list_sum (map (fun p => count data (p ++ o)) (all_assignments (pick vs D))) = count data o.
Proof.
  intros W WD I C. set (data' := mkF (f_cols data) (filter (matches (f_cols data) o) (f_rows data))).
  assert (W' : wf_frame data') by (now apply wf_filter).
  rewrite (map_ext _ (fun p => length (filter (matches (f_cols data) p) (f_rows data')))).
  - rewrite count_swap. rewrite (count_matches data o W). apply list_sum_ones. intros r J. apply (one_match data' D vs r); auto. now apply complete_filter.
  - intros p. rewrite count_matches by auto. cbn [data' f_rows]. rewrite filter_and. f_equal. apply filter_ext. intros r. rewrite matches_app. apply andb_comm.
Qed.
Lemma count_le data o1 o : wf_frame data -> count data (o1 ++ o) <= count data o.
Proof.
  intros W. rewrite !count_matches by auto. rewrite (filter_ext _ (fun r => matches (f_cols data) o r && matches (f_cols data) o1 r)).
  - rewrite <- filter_and. apply filter_length_le.
  - intros r. rewrite matches_app. apply andb_comm.
Qed.
