(** Lemmas about factors read from data frames. *)

From Coq Require Import String Bool Arith ZArith Lia Permutation Sorted List.
From Verif Require Import PyBase PyFacts DomainModel NdArray StoreModel FactorModel LearnModel UaiModel FrameModel Spec FactorSpec GenSpec FrameSpec
  DomainFacts PropFacts1 FactorFacts FactorFacts3 GenFacts GenFacts2 GenFacts3 UaiFacts.
Import ListNotations.
Local Open Scope nat_scope.
Local Arguments eqd : simpl never.

(** ** Sorting *)
Section Sort.
  Context {A : Type}.
  Variable le : A -> A -> Prop.
  Lemma sorted_unique (l1 l2 : list A) : Permutation l1 l2 -> StronglySorted le l1 -> StronglySorted le l2 ->
    (forall x y, In x l1 -> In y l1 -> le x y -> le y x -> x = y) -> l1 = l2.
  Proof.
    revert l2. induction l1 as [|a l1 IH]; intros l2 P S1 S2 An; [now apply Permutation_nil in P|].
    destruct l2 as [|b l2]; [apply Permutation_sym, Permutation_nil in P; discriminate|].
    inversion S1 as [|? ? S1' F1]; subst. inversion S2 as [|? ? S2' F2]; subst.
    assert (E : a = b).
    { assert (Ia : In a (b :: l2)) by (apply (Permutation_in _ P); now left).
      assert (Ib : In b (a :: l1)) by (apply (Permutation_in _ (Permutation_sym P)); now left).
      destruct Ia as [->|Ia]; [reflexivity|]. destruct Ib as [->|Ib]; [reflexivity|].
      apply An; [now left|now right|exact (proj1 (Forall_forall _ _) F1 _ Ib)|exact (proj1 (Forall_forall _ _) F2 _ Ia)]. }
    subst b. f_equal. apply IH; auto; [now apply Permutation_cons_inv in P|]. intros x y X Y. apply An; now right.
  Qed.
End Sort.

Definition row_le (cats : list (list state)) a b : Prop := row_leb cats a b = true.
Lemma row_le_total cats : forall a b, row_leb cats a b = false -> row_le cats b a.
Proof.
  unfold row_le. induction cats as [|c cats IH]; intros [|x a] [|y b]; cbn [row_leb]; try discriminate; try reflexivity.
  destruct (Nat.ltb_spec (code c x) (code c y)); [discriminate|].
  destruct (Nat.ltb_spec (code c y) (code c x)); [reflexivity|]. apply IH.
Qed.
Lemma row_le_trans cats : forall a b c n, length a = n -> length b = n -> length c = n -> row_le cats a b -> row_le cats b c -> row_le cats a c.
Proof.
  unfold row_le. induction cats as [|s cats IH]; intros [|x a] [|y b] [|z c] [|n]; cbn [row_leb length]; try discriminate; try reflexivity.
  intros La Lb Lc.
  destruct (Nat.ltb_spec (code s x) (code s y)), (Nat.ltb_spec (code s y) (code s x)),
    (Nat.ltb_spec (code s y) (code s z)), (Nat.ltb_spec (code s z) (code s y)),
    (Nat.ltb_spec (code s x) (code s z)), (Nat.ltb_spec (code s z) (code s x)); try lia; try discriminate; try reflexivity.
  intros P Q. apply (IH a b c n); auto.
Qed.
Lemma insert_perm cats r l : Permutation (insert_row cats r l) (r :: l).
Proof.
  induction l as [|x l IH]; [reflexivity|]. cbn [insert_row]. destruct (row_leb cats r x); [reflexivity|].
  rewrite IH. apply perm_swap.
Qed.
Lemma sort_perm cats l : Permutation (sort_rows cats l) l.
Proof. induction l as [|x l IH]; [reflexivity|]. cbn [sort_rows fold_right]. rewrite insert_perm. now constructor. Qed.
Lemma insert_sorted cats n r l : length r = n -> (forall x, In x l -> length x = n) ->
  StronglySorted (row_le cats) l -> StronglySorted (row_le cats) (insert_row cats r l).
Proof.
  intros Lr. induction l as [|x l IH]; intros Ll S; [repeat constructor|]. cbn [insert_row].
  inversion S as [|? ? S' F]; subst. destruct (row_leb cats r x) eqn:E.
  - constructor; [exact S|]. constructor; [exact E|]. apply Forall_forall. intros y Iy.
    apply (row_le_trans cats r x y (length r)); auto; [apply Ll; now left|apply Ll; now right|exact (proj1 (Forall_forall _ _) F _ Iy)].
  - constructor; [apply IH; auto; intros y Iy; apply Ll; now right|]. apply Forall_forall. intros y Iy.
    apply (Permutation_in _ (insert_perm cats r l)) in Iy as [<-|Iy]; [now apply row_le_total|exact (proj1 (Forall_forall _ _) F _ Iy)].
Qed.
Lemma sort_sorted cats n l : (forall x, In x l -> length x = n) -> StronglySorted (row_le cats) (sort_rows cats l).
Proof.
  induction l as [|x l IH]; intros L; [constructor|]. cbn [sort_rows fold_right]. apply (insert_sorted cats n); [apply L; now left| |apply IH; intros y I; apply L; now right].
  intros y I. apply L. right. apply (Permutation_in _ (sort_perm cats l)). exact I.
Qed.

(** Rows of states, compared by the positions of the states. *)
Lemma row_antisym cats : forall a b, Forall2 (fun l x => In x l) cats a -> Forall2 (fun l x => In x l) cats b ->
  row_le cats (map Some a) (map Some b) -> row_le cats (map Some b) (map Some a) -> a = b.
Proof.
  unfold row_le. induction cats as [|c cats IH]; intros a b Fa Fb; inversion Fa as [|? x ? a' Ix Fa']; inversion Fb as [|? y ? b' Iy Fb']; subst; [reflexivity|].
  cbn [map row_leb code]. destruct (index_of_In x c Ix) as (i & Ei), (index_of_In y c Iy) as (j & Ej). rewrite Ei, Ej.
  destruct (Nat.ltb_spec i j), (Nat.ltb_spec j i); try lia; try discriminate. intros P Q.
  f_equal; [|now apply IH]. assert (i = j) by lia. subst j. exact (index_of_inj x y c i Ei Ej).
Qed.

(** The enumeration of all configurations is sorted. *)
Lemma sorted_app {A} (R : A -> A -> Prop) l1 l2 : StronglySorted R l1 -> StronglySorted R l2 ->
  (forall x y, In x l1 -> In y l2 -> R x y) -> StronglySorted R (l1 ++ l2).
Proof.
  intros S1 S2 H. induction l1 as [|a l1 IH]; [exact S2|]. inversion S1 as [|? ? S1' F]; subst. cbn [app]. constructor.
  - apply IH; auto. intros x y X. apply H. now right.
  - apply Forall_app. split; [exact F|]. apply Forall_forall. intros y Y. apply H; [now left|exact Y].
Qed.
Lemma sorted_map {A B} (R : A -> A -> Prop) (S : B -> B -> Prop) (f : A -> B) l : (forall x y, R x y -> S (f x) (f y)) ->
  StronglySorted R l -> StronglySorted S (map f l).
Proof.
  intros H. induction 1 as [|a l _ IH F]; cbn [map]; constructor; auto.
  apply Forall_map. eapply Forall_impl; [|exact F]. auto.
Qed.

(** Strictly before, in all columns but the last ones. *)
Fixpoint before (cats : list (list state)) (a b : list state) : Prop :=
  match cats, a, b with
  | c :: cats, x :: a, y :: b => code c (Some x) < code c (Some y) \/ (x = y /\ before cats a b)
  | _, _, _ => False
  end.
Lemma before_le cats last : forall a b x y, before cats a b -> row_le (cats ++ [last]) (map Some (a ++ x)) (map Some (b ++ y)).
Proof.
  unfold row_le. induction cats as [|c cats IH]; intros [|s a] [|t b] x y; cbn [before]; try tauto.
  intros [L|(-> & B)]; cbn [app map row_leb].
  - apply Nat.ltb_lt in L. now rewrite L.
  - rewrite Nat.ltb_irrefl. now apply IH.
Qed.
Lemma product_sorted cats : (forall c, In c cats -> NoDup c) -> StronglySorted (before cats) (product cats).
Proof.
  induction cats as [|c cats IH]; intros N; [repeat constructor|]. cbn [product].
  assert (S := IH (fun d I => N d (or_intror I))). assert (Nc := N c (or_introl eq_refl)).
  assert (G : forall k l, (forall i x, nth_error l i = Some x -> index_of x c = Some (k + i)) ->
    StronglySorted (before (c :: cats)) (flat_map (fun x => map (cons x) (product cats)) l)).
  { intros k l. revert k. induction l as [|x l IHl]; intros k H; [constructor|]. cbn [flat_map]. apply sorted_app.
    - apply (sorted_map (before cats)); [|exact S]. intros a b B. right. auto.
    - apply (IHl (Datatypes.S k)). intros i y E. rewrite Nat.add_succ_comm. exact (H (Datatypes.S i) y E).
    - intros a b Ia Ib. apply in_map_iff in Ia as (a' & <- & _). apply in_flat_map in Ib as (y & Iy & Ib). apply in_map_iff in Ib as (b' & <- & _).
      left. apply In_nth_error in Iy as (i & Ei). assert (E0 := H 0 x eq_refl). assert (E1 := H (Datatypes.S i) y Ei). cbn [code]. rewrite E0, E1. lia. }
  apply (G 0). intros i x E. cbn [plus]. now apply index_of_nth.
Qed.

(** ** The categories *)
Definition column_states (D : domain) (v : var) : list state := match dget v D with Some l => l | None => [] end.
Lemma distinct_ok c : NoDup c -> distinct c = true.
Proof.
  induction 1 as [|x c N _ IH]; [reflexivity|]. cbn [distinct]. rewrite IH, andb_true_r. apply negb_true_iff. now apply mem_nIn.
Qed.
Lemma at_column_split {A} (f : A -> A) k : forall r x, nth_error r k = Some x -> at_column k f r = firstn k r ++ f x :: skipn (S k) r.
Proof.
  induction k as [|k IH]; intros [|y r] x E; try discriminate; cbn in *; [now injection E as ->|]. f_equal. now apply IH.
Qed.
Lemma as_categories_ok D cols : (forall v, In v cols -> exists l, dget v D = Some l /\ NoDup l /\ l <> []) ->
  forall k rows, (forall r, In r rows -> length r = k + length cols) ->
  as_categories D cols k rows = (map (fun r => firstn k r ++ without_strangers D cols (skipn k r)) rows, Ok (map (column_states D) cols)).
Proof.
  induction cols as [|v cols IH]; intros K k rows L.
  - cbn [as_categories map]. f_equal. rewrite <- (map_id rows) at 1. apply map_ext_in. intros r I.
    specialize (L r I). cbn [length] in L. unfold without_strangers. cbn [combine map]. rewrite app_nil_r, firstn_all2 by lia. reflexivity.
  - cbn [as_categories]. destruct (K v (or_introl eq_refl)) as (l & E & N & Ne). rewrite E, (distinct_ok l N).
    rewrite (IH (fun w I => K w (or_intror I)) (S k)).
    2:{ intros r I. apply in_map_iff in I as (r0 & <- & I). specialize (L r0 I). cbn [length] in L.
        assert (exists x, nth_error r0 k = Some x) as (x & X).
        { destruct (nth_error r0 k) eqn:X; [eauto|]. apply nth_error_None in X. lia. }
        rewrite (at_column_split _ k r0 x X), app_length, firstn_length, Nat.min_l by lia. cbn [length]. rewrite skipn_length. lia. }
    cbn [bind]. f_equal; [|cbn [map]; unfold column_states at 2; now rewrite E].
    rewrite map_map. apply map_ext_in. intros r I. specialize (L r I). cbn [length] in L.
    assert (exists x, nth_error r k = Some x) as (x & X).
    { destruct (nth_error r k) eqn:X; [eauto|]. apply nth_error_None in X. lia. }
    rewrite (at_column_split _ k r x X).
    assert (Lf : length (firstn k r) = k) by (rewrite firstn_length; lia).
    assert (Er : skipn k r = x :: skipn (S k) r).
    { clear -X. revert r X. induction k as [|k IHk]; intros [|y r] X; try discriminate; cbn in *; [now injection X as ->|]. now apply IHk. }
    rewrite Er. unfold without_strangers at 2. cbn [combine map fst snd]. rewrite E.
    change (map _ (combine cols (skipn (S k) r))) with (without_strangers D cols (skipn (S k) r)).
    assert (F1 : firstn (S k) (firstn k r ++ categorical l x :: skipn (S k) r) = firstn k r ++ [categorical l x]).
    { rewrite firstn_app, Lf. replace (S k - k) with 1 by lia. f_equal. apply firstn_all2. lia. }
    assert (F2 : skipn (S k) (firstn k r ++ categorical l x :: skipn (S k) r) = skipn (S k) r).
    { rewrite skipn_app, Lf. replace (S k - k) with 1 by lia. rewrite skipn_all2 by lia. reflexivity. }
    rewrite F1, F2, <- app_assoc. cbn [app]. unfold categorical. reflexivity.
Qed.
Lemma no_strangers D cols xs : configuration D cols xs -> without_strangers D cols (map Some xs) = map Some xs.
Proof.
  induction 1 as [|v s cols xs (l & E & I) _ IH]; [reflexivity|]. unfold without_strangers. cbn [map combine fst snd]. rewrite E.
  rewrite (proj2 (mem_In s l) I). f_equal. exact IH.
Qed.
Lemma configuration_app D c1 c2 x1 x2 : configuration D c1 x1 -> configuration D c2 x2 -> configuration D (c1 ++ c2) (x1 ++ x2).
Proof. apply Forall2_app. Qed.
Lemma configuration_product D cols xs : configuration D cols xs <-> In xs (product (map (column_states D) cols)).
Proof.
  rewrite product_In. unfold configuration. revert xs. induction cols as [|v cols IH]; intros xs; split; intros H; inversion H as [|? s ? xs' Hs Hx]; subst; cbn [map]; constructor.
  - destruct Hs as (l & E & I). unfold column_states. now rewrite E.
  - now apply IH.
  - unfold cell. unfold column_states in Hs. destruct (dget v D); [eauto|destruct Hs].
  - now apply IH.
Qed.

Lemma some_values l : frame_values (map Some l) = Ok l.
Proof.
  unfold frame_values. assert (E : existsb is_nan (map Some l) = false) by (induction l; [reflexivity|exact IHl]).
  rewrite E. cbn [andb]. rewrite map_map, map_id. reflexivity.
Qed.
Lemma nth_last (xs : list (option state)) y : nth (length xs) (xs ++ [y]) None = y.
Proof. rewrite app_nth2, Nat.sub_diag by lia. reflexivity. Qed.
Lemma index_of_last {K} `{EqD K} (l : list K) x : NoDup (l ++ [x]) -> index_of x (l ++ [x]) = Some (length l).
Proof. intros N. apply index_of_nth; [exact N|]. rewrite nth_error_app2, Nat.sub_diag by lia. reflexivity. Qed.

(** ** The name of the left variable *)
Lemma part_spec w v : substr_of w v = true <-> exists a b, v = (a ++ w ++ b)%string.
Proof. apply substr_of_spec. Qed.
Lemma only_itself cols v : NoDup (cols ++ [v]) -> no_part cols v -> filter (fun w : var => substr_of w v) (cols ++ [v]) = [v].
Proof.
  intros N P. rewrite filter_app. assert (E : filter (fun w : var => substr_of w v) cols = []).
  { destruct (filter (fun w : var => substr_of w v) cols) as [|w r] eqn:E; [reflexivity|]. assert (I : In w (filter (fun w : var => substr_of w v) cols)) by (rewrite E; now left).
    apply filter_In in I as (I & X). apply part_spec in X as (a & b & X). exfalso. exact (P w a b I X). }
  rewrite E. cbn [filter app].
  assert (S : substr_of v v = true) by (apply part_spec; exists ""%string, ""%string; cbn; clear; induction v as [|a v IH]; cbn; [reflexivity|]; now rewrite <- IH).
  now rewrite S.
Qed.

(** ** The function that is read *)
Lemma filter_same {A} (f : A -> bool) l : (forall x, In x l -> f x = true) -> filter f l = l.
Proof. induction l as [|x l IH]; intros H; [reflexivity|]. cbn [filter]. rewrite (H x (or_introl eq_refl)). f_equal. apply IH. intros y I. apply H. now right. Qed.
Section Read.
  Variables (dflt : vtype) (D : domain) (cols : list var) (v : var) (rs : list (list state)).
  Hypothesis K : known_columns D (cols ++ [v]).
  Let dom := order_dom D (cols ++ [v]).

  Lemma columns_wf : wf_dom dom.
  Proof.
    destruct K as (Nk & N & Hl). split; [unfold dom; rewrite order_dom_keys; exact N|]. intros w l I. unfold dom, order_dom in I.
    apply in_map_iff in I as (w' & E & I). injection E as -> E. destruct (Hl w I) as (l' & E' & N' & Ne). rewrite E' in E. subst. auto.
  Qed.
  Lemma columns_sub : subdomain D (cols ++ [v]) = Ok dom.
  Proof.
    destruct K as (Nk & N & Hl). apply subdomain_order; auto. intros w I. destruct (Hl w I) as (l & E & _). apply keys_In. exists l. now apply dget_In.
  Qed.
  Lemma right_dom : drop [v] dom = order_dom D cols.
  Proof.
    destruct K as (_ & N & _). apply NoDup_app_iff in N as (_ & _ & Nv). unfold dom, order_dom, drop. rewrite map_app, filter_app. cbn [map filter fst].
    assert (X : mem v [v] = true) by (apply mem_In; now left). rewrite X. cbn [negb]. rewrite app_nil_r. apply filter_same.
    intros (w & l) I. apply in_map_iff in I as (w' & E & I). injection E as -> <-. cbn [fst]. apply negb_true_iff, mem_nIn. intros [<-|[]].
    apply (Nv v I). now left.
  Qed.
  Lemma right_vals : vals (order_dom D cols) = map (column_states D) cols.
  Proof. unfold vals, order_dom. now rewrite map_map. Qed.

  Lemma dom_In : forall l, dget v D = Some l -> In (v, l) dom.
  Proof. intros l E. unfold dom, order_dom. rewrite map_app. apply in_or_app. right. left. now rewrite E. Qed.

  Hypothesis T : function_table D cols v rs.
  Lemma row_shape : forall r, In r rs -> configuration D (cols ++ [v]) r.
  Proof.
    intros r I. destruct T as (_ & H & _). destruct (H r I) as (xs & y & -> & C & (l & E & Iy)). apply configuration_app; [exact C|].
    constructor; [|constructor]. exists l. auto.
  Qed.
  Lemma row_length : forall r, In r rs -> length r = length (cols ++ [v]).
  Proof. intros r I. symmetry. exact (Forall2_length _ _ _ (row_shape r I)). Qed.

  (** The value of the function. *)
  Definition value (xs : list state) : state :=
    match find (fun r => if list_eq_dec eqd (removelast r) xs then true else false) rs with Some r => last r (SBool true) | None => SBool true end.
  Lemma value_ok xs : configuration D cols xs -> In (xs ++ [value xs]) rs.
  Proof.
    intros C. destruct T as (_ & H & U). destruct (U xs C) as (y & I & Uy). unfold value.
    destruct (find _ rs) as [r|] eqn:E.
    - apply find_some in E as (Ir & Er). destruct (list_eq_dec eqd (removelast r) xs) as [Ex|]; [|discriminate].
      destruct (H r Ir) as (xs' & y' & -> & _). rewrite removelast_last in Ex. subst xs'. rewrite last_last. exact Ir.
    - exfalso. apply (find_none _ _ E) in I. rewrite removelast_last in I. destruct (list_eq_dec eqd xs xs); [discriminate|congruence].
  Qed.
  Lemma value_only xs y : In (xs ++ [y]) rs -> y = value xs.
  Proof.
    intros I. destruct T as (_ & H & U). destruct (H _ I) as (xs' & y' & E & C & _). apply app_inj_tail in E as (-> & ->).
    destruct (U xs' C) as (z & _ & Uz). rewrite (Uz y' I). symmetry. apply Uz. now apply value_ok.
  Qed.

  Lemma sorted_rows : sort_rows (map (column_states D) (cols ++ [v])) (map (map Some) rs) =
    map (map Some) (map (fun xs => xs ++ [value xs]) (product (map (column_states D) cols))).
  Proof.
    assert (Hin : forall r, In r rs -> Forall2 (fun l x => In x l) (map (column_states D) (cols ++ [v])) r).
    { intros r I. apply product_In, configuration_product, row_shape, I. }
    apply (sorted_unique (row_le (map (column_states D) (cols ++ [v])))).
    - rewrite sort_perm. apply Permutation_map. apply NoDup_Permutation.
      + exact (proj1 T).
      + apply (NoDup_map_inv (@removelast state)). rewrite map_map. rewrite (map_ext _ (fun xs => xs)) by (intros; apply removelast_last). rewrite map_id.
        apply product_NoDup. intros c I. apply in_map_iff in I as (w & <- & I). destruct K as (_ & _ & Hl).
        destruct (Hl w (in_or_app _ _ _ (or_introl I))) as (l & E & N & _). unfold column_states. now rewrite E.
      + intros r. split; intros I.
        * destruct T as (_ & H & _). destruct (H r I) as (xs & y & -> & C & _). rewrite (value_only xs y I). apply in_map_iff. exists xs. split; [reflexivity|].
          now apply configuration_product.
        * apply in_map_iff in I as (xs & <- & I). apply value_ok. now apply configuration_product.
    - apply (sort_sorted _ (length (cols ++ [v]))). intros x I. apply in_map_iff in I as (r & <- & I). rewrite map_length. now apply row_length.
    - rewrite map_map. rewrite map_app. cbn [map]. apply (sorted_map (before (map (column_states D) cols))); [intros x y B; now apply before_le|].
      apply product_sorted. intros c I. apply in_map_iff in I as (w & <- & I). destruct K as (_ & _ & Hl).
      destruct (Hl w (in_or_app _ _ _ (or_introl I))) as (l & E & N & _). unfold column_states. now rewrite E.
    - intros x y X Y. apply (Permutation_in _ (sort_perm _ _)) in X, Y. apply in_map_iff in X as (a & <- & Ia), Y as (b & <- & Ib).
      intros P Q. f_equal. apply (row_antisym (map (column_states D) (cols ++ [v]))); auto.
  Qed.

  Hypothesis P : no_part cols v.
  Lemma read_ok lv : lv = None \/ (lv = Some v /\ v <> EmptyString) -> forall l, dget v D = Some l ->
    exists f, from_data_frame dflt (frame_of (cols ++ [v]) rs) D lv = (frame_of (cols ++ [v]) rs, Ok f) /\
      wf_df f v l /\ df_domain f = dom /\ df_right f = cols /\ df_vtype f = dflt /\
      forall xs y, In (xs ++ [y]) rs -> get_value (df_store f) (combine cols xs) = Ok y.
  Proof.
    intros Hv l El. assert (N : NoDup (cols ++ [v])) by apply K.
    set (vs := map value (product (map (column_states D) cols))).
    destruct (df_init_ok dom v l vs dflt columns_wf (dom_In l El)) as (f & Ef & Wf & Df & Vf & Rf & Gf).
    { unfold vs. rewrite map_length, product_length. rewrite right_dom. rewrite size_prodl. unfold card. now rewrite right_vals. }
    exists f. split.
    - unfold from_data_frame. cbn [f_cols f_rows frame_of].
      assert (Nm : match lv with None | Some EmptyString => match rev (cols ++ [v]) with [] => Raise IndexError | v :: _ => Ok v end | Some v => Ok v end = Ok v).
      { rewrite rev_unit. destruct Hv as [->|(-> & Ne)]; [reflexivity|]. destruct v; [congruence|reflexivity]. }
      rewrite Nm. rewrite (as_categories_ok D (cols ++ [v]) (proj2 (proj2 K)) 0 (map (map Some) rs)).
      2:{ intros r I. apply in_map_iff in I as (r0 & <- & I). rewrite map_length. now apply row_length. }
      assert (Er : map (fun r => firstn 0 r ++ without_strangers D (cols ++ [v]) (skipn 0 r)) (map (map Some) rs) = map (map Some) rs).
      { rewrite map_map. apply map_ext_in. intros r I. cbn [firstn skipn app]. apply no_strangers, row_shape, I. }
      rewrite Er. f_equal. cbn [bind]. rewrite app_length, Nat.add_comm. cbn [length Nat.add Nat.eqb]. rewrite columns_sub. cbn [bind].
      rewrite (index_of_last cols v N). rewrite sorted_rows. rewrite !map_map.
      assert (Ev : map (fun xs => nth (length cols) (map Some (xs ++ [value xs])) None) (product (map (column_states D) cols)) = map Some vs).
      { unfold vs. rewrite map_map. apply map_ext_in. intros xs I. apply configuration_product in I. rewrite map_app. cbn [map].
        rewrite (Forall2_length _ _ _ I), <- (map_length Some xs). apply nth_last. }
      rewrite Ev, some_values. cbn [bind]. rewrite (only_itself cols v N P). exact Ef.
    - split; [exact Wf|]. split; [exact Df|]. split; [rewrite Rf, right_dom; unfold order_dom, keys; rewrite map_map; apply map_id|]. split; [exact Vf|].
      intros xs y I. assert (C : configuration D cols xs).
      { destruct T as (_ & H & _). destruct (H _ I) as (xs' & y' & E & C & _). apply app_inj_tail in E as (-> & _). exact C. }
      rewrite (value_only xs y I). assert (Nc : NoDup cols) by (apply NoDup_app_iff in N; tauto).
      assert (Lx : length xs = length cols) by (symmetry; exact (Forall2_length _ _ _ C)).
      assert (Sx : vals (combine cols xs) = xs).
      { clear -Lx. revert xs Lx. induction cols as [|c cs IH]; intros [|x xs] L; try discriminate; [reflexivity|]. cbn. f_equal. apply IH. now injection L. }
      destruct (enumeration_ok (order_dom D cols)) as (_ & Hin & _ & Hn & Hs); [rewrite order_dom_keys; exact Nc|].
      assert (Ia : In (combine cols xs) (assignment_space (order_dom D cols))).
      { unfold assignment_space, state_space. rewrite order_dom_keys, right_vals. apply in_map_iff. exists xs. split; [reflexivity|]. now apply configuration_product. }
      apply Hin in Ia as (Ck & Fo). rewrite right_dom in Gf. destruct (Gf (combine cols xs) Fo) as (z & Ez & Nz). rewrite Ez. f_equal.
      specialize (Hn _ Ck Fo). apply (map_nth_error vals) in Hn. rewrite <- Hs, Sx in Hn. unfold state_space in Hn. rewrite right_vals in Hn.
      apply (map_nth_error value) in Hn. fold vs in Hn. congruence.
  Qed.
End Read.

(** ** The frame of the caller *)
Lemma caller_ok dflt D df lv : known_columns D (f_cols df) -> (forall r, In r (f_rows df) -> length r = length (f_cols df)) ->
  fst (from_data_frame dflt df D lv) = mkF (f_cols df) (map (without_strangers D (f_cols df)) (f_rows df)).
Proof.
  intros K L. unfold from_data_frame. destruct df as (cols & rows). cbn [f_cols f_rows] in *.
  rewrite (as_categories_ok D cols (proj2 (proj2 K)) 0 rows L).
  destruct (match lv with None | Some EmptyString => match rev cols with [] => Raise IndexError | v :: _ => Ok v end | Some v => Ok v end) as [name|e] eqn:E; [reflexivity|].
  cbn [fst]. assert (cols = []) as ->.
  { destruct lv as [[|a s]|]; try discriminate; (destruct (rev cols) as [|x r] eqn:R; [|discriminate]);
      apply (f_equal (@rev var)) in R; rewrite rev_involutive in R; exact R. }
  f_equal. rewrite <- (map_id rows) at 1. apply map_ext_in. intros r I. specialize (L r I). destruct r; [reflexivity|discriminate].
Qed.

(** ** Exceptions *)
Lemma unknown_categories D cols : (forall v l, In v cols -> dget v D = Some l -> NoDup l) -> (exists v, In v cols /\ dget v D = None) ->
  forall k rows, snd (as_categories D cols k rows) = Raise KeyError.
Proof.
  induction cols as [|v cols IH]; intros Hn (w & I & E); [destruct I|]. intros k rows. cbn [as_categories].
  destruct (dget v D) as [l|] eqn:El; [|reflexivity]. rewrite (distinct_ok l (Hn v l (or_introl eq_refl) El)).
  assert (X := IH (fun v l I => Hn v l (or_intror I))). destruct I as [->|I]; [congruence|].
  specialize (X (ex_intro _ w (conj I E)) (S k) (map (at_column k (categorical l)) rows)).
  destruct (as_categories D cols (S k) _) as (rows' & r). cbn [snd] in *. rewrite X. reflexivity.
Qed.
Lemma unknown_column dflt D df lv : (forall v l, In v (f_cols df) -> dget v D = Some l -> NoDup l) ->
  (exists v, In v (f_cols df) /\ ~ In v (keys D)) -> snd (from_data_frame dflt df D lv) = Raise KeyError.
Proof.
  intros Hn (v & I & E). unfold from_data_frame. destruct df as (cols & rows). cbn [f_cols f_rows] in *.
  destruct (match lv with None | Some EmptyString => match rev cols with [] => Raise IndexError | v :: _ => Ok v end | Some v => Ok v end) as [name|e] eqn:En.
  - assert (X := unknown_categories D cols Hn). specialize (X (ex_intro _ v (conj I (proj2 (dget_None _ _) E))) 0 rows).
    destruct (as_categories D cols 0 rows) as (rows' & r). cbn [snd] in *. rewrite X. reflexivity.
  - exfalso. assert (cols = []) as ->; [|destruct I].
    destruct lv as [[|a s]|]; try discriminate; (destruct (rev cols) as [|x r] eqn:R; [|discriminate]);
      apply (f_equal (@rev var)) in R; rewrite rev_involutive in R; exact R.
Qed.
Lemma no_columns dflt D rows : snd (from_data_frame dflt (mkF [] rows) D None) = Raise IndexError.
Proof. reflexivity. Qed.
Lemma not_a_column dflt D df v : known_columns D (f_cols df) -> (forall r, In r (f_rows df) -> length r = length (f_cols df)) ->
  f_cols df <> [] -> v <> EmptyString -> ~ In v (f_cols df) -> snd (from_data_frame dflt df D (Some v)) = Raise KeyError.
Proof.
  intros K L Nc Nv Ni. unfold from_data_frame. destruct df as (cols & rows). cbn [f_cols f_rows] in *.
  destruct v as [|a s]; [congruence|]. rewrite (as_categories_ok D cols (proj2 (proj2 K)) 0 rows L). cbn [snd bind].
  destruct cols as [|c cols]; [congruence|]. cbn [length Nat.eqb].
  rewrite subdomain_order; [|apply K|apply K|].
  - cbn [bind]. now rewrite (proj2 (index_of_None _ _) Ni).
  - intros w I. destruct (proj2 (proj2 K) w I) as (l & E & _). apply keys_In. exists l. now apply dget_In.
Qed.

(** Frames whose last column holds states of [v]. *)
Section Last.
  Variables (dflt : vtype) (D : domain) (cols : list var) (v : var) (rows : list (list (option state))).
  Hypothesis K : known_columns D (cols ++ [v]).
  Hypothesis L : forall r, In r rows -> length r = length (cols ++ [v]).
  Hypothesis S : forall r, In r rows -> exists s, nth (length cols) r None = Some s /\ cell D v s.

  Lemma last_values lv : lv = None \/ (lv = Some v /\ v <> EmptyString) -> exists l, length l = length rows /\
    snd (from_data_frame dflt (mkF (cols ++ [v]) rows) D lv) =
    df_init (order_dom D (cols ++ [v])) (mkNd [length l] l) (Some (filter (fun w : var => substr_of w v) (cols ++ [v]))) None dflt.
  Proof.
    intros Hv. unfold from_data_frame. cbn [f_cols f_rows].
    assert (Nm : match lv with None | Some EmptyString => match rev (cols ++ [v]) with [] => Raise IndexError | v :: _ => Ok v end | Some v => Ok v end = Ok v).
    { rewrite rev_unit. destruct Hv as [->|(-> & Ne)]; [reflexivity|]. destruct v; [congruence|reflexivity]. }
    rewrite Nm. rewrite (as_categories_ok D (cols ++ [v]) (proj2 (proj2 K)) 0 rows L). cbn [snd bind firstn skipn app].
    rewrite app_length, Nat.add_comm. cbn [length Nat.add Nat.eqb]. rewrite (columns_sub D cols v K). cbn [bind].
    rewrite (index_of_last cols v (proj1 (proj2 K))).
    set (sorted := sort_rows _ _).
    assert (G : exists l, map (fun r => nth (length cols) r None) sorted = map Some l).
    { assert (H : forall r, In r sorted -> exists s, nth (length cols) r None = Some s).
      { intros r I. apply (Permutation_in _ (sort_perm _ _)) in I. apply in_map_iff in I as (r0 & <- & I). specialize (L r0 I).
        destruct (S r0 I) as (s & Es & (l & El & Is)). exists s.
        assert (Hr : r0 = firstn (length cols) r0 ++ [Some s]).
        { rewrite app_length in L. cbn [length] in L. rewrite <- (firstn_skipn (length cols) r0) at 1. f_equal.
          assert (Lk : length (skipn (length cols) r0) = 1) by (rewrite skipn_length; lia).
          rewrite <- (firstn_skipn (length cols) r0) in Es. rewrite app_nth2 in Es by (rewrite firstn_length; lia).
          rewrite firstn_length, Nat.min_l, Nat.sub_diag in Es by lia. destruct (skipn (length cols) r0) as [|x [|y z]]; try discriminate. cbn in Es. now subst. }
        unfold without_strangers. rewrite Hr. set (a := firstn (length cols) r0) in *. assert (La : length a = length cols).
        { unfold a. rewrite firstn_length, L, app_length. cbn. lia. }
        assert (Ec : combine (cols ++ [v]) (a ++ [Some s]) = combine cols a ++ [(v, Some s)]).
        { clearbody a. clear -La. revert a La. induction cols as [|c cs IH]; intros [|x a] La; try discriminate; [reflexivity|]. cbn. f_equal. apply IH. now injection La. }
        rewrite Ec, map_app. cbn [map fst snd]. rewrite El, (proj2 (mem_In s l) Is).
        rewrite app_nth2; rewrite map_length, combine_length, La, Nat.min_id; [|lia]. now rewrite Nat.sub_diag. }
      clearbody sorted. clear -H. induction sorted as [|r t IH]; [exists []; reflexivity|].
      destruct (H r (or_introl eq_refl)) as (s & E). destruct IH as (l & El); [intros x I; apply H; now right|]. exists (s :: l). cbn [map]. now rewrite E, El. }
    destruct G as (l & G). exists l. split.
    - apply (f_equal (@length _)) in G. rewrite !map_length in G. rewrite <- G. unfold sorted.
      rewrite (Permutation_length (sort_perm _ _)). now rewrite map_length.
    - rewrite G, some_values. reflexivity.
  Qed.

  Lemma wrong_size lv : lv = None \/ (lv = Some v /\ v <> EmptyString) -> no_part cols v -> length rows <> table_size D cols ->
    snd (from_data_frame dflt (mkF (cols ++ [v]) rows) D lv) = Raise ValueError.
  Proof.
    intros Hv P Hs. destruct (last_values lv Hv) as (l & Ll & ->). rewrite (only_itself cols v (proj1 (proj2 K)) P).
    unfold df_init. rewrite order_dom_keys. cbn [set_variables bind].
    assert (Iv : In v (cols ++ [v])) by (apply in_or_app; right; now left).
    rewrite (left_one (cols ++ [v]) v (proj1 (proj2 K)) Iv). cbn [length Nat.eqb negb shape].
    rewrite (right_domain_drop (order_dom D (cols ++ [v])) v).
    2:{ intros w Iw. rewrite order_dom_keys in Iw. rewrite filter_In, negb_true_iff, mem_nIn. split.
        - intros [_ H] ->. apply H. now left.
        - intros H. split; auto. intros [->|[]]. congruence. }
    rewrite (right_dom D cols v K). unfold np_reshape. cbn [flat].
    assert (X : prodl (card (order_dom D cols)) = table_size D cols).
    { rewrite <- size_prodl. unfold table_size, order_dom. clear. induction cols as [|c cs IH]; [reflexivity|]. cbn [map size fold_right]. rewrite IH. now destruct (dget c D). }
    rewrite X. assert (E : length l =? table_size D cols = false) by (apply Nat.eqb_neq; lia). rewrite E. reflexivity.
  Qed.

  Lemma name_within lv : lv = None \/ (lv = Some v /\ v <> EmptyString) -> (exists w a b, In w cols /\ v = (a ++ w ++ b)%string) ->
    snd (from_data_frame dflt (mkF (cols ++ [v]) rows) D lv) = Raise ValueError.
  Proof.
    intros Hv (w & a & b & Iw & Ew). destruct (last_values lv Hv) as (l & Ll & ->). unfold df_init. rewrite order_dom_keys. cbn [set_variables bind].
    set (A := filter (fun w : var => substr_of w v) (cols ++ [v])). set (rv := filter (fun x => negb (mem x A)) (cols ++ [v])).
    assert (Hw : In w (filter (fun x => negb (mem x rv)) (cols ++ [v]))).
    { apply filter_In. split; [apply in_or_app; now left|]. apply negb_true_iff, mem_nIn. intros J. unfold rv in J. apply filter_In in J as (_ & J).
      apply negb_true_iff, mem_nIn in J. apply J. apply filter_In. split; [apply in_or_app; now left|]. apply part_spec. eauto. }
    assert (Hx : In v (filter (fun x => negb (mem x rv)) (cols ++ [v]))).
    { apply filter_In. split; [apply in_or_app; right; now left|]. apply negb_true_iff, mem_nIn. intros J. unfold rv in J. apply filter_In in J as (_ & J).
      apply negb_true_iff, mem_nIn in J. apply J. apply filter_In. split; [apply in_or_app; right; now left|]. apply part_spec. exists ""%string, ""%string.
      cbn. clear. induction v as [|c s IH]; cbn; [reflexivity|]. now rewrite <- IH. }
    destruct (filter (fun x => negb (mem x rv)) (cols ++ [v])) as [|x [|y r]] eqn:E; [destruct Hw| |reflexivity].
    exfalso. destruct Hw as [Hw|[]], Hx as [Hx|[]]. rewrite Hw in Hx. rewrite Hx in Iw. destruct (proj1 (NoDup_app_iff _ _) (proj1 (proj2 K))) as (_ & _ & X). apply (X v Iw). now left.
  Qed.
End Last.
