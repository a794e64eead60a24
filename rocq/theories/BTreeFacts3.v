(** Building a tree from a table with any rule that halves tables. *)

From Coq Require Import String Bool Arith ZArith QArith Qcanon Lia List.
From Verif Require Import PyBase Num DomainModel NdArray StoreModel NumStore PyFacts Spec DomainFacts
  StoreSpec StoreFacts PropFacts1 BTreeModel BTreeSpec BTreeFacts BTreeFacts2.
Import ListNotations.
Local Open Scope nat_scope.
Local Arguments eqd : simpl never.

(** ** Nodes *)

Lemma last_app_ne (l : list state) x y : last (l ++ [x]) y = x.
Proof. induction l as [|a r IH]; [reflexivity|]. cbn. destruct (r ++ [x]) eqn:E; [destruct r; discriminate|]. exact IH. Qed.

Lemma py_last_app l x : py_last (l ++ [x]) = Ok x.
Proof. destruct l as [|a r]; [reflexivity|]. cbn. now rewrite last_app_ne. Qed.

Lemma node_init_ok v dom l r k : 1 <= k < length dom -> node_init v dom l r (Z.of_nat k) = Ok (BNode v dom k l r).
Proof.
  intros B. unfold node_init.
  replace (Z.of_nat k <? 1)%Z with false by (symmetry; apply Z.ltb_ge; lia).
  replace (Z.of_nat (length dom) <=? Z.of_nat k)%Z with false by (symmetry; apply Z.leb_gt; lia).
  cbn [orb]. now rewrite Nat2Z.id.
Qed.

Lemma node_build_lefts v lefts rights L R : lefts <> [] -> rights <> [] -> NoDup (lefts ++ rights) ->
  node_build v (lefts ++ rights) L R (Some lefts) None None true
  = Ok (BNode v (lefts ++ rights) (length lefts) L R).
Proof.
  intros NL NR ND. destruct (exists_last NL) as (l0 & x & ->).
  assert (IX : index_of x ((l0 ++ [x]) ++ rights) = Some (length l0)).
  { apply index_of_nth; [exact ND|]. rewrite <- app_assoc, nth_error_app2, Nat.sub_diag by lia. reflexivity. }
  unfold node_build. rewrite py_last_app. cbn [bind]. unfold list_index. rewrite IX. cbn [bind app].
  set (c := Z.of_nat (length l0 + 1)).
  change (length (nodup Z.eq_dec [c])) with 1. cbn [Nat.eqb andb].
  unfold c. replace (length l0 + 1) with (length (l0 ++ [x])) by (rewrite app_length; reflexivity).
  apply node_init_ok. rewrite !app_length. cbn [length]. destruct rights; [congruence|]. cbn [length]. lia.
Qed.

(** ** Halves *)

Lemma half_ok T v l xs TL : is_table T -> In (v, l) (st_domain T) -> xs <> [] -> in_order xs l ->
  length xs < length l -> st_restrict_ext T [(v, Many xs)] = Ok TL ->
  is_table TL /\ size (st_domain TL) < size (st_domain T) /\
  (forall o y, full (st_domain T) o -> dget v o = Some y -> In y xs ->
     full (st_domain TL) o /\ get_value TL o = get_value T o) /\
  (forall o', full (st_domain TL) o' ->
     exists o, full (st_domain T) o /\ get_value T o = get_value TL o').
Proof.
  intros [W TY] I NE IO LT R.
  destruct (restrict_states T v l xs W TY I NE IO) as (s' & R' & W' & TY' & D' & A & B).
  rewrite R in R'. injection R' as <-. split; [split; assumption|]. split.
  - destruct (kept_size v l xs (st_domain T) (proj1 (proj1 W)) I NE) as (k & E1 & E2).
    rewrite D', E2, E1. pose proof (size_pos _ (proj1 W)) as P. rewrite E1 in P. nia.
  - split; [exact A|]. intros o' F. destruct (B o' F) as (o & y & F' & _ & _ & E). eauto.
Qed.

Lemma halves_ok T v lefts rights TL TR : is_table T -> halves T (v, lefts, rights, TL, TR) ->
  exists l, In (v, l) (st_domain T) /\ lefts <> [] /\ rights <> [] /\ l = lefts ++ rights /\ NoDup l /\
    is_table TL /\ size (st_domain TL) < size (st_domain T) /\
    (forall o y, full (st_domain T) o -> dget v o = Some y -> In y lefts ->
       full (st_domain TL) o /\ get_value TL o = get_value T o) /\
    (forall o', full (st_domain TL) o' -> exists o, full (st_domain T) o /\ get_value T o = get_value TL o') /\
    is_table TR /\ size (st_domain TR) < size (st_domain T) /\
    (forall o y, full (st_domain T) o -> dget v o = Some y -> In y rights ->
       full (st_domain TR) o /\ get_value TR o = get_value T o) /\
    (forall o', full (st_domain TR) o' -> exists o, full (st_domain T) o /\ get_value T o = get_value TR o').
Proof.
  intros IT (l & I & NL & NR & E & RL & RR). exists l.
  assert (ND : NoDup l) by (destruct IT as [[[_ W] _] _]; now destruct (W v l I)).
  assert (LL : length lefts < length l /\ length rights < length l).
  { rewrite E, app_length. destruct lefts, rights; cbn [length]; try congruence; lia. }
  destruct (half_ok T v l lefts TL IT I NL) as (A1 & A2 & A3 & A4); [subst l; now apply in_order_l|tauto|auto|].
  destruct (half_ok T v l rights TR IT I NR) as (B1 & B2 & B3 & B4); [subst l; now apply in_order_r|tauto|auto|].
  repeat (split; [assumption|]). assumption.
Qed.

(** ** The construction *)

Lemma dlook_In v l (d : domain) : NoDup (keys d) -> In (v, l) d -> dlook v d = Ok l.
Proof.
  intros N I. unfold dlook. replace (dget v d) with (Some l); [reflexivity|].
  symmetry. induction d as [|[w m] r IH]; [destruct I|]. cbn. inversion N; subst. destruct I as [I|I].
  - injection I as -> ->. now rewrite eqd_refl.
  - rewrite eqd_neq; [auto|]. intros ->. apply H1. apply keys_In. eauto.
Qed.

Section Build.
  Variable choose : store num -> res split.
  Hypothesis LC : lawful choose.

  Lemma leaf_case T : is_table T -> constant T ->
    exists x, (let* xs := values_list T in let* x := py_nth xs 0 in Ok (BLeaf x)) = Ok (BLeaf x) /\
      forall o, full (st_domain T) o -> get_value T o = Ok x.
  Proof.
    intros [W TY] (x & _ & A). exists x. split; [|exact A].
    destruct (values_list_ok T W) as (xs & E & L & _). rewrite E. cbn [bind].
    unfold values_list in E. pose proof (space_size T W) as SS. pose proof (size_pos _ (proj1 W)) as SP.
    assert (FS : forall c, In c (assignment_space (st_domain T)) -> full (st_domain T) c)
      by (intros c; now apply listed_full).
    destruct (assignment_space (st_domain T)) as [|c r]; [cbn in SS; lia|].
    cbn [mapM] in E. rewrite (A c) in E by (apply FS; left; reflexivity).
    cbn [bind] in E. destruct (mapM (fun o => get_value T o) r) as [ys|]; [|discriminate E]. cbn [bind] in E.
    injection E as <-. reflexivity.
  Qed.

  Lemma build_ok fuel : forall T t, is_table T -> build_from_table choose fuel T = Ok t -> represents t T.
  Proof.
    induction fuel as [|fuel IH]; intros T t IT B; [discriminate B|]. cbn [build_from_table] in B.
    destruct (all_equal_ok T (proj1 IT)) as (b & AE & Hb). rewrite AE in B. cbn [bind] in B.
    destruct b.
    - destruct (leaf_case T IT (proj1 Hb eq_refl)) as (x & E & A). rewrite E in B. injection B as <-.
      intros o F. exists x. split; [now apply A|reflexivity].
    - destruct (choose T) as [[[[[v lefts] rights] TL] TR]|] eqn:C; [|discriminate B]. cbn [bind] in B.
      destruct (halves_ok T v lefts rights TL TR IT (LC _ _ IT C))
        as (l & I & NL & NR & E & ND & IL & _ & FL & _ & IR & _ & FR & _).
      destruct (build_from_table choose fuel TL) as [tl|] eqn:BL; [|discriminate B]. cbn [bind] in B.
      destruct (build_from_table choose fuel TR) as [tr|] eqn:BR; [|discriminate B]. cbn [bind] in B.
      rewrite (dlook_In v l) in B by (auto; apply IT). cbn [bind] in B. subst l.
      rewrite node_build_lefts in B by auto. injection B as <-.
      intros o F. destruct (F v _ I) as (y & Ey & Iy).
      cbn [follow]. unfold dlook. rewrite Ey. cbn [bind is_on_left]. unfold list_index.
      rewrite index_of_app. apply in_app_iff in Iy.
      destruct (index_of y lefts) as [i|] eqn:Q.
      + assert (Il : In y lefts /\ i < length lefts).
        { apply index_of_Some in Q. destruct Q as [Q Q']. split; [eapply nth_error_In; eauto|exact Q']. }
        destruct Il as [Il Li]. cbn [bind]. apply Nat.ltb_lt in Li. rewrite Li.
        destruct (FL o y F Ey Il) as [F' <-]. exact (IH TL tl IL BL o F').
      + apply index_of_None in Q. destruct Iy as [Iy|Iy]; [tauto|].
        destruct (index_of_In y rights Iy) as (j & ->). cbn [bind].
        replace (length lefts + j <? length lefts) with false by (symmetry; apply Nat.ltb_ge; lia).
        destruct (FR o y F Ey Iy) as [F' <-]. exact (IH TR tr IR BR o F').
  Qed.

  Lemma build_total fuel : forall T, is_table T -> size (st_domain T) <= fuel ->
    (forall T', visited choose T T' -> ~ constant T' -> exists sp, choose T' = Ok sp) ->
    exists t, build_from_table choose fuel T = Ok t.
  Proof.
    induction fuel as [|fuel IH]; intros T IT SZ A.
    { pose proof (size_pos _ (proj1 (proj1 IT))). lia. }
    cbn [build_from_table].
    destruct (all_equal_ok T (proj1 IT)) as (b & -> & Hb). cbn [bind]. destruct b.
    - destruct (leaf_case T IT (proj1 Hb eq_refl)) as (x & -> & _). eauto.
    - assert (NC : ~ constant T) by (intros C; apply Hb in C; discriminate).
      destruct (A T (v_here _ _) NC) as ([[[[v lefts] rights] TL] TR] & C). rewrite C. cbn [bind].
      destruct (halves_ok T v lefts rights TL TR IT (LC _ _ IT C))
        as (l & I & NL & NR & E & ND & IL & SL & _ & _ & IR & SR & _ & _).
      destruct (IH TL IL) as (tl & ->); [lia|..].
      { intros T' V. apply A. eapply v_left; eauto. }
      destruct (IH TR IR) as (tr & ->); [lia|..].
      { intros T' V. apply A. eapply v_right; eauto. }
      cbn [bind]. rewrite (dlook_In v l) by (auto; apply IT). cbn [bind]. subst l.
      rewrite node_build_lefts by auto. eauto.
  Qed.

  Lemma build_needs fuel : forall T T' t, is_table T -> build_from_table choose fuel T = Ok t ->
    visited choose T T' -> is_table T' /\ (~ constant T' -> exists sp, choose T' = Ok sp).
  Proof.
    induction fuel as [|fuel IH]; intros T T' t IT B V; [discriminate B|]. cbn [build_from_table] in B.
    destruct (all_equal_ok T (proj1 IT)) as (b & AE & Hb). rewrite AE in B. cbn [bind] in B.
    inversion V as [T0|T0 v lefts rights TL TR T0' NC C V1|T0 v lefts rights TL TR T0' NC C V1]; subst.
    - split; [exact IT|]. intros NC. destruct b; [exfalso; apply NC; now apply Hb|].
      destruct (choose T') as [sp|]; [eauto|discriminate B].
    - destruct b; [exfalso; apply NC; now apply Hb|]. rewrite C in B. cbn [bind] in B.
      destruct (halves_ok T v lefts rights TL TR IT (LC _ _ IT C))
        as (l & I & NL & NR & E & ND & IL & _ & _ & _ & IR & _).
      destruct (build_from_table choose fuel TL) as [tl|] eqn:BL; [|discriminate B]. eauto.
    - destruct b; [exfalso; apply NC; now apply Hb|]. rewrite C in B. cbn [bind] in B.
      destruct (halves_ok T v lefts rights TL TR IT (LC _ _ IT C))
        as (l & I & NL & NR & E & ND & IL & _ & _ & _ & IR & _).
      destruct (build_from_table choose fuel TL) as [tl|] eqn:BL; [|discriminate B]. cbn [bind] in B.
      destruct (build_from_table choose fuel TR) as [tr|] eqn:BR; [|discriminate B]. eauto.
  Qed.

  Lemma visited_table T T' : is_table T -> visited choose T T' -> is_table T' /\
    forall o', full (st_domain T') o' -> exists o, full (st_domain T) o /\ get_value T o = get_value T' o'.
  Proof.
    intros IT V. induction V as [T|T v lefts rights TL TR T' NC C V IH|T v lefts rights TL TR T' NC C V IH].
    - split; [exact IT|]. eauto.
    - destruct (halves_ok T v lefts rights TL TR IT (LC _ _ IT C))
        as (l & _ & _ & _ & _ & _ & IL & _ & _ & GL & IR & _ & _ & GR).
      destruct (IH IL) as [A B]. split; [exact A|]. intros o' F. destruct (B o' F) as (o1 & F1 & <-). eauto.
    - destruct (halves_ok T v lefts rights TL TR IT (LC _ _ IT C))
        as (l & _ & _ & _ & _ & _ & IL & _ & _ & GL & IR & _ & _ & GR).
      destruct (IH IR) as [A B]. split; [exact A|]. intros o' F. destruct (B o' F) as (o1 & F1 & <-). eauto.
  Qed.
End Build.
