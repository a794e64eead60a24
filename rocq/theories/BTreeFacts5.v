(** The constructor, the copy and the nodes. *)

From Coq Require Import String Bool Arith ZArith QArith Qcanon Lia Lqa List.
From Verif Require Import PyBase Num DomainModel NdArray StoreModel NumStore PyFacts Spec DomainFacts
  StoreSpec StoreFacts NumFacts PropFacts1 BTreeModel BTreeSpec BTreeFacts BTreeFacts2 BTreeFacts3 BTreeFacts4.
Import ListNotations.
Local Open Scope nat_scope.
Local Arguments eqd : simpl never.

Lemma table_init dom (a : nd num) : wf_dom dom -> shape a = card dom -> length (flat a) = size dom ->
  exists T, st_init VNumpy dom (DArr a) = Ok T /\ is_table T /\ st_domain T = dom /\
    forall o, full dom o -> exists x, get_value T o = Ok x /\ nth_error (flat a) (rowpos dom o) = Some x.
Proof.
  intros W S L. destruct a as [sh fl]. cbn [shape flat] in *. subst sh. rewrite size_prodl in L.
  destruct (st_init_flat VNumpy dom fl W L) as (T & I & WT & D & TY & LK).
  exists T. split; [exact I|]. split; [split; assumption|]. split; [exact D|].
  intros o F. rewrite <- D in F. destruct (get_full T o WT F) as (x & E & G). exists x. split; [exact G|].
  rewrite D in F. rewrite rowpos_ravel by exact F. rewrite <- LK; [exact E|]. now apply full_valid.
Qed.

Section Init.
  Variable lg : Qc -> Qc.

  Lemma bt_init_unfold dom a T : dom <> [] -> st_init VNumpy dom (DArr a) = Ok T ->
    bt_init lg dom (BArr a) = let* t := build_from_table (best_split lg) (prodl (card dom)) T in
                              Ok (MkB dom (BGiven t)).
  Proof. intros NE I. unfold bt_init. destruct dom; [congruence|]. cbn [bind]. rewrite I. reflexivity. Qed.

  Lemma bt_built dom a s : wf_dom dom -> dom <> [] -> shape a = card dom -> length (flat a) = size dom ->
    bt_init lg dom (BArr a) = Ok s -> exists t, s = MkB dom (BGiven t) /\ tree_of t dom (flat a).
  Proof.
    intros W NE S L B. destruct (table_init dom a W S L) as (T & I & IT & D & V).
    rewrite (bt_init_unfold dom a T NE I) in B.
    destruct (build_from_table _ _ T) as [t|] eqn:BT; [|discriminate B]. injection B as <-.
    exists t. split; [reflexivity|]. intros o F.
    destruct (build_ok _ (best_split_lawful lg) _ T t IT BT o) as (x & G & FO); [rewrite D; exact F|].
    destruct (V o F) as (y & Gy & N). rewrite G in Gy. injection Gy as ->. eauto.
  Qed.

  (** ** When it succeeds *)

  Lemma split_found T : is_table T -> positive_mass T -> ~ constant T -> exists sp, best_split lg T = Ok sp.
  Proof.
    intros IT PM NC. pose proof (positive_mass_finite T (proj1 IT) PM) as F. destruct PM as (qs & E & P).
    destruct (best_split_last lg T _ IT F (entries_sum T qs E) P NC) as (v & a & b & TL & TR & B & _). eauto.
  Qed.

  Lemma no_variables_constant T : is_table T -> st_domain T = [] -> constant T.
  Proof. intros IT D. apply size_one_constant; [exact IT|]. rewrite D. reflexivity. Qed.

  Lemma split_needs T : is_table T -> finite_table T -> ~ constant T ->
    (exists sp, best_split lg T = Ok sp) -> positive_mass T.
  Proof.
    intros IT F NC (sp & B). destruct (finite_entries T (proj1 IT) F) as (qs & E). exists qs. split; [exact E|].
    pose proof (entries_sum T qs E) as SUM. set (q := fold_right Qcplus 0%Qc qs) in *.
    destruct (Qclt_le_dec 0 q) as [P|P]; [exact P|]. exfalso.
    destruct (Qc_eq_dec q 0) as [Z|Z].
    - rewrite (best_split_zero lg T q IT F SUM Z) in B. discriminate B.
    - rewrite (best_split_negative lg T q IT SUM) in B; [discriminate B| |].
      + apply Qcle_lt_or_eq in P. destruct P as [P|P]; [exact P|congruence].
      + intros D. apply NC. now apply no_variables_constant.
  Qed.

  Lemma bt_builds_iff dom a T : wf_dom dom -> dom <> [] -> shape a = card dom -> length (flat a) = size dom ->
    st_init VNumpy dom (DArr a) = Ok T -> finite_table T ->
    ((exists s, bt_init lg dom (BArr a) = Ok s) <->
     forall T', visited (best_split lg) T T' -> ~ constant T' -> positive_mass T').
  Proof.
    intros W NE S L I F. destruct (table_init dom a W S L) as (T' & I' & IT & D & _).
    rewrite I in I'. injection I' as <-. rewrite (bt_init_unfold dom a T NE I). split.
    - intros (s & B) T' V NC. destruct (build_from_table _ _ T) as [t|] eqn:BT; [|discriminate B].
      destruct (build_needs _ (best_split_lawful lg) _ T T' t IT BT V) as [IT' A].
      destruct (visited_table _ (best_split_lawful lg) T T' IT V) as [_ G].
      apply split_needs; auto. intros o' F'. destruct (G o' F') as (o & Fo & <-). now apply F.
    - intros SO. destruct (build_total (best_split lg) (best_split_lawful lg) (prodl (card dom)) T IT) as (t & ->).
      + rewrite D, size_prodl. lia.
      + intros T' V NC. destruct (visited_table _ (best_split_lawful lg) T T' IT V) as [IT' _].
        apply split_found; auto.
      + cbn [bind]. eauto.
  Qed.

  Lemma nonneg_sum (qs : list Qc) : (forall q, In q qs -> (0 <= q)%Qc) ->
    (0 <= fold_right Qcplus 0 qs)%Qc /\ (fold_right Qcplus 0%Qc qs = 0%Qc -> forall q, In q qs -> q = 0%Qc).
  Proof.
    induction qs as [|x r IH]; intros A; cbn [fold_right].
    - split; [apply Qcle_refl|intros _ q []].
    - destruct IH as [P Z]; [intros q I; apply A; right; exact I|].
      assert (X : (0 <= x)%Qc) by (apply A; left; reflexivity). set (t := fold_right Qcplus 0%Qc r) in *. split.
      + qclra.
      + intros E. assert (X0 : x = 0%Qc) by qclra. assert (T0 : t = 0%Qc) by qclra.
        intros q [<- | I]; [exact X0|]. now apply Z.
  Qed.

  Lemma nonneg_mass T : is_table T -> nonnegative_table T -> ~ constant T -> positive_mass T.
  Proof.
    intros IT N NC. destruct (finite_entries T (proj1 IT)) as (qs & E).
    { intros o F. destruct (N o F) as (q & G & _). eauto. }
    exists qs. split; [exact E|].
    assert (P : forall q, In q qs -> (0 <= q)%Qc).
    { unfold entries in E. rewrite <- assignment_space_all in E.
      assert (FS : forall c, In c (assignment_space (st_domain T)) -> full (st_domain T) c)
        by (intros c; now apply listed_full; apply IT).
      clear NC. induction E as [|o q os qs G E IH]; intros q' I; [destruct I|]. destruct I as [<- | I].
      - destruct (N o (FS o (or_introl eq_refl))) as (q1 & G1 & P1). rewrite G in G1. injection G1 as <-. exact P1.
      - apply IH; auto. intros c Ic. apply FS. right. exact Ic. }
    destruct (nonneg_sum qs P) as [S Z]. apply Qcle_lt_or_eq in S. destruct S as [S|S]; [exact S|].
    exfalso. apply NC. exists (Fin 0). split; [left; discriminate|]. intros o F.
    destruct (get_listed T o (proj1 IT) F) as (c & I & <-). specialize (Z (eq_sym S)).
    unfold entries in E. rewrite <- assignment_space_all in E. clear F S P.
    induction E as [|o1 q os qs G E IH]; [destruct I|]. destruct I as [<- | I].
    - rewrite G. rewrite (Z q) by (left; reflexivity). reflexivity.
    - apply IH; auto. intros q' I'. apply Z. right. exact I'.
  Qed.

  Lemma bt_nonnegative dom a : wf_dom dom -> dom <> [] -> shape a = card dom -> length (flat a) = size dom ->
    (forall x, In x (flat a) -> exists q, x = Fin q /\ (0 <= q)%Qc) ->
    exists t, bt_init lg dom (BArr a) = Ok (MkB dom (BGiven t)) /\ tree_of t dom (flat a).
  Proof.
    intros W NE S L P. destruct (table_init dom a W S L) as (T & I & IT & D & V).
    assert (NT : nonnegative_table T).
    { intros o F. rewrite D in F. destruct (V o F) as (x & G & N). apply nth_error_In in N.
      destruct (P x N) as (q & -> & Q). eauto. }
    destruct (proj2 (bt_builds_iff dom a T W NE S L I
                (fun o F => match NT o F with ex_intro _ q (conj G _) => ex_intro _ q G end))) as (s & B).
    - intros T' VT NC. destruct (visited_table _ (best_split_lawful lg) T T' IT VT) as [IT' G].
      apply nonneg_mass; auto. intros o' F'. destruct (G o' F') as (o & Fo & <-). now apply NT.
    - destruct (bt_built dom a s W NE S L B) as (t & -> & R). eauto.
  Qed.

  (** ** When it fails *)

  Lemma bt_mass_raises dom a T qs : wf_dom dom -> shape a = card dom -> length (flat a) = size dom ->
    st_init VNumpy dom (DArr a) = Ok T -> ~ constant T -> entries T qs ->
    ((fold_right Qcplus 0 qs < 0)%Qc -> bt_init lg dom (BArr a) = Raise ValueError) /\
    (fold_right Qcplus 0%Qc qs = 0%Qc -> bt_init lg dom (BArr a) = Raise NameError).
  Proof.
    intros W S L I NC E. destruct (table_init dom a W S L) as (T' & I' & IT & D & V).
    rewrite I in I'. injection I' as <-.
    assert (NE : dom <> []) by (intros Z; apply NC; apply no_variables_constant; [exact IT|congruence]).
    rewrite (bt_init_unfold dom a T NE I). pose proof (entries_sum T qs E) as SUM.
    assert (F : finite_table T).
    { intros o F. destruct (get_listed T o (proj1 IT) F) as (c & Ic & <-).
      unfold entries in E. rewrite <- assignment_space_all in E.
      clear - E Ic. induction E as [|o1 q os qs G E IH]; [destruct Ic|]. destruct Ic as [<- | Ic]; eauto. }
    pose proof (card_pos dom W) as CP. destruct (prodl (card dom)) as [|fuel] eqn:PC; [lia|]. cbn [build_from_table].
    destruct (all_equal_ok T (proj1 IT)) as (b & -> & Hb). cbn [bind].
    destruct b; [exfalso; apply NC; now apply Hb|]. split; intros Z.
    - rewrite (best_split_negative lg T _ IT SUM Z) by (rewrite D; exact NE). reflexivity.
    - rewrite (best_split_zero lg T _ IT F SUM Z). reflexivity.
  Qed.

  Lemma bt_shape_raises dom a : dom <> [] -> shape a <> card dom -> bt_init lg dom (BArr a) = Raise ValueError.
  Proof.
    intros NE S. unfold bt_init. destruct dom as [|p r]; [congruence|]. cbn [bind st_init].
    rewrite eqd_neq by exact S. rewrite Bool.andb_false_r. reflexivity.
  Qed.

  (** Without data: one variable gives a tree of zeros, more are rejected. *)
  Lemma bt_default_one v l : NoDup l -> l <> [] ->
    bt_init lg [(v, l)] BNone = Ok (MkB [(v, l)] (BGiven (BLeaf (Fin 0)))).
  Proof.
    intros ND NE. assert (W : wf_dom [(v, l)]).
    { split; [constructor; [intros []|constructor]|]. intros w m [E|[]]. injection E as <- <-. auto. }
    unfold bt_init. cbn [bind].
    set (a := mkNd [prodl (card [(v, l)])] (repeat n0 (prodl (card [(v, l)])))).
    assert (C : prodl (card [(v, l)]) = length l) by (rewrite card_cons, prodl_cons; change (card []) with (@nil nat); rewrite prodl_nil; lia).
    destruct (table_init [(v, l)] a W) as (T & I & IT & D & V).
    { unfold a. cbn [shape]. rewrite C. reflexivity. }
    { unfold a. cbn [flat]. rewrite repeat_length, C. cbn. lia. }
    rewrite I. cbn [bind]. rewrite C. destruct l as [|x l]; [congruence|]. cbn [length build_from_table].
    assert (K : constant T).
    { exists (Fin 0). split; [left; discriminate|]. intros o F. rewrite D in F. destruct (V o F) as (y & -> & N).
      apply nth_error_In in N. unfold a in N. cbn [flat] in N. apply repeat_spec in N. subst y. reflexivity. }
    destruct (all_equal_ok T (proj1 IT)) as (b & -> & Hb). cbn [bind].
    rewrite (proj2 Hb K). destruct (leaf_case T IT K) as (y & -> & A). cbn [bind].
    assert (F : full (st_domain T) [(v, x)]).
    { rewrite D. intros w m [E|[]]. injection E as <- <-. exists x. cbn. rewrite eqd_refl. split; [reflexivity|left; reflexivity]. }
    destruct K as (z & _ & B). specialize (A _ F). rewrite D in F. destruct (V _ F) as (u & G & N).
    apply nth_error_In in N. unfold a in N. cbn [flat] in N. apply repeat_spec in N. subst u.
    rewrite G in A. injection A as <-. reflexivity.
  Qed.

  Lemma bt_default_raises d1 d2 r : bt_init lg (d1 :: d2 :: r) BNone = Raise ValueError.
  Proof.
    unfold bt_init. cbn [bind]. set (n := prodl _). cbn [st_init shape length]. reflexivity.
  Qed.

  (** ** Copy *)

  Lemma bt_copy_node dom v l k a b : bt_copy lg (MkB dom (BGiven (BNode v l k a b)))
    = Ok (MkB dom (BGiven (BNode v l k a b))).
  Proof. unfold bt_copy, bt_init. cbn [bs_domain bs_data]. destruct dom; reflexivity. Qed.

  Lemma bt_copy_leaf dom x : dom <> [] -> bt_copy lg (MkB dom (BGiven (BLeaf x))) = Raise ValueError.
  Proof. intros NE. unfold bt_copy, bt_init. cbn [bs_domain bs_data]. destruct dom; [congruence|reflexivity]. Qed.

  Lemma bt_leaf_iff dom a s : wf_dom dom -> dom <> [] -> shape a = card dom -> length (flat a) = size dom ->
    bt_init lg dom (BArr a) = Ok s -> forall T, st_init VNumpy dom (DArr a) = Ok T -> 
    ((exists x, bs_data s = BGiven (BLeaf x)) <-> constant T).
  Proof.
    intros W NE S L B T I. destruct (table_init dom a W S L) as (T' & I' & IT & D & V).
    rewrite I in I'. injection I' as <-. rewrite (bt_init_unfold dom a T NE I) in B.
    pose proof (card_pos dom W) as CP. destruct (prodl (card dom)) as [|fuel] eqn:PC; [lia|].
    cbn [build_from_table] in B.
    destruct (all_equal_ok T (proj1 IT)) as (b & AE & Hb). rewrite AE in B. cbn [bind] in B. destruct b.
    - split; [intros _; now apply Hb|]. intros K. destruct (leaf_case T IT K) as (x & Lf & _). rewrite Lf in B.
      cbn [bind] in B. injection B as <-. cbn. eauto.
    - split; [|intros K; apply Hb in K; discriminate]. intros (x & Lf). exfalso.
      destruct (best_split lg T) as [[[[[v lefts] rights] TL] TR]|] eqn:C; [|discriminate B]. cbn [bind] in B.
      destruct (halves_ok T v lefts rights TL TR IT (best_split_lawful lg _ _ IT C))
        as (l & Il & NL & NR & E & ND & _).
      destruct (build_from_table _ fuel TL) as [tl|]; [|discriminate B]. cbn [bind] in B.
      destruct (build_from_table _ fuel TR) as [tr|]; [|discriminate B]. cbn [bind] in B.
      rewrite (dlook_In v l) in B by (auto; apply IT). cbn [bind] in B. subst l.
      rewrite node_build_lefts in B by auto. cbn [bind] in B. injection B as <-. discriminate Lf.
  Qed.
End Init.

(** ** Nodes *)

Lemma index_last (a b : list state) x : NoDup ((a ++ [x]) ++ b) -> index_of x ((a ++ [x]) ++ b) = Some (length a).
Proof.
  intros ND. apply index_of_nth; [exact ND|]. rewrite <- app_assoc, nth_error_app2, Nat.sub_diag by lia. reflexivity.
Qed.

Lemma node_ways v lefts rights l r : lefts <> [] -> rights <> [] -> NoDup (lefts ++ rights) ->
  let node := BNode v (lefts ++ rights) (length lefts) l r in
  node_build v (lefts ++ rights) l r (Some lefts) None None true = Ok node /\
  node_build v (lefts ++ rights) l r None (Some rights) None true = Ok node /\
  node_build v (lefts ++ rights) l r None None (Some (Z.of_nat (length lefts))) true = Ok node /\
  node_build v (lefts ++ rights) l r (Some lefts) (Some rights) (Some (Z.of_nat (length lefts))) true = Ok node /\
  (length (lefts ++ rights) = 2 -> node_build v (lefts ++ rights) l r None None None true = Ok node) /\
  left_states node = Ok lefts /\ right_states node = Ok rights /\
  (forall s, In s lefts -> is_on_left node s = Ok true /\ is_on_right node s = Ok false) /\
  (forall s, In s rights -> is_on_left node s = Ok false /\ is_on_right node s = Ok true).
Proof.
  intros NL NR ND node.
  assert (LL : 1 <= length lefts < length (lefts ++ rights)).
  { rewrite app_length. destruct lefts, rights; cbn [length]; try congruence; lia. }
  assert (P2 : exists x, py_last lefts = Ok x /\ list_index x (lefts ++ rights) = Ok (length lefts - 1)).
  { destruct (exists_last NL) as (l0 & x & E). subst lefts. exists x. split; [apply py_last_app|].
    unfold list_index. rewrite index_last by exact ND. rewrite app_length. cbn [length].
    f_equal. lia. }
  assert (P3 : exists y, py_nth rights 0 = Ok y /\ list_index y (lefts ++ rights) = Ok (length lefts)).
  { destruct rights as [|y rr]; [congruence|]. exists y. split; [reflexivity|]. unfold list_index.
    rewrite (index_of_nth _ (length lefts)); [reflexivity|exact ND|].
    rewrite nth_error_app2, Nat.sub_diag by lia. reflexivity. }
  destruct P2 as (x & P2 & P2'), P3 as (y & P3 & P3').
  assert (C0 : (Z.of_nat (length lefts) <? 0)%Z = false) by (apply Z.ltb_ge; lia).
  assert (N1 : forall c : Z, length (nodup Z.eq_dec [c]) = 1) by reflexivity.
  split; [now apply node_build_lefts|]. split; [|split; [|split; [|split]]].
  - unfold node_build. rewrite P3. cbn [bind app]. rewrite P3'. cbn [bind app]. rewrite N1.
    cbn [Nat.eqb andb]. now apply node_init_ok.
  - unfold node_build. rewrite C0. cbn [bind app]. rewrite N1. cbn [Nat.eqb andb]. now apply node_init_ok.
  - unfold node_build. rewrite C0, P2. cbn [bind]. rewrite P2'. cbn [bind]. rewrite P3. cbn [bind].
    rewrite P3'. cbn [bind app].
    replace (length lefts - 1 + 1) with (length lefts) by lia. set (c := Z.of_nat (length lefts)).
    assert (N3 : nodup Z.eq_dec [c; c; c] = [c]).
    { cbn. destruct (Z.eq_dec c c); [reflexivity|congruence]. }
    rewrite N3. cbn [length Nat.eqb andb]. rewrite ?N3. cbn [length Nat.eqb]. now apply node_init_ok.
  - intros L2. unfold node_build. cbn [bind app nodup length Nat.eqb andb]. rewrite L2. cbn [Nat.eqb andb].
    rewrite N1. cbn [Nat.eqb]. assert (E : length lefts = 1) by lia. unfold node. rewrite E.
    apply (node_init_ok v _ l r 1). lia.
  - split; [cbn; now rewrite firstn_app, firstn_all, Nat.sub_diag, app_nil_r|].
    split; [cbn; now rewrite skipn_app, skipn_all, Nat.sub_diag|].
    split; intros s I; unfold is_on_right; cbn [is_on_left node]; unfold list_index; rewrite index_of_app.
    + destruct (index_of_In s lefts I) as (i & E). rewrite E. apply index_of_Some in E.
      destruct E as [_ E]. cbn [bind]. apply Nat.ltb_lt in E. rewrite E. auto.
    + replace (index_of s lefts) with (@None nat)
        by (symmetry; apply index_of_None; intros J; eapply NoDup_app_disj; eauto).
      destruct (index_of_In s rights I) as (j & ->). cbn [bind].
      replace (length lefts + j <? length lefts) with false by (symmetry; apply Nat.ltb_ge; lia). auto.
Qed.

(** A negative cut, documented by list slices, is always out of range. *)
Lemma negative_cut v dom l r c : (c < 0)%Z -> node_build v dom l r None None (Some c) true = Raise ValueError.
Proof.
  intros N. unfold node_build. apply Z.ltb_lt in N. rewrite N. apply Z.ltb_lt in N. cbn [bind app].
  set (k := (Z.of_nat (length dom) - c)%Z). change (length (nodup Z.eq_dec [k])) with 1.
  cbn [Nat.eqb andb]. unfold node_init.
  replace (Z.of_nat (length dom) <=? k)%Z with true by (symmetry; apply Z.leb_le; unfold k; lia).
  now rewrite Bool.orb_true_r.
Qed.

Lemma cut_range v dom l r c : (0 <= c)%Z ->
  (exists t, node_build v dom l r None None (Some c) true = Ok t) <-> (1 <= c < Z.of_nat (length dom))%Z.
Proof.
  intros P. unfold node_build. replace (c <? 0)%Z with false by (symmetry; apply Z.ltb_ge; lia). cbn [bind app].
  change (length (nodup Z.eq_dec [c])) with 1. cbn [Nat.eqb andb]. unfold node_init. split.
  - intros (t & E). destruct ((c <? 1) || (Z.of_nat (length dom) <=? c))%Z eqn:Q; [discriminate E|].
    apply Bool.orb_false_iff in Q. destruct Q as [Q1 Q2]. apply Z.ltb_ge in Q1. apply Z.leb_gt in Q2. lia.
  - intros B. replace (c <? 1)%Z with false by (symmetry; apply Z.ltb_ge; lia).
    replace (Z.of_nat (length dom) <=? c)%Z with false by (symmetry; apply Z.leb_gt; lia). cbn. eauto.
Qed.

Lemma bt_copy_iff lg dom a s T : wf_dom dom -> dom <> [] -> shape a = card dom -> length (flat a) = size dom ->
  bt_init lg dom (BArr a) = Ok s -> st_init VNumpy dom (DArr a) = Ok T ->
  (constant T -> bt_copy lg s = Raise ValueError) /\ (~ constant T -> bt_copy lg s = Ok s).
Proof.
  intros W NE S L B I. destruct (bt_built lg dom a s W NE S L B) as (t & -> & _).
  pose proof (bt_leaf_iff lg dom a _ W NE S L B T I) as LF. cbn [bs_data] in LF. split.
  - intros K. apply LF in K. destruct K as (x & E). injection E as ->. now apply bt_copy_leaf.
  - intros NK. destruct t as [x|v l k tl tr]; [exfalso; apply NK; apply LF; eauto|apply bt_copy_node].
Qed.
