(** Facts about the string notation of graphs and about identify_true_false. *)

From Coq Require Import String Ascii Bool Arith ZArith List Lia.
From Verif Require Import PyBase PyFacts DomainModel GraphModel GraphSpec GraphFacts.
Import ListNotations.
Local Arguments eqd : simpl never.

Lemma str_chars : forall s, str (chars s) = s.
Proof. intros. apply string_of_list_ascii_of_string. Qed.
Lemma chars_str : forall l, chars (str l) = l.
Proof. intros. apply list_ascii_of_string_of_list_ascii. Qed.

Lemma split_go_free : forall a sep x t cur, ~ In a x ->
  split_go (a :: sep) (x ++ t) cur 0 = split_go (a :: sep) t (rev x ++ cur) 0.
Proof.
  intros a sep x. induction x as [|c x IH]; intros t cur N; [reflexivity|].
  cbn [app split_go]. cbn [starts_with].
  assert (Ascii.eqb a c = false) as ->. { apply Ascii.eqb_neq. intros ->. apply N. now left. }
  cbn [andb]. rewrite IH; [|intros I; apply N; now right]. cbn [rev]. now rewrite <- app_assoc.
Qed.
Lemma split_go_skip : forall sep u t cur, split_go sep (u ++ t) cur (length u) = split_go sep t cur 0.
Proof. intros sep u. induction u as [|c u IH]; intros t cur; [reflexivity|]. cbn. apply IH. Qed.
Lemma starts_with_app : forall p t, starts_with p (p ++ t) = true.
Proof. induction p as [|a p IH]; intros t; [now destruct t|]. cbn. now rewrite Ascii.eqb_refl, IH. Qed.
Lemma split_go_sep : forall a sep t cur,
  split_go (a :: sep) ((a :: sep) ++ t) cur 0 = rev cur :: split_go (a :: sep) t [] 0.
Proof.
  intros a sep t cur. cbn [app split_go]. change (a :: sep ++ t) with ((a :: sep) ++ t). rewrite starts_with_app.
  f_equal. cbn [length]. replace (S (length sep) - 1) with (length sep) by lia. apply split_go_skip.
Qed.

Lemma split_join : forall a sep items, items <> [] -> (forall x, In x items -> ~ In a x) ->
  split (a :: sep) (join_str (a :: sep) items) = items.
Proof.
  intros a sep items NE H. unfold split. induction items as [|x items IH]; [congruence|].
  destruct items as [|y items].
  - cbn [join_str]. rewrite <- (app_nil_r x) at 1. rewrite split_go_free by (apply H; now left).
    cbn. now rewrite app_nil_r, rev_involutive.
  - change (join_str (a :: sep) (x :: y :: items)) with (x ++ (a :: sep) ++ join_str (a :: sep) (y :: items)).
    rewrite split_go_free by (apply H; now left). rewrite split_go_sep, app_nil_r, rev_involutive. f_equal.
    apply IH; [discriminate|]. intros z I. apply H. now right.
Qed.

(** what stands between the brackets of one node *)
Definition item (g : digraph) (v : var) : list ascii :=
  chars v ++ match preds g v with [] => [] | _ => ["|"%char] ++ join_str [":"%char] (map chars (preds g v)) end.

Lemma node_str_item : forall g v, node_str g v = ["["%char] ++ item g v ++ ["]"%char].
Proof. intros. unfold node_str, item. cbv zeta. now rewrite <- app_assoc. Qed.

Lemma dag_chars : forall g ns, ns <> [] ->
  flat_map (node_str g) ns = ["["%char] ++ join_str ["]"%char; "["%char] (map (item g) ns) ++ ["]"%char].
Proof.
  intros g ns. induction ns as [|v ns IH]; intros NE; [congruence|]. cbn [flat_map].
  rewrite node_str_item. destruct ns as [|w ns].
  - cbn [flat_map map join_str]. now rewrite app_nil_r.
  - rewrite IH by discriminate.
    change (join_str ["]"%char; "["%char] (map (item g) (v :: w :: ns)))
      with (item g v ++ ["]"%char; "["%char] ++ join_str ["]"%char; "["%char] (map (item g) (w :: ns))).
    rewrite <- !app_assoc. reflexivity.
Qed.

Lemma strip_brackets : forall a b m, strip_ends ([a] ++ m ++ [b]) = m.
Proof. intros. unfold strip_ends. cbn [app tl]. apply removelast_last. Qed.

Lemma join_chars_free : forall c sep items, ~ In c sep -> (forall x, In x items -> ~ In c x) -> ~ In c (join_str sep items).
Proof.
  intros c sep items S H. induction items as [|x items IH]; [intros []|]. destruct items as [|y items].
  - cbn. apply H. now left.
  - change (~ In c (x ++ sep ++ join_str sep (y :: items))). rewrite !in_app_iff.
    intros [I|[I|I]]; [apply (H x); [now left|auto]|auto|]. apply IH; [|auto]. intros z J. apply H. now right.
Qed.

Lemma item_free : forall g v, (forall x, In x (v :: preds g v) -> delimiter_free x) -> ~ In "]"%char (item g v).
Proof.
  intros g v D. unfold item. rewrite in_app_iff. intros [I|I].
  - apply (D v (or_introl eq_refl)) in I. tauto.
  - destruct (preds g v) as [|p ps] eqn:E; [destruct I|]. rewrite <- E in *. apply in_app_or in I. destruct I as [[I|[]]|I]; [discriminate|].
    revert I. apply join_chars_free; [intros [I|[]]; discriminate|]. intros x I J. apply in_map_iff in I.
    destruct I as (p' & <- & I). apply (D p' (or_intror I)) in J. tauto.
Qed.

Lemma piece_arcs_item : forall g v, (forall x, In x (v :: preds g v) -> delimiter_free x) ->
  piece_arcs (item g v) = Ok (map (fun p => (p, v)) (preds g v)).
Proof.
  intros g v D. unfold piece_arcs, item.
  assert (FV : ~ In "|"%char (chars v)). { intros I. apply (D v (or_introl eq_refl)) in I. tauto. }
  destruct (preds g v) as [|p ps] eqn:E.
  - rewrite app_nil_r.
    assert (existsb (fun c => Ascii.eqb c "|"%char) (chars v) = false) as ->; [|reflexivity].
    apply not_true_is_false. intros X. apply existsb_exists in X. destruct X as (c & I & J). apply Ascii.eqb_eq in J.
    subst. auto.
  - rewrite <- E in *.
    assert (existsb (fun c => Ascii.eqb c "|"%char) (chars v ++ ["|"%char] ++ join_str [":"%char] (map chars (preds g v))) = true) as ->.
    { apply existsb_exists. exists "|"%char. split; [|apply Ascii.eqb_refl]. apply in_or_app. right. now left. }
    change (chars v ++ ["|"%char] ++ join_str [":"%char] (map chars (preds g v)))
      with (join_str ["|"%char] [chars v; join_str [":"%char] (map chars (preds g v))]).
    rewrite split_join; [|discriminate|].
    + rewrite split_join.
      * f_equal. rewrite map_map. apply map_ext. intros x. now rewrite !str_chars.
      * rewrite E. discriminate.
      * intros x I J. apply in_map_iff in I. destruct I as (q & <- & I). apply (D q (or_intror I)) in J. tauto.
    + intros x [<- | [<- | []]]; [auto|]. apply join_chars_free; [intros [I|[]]; discriminate|].
      intros x I J. apply in_map_iff in I. destruct I as (q & <- & I). apply (D q (or_intror I)) in J. tauto.
Qed.

Lemma pieces_ok : forall g, wf_graph g -> nodes g <> [] -> (forall v, In v (nodes g) -> delimiter_free v) ->
  split ["]"%char; "["%char] (strip_ends (chars (dag2str g))) = map (item g) (nodes g).
Proof.
  intros g (N & NE & W) NN D. unfold dag2str. rewrite chars_str, dag_chars, strip_brackets by auto.
  apply split_join.
  - intros E. apply NN. destruct (nodes g); [reflexivity|discriminate].
  - intros x I. apply in_map_iff in I. destruct I as (v & <- & I). apply item_free.
    intros z [<- | J]; [auto|]. apply in_preds in J. apply W in J. now apply D.
Qed.

Lemma str2dag_ok : forall g, wf_graph g -> 2 <= length (nodes g) -> (forall v, In v (nodes g) -> delimiter_free v) ->
  exists h, str2dag (dag2str g) = Ok h /\ wf_graph h /\ (forall x y, arc h x y <-> arc g x y) /\
    (forall v, In v (nodes h) <-> exists w, arc g v w \/ arc g w v).
Proof.
  intros g W L D. unfold str2dag. cbv zeta.
  assert (NN : nodes g <> []) by (intros E; rewrite E in L; cbn in L; lia).
  rewrite pieces_ok by auto. unfold py_nth.
  destruct (nodes g) as [|a [|b r]] eqn:EN; [congruence|cbn in L; lia|]. cbn [map nth_error]. rewrite <- EN in *. cbn [bind].
  change (item g a :: item g b :: map (item g) r) with (map (item g) (a :: b :: r)). rewrite <- EN.
  rewrite mapM_map. rewrite (mapM_map_ok _ (fun v => map (fun p => (p, v)) (preds g v))).
  - cbn [bind]. eexists. split; [reflexivity|]. split; [apply graph_of_wf|].
    assert (K : forall x y, In (x, y) (concat (map (fun v => map (fun p => (p, v)) (preds g v)) (nodes g))) <-> arc g x y).
    { intros x y. rewrite in_concat. split.
      - intros (l & I & J). apply in_map_iff in I. destruct I as (v & <- & I). apply in_map_iff in J.
        destruct J as (p & E & J). injection E as <- <-. now apply in_preds.
      - intros I. exists (map (fun p => (p, y)) (preds g y)). split.
        + apply (in_map (fun v => map (fun p => (p, v)) (preds g v))). destruct W as (_ & _ & W). now apply W in I.
        + apply in_map_iff. exists x. split; [auto|]. now apply in_preds. }
    split.
    + intros x y. unfold arc at 1. rewrite graph_of_edges. apply K.
    + intros v. rewrite graph_of_nodes. split.
      * intros ([x y] & I & J). apply K in I. cbn in J. destruct J as [-> | ->]; eauto.
      * intros (w & [I|I]); [exists (v, w)|exists (w, v)]; (split; [now apply K|cbn; auto]).
  - intros v I. apply piece_arcs_item. intros x [<- | J]; [auto|]. apply in_preds in J. destruct W as (_ & _ & W).
    apply W in J. now apply D.
Qed.

Lemma str2dag_small : forall g, wf_graph g -> length (nodes g) <= 1 -> (forall v, In v (nodes g) -> delimiter_free v) ->
  str2dag (dag2str g) = Raise IndexError.
Proof.
  intros g W L D. destruct (nodes g) as [|a [|b r]] eqn:EN; [| |cbn in L; lia].
  - unfold str2dag, dag2str. rewrite EN. reflexivity.
  - unfold str2dag. cbv zeta. rewrite pieces_ok; [|auto|congruence|rewrite EN; auto]. rewrite EN. reflexivity.
Qed.

(** ** identify_true_false *)
Lemma append_inj : forall s a b, append s a = append s b -> a = b.
Proof. induction s as [|c s IH]; intros a b E; [exact E|]. cbn in E. injection E. apply IH. Qed.

Definition named (v : var) (suffix : string) (s : state) : bool :=
  match s with SStr x => String.eqb (lower x) (append (lower v) suffix) | _ => false end.
Lemma named_iff : forall v c x, named v c x = true <-> exists a, x = SStr a /\ lower a = append (lower v) c.
Proof.
  intros v c x. split.
  - intros E. destruct x as [x| |]; cbn in E; try discriminate. apply String.eqb_eq in E. eauto.
  - intros (a & -> & E). cbn. now apply String.eqb_eq.
Qed.
Lemma named_fun : forall v c c' x, named v c x = true -> named v c' x = true -> c = c'.
Proof.
  intros v c c' x E E'. apply named_iff in E, E'. destruct E as (a & -> & E), E' as (a' & X & E'). injection X as <-.
  rewrite E in E'. now apply append_inj in E'.
Qed.

Definition suffix_rank (i j : string) : Prop :=
  (i = "1"%string /\ (j = "1"%string \/ j = "0"%string \/ j = "2"%string)) \/
  (i = "0"%string /\ (j = "0"%string \/ j = "2"%string)) \/ (i = "2"%string /\ j = "2"%string).

Lemma tf_cases : forall v dom t f, identify_true_false v dom = Ok (t, f) -> NoDup dom ->
  t <> f /\ In t dom /\ In f dom /\
  ((t = SInt 1 /\ f = SInt 0) \/
   (exists a b i j, t = SStr a /\ f = SStr b /\ lower a = append (lower v) i /\ lower b = append (lower v) j /\ suffix_rank i j)).
Proof.
  intros v dom t f H N. unfold identify_true_false in H. cbv zeta in H.
  destruct (2 <? length dom) eqn:EL; [discriminate|].
  match type of H with context [if ?b then _ else _] => destruct b; [discriminate|] end.
  destruct dom as [|d0 r]; [discriminate|]. change (py_nth (map type_of (d0 :: r)) 0) with (Ok (type_of d0)) in H. cbn [bind] in H.
  set (dom := d0 :: r) in *.
  assert (NF : forall p : state -> bool, NoDup (filter p dom)) by (intros p; now apply NoDup_filter_).
  destruct d0 as [s|z|b]; cbn [type_of] in H.
  - (* strings *)
    change (match filter (named v "1"%string) dom ++ filter (named v "0"%string) dom ++ filter (named v "2"%string) dom with
            | [t0; f0] => Ok (t0, f0) | _ => Raise ValueError end = Ok (t, f)) in H.
    set (f1 := filter (named v "1"%string) dom) in *. set (f0 := filter (named v "0"%string) dom) in *.
    set (f2 := filter (named v "2"%string) dom) in *.
    destruct (f1 ++ f0 ++ f2) as [|a [|b [|c l]]] eqn:E; try discriminate. injection H as -> ->.
    assert (NT : NoDup (f1 ++ f0 ++ f2)).
    { apply NoDup_app_intro; [apply NF| |].
      - apply NoDup_app_intro; [apply NF|apply NF|]. intros x I J. apply filter_In in I, J. destruct I as [_ I], J as [_ J].
        pose proof (named_fun _ _ _ _ I J). discriminate.
      - intros x I J. apply filter_In in I. destruct I as [_ I]. apply in_app_or in J.
        destruct J as [J|J]; apply filter_In in J; destruct J as [_ J]; pose proof (named_fun _ _ _ _ I J); discriminate. }
    rewrite E in NT. inversion NT as [|? ? NT1 _]; subst.
    assert (IN : forall x, In x (f1 ++ f0 ++ f2) -> In x dom).
    { intros x I. rewrite !in_app_iff in I. destruct I as [I|[I|I]]; apply filter_In in I; tauto. }
    split; [intros ->; apply NT1; now left|]. split; [apply IN; rewrite E; now left|].
    split; [apply IN; rewrite E; right; now left|]. right.
    assert (M1 : forall x, In x f1 -> named v "1"%string x = true) by (intros x I; now apply filter_In in I).
    assert (M0 : forall x, In x f0 -> named v "0"%string x = true) by (intros x I; now apply filter_In in I).
    assert (M2 : forall x, In x f2 -> named v "2"%string x = true) by (intros x I; now apply filter_In in I).
    clearbody f1 f0 f2. clear IN.
    assert (S : exists i j, named v i t = true /\ named v j f = true /\ suffix_rank i j).
    { unfold suffix_rank. destruct f1 as [|a1 l1].
      - cbn [app] in E. destruct f0 as [|a0 l0].
        + cbn [app] in E. exists "2"%string, "2"%string. repeat split; [apply M2|apply M2|tauto]; rewrite E; [now left|right; now left].
        + injection E as -> E. destruct l0 as [|b0 l0].
          * exists "0"%string, "2"%string. repeat split; [apply M0; now left|apply M2; cbn [app] in E; rewrite E; now left|tauto].
          * injection E as -> E. exists "0"%string, "0"%string. repeat split; [apply M0; now left|apply M0; right; now left|tauto].
      - injection E as -> E. destruct l1 as [|b1 l1].
        + cbn [app] in E. destruct f0 as [|a0 l0].
          * exists "1"%string, "2"%string. repeat split; [apply M1; now left|apply M2; cbn [app] in E; rewrite E; now left|tauto].
          * injection E as -> E. exists "1"%string, "0"%string. repeat split; [apply M1; now left|apply M0; now left|tauto].
        + injection E as -> E. exists "1"%string, "1"%string. repeat split; [apply M1; now left|apply M1; right; now left|tauto]. }
    destruct S as (i & j & S1 & S2 & S3). apply named_iff in S1, S2. destruct S1 as (a & -> & S1), S2 as (b & -> & S2).
    exists a, b, i, j. auto.
  - (* integers *)
    set (p1 := fun d => match d with SInt x => Z.eqb x 1 | _ => false end) in *.
    set (p0 := fun d => match d with SInt x => Z.eqb x 0 | _ => false end) in *.
    assert (P1 : forall x, In x (filter p1 dom) -> In x dom /\ x = SInt 1).
    { intros x I. apply filter_In in I. destruct I as [I J]. split; [auto|]. destruct x; cbn in J; try discriminate. apply Z.eqb_eq in J. now subst. }
    assert (P0 : forall x, In x (filter p0 dom) -> In x dom /\ x = SInt 0).
    { intros x I. apply filter_In in I. destruct I as [I J]. split; [auto|]. destruct x; cbn in J; try discriminate. apply Z.eqb_eq in J. now subst. }
    pose proof (NF p1) as N1. pose proof (NF p0) as N0.
    assert (L1 : length (filter p1 dom) <= 1).
    { destruct (filter p1 dom) as [|a [|b l]]; cbn; try lia. exfalso. inversion N1; subst. apply H2.
      rewrite (proj2 (P1 a (or_introl eq_refl))), (proj2 (P1 b (or_intror (or_introl eq_refl)))). now left. }
    assert (L0 : length (filter p0 dom) <= 1).
    { destruct (filter p0 dom) as [|a [|b l]]; cbn; try lia. exfalso. inversion N0; subst. apply H2.
      rewrite (proj2 (P0 a (or_introl eq_refl))), (proj2 (P0 b (or_intror (or_introl eq_refl)))). now left. }
    destruct (filter p1 dom) as [|a [|b l]], (filter p0 dom) as [|a' [|b' l']]; cbn in H, L1, L0; try discriminate; try lia.
    injection H as -> ->. destruct (P1 t (or_introl eq_refl)) as [I1 ->]. destruct (P0 f (or_introl eq_refl)) as [I0 ->].
    split; [discriminate|]. auto.
  - cbn in H. discriminate.
Qed.

Lemma tf_raises : forall v dom e, identify_true_false v dom = Raise e -> dom <> [] -> e = ValueError.
Proof.
  intros v dom e H NE. unfold identify_true_false in H. cbv zeta in H. destruct (2 <? length dom) eqn:EL; [now injection H|].
  match type of H with context [if ?b then _ else _] => destruct b; [now injection H|] end.
  destruct dom as [|d0 r]; [congruence|]. change (py_nth (map type_of (d0 :: r)) 0) with (Ok (type_of d0)) in H. cbn [bind] in H.
  match type of H with match ?x with _ => _ end = _ => destruct x as [|a [|b [|c l]]] end; try discriminate; now injection H.
Qed.

(** it succeeds on the domains it is meant for *)
Lemma nodup_same : forall (a : ptype) n, length (nodup eqd (repeat a n)) <= 1.
Proof.
  intros a n. induction n as [|n IH]; [auto|]. cbn. destruct (in_dec eqd a (repeat a n)) as [I|I]; [auto|].
  destruct n; [cbn; auto|]. exfalso. apply I. now left.
Qed.
Lemma tf_strings : forall v a b i j, lower a = append (lower v) i -> lower b = append (lower v) j ->
  suffix_rank i j -> i <> j ->
  identify_true_false v [SStr a; SStr b] = Ok (SStr a, SStr b) /\
  identify_true_false v [SStr b; SStr a] = Ok (SStr a, SStr b).
Proof.
  intros v a b i j A B R NE. unfold identify_true_false. cbv zeta.
  change (2 <? length [SStr a; SStr b]) with false. change (2 <? length [SStr b; SStr a]) with false.
  change (nodup eqd (map type_of [SStr a; SStr b])) with [TStr]. change (nodup eqd (map type_of [SStr b; SStr a])) with [TStr].
  change (1 <? length [TStr]) with false. cbv iota.
  change (py_nth (map type_of [SStr a; SStr b]) 0) with (Ok TStr). change (py_nth (map type_of [SStr b; SStr a]) 0) with (Ok TStr).
  cbn [bind filter]. rewrite A, B.
  assert (Q : forall x y, String.eqb (append (lower v) x) (append (lower v) y) = String.eqb x y).
  { intros x y. destruct (String.eqb_spec x y) as [-> | N]; [apply String.eqb_refl|]. apply String.eqb_neq. intros E. now apply append_inj in E. }
  rewrite !Q. unfold suffix_rank in R.
  destruct R as [[-> [-> | [-> | ->]]]|[[-> [-> | ->]]|[-> ->]]]; try congruence; split; reflexivity.
Qed.
