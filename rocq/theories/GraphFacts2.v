(** Facts about connected components, descendants and the Q-graph. *)

From Coq Require Import String Ascii Bool Arith ZArith List Lia.
From Verif Require Import PyBase PyFacts GraphModel GraphSpec GraphFacts.
Import ListNotations.
Local Arguments eqd : simpl never.

Lemma linked_trans : forall R x y z, linked R x y -> linked R y z -> linked R x z.
Proof. intros R x y z H. induction H; intros K; [auto| |]; [eapply linked_fwd|eapply linked_bwd]; eauto. Qed.
Lemma linked_sym : forall R x y, linked R x y -> linked R y x.
Proof.
  intros R x y H. induction H as [x|x y z A H IH|x y z A H IH]; [constructor| |].
  - apply linked_trans with y; [auto|]. apply linked_bwd with x; [auto|constructor].
  - apply linked_trans with y; [auto|]. apply linked_fwd with x; [auto|constructor].
Qed.
Lemma linked_ext : forall (R Q : var -> var -> Prop) x y, (forall a b, R a b -> Q a b) -> linked R x y -> linked Q x y.
Proof. intros R Q x y H K. induction K; [constructor| |]; [eapply linked_fwd|eapply linked_bwd]; eauto. Qed.

Lemma in_neighbours : forall g v w, In w (neighbours g v) <-> arc g v w \/ arc g w v.
Proof. intros. unfold neighbours. rewrite in_fromkeys, in_app_iff, in_succs, in_preds. tauto. Qed.

Lemma closed_linked : forall g (P : var -> Prop), (forall x y, P x -> arc g x y \/ arc g y x -> P y) ->
  forall x y, linked (arc g) x y -> P x -> P y.
Proof. intros g P C x y H. induction H; intros K; [auto| |]; apply IHlinked; eapply C; eauto. Qed.

Lemma bfs_ok : forall g, wf_graph g -> forall fuel seen level,
  NoDup seen -> incl seen (nodes g) -> incl level seen ->
  (forall x y, In x seen -> ~ In x level -> arc g x y \/ arc g y x -> In y seen) ->
  length (nodes g) + (match level with [] => 1 | _ => 2 end) <= fuel + length seen ->
  exists r, bfs fuel g seen level = Some r /\ NoDup r /\ incl seen r /\ incl r (nodes g) /\
    (forall x y, In x r -> arc g x y \/ arc g y x -> In y r) /\
    (forall x, In x r -> exists s, In s seen /\ linked (arc g) s x).
Proof.
  intros g W. induction fuel as [|fuel IH]; intros seen level N I J C L.
  - pose proof (NoDup_incl_length N I). destruct level; lia.
  - cbn [bfs]. destruct level as [|v0 vr].
    + exists seen. split; [reflexivity|]. split; [auto|]. split; [intros x; auto|]. split; [auto|]. split.
      * intros x y A. apply C; auto.
      * intros x A. exists x. split; [auto|constructor].
    + set (level := v0 :: vr) in *. cbv zeta.
      set (next := filter (fun w => negb (mem w seen)) (fromkeys (flat_map (neighbours g) level))).
      assert (HN : forall w, In w next <-> ~ In w seen /\ exists v, In v level /\ (arc g v w \/ arc g w v)).
      { intros w. unfold next. rewrite filter_In, in_fromkeys, in_flat_map, negb_true_iff, mem_nIn. split.
        - intros [(v & A & B) D]. split; [auto|]. exists v. now rewrite <- in_neighbours.
        - intros [D (v & A & B)]. split; [|auto]. exists v. now rewrite in_neighbours. }
      assert (NN : NoDup next) by (apply NoDup_filter_, fromkeys_NoDup).
      assert (IN : incl next (nodes g)).
      { intros w A. apply HN in A. destruct A as (_ & v & _ & A). destruct W as (_ & _ & W). destruct A as [A|A]; now apply W in A. }
      destruct (IH (seen ++ next) next) as (r & E & R1 & R2 & R3 & R4 & R5).
      * apply NoDup_app_intro; auto. intros x A B. apply HN in B. tauto.
      * intros x A. apply in_app_or in A. destruct A; auto.
      * intros x A. apply in_or_app. now right.
      * intros x y A B D. apply in_app_or in A. destruct A as [A|A]; [|contradiction].
        destruct (in_dec string_dec y seen) as [K|K]; [apply in_or_app; now left|]. apply in_or_app.
        destruct (in_dec string_dec x level) as [M|M]; [|left; eapply C; eauto].
        right. apply HN. split; [auto|]. exists x. auto.
      * rewrite app_length. destruct next as [|n0 nr]; cbn in *; lia.
      * exists r. split; [exact E|]. split; [auto|]. split; [|split; [auto|split; [auto|]]].
        -- intros x A. apply R2. apply in_or_app. now left.
        -- intros x A. destruct (R5 x A) as (s & S1 & S2). apply in_app_or in S1. destruct S1 as [S1|S1]; [eauto|].
           apply HN in S1. destruct S1 as (_ & v & V & [B|B]); exists v; (split; [now apply J|]).
           ++ apply linked_fwd with s; auto.
           ++ apply linked_bwd with s; auto.
Qed.

Lemma component_ok : forall g v, wf_graph g -> In v (nodes g) ->
  exists c, component g v = Some c /\ NoDup c /\ incl c (nodes g) /\ (forall x, In x c <-> linked (arc g) v x).
Proof.
  intros g v W I. unfold component.
  destruct (bfs_ok g W (length (nodes g) + 2) [v] [v]) as (r & E & R1 & R2 & R3 & R4 & R5).
  - now repeat constructor.
  - intros x [<- | []]. auto.
  - intros x; auto.
  - intros x y [<- | []] N. exfalso. apply N. now left.
  - cbn. lia.
  - exists r. split; [exact E|]. split; [auto|]. split; [auto|]. intros x. split.
    + intros A. destruct (R5 x A) as (s & [<- | []] & S2). auto.
    + intros A. apply (closed_linked g (fun x => In x r) R4 v x A). apply R2. now left.
Qed.

Lemma components_go_ok : forall g, wf_graph g -> forall vs seen,
  incl vs (nodes g) -> (forall x y, In x seen -> linked (arc g) x y -> In y seen) ->
  exists cs, components_go g vs seen = Some cs /\
    (forall c, In c cs -> NoDup c /\ exists v, In v vs /\ forall x, In x c <-> linked (arc g) v x) /\
    (forall i j c d x, nth_error cs i = Some c -> nth_error cs j = Some d -> i <> j -> In x c -> ~ In x d) /\
    (forall c x, In c cs -> In x c -> ~ In x seen) /\
    (forall v, In v vs -> In v seen \/ exists c, In c cs /\ In v c).
Proof.
  intros g W. induction vs as [|v vs IH]; intros seen I C; cbn [components_go].
  - exists []. split; [reflexivity|]. split; [intros c []|]. split; [intros i j c d x E; now destruct i|].
    split; [intros c x []|]. intros v [].
  - destruct (mem v seen) eqn:E.
    + apply mem_In in E. destruct (IH seen) as (cs & E0 & E1 & E2 & E3 & E4).
      * intros x A. apply I. now right.
      * auto.
      * exists cs. split; [exact E0|]. split; [|split; [auto|split; [auto|]]].
        -- intros c A. destruct (E1 c A) as (N & u & U & K). split; [auto|]. exists u. split; [now right|auto].
        -- intros u [<- | U]; [now left|auto].
    + apply mem_nIn in E. destruct (component_ok g v W) as (c & Ec & N & Ic & Hc); [apply I; now left|].
      rewrite Ec. destruct (IH (seen ++ c)) as (cs & E0 & E1 & E2 & E3 & E4).
      * intros x A. apply I. now right.
      * intros x y A L. apply in_or_app. apply in_app_or in A. destruct A as [A|A]; [left; eapply C; eauto|right].
        apply Hc. apply Hc in A. eapply linked_trans; eauto.
      * rewrite E0. exists (c :: cs). split; [reflexivity|]. split; [|split; [|split]].
        -- intros d [<- | A].
           ++ split; [auto|]. exists v. split; [now left|auto].
           ++ destruct (E1 d A) as (M & u & U & K). split; [auto|]. exists u. split; [now right|auto].
        -- intros i j a b x A B D X Y. destruct i as [|i], j as [|j]; cbn in A, B.
           ++ congruence.
           ++ injection A as <-. apply nth_error_In in B. apply (E3 b x B Y). apply in_or_app. now right.
           ++ injection B as <-. apply nth_error_In in A. apply (E3 a x A X). apply in_or_app. now right.
           ++ apply (E2 i j a b x A B); auto.
        -- intros d x [<- | A] X S.
           ++ apply E. apply Hc in X. apply (C x v S). now apply linked_sym.
           ++ apply (E3 d x A X). apply in_or_app. now left.
        -- intros u [<- | U].
           ++ right. exists c. split; [now left|]. apply Hc. constructor.
           ++ destruct (E4 u U) as [K|(d & D & K)].
              ** apply in_app_or in K. destruct K as [K|K]; [now left|]. right. exists c. split; [now left|auto].
              ** right. exists d. split; [now right|auto].
Qed.

Lemma exo_graph_arc : forall g endo x y, wf_graph g -> arc (exo_graph g endo) x y <-> exo_arc g endo x y.
Proof.
  intros g endo x y W. unfold exo_graph, arc at 1, exo_arc. rewrite graph_of_edges, filter_In, in_g_edges by auto.
  cbn. rewrite negb_true_iff, mem_nIn. tauto.
Qed.
Lemma exo_graph_nodes : forall g endo v, wf_graph g -> In v (nodes (exo_graph g endo)) <-> touches_exo g endo v.
Proof.
  intros g endo v W. unfold exo_graph, touches_exo. rewrite graph_of_nodes. split.
  - intros ([x y] & I & J). exists x, y. split; [|auto]. rewrite filter_In, in_g_edges in I by auto. cbn in I.
    rewrite negb_true_iff, mem_nIn in I. split; tauto.
  - intros (x & y & [I K] & J). exists (x, y). split; [|auto]. rewrite filter_In, in_g_edges by auto. cbn.
    rewrite negb_true_iff, mem_nIn. tauto.
Qed.

Lemma linked_exo : forall g endo x y, wf_graph g -> linked (arc (exo_graph g endo)) x y <-> linked (exo_arc g endo) x y.
Proof. intros g endo x y W. split; apply linked_ext; intros a b; now apply exo_graph_arc. Qed.

Lemma linked_touches : forall g endo x y, linked (exo_arc g endo) x y -> touches_exo g endo x -> touches_exo g endo y.
Proof.
  intros g endo x y H. induction H as [x|x y z A H IH|x y z A H IH]; intros T; [auto| |].
  - apply IH. exists x, y. auto.
  - apply IH. exists y, x. auto.
Qed.

Lemma ccomponents_ok : forall g endo, wf_graph g ->
  exists cs, ccomponents g endo = Some cs /\
    (forall c, In c cs -> c <> [] /\ NoDup c) /\
    (forall i j c d x, nth_error cs i = Some c -> nth_error cs j = Some d -> i <> j -> In x c -> ~ In x d) /\
    (forall v, (exists c, In c cs /\ In v c) <-> touches_exo g endo v) /\
    (forall x y, touches_exo g endo x -> ((exists c, In c cs /\ In x c /\ In y c) <-> linked (exo_arc g endo) x y)).
Proof.
  intros g endo W. unfold ccomponents, connected_components.
  destruct (components_go_ok (exo_graph g endo) (graph_of_wf _) (nodes (exo_graph g endo)) []) as (cs & E0 & E1 & E2 & E3 & E4).
  { intros x; auto. } { intros x y []. }
  exists cs. split; [exact E0|].
  assert (H : forall c x y, In c cs -> In x c -> (In y c <-> linked (exo_arc g endo) x y)).
  { intros c x y A X. destruct (E1 c A) as (N & v & V & K). apply K in X. rewrite K, <- linked_exo by auto. split.
    - intros Y. eapply linked_trans; [apply linked_sym; eassumption|auto].
    - intros Y. eapply linked_trans; eassumption. }
  assert (Cov : forall v, (exists c, In c cs /\ In v c) <-> touches_exo g endo v).
  { intros v. rewrite <- exo_graph_nodes by auto. split.
    - intros (c & A & X). destruct (E1 c A) as (N & u & U & K). apply K in X.
      apply (closed_linked (exo_graph g endo) (fun x => In x (nodes (exo_graph g endo)))) with u; auto.
      intros a b _ [D|D]; destruct (graph_of_wf (filter (fun e => negb (mem (fst e) endo)) (g_edges g))) as (_ & _ & Wf);
        apply Wf in D; tauto.
    - intros X. destruct (E4 v X) as [[]|(c & A & B)]. eauto. }
  split; [|split; [auto|split; [auto|]]].
  - intros c A. destruct (E1 c A) as (N & u & U & K). split; [|auto]. intros ->. apply (proj2 (K u)). constructor.
  - intros x y T. split.
    + intros (c & A & X & Y). now apply (H c).
    + intros L. apply Cov in T. destruct T as (c & A & X). exists c. split; [auto|]. split; [auto|]. now apply (H c x y).
Qed.

Lemma get_ccomponent_ok : forall g endo v, wf_graph g -> touches_exo g endo v ->
  exists c, get_ccomponent g endo v = Ok (Some c) /\ NoDup c /\ forall x, In x c <-> linked (exo_arc g endo) v x.
Proof.
  intros g endo v W T. unfold get_ccomponent. cbv zeta. pose proof T as T'. apply exo_graph_nodes in T'; [|auto].
  destruct (component_ok (exo_graph g endo) v (graph_of_wf _) T') as (c & E & N & I & H).
  apply mem_In in T'. rewrite T'. exists c. split; [now rewrite E|]. split; [auto|]. intros x. rewrite H. now apply linked_exo.
Qed.
Lemma get_ccomponent_other : forall g endo v, wf_graph g -> ~ touches_exo g endo v -> get_ccomponent g endo v = Raise KeyError.
Proof.
  intros g endo v W T. unfold get_ccomponent. cbv zeta. rewrite <- exo_graph_nodes in T by auto. apply mem_nIn in T. now rewrite T.
Qed.

(** ** Descendants *)
Lemma reach_loop_ok : forall g v, wf_graph g -> forall fuel seen level,
  NoDup seen -> incl seen (nodes g) -> incl level seen -> In v seen ->
  (forall x y, In x seen -> ~ In x level -> arc g x y -> In y seen) ->
  (forall x, In x seen -> reach g v x) ->
  length (nodes g) < fuel + length seen ->
  forall x, In x (reach_loop fuel g seen level) <-> reach g v x.
Proof.
  intros g v W. assert (CL : forall (P : var -> Prop), (forall x y, P x -> arc g x y -> P y) -> forall x, P v -> reach g v x -> P x).
  { intros P C x Pv [<- | H]; [auto|]. revert Pv. induction H; eauto. }
  induction fuel as [|fuel IH]; intros seen level N I J V C R L x.
  - pose proof (NoDup_incl_length N I). lia.
  - cbn [reach_loop]. cbv zeta.
    set (next := filter (fun w => negb (mem w seen)) (fromkeys (flat_map (succs g) level))).
    assert (HN : forall w, In w next <-> ~ In w seen /\ exists u, In u level /\ arc g u w).
    { intros w. unfold next. rewrite filter_In, in_fromkeys, in_flat_map, negb_true_iff, mem_nIn. split.
      - intros [(u & A & B) D]. split; [auto|]. exists u. now rewrite <- in_succs.
      - intros [D (u & A & B)]. split; [|auto]. exists u. now rewrite in_succs. }
    assert (NN : NoDup next) by (apply NoDup_filter_, fromkeys_NoDup).
    assert (CC : forall x y, In x seen -> arc g x y -> In y seen \/ In y next).
    { intros a b A B. destruct (in_dec string_dec b seen) as [K|K]; [now left|].
      destruct (in_dec string_dec a level) as [M|M]; [|left; eapply C; eauto]. right. apply HN. eauto. }
    destruct next as [|n0 nr] eqn:EN.
    + split; [apply R|]. apply (CL (fun x => In x seen)); [|auto]. intros a b A B. destruct (CC a b A B) as [K|[]]. auto.
    + rewrite <- EN in *. apply IH.
      * apply NoDup_app_intro; auto. intros a A B. apply HN in B. tauto.
      * intros a A. apply in_app_or in A. destruct A as [A|A]; [auto|]. apply HN in A. destruct A as (_ & u & _ & A).
        destruct W as (_ & _ & W). now apply W in A.
      * intros a A. apply in_or_app. now right.
      * apply in_or_app. now left.
      * intros a b A B D. apply in_or_app. apply in_app_or in A. destruct A as [A|A]; [|contradiction]. eauto.
      * intros a A. apply in_app_or in A. destruct A as [A|A]; [auto|]. apply HN in A. destruct A as (_ & u & U & A).
        right. eapply reach_walk; [apply R, J, U|auto].
      * rewrite app_length, EN. cbn. lia.
Qed.

Lemma descendants_ok : forall g v, wf_graph g -> In v (nodes g) ->
  exists d, descendants g v = Ok d /\ forall x, In x d <-> x <> v /\ walk g v x.
Proof.
  intros g v W I. unfold descendants. assert (mem v (nodes g) = true) as -> by now apply mem_In.
  eexists. split; [reflexivity|]. intros x. rewrite filter_In.
  rewrite (reach_loop_ok g v W); [|now repeat constructor|intros y [<- | []]; auto|intros y; auto|now left| | |cbn; lia].
  - destruct (eqd x v) as [-> | N]; [intuition congruence|]. split.
    + intros [[E|K] _]; [congruence|auto].
    + intros [_ K]. split; [now right|auto].
  - intros a b [<- | []] NI. exfalso. apply NI. now left.
  - intros a [<- | []]. now left.
Qed.

(** ** The Q-graph *)
Lemma foldM_ok : forall (A B : Type) (f : A -> B -> res A) (h : A -> B -> A) l a,
  (forall a b, In b l -> f a b = Ok (h a b)) -> foldM f l a = Ok (fold_left h l a).
Proof.
  intros A B f h l. induction l as [|b l IH]; intros a H; [reflexivity|]. cbn. rewrite H by now left. cbn. apply IH.
  intros a' b' I. apply H. now right.
Qed.

(** every step of the construction only adds arcs, and adds exactly [P] *)
Definition grows (g h : digraph) (P : var -> var -> Prop) : Prop :=
  wf_graph h /\ (forall x y, arc h x y <-> arc g x y \/ P x y) /\
  (forall v, In v (nodes h) <-> In v (nodes g) \/ exists x y, P x y /\ (v = x \/ v = y)).

Lemma grows_refl : forall g, wf_graph g -> grows g g (fun _ _ => False).
Proof. intros g W. split; [auto|]. split; [tauto|]. intros v. split; [auto|]. intros [I|(x & y & [] & _)]. auto. Qed.
Lemma grows_trans : forall g h k P Q R, grows g h P -> grows h k Q -> (forall x y, R x y <-> P x y \/ Q x y) -> grows g k R.
Proof.
  intros g h k P Q R (W1 & A1 & N1) (W2 & A2 & N2) H. split; [auto|]. split.
  - intros x y. rewrite A2, A1, H. tauto.
  - intros v. rewrite N2, N1. split.
    + intros [[I|(x & y & p & E)]|(x & y & q & E)]; [auto| |]; right; exists x, y; rewrite H; auto.
    + intros [I|(x & y & r & E)]; [auto|]. apply H in r. destruct r; [left; right|right]; eauto.
Qed.
Lemma grows_ext : forall g h P Q, grows g h P -> (forall x y, P x y <-> Q x y) -> grows g h Q.
Proof.
  intros g h P Q (W & A & N) H. split; [auto|]. split; [intros; now rewrite A, H|]. intros v. rewrite N. split.
  - intros [I|(x & y & p & E)]; [auto|]. right. exists x, y. rewrite <- H. auto.
  - intros [I|(x & y & p & E)]; [auto|]. right. exists x, y. rewrite H. auto.
Qed.
Lemma grows_add : forall g e, wf_graph g -> grows g (add_edge g e) (fun x y => (x, y) = e).
Proof.
  intros g [a b] W. split; [now apply add_edge_wf|]. split.
  - intros x y. unfold arc. now rewrite add_edge_edges.
  - intros v. rewrite add_edge_nodes. cbn. split.
    + intros [I|I]; [auto|]. right. exists a, b. auto.
    + intros [I|(x & y & E & I)]; [auto|]. injection E as -> ->. auto.
Qed.
Lemma grows_foldM : forall (B : Type) (f : digraph -> B -> res digraph) (P : B -> var -> var -> Prop) l,
  (forall q b, In b l -> wf_graph q -> exists q', f q b = Ok q' /\ grows q q' (P b)) ->
  forall q, wf_graph q -> exists q', foldM f l q = Ok q' /\ grows q q' (fun x y => exists b, In b l /\ P b x y).
Proof.
  intros B f P l. induction l as [|b l IH]; intros H q W.
  - exists q. split; [reflexivity|]. apply grows_ext with (fun _ _ => False); [now apply grows_refl|].
    intros x y. split; [tauto|]. intros (b & [] & _).
  - destruct (H q b (or_introl eq_refl) W) as (q1 & E1 & G1). destruct (IH) with (q := q1) as (q2 & E2 & G2).
    + intros q' b' I W'. apply H; [now right|auto].
    + apply G1.
    + exists q2. cbn. rewrite E1. cbn. split; [exact E2|]. eapply grows_trans; [exact G1|exact G2|].
      intros x y. split.
      * intros (b' & [-> | I] & p); [auto|right; eauto].
      * intros [p|(b' & I & p)]; [exists b; split; [now left|auto]|exists b'; split; [now right|auto]].
Qed.

(** The arcs get_qgraph adds for the members of one component [c] *)
Definition added_in (g : digraph) (endo order c : list var) (p x : var) : Prop :=
  In x order /\ In x c /\ ~ walk (endo_graph g endo) x p /\
  ((exists l1 l2, order = l1 ++ x :: l2 /\ In p l1 /\ In p c) \/
   (~ (In p order /\ In p c) /\ In p endo /\ exists x', In x' order /\ In x' c /\ arc g p x')).

Lemma in_combine_seq : forall (A : Type) (l : list A) k i x, In (i, x) (combine (seq k (length l)) l) <-> exists n, i = k + n /\ nth_error l n = Some x.
Proof.
  intros A l. induction l as [|a l IH]; intros k i x; cbn.
  - split; [tauto|]. intros (n & _ & E). now destruct n.
  - rewrite IH. split.
    + intros [E|(n & -> & E)]; [injection E as <- <-; exists 0; split; [lia|auto]|exists (S n); split; [lia|auto]].
    + intros (n & -> & E). destruct n as [|n]; cbn in E; [injection E as <-; left; f_equal; lia|right; exists n; split; [lia|auto]].
Qed.

Lemma nth_filter_before : forall (f : var -> bool) order n x p, NoDup order ->
  nth_error (filter f order) n = Some x ->
  (In p (firstn n (filter f order)) <-> exists l1 l2, order = l1 ++ x :: l2 /\ In p l1 /\ f p = true).
Proof.
  intros f order. induction order as [|a order IH]; intros n x p N E; cbn in E; [now destruct n|].
  inversion N as [|? ? NA N']; subst. cbn [filter].
  assert (IX : In x order -> x <> a) by (intros I ->; auto).
  destruct (f a) eqn:F.
  - destruct n as [|n]; cbn in E.
    + injection E as <-. cbn. split; [tauto|]. intros (l1 & l2 & E & I & _). destruct l1 as [|b l1]; [destruct I|].
      cbn in E. injection E as <- ->. exfalso. apply NA. rewrite in_app_iff. right. now left.
    + cbn [firstn]. specialize (IH n x p N' E).
      assert (J : In x order). { apply nth_error_In in E. apply filter_In in E. tauto. }
      split.
      * intros [<- | I].
        -- apply in_split in J. destruct J as (l1 & l2 & ->). exists (a :: l1), l2. repeat split; auto. now left.
        -- apply IH in I. destruct I as (l1 & l2 & -> & I & K). exists (a :: l1), l2. repeat split; auto. now right.
      * intros (l1 & l2 & EE & I & K). destruct l1 as [|b l1]; [destruct I|]. cbn in EE. injection EE as <- ->.
        destruct I as [-> | I]; [now left|]. right. apply IH. eauto.
  - specialize (IH n x p N' E).
    assert (J : In x order). { apply nth_error_In in E. apply filter_In in E. tauto. }
    rewrite IH. split.
    + intros (l1 & l2 & -> & I & K). exists (a :: l1), l2. repeat split; auto. now right.
    + intros (l1 & l2 & EE & I & K). destruct l1 as [|b l1]; [destruct I|]. cbn in EE. injection EE as <- ->.
      destruct I as [-> | I]; [congruence|]. eauto.
Qed.

Lemma endo_parents_ok : forall g endo v, In v (nodes g) ->
  exists l, endo_parents g endo v = Ok l /\ forall p, In p l <-> arc g p v /\ In p endo.
Proof.
  intros g endo v I. unfold endo_parents. destruct (get_parents_ok g [v]) as (l & E & _ & H); [intros x [<- | []]; auto|].
  rewrite E. cbn. eexists. split; [reflexivity|]. intros p. rewrite filter_In, H, mem_In. split.
  - intros [(u & [<- | []] & A) B]. auto.
  - intros [A B]. split; [|auto]. exists v. split; [now left|auto].
Qed.

Lemma mapM_spec : forall (A B : Type) (f : A -> res B) (P : A -> B -> Prop) l,
  (forall a, In a l -> exists b, f a = Ok b /\ P a b) -> exists bs, mapM f l = Ok bs /\ Forall2 P l bs.
Proof.
  intros A B f P l. induction l as [|a l IH]; intros H; [exists []; split; [reflexivity|constructor]|].
  destruct (H a (or_introl eq_refl)) as (b & E & p). destruct IH as (bs & Es & ps); [intros a' I; apply H; now right|].
  exists (b :: bs). cbn. rewrite E. cbn. rewrite Es. cbn. split; [reflexivity|now constructor].
Qed.

Lemma qgraph_comp_ok : forall g endo order c q, wf_graph g -> acyclic g -> topological (endo_graph g endo) order -> wf_graph q ->
  exists q', qgraph_comp g endo order q c = Ok q' /\ grows q q' (added_in g endo order c).
Proof.
  intros g endo order c q W A (NO & EO & TO) WQ. unfold qgraph_comp. cbv zeta.
  set (comp := filter (fun v => mem v c) order).
  assert (IC : forall x, In x comp <-> In x order /\ In x c) by (intros x; unfold comp; rewrite filter_In, mem_In; tauto).
  assert (ON : forall x, In x order -> In x (nodes g)) by (intros x I; apply EO, subgraph_nodes in I; tauto).
  destruct (mapM_spec _ _ (endo_parents g endo) (fun v l => forall p, In p l <-> arc g p v /\ In p endo) comp) as (ps & E & F).
  { intros a I. apply endo_parents_ok. apply ON. now apply IC. }
  rewrite E. cbn [bind].
  set (pa_c := filter (fun v => negb (mem v comp)) (fromkeys (concat ps))).
  assert (IP : forall p, In p pa_c <-> ~ In p comp /\ In p endo /\ exists x', In x' comp /\ arc g p x').
  { intros p. unfold pa_c. rewrite filter_In, in_fromkeys, in_concat, negb_true_iff, mem_nIn.
    assert (K : (exists l, In l ps /\ In p l) <-> (In p endo /\ exists x', In x' comp /\ arc g p x')).
    { clear -F. induction F as [|v l vs ls H F IH].
      - split; [intros (l & [] & _)|intros (_ & x & [] & _)].
      - split.
        + intros (l' & [<- | I] & J).
          * apply H in J. destruct J as [J1 J2]. split; [auto|]. exists v. split; [now left|auto].
          * destruct IH as [IH _]. destruct IH as (I1 & x & I2 & I3); [eauto|]. split; [auto|]. exists x. split; [now right|auto].
        + intros (I1 & x & [<- | I2] & I3).
          * exists l. split; [now left|]. now apply H.
          * destruct IH as [_ IH]. destruct IH as (l' & I & J); [eauto|]. exists l'. split; [now right|auto]. }
    rewrite K. tauto. }
  destruct (grows_foldM (nat * var)
    (fun q0 ix => foldM (fun q1 p => let* d := descendants (endo_graph g endo) (snd ix) in
                             Ok (if mem p d then q1 else add_edge q1 (p, snd ix))) (pa_c ++ firstn (fst ix) comp) q0)
    (fun ix x y => exists p, In p (pa_c ++ firstn (fst ix) comp) /\ ~ (p <> snd ix /\ walk (endo_graph g endo) (snd ix) p) /\ (x, y) = (p, snd ix))
    (combine (seq 0 (length comp)) comp)) with (q := q) as (q' & E' & G).
  - intros q0 [i x] I W0. cbn [fst snd].
    assert (IX : In x comp). { apply in_combine_r in I. auto. }
    destruct (descendants_ok (endo_graph g endo) x) as (d & ED & HD).
    { now apply subgraph_wf. } { apply EO. now apply IC. }
    rewrite ED. cbn [bind].
    destruct (grows_foldM var (fun q1 p => Ok (if mem p d then q1 else add_edge q1 (p, x)))
       (fun p a b => ~ In p d /\ (a, b) = (p, x)) (pa_c ++ firstn i comp)) with (q := q0) as (q1 & E1 & G1).
    + intros q1 p _ W1. eexists. split; [reflexivity|]. destruct (mem p d) eqn:M.
      * apply mem_In in M. apply grows_ext with (fun _ _ => False); [now apply grows_refl|]. intros; tauto.
      * apply mem_nIn in M. apply grows_ext with (fun a b => (a, b) = (p, x)); [now apply grows_add|]. intros; tauto.
    + exact W0.
    + exists q1. split; [exact E1|]. eapply grows_ext; [exact G1|]. intros a b. split.
      * intros (p & I1 & I2 & I3). exists p. rewrite HD in I2. auto.
      * intros (p & I1 & I2 & I3). exists p. rewrite HD. auto.
  - exact WQ.
  - exists q'. split; [exact E'|]. eapply grows_ext; [exact G|]. intros p x. unfold added_in.
    assert (AE : acyclic (endo_graph g endo)). { apply acyclic_mono with g; [|auto]. intros a b K. now apply subgraph_arc in K. }
    split.
    + intros ([i x'] & I & p' & J & NW & EE). cbn [fst snd] in *. injection EE as <- <-.
      apply in_combine_seq in I. destruct I as (n & EI & I). cbn in EI. subst i.
      assert (IX : In x comp) by (eapply nth_error_In; eauto). apply IC in IX. destruct IX as [IX1 IX2].
      assert (NW' : ~ walk (endo_graph g endo) x p).
      { intros K. apply NW. split; [|auto]. intros ->. now apply (AE x). }
      split; [auto|]. split; [auto|]. split; [auto|]. apply in_app_or in J. destruct J as [J|J].
      * right. apply IP in J. destruct J as (J1 & J2 & x' & J3 & J4). rewrite IC in J1, J3. split; [auto|]. split; [auto|].
        exists x'. tauto.
      * left. unfold comp in J. rewrite (nth_filter_before (fun v => mem v c) order n x p NO I) in J.
        destruct J as (l1 & l2 & J1 & J2 & J3). apply mem_In in J3. eauto.
    + intros (IX1 & IX2 & NW & H).
      assert (IX : In x comp) by (apply IC; auto). apply In_nth_error in IX. destruct IX as (n & IX).
      exists (n, x). split; [apply in_combine_seq; exists n; auto|]. cbn [fst snd]. exists p. split; [|split; [tauto|reflexivity]].
      apply in_or_app. destruct H as [(l1 & l2 & J1 & J2 & J3)|(J1 & J2 & x' & J3 & J4 & J5)].
      * right. apply (nth_filter_before (fun v => mem v c) order n x p NO IX). exists l1, l2. split; [auto|]. split; [auto|]. now apply mem_In.
      * left. apply IP. rewrite IC. split; [auto|]. split; [auto|]. exists x'. rewrite IC. auto.
Qed.

(** [before order p x]: p occurs before x *)
Definition before (order : list var) (p x : var) : Prop := exists l1 l2, order = l1 ++ x :: l2 /\ In p l1.

Lemma get_qgraph_ok : forall g endo order, wf_graph g -> acyclic g -> topological (endo_graph g endo) order ->
  exists q, get_qgraph g endo order = Ok q /\ wf_graph q /\
    (forall v, In v (nodes q) <-> In v (nodes g) /\ In v endo) /\
    (forall p x, arc q p x <->
       (arc g p x /\ In p endo /\ In x endo) \/
       (In p (nodes g) /\ In x (nodes g) /\ In p endo /\ In x endo /\ touches_exo g endo x /\
        ~ walk (endo_graph g endo) x p /\
        ((before order p x /\ linked (exo_arc g endo) x p) \/
         (~ linked (exo_arc g endo) x p /\ exists x', In x' endo /\ linked (exo_arc g endo) x x' /\ arc g p x')))).
Proof.
  intros g endo order W A T. pose proof T as (NO & EO & TO). unfold get_qgraph, endo_ccomponents.
  destruct (ccomponents_ok g endo W) as (cs & E & C1 & C2 & C3 & C4). rewrite E.
  set (es := map (filter (fun v => mem v endo)) cs).
  assert (WE : wf_graph (endo_graph g endo)) by now apply subgraph_wf.
  destruct (grows_foldM (list var) (qgraph_comp g endo order) (added_in g endo order) es) with (q := g_copy (endo_graph g endo)) as (q & EQ & WQ & AQ & NQ).
  { intros q c _ WQ. now apply qgraph_comp_ok. }
  { now apply g_copy_wf. }
  exists q. split; [exact EQ|]. split; [auto|].
  destruct (g_copy_same (endo_graph g endo) WE) as [SN SA].
  assert (ADD : forall p x, (exists b, In b es /\ added_in g endo order b p x) <->
     In p (nodes g) /\ In x (nodes g) /\ In p endo /\ In x endo /\ touches_exo g endo x /\
        ~ walk (endo_graph g endo) x p /\
        ((before order p x /\ linked (exo_arc g endo) x p) \/
         (~ linked (exo_arc g endo) x p /\ exists x', In x' endo /\ linked (exo_arc g endo) x x' /\ arc g p x'))).
  { intros p x. assert (OO : forall v, In v order <-> In v (nodes g) /\ In v endo) by (intros v; rewrite EO; apply subgraph_nodes).
    assert (CL : forall c v w, In c cs -> In v c -> (In w c <-> linked (exo_arc g endo) v w)).
    { intros c v w I V. assert (TV : touches_exo g endo v) by (apply C3; eauto). rewrite <- (C4 v w TV). split; [eauto|].
      intros (d & D & V' & W'). apply In_nth_error in I. apply In_nth_error in D. destruct I as (i & I), D as (j & D).
      destruct (Nat.eq_dec i j) as [EE|NE]; [subst j; congruence|]. exfalso. exact (C2 i j c d v I D NE V V'). }
    split.
    - intros (b & IB & H). unfold es in IB. apply in_map_iff in IB. destruct IB as (c & <- & IC).
      destruct H as (X1 & X2 & NW & H). apply filter_In in X2. destruct X2 as [X2 X3]. apply mem_In in X3.
      assert (TX : touches_exo g endo x) by (apply C3; eauto). apply OO in X1.
      destruct H as [(l1 & l2 & H1 & H2 & H3)|(H1 & H2 & x' & H3 & H4 & H5)].
      + assert (P : In p order) by (rewrite H1, in_app_iff; now left). apply OO in P. apply filter_In in H3. destruct H3 as [H3 H4].
        repeat (split; [tauto|]). left. split; [exists l1, l2; auto|]. now apply (CL c).
      + apply filter_In in H4. destruct H4 as [H4 H6]. apply OO in H3.
        assert (P : In p (nodes g)) by (destruct W as (_ & _ & W); now apply W in H5).
        repeat (split; [tauto|]). right. split.
        * intros L. apply H1. split; [now apply OO|]. apply filter_In. split; [now apply (CL c x p)|now apply mem_In].
        * exists x'. split; [tauto|]. split; [now apply (CL c x x')|auto].
    - intros (P1 & X1 & P2 & X2 & TX & NW & H). pose proof TX as TX'. apply C3 in TX'. destruct TX' as (c & IC & XC).
      exists (filter (fun v => mem v endo) c). split; [unfold es; apply in_map; auto|]. unfold added_in.
      split; [now apply OO|]. split; [apply filter_In; split; [auto|now apply mem_In]|]. split; [auto|].
      destruct H as [((l1 & l2 & H1 & H2) & H3)|(H1 & x' & H2 & H3 & H4)].
      + left. exists l1, l2. split; [auto|]. split; [auto|]. apply filter_In. split; [now apply (CL c x p)|now apply mem_In].
      + right. split.
        * intros [_ K]. apply filter_In in K. apply H1. now apply (CL c x p).
        * split; [auto|]. exists x'. assert (In x' (nodes g)) by (destruct W as (_ & _ & W); now apply W in H4).
          split; [apply OO; auto|]. split; [|auto]. apply filter_In. split; [now apply (CL c x x')|now apply mem_In]. }
  split.
  - intros v. rewrite NQ, SN. unfold endo_graph at 1. rewrite subgraph_nodes. split; [|tauto].
    intros [K|(p & x & K & EV)]; [auto|]. apply ADD in K. destruct EV; subst v; tauto.
  - intros p x. rewrite AQ, SA, ADD. unfold endo_graph at 1. rewrite subgraph_arc. tauto.
Qed.

(** a relation compatible with a duplicate-free order *)
Lemma before_NoDup_split : forall order p x l1 l2, NoDup order -> before order p x -> order = l1 ++ x :: l2 -> In p l1.
Proof.
  intros order p x l1 l2 N (m1 & m2 & E & I) E'. subst order.
  assert (m1 = l1) as <-; [|auto]. clear I p. revert l1 E' N. induction m1 as [|a m1 IH]; intros l1 E N; destruct l1 as [|b l1]; cbn in *.
  - reflexivity.
  - injection E as <- E. inversion N; subst. exfalso. apply H1. rewrite in_app_iff. right. now left.
  - injection E as -> E. inversion N; subst. exfalso. apply H1. rewrite in_app_iff. right. now left.
  - injection E as <- E. f_equal. apply IH; [auto|]. now inversion N.
Qed.

Lemma get_qgraph_acyclic : forall g endo order, wf_graph g -> acyclic g -> topological (endo_graph g endo) order ->
  (forall p x x', In p endo -> In x endo -> In x' endo -> touches_exo g endo x -> arc g p x' -> linked (exo_arc g endo) x x' ->
     ~ linked (exo_arc g endo) x p -> before order p x \/ walk (endo_graph g endo) x p) ->
  exists q, get_qgraph g endo order = Ok q /\ topological q order /\ acyclic q.
Proof.
  intros g endo order W A T H. destruct (get_qgraph_ok g endo order W A T) as (q & E & WQ & NQ & AQ).
  exists q. split; [exact E|]. pose proof T as (NO & EO & TO).
  assert (TQ : topological q order).
  { split; [auto|]. split; [intros v; rewrite EO, NQ; apply subgraph_nodes|]. intros p x l1 l2 EX B. apply AQ in B.
    destruct B as [(B1 & B2 & B3)|(B1 & B2 & B3 & B4 & B5 & B6 & B7)].
    - apply (TO p x l1 l2 EX). apply subgraph_arc. auto.
    - destruct B7 as [[B7 _]|(B7 & x' & B8 & B9 & B10)].
      + eapply before_NoDup_split; eassumption.
      + destruct (H p x x' B3 B4 B8 B5 B10 B9 B7) as [K|K]; [|contradiction].
        eapply before_NoDup_split; eassumption. }
  split; [exact TQ|]. eapply topological_acyclic; eassumption.
Qed.
