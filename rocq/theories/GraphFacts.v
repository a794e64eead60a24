(** Facts about graphs: walks, topological orders, cycles, barren nodes. *)

From Coq Require Import String Ascii Bool Arith ZArith List Lia Permutation ListDec.
From Verif Require Import PyBase PyFacts GraphModel GraphSpec.
Import ListNotations.
Local Arguments eqd : simpl never.

Lemma in_succs : forall g x y, In y (succs g x) <-> arc g x y.
Proof.
  intros g x y. unfold succs, arc. rewrite in_map_iff. split.
  - intros ([a b] & E & I). cbn in E. subst. rewrite filter_In in I. cbn in I. destruct I as [I T].
    destruct (eqd a x); [subst; auto|discriminate].
  - intros I. exists (x, y). split; [reflexivity|]. apply filter_In. split; [auto|]. cbn. now destruct (eqd x x).
Qed.

Lemma in_preds : forall g x y, In x (preds g y) <-> arc g x y.
Proof.
  intros g x y. unfold preds, arc. rewrite in_map_iff. split.
  - intros ([a b] & E & I). cbn in E. subst. rewrite filter_In in I. cbn in I. destruct I as [I T].
    destruct (eqd b y); [subst; auto|discriminate].
  - intros I. exists (x, y). split; [reflexivity|]. apply filter_In. split; [auto|]. cbn. now destruct (eqd y y).
Qed.

Lemma in_g_edges : forall g x y, wf_graph g -> In (x, y) (g_edges g) <-> arc g x y.
Proof.
  intros g x y (N & NE & W). unfold g_edges. rewrite in_flat_map. split.
  - intros (u & I & J). rewrite in_map_iff in J. destruct J as (w & E & J). injection E as -> ->. now apply in_succs.
  - intros I. exists x. split; [apply (W _ _ I)|]. apply in_map_iff. exists y. split; [reflexivity|]. now apply in_succs.
Qed.

Lemma NoDup_map_inj : forall (A B : Type) (f : A -> B) l,
  (forall x y, In x l -> In y l -> f x = f y -> x = y) -> NoDup l -> NoDup (map f l).
Proof.
  intros A B f l. induction l as [|a l IH]; intros H N; [constructor|].
  inversion N; subst. cbn. constructor.
  - rewrite in_map_iff. intros (x & E & I). apply H in E; [subst; auto|now right|now left].
  - apply IH; auto. intros x y I J. apply H; now right.
Qed.

Lemma succs_NoDup : forall g x, NoDup (edges g) -> NoDup (succs g x).
Proof.
  intros g x N. unfold succs. apply NoDup_map_inj; [|now apply NoDup_filter].
  intros [a b] [c d] I J E. cbn in E. subst. apply filter_In in I, J. destruct I as [_ I], J as [_ J]. cbn in I, J.
  destruct (eqd a x); [|discriminate]. destruct (eqd c x); [|discriminate]. now subst.
Qed.

Lemma preds_NoDup : forall g x, NoDup (edges g) -> NoDup (preds g x).
Proof.
  intros g x N. unfold preds. apply NoDup_map_inj; [|now apply NoDup_filter].
  intros [a b] [c d] I J E. cbn in E. subst. apply filter_In in I, J. destruct I as [_ I], J as [_ J]. cbn in I, J.
  destruct (eqd b x); [|discriminate]. destruct (eqd d x); [|discriminate]. now subst.
Qed.

Lemma NoDup_app_intro : forall (A : Type) (l m : list A),
  NoDup l -> NoDup m -> (forall x, In x l -> ~ In x m) -> NoDup (l ++ m).
Proof.
  intros A l. induction l as [|a l IH]; intros m N M D; [auto|]. inversion N; subst. cbn. constructor.
  - rewrite in_app_iff. intros [I|I]; [auto|]. apply (D a); [now left|auto].
  - apply IH; auto. intros x I. apply D. now right.
Qed.

Lemma g_edges_NoDup : forall g, wf_graph g -> NoDup (g_edges g).
Proof.
  intros g (N & NE & W). unfold g_edges. clear W. induction (nodes g) as [|u l IH]; [constructor|].
  inversion N; subst. cbn. apply NoDup_app_intro.
  - apply NoDup_map_inj; [|now apply succs_NoDup]. intros x y _ _ E. now injection E.
  - now apply IH.
  - intros [a b] I J. apply in_map_iff in I. destruct I as (w & E & I). injection E as <- <-.
    apply in_flat_map in J. destruct J as (u' & J & K). apply in_map_iff in K. destruct K as (w' & E' & K).
    injection E' as -> ->. auto.
Qed.

Lemma g_copy_same : forall g, wf_graph g -> same_graph (g_copy g) g.
Proof. intros g W. split; [intros v; reflexivity|]. intros x y. unfold arc, g_copy. cbn. now apply in_g_edges. Qed.
Lemma g_copy_wf : forall g, wf_graph g -> wf_graph (g_copy g).
Proof.
  intros g W. pose proof (g_edges_NoDup g W) as NE. destruct W as (N & NE' & W). split; [exact N|]. split; [exact NE|].
  intros x y I. cbn in I. rewrite in_g_edges in I by (split; [|split]; auto). now apply W.
Qed.

(** ** Construction *)
Lemma add_node_nodes : forall g v w, In w (nodes (add_node g v)) <-> In w (nodes g) \/ w = v.
Proof.
  intros g v w. unfold add_node. destruct (mem v (nodes g)) eqn:E.
  - apply mem_In in E. split; [auto|]. intros [I | ->]; auto.
  - cbn. rewrite in_app_iff. cbn. intuition.
Qed.
Lemma add_node_edges : forall g v, edges (add_node g v) = edges g.
Proof. intros g v. unfold add_node. now destruct (mem v (nodes g)). Qed.
Lemma add_node_NoDup : forall g v, NoDup (nodes g) -> NoDup (nodes (add_node g v)).
Proof.
  intros g v N. unfold add_node. destruct (mem v (nodes g)) eqn:E; [auto|]. cbn. apply mem_nIn in E.
  apply NoDup_app_intro; auto; [now repeat constructor|]. intros x I [J|[]]. now subst.
Qed.

Lemma add_edge_nodes : forall g e w, In w (nodes (add_edge g e)) <-> In w (nodes g) \/ w = fst e \/ w = snd e.
Proof.
  intros g e w. unfold add_edge. destruct (mem e _); cbn [nodes]; rewrite !add_node_nodes; intuition.
Qed.
Lemma add_edge_edges : forall g e a, In a (edges (add_edge g e)) <-> In a (edges g) \/ a = e.
Proof.
  intros g e a. unfold add_edge. rewrite !add_node_edges. destruct (mem e (edges g)) eqn:E.
  - apply mem_In in E. rewrite !add_node_edges. split; [auto|]. intros [I | ->]; auto.
  - cbn. rewrite in_app_iff. cbn. intuition.
Qed.
Lemma add_edge_wf : forall g e, wf_graph g -> wf_graph (add_edge g e).
Proof.
  intros g e (N & NE & W). split; [|split].
  - unfold add_edge. destruct (mem e _); cbn [nodes]; now repeat apply add_node_NoDup.
  - unfold add_edge. rewrite !add_node_edges. destruct (mem e (edges g)) eqn:E; [now rewrite !add_node_edges|].
    cbn. apply mem_nIn in E. apply NoDup_app_intro; auto; [now repeat constructor|]. intros x I [J|[]]. now subst.
  - intros x y I. rewrite !add_edge_nodes. apply add_edge_edges in I. destruct I as [I|I].
    + apply W in I. tauto.
    + subst e. cbn. tauto.
Qed.
Lemma add_edge_present : forall g e, wf_graph g -> In e (edges g) -> add_edge g e = g.
Proof.
  intros g [x y] (N & NE & W) I. unfold add_edge, add_node. cbn [fst snd]. pose proof (W _ _ I) as [A B].
  apply mem_In in A, B. rewrite A, B. apply mem_In in I. now rewrite I.
Qed.

Lemma fold_add_edges : forall arcs g a, In a (edges (fold_left add_edge arcs g)) <-> In a (edges g) \/ In a arcs.
Proof.
  induction arcs as [|e r IH]; intros g a; cbn; [tauto|]. rewrite IH, add_edge_edges. intuition.
Qed.
Lemma fold_add_nodes : forall arcs g v,
  In v (nodes (fold_left add_edge arcs g)) <-> In v (nodes g) \/ exists e, In e arcs /\ (v = fst e \/ v = snd e).
Proof.
  induction arcs as [|e r IH]; intros g v; cbn.
  - split; [auto|]. intros [I|(e & [] & _)]. auto.
  - rewrite IH, add_edge_nodes. split.
    + intros [[I|I]|(e' & I & J)]; [auto| |]; right; [exists e|exists e']; auto.
    + intros [I|(e' & [-> | I] & J)]; [auto|auto|right; eauto].
Qed.
Lemma fold_add_wf : forall arcs g, wf_graph g -> wf_graph (fold_left add_edge arcs g).
Proof. induction arcs as [|e r IH]; intros g W; cbn; [auto|]. apply IH. now apply add_edge_wf. Qed.
Lemma empty_wf : wf_graph (mkG [] []).
Proof. repeat split; try constructor; destruct H. Qed.

Lemma graph_of_wf : forall arcs, wf_graph (graph_of arcs).
Proof. intros. apply fold_add_wf, empty_wf. Qed.
Lemma graph_of_edges : forall arcs a, In a (edges (graph_of arcs)) <-> In a arcs.
Proof. intros. unfold graph_of. rewrite fold_add_edges. cbn. tauto. Qed.
Lemma graph_of_nodes : forall arcs v,
  In v (nodes (graph_of arcs)) <-> exists e, In e arcs /\ (v = fst e \/ v = snd e).
Proof. intros. unfold graph_of. rewrite fold_add_nodes. cbn. tauto. Qed.

Lemma NoDup_filter_ : forall (A : Type) (f : A -> bool) l, NoDup l -> NoDup (filter f l).
Proof. intros. now apply NoDup_filter. Qed.

Lemma subgraph_wf : forall g ns, wf_graph g -> wf_graph (subgraph g ns).
Proof.
  intros g ns (N & NE & W). split; [now apply NoDup_filter_|]. split; [now apply NoDup_filter_|].
  intros x y I. cbn in *. apply filter_In in I. destruct I as [I J]. cbn in J. apply andb_true_iff in J.
  apply W in I. destruct I, J. split; apply filter_In; auto.
Qed.
Lemma subgraph_nodes : forall g ns v, In v (nodes (subgraph g ns)) <-> In v (nodes g) /\ In v ns.
Proof. intros. cbn. rewrite filter_In, mem_In. tauto. Qed.
Lemma subgraph_arc : forall g ns x y, arc (subgraph g ns) x y <-> arc g x y /\ In x ns /\ In y ns.
Proof. intros. unfold arc. cbn. rewrite filter_In. cbn. rewrite andb_true_iff, !mem_In. tauto. Qed.

(** ** Walks *)
Lemma walk_nodes : forall g x y, wf_graph g -> walk g x y -> In x (nodes g) /\ In y (nodes g).
Proof.
  intros g x y (N & NE & W) H. induction H as [x y A|x y z A H IH].
  - now apply W.
  - apply W in A. tauto.
Qed.
Lemma walk_trans : forall g x y z, walk g x y -> walk g y z -> walk g x z.
Proof. intros g x y z H. induction H; intros K; [now apply walk_step with y|]. apply walk_step with y; auto. Qed.
Lemma walk_snoc : forall g x y z, walk g x y -> arc g y z -> walk g x z.
Proof. intros. eapply walk_trans; [eassumption|now constructor]. Qed.
Lemma reach_trans : forall g x y z, reach g x y -> reach g y z -> reach g x z.
Proof.
  intros g x y z [-> | H] [-> | K].
  - now left.
  - now right.
  - now right.
  - right. eapply walk_trans; eassumption.
Qed.
Lemma walk_mono : forall g h, (forall x y, arc g x y -> arc h x y) -> forall x y, walk g x y -> walk h x y.
Proof. intros g h H x y K. induction K; [constructor; auto|]. eapply walk_step; eauto. Qed.
Lemma acyclic_mono : forall g h, (forall x y, arc h x y -> arc g x y) -> acyclic g -> acyclic h.
Proof. intros g h H A x W. apply (A x). eapply walk_mono; eassumption. Qed.
Lemma reach_walk : forall g x y z, reach g x y -> arc g y z -> walk g x z.
Proof. intros g x y z [-> | H] A; [now constructor|eapply walk_snoc; eassumption]. Qed.
Lemma arc_reach : forall g x y z, arc g x y -> reach g y z -> walk g x z.
Proof. intros g x y z A [-> | H]; [now constructor|eapply walk_step; eassumption]. Qed.

(** Paths as lists of nodes *)
Fixpoint ispath (g : digraph) (x : var) (p : list var) : Prop :=
  match p with
  | [] => True
  | y :: q => arc g x y /\ ispath g y q
  end.
Lemma ispath_walk : forall g p x, ispath g x p -> forall y, In y p -> walk g x y.
Proof.
  intros g p. induction p as [|z p IH]; intros x H y I; [destruct I|]. destruct H as [A H]. destruct I as [-> | I].
  - now constructor.
  - apply walk_step with z; auto.
Qed.
Lemma ispath_app : forall g p q x, ispath g x (p ++ q) <-> ispath g x p /\ ispath g (last p x) q.
Proof.
  intros g p. induction p as [|y p IH]; intros q x; [cbn; tauto|].
  cbn [app ispath]. rewrite IH. destruct p as [|z p]; [cbn; tauto|].
  change (last (y :: z :: p) x) with (last (z :: p) x).
  assert (E : forall d d', last (z :: p) d = last (z :: p) d').
  { clear. revert z. induction p as [|w p IH]; intros z d d'; [reflexivity|].
    change (last (w :: p) d = last (w :: p) d'). apply IH. }
  rewrite (E x y). tauto.
Qed.
Lemma ispath_walk_mid : forall g p a x q, ispath g x (p ++ a :: q) -> ispath g a q.
Proof. intros g p. induction p as [|y p IH]; intros a x q H; cbn in H; destruct H as [A H]; eauto. Qed.

Lemma long_path : forall g, wf_graph g -> (forall x, In x (nodes g) -> exists y, arc g x y) ->
  forall n x, In x (nodes g) -> exists p, length p = n /\ ispath g x p /\ incl p (nodes g).
Proof.
  intros g (N & NE & W) H. induction n as [|n IH]; intros x I.
  - exists []. repeat split. intros y [].
  - destruct (H x I) as [y A]. destruct (IH y) as (p & L & P & Q); [now apply W in A|].
    exists (y :: p). cbn. repeat split; auto. intros z [<- | J]; [now apply W in A|auto].
Qed.

Lemma NoDup_dec_ : forall (l : list var), NoDup l \/ exists a l1 l2 l3, l = l1 ++ a :: l2 ++ a :: l3.
Proof.
  induction l as [|b l IH]; [left; constructor|].
  destruct (in_dec string_dec b l) as [I|I].
  - right. apply in_split in I. destruct I as (l2 & l3 & ->). exists b, [], l2, l3. reflexivity.
  - destruct IH as [N|(a & l1 & l2 & l3 & ->)]; [left; now constructor|]. right. exists a, (b :: l1), l2, l3. reflexivity.
Qed.

Lemma has_cycle_of_no_sink : forall g, wf_graph g -> nodes g <> [] ->
  (forall x, In x (nodes g) -> exists y, arc g x y) -> exists x, walk g x x.
Proof.
  intros g W NN H. destruct (nodes g) as [|x0 r] eqn:E; [congruence|]. rewrite <- E in *.
  destruct (long_path g W H (S (length (nodes g))) x0) as (p & L & P & Q); [rewrite E; now left|].
  destruct (NoDup_dec_ p) as [N|(a & l1 & l2 & l3 & EP)].
  - pose proof (NoDup_incl_length N Q). lia.
  - exists a. subst p. apply ispath_walk_mid in P. apply (ispath_walk g _ a P). rewrite in_app_iff. right. now left.
Qed.

Lemma sink_or_not : forall g l, (exists x, In x l /\ succs g x = []) \/ (forall x, In x l -> exists y, arc g x y).
Proof.
  intros g l. induction l as [|a l IH]; [right; intros x []|].
  destruct (succs g a) as [|y r] eqn:E.
  - left. exists a. split; [now left|auto].
  - destruct IH as [(x & I & K)|IH]; [left; exists x; split; [now right|auto]|].
    right. intros x [<- | I]; [|auto]. exists y. apply in_succs. rewrite E. now left.
Qed.

Lemma acyclic_sink : forall g, wf_graph g -> acyclic g -> nodes g <> [] ->
  exists x, In x (nodes g) /\ forall y, ~ arc g x y.
Proof.
  intros g W A NN. destruct (sink_or_not g (nodes g)) as [(x & I & K)|H].
  - exists x. split; [auto|]. intros y B. apply in_succs in B. now rewrite K in B.
  - destruct (has_cycle_of_no_sink g W NN H) as [x K]. now destruct (A x).
Qed.

(** Every acyclic graph has a topological order. *)
Lemma filter_length_le : forall (A : Type) (f : A -> bool) l, length (filter f l) <= length l.
Proof. intros A f l. induction l as [|a l IH]; [auto|]. cbn. destruct (f a); cbn; lia. Qed.
Lemma filter_length_lt : forall (A : Type) (f : A -> bool) l x, In x l -> f x = false -> length (filter f l) < length l.
Proof.
  intros A f l. induction l as [|a l IH]; intros x I E; [destruct I|]. destruct I as [-> | I].
  - cbn. rewrite E. pose proof (filter_length_le A f l). lia.
  - specialize (IH x I E). cbn. destruct (f a); cbn; lia.
Qed.

Lemma acyclic_topological : forall g, wf_graph g -> acyclic g -> exists order, topological g order.
Proof.
  intros g. remember (length (nodes g)) as n eqn:EN. revert g EN.
  induction n as [n IH] using lt_wf_ind. intros g EN W A.
  destruct (nodes g) as [|x0 r] eqn:E0.
  - exists []. split; [constructor|]. split; [intros v; rewrite E0; tauto|]. intros x y l1 l2 E. now destruct l1.
  - rewrite <- E0 in *. destruct (acyclic_sink g W A) as (s & I & K); [congruence|].
    set (rest := filter (fun v => if eqd v s then false else true) (nodes g)).
    assert (IR : forall v, In v rest <-> In v (nodes g) /\ v <> s).
    { intros v. unfold rest. rewrite filter_In. destruct (eqd v s); intuition congruence. }
    destruct (IH (length (nodes (subgraph g rest)))) with (g := subgraph g rest) as (o & NO & EO & TO).
    + subst n. apply filter_length_lt with (x := s); [auto|]. apply mem_nIn. rewrite IR. tauto.
    + reflexivity.
    + now apply subgraph_wf.
    + apply acyclic_mono with g; [|auto]. intros x y J. now apply subgraph_arc in J.
    + exists (o ++ [s]). assert (NS : ~ In s o). { rewrite EO, subgraph_nodes, IR. tauto. }
      split; [|split].
      * apply NoDup_app_intro; [auto|now repeat constructor|]. intros x J [<- | []]. auto.
      * intros v. rewrite in_app_iff, EO, subgraph_nodes, IR. cbn. split.
        -- intros [J|[<- | []]]; tauto.
        -- intros J. destruct (eqd v s); [right; auto|left; tauto].
      * intros x y l1 l2 E B.
        assert (x <> s) by (intros ->; now apply (K y)).
        destruct (eqd y s) as [-> | NY].
        -- (* l1 = o *)
           assert (l1 = o /\ l2 = []) as [-> ->].
           { destruct l2 as [|z l2] using rev_ind.
             - apply app_inj_tail in E. destruct E; auto.
             - exfalso. clear IHl2. replace (l1 ++ s :: l2 ++ [z]) with ((l1 ++ s :: l2) ++ [z]) in E by now rewrite <- app_assoc.
               apply app_inj_tail in E. destruct E as [E _]. apply NS. rewrite E, in_app_iff. right. now left. }
           apply EO, subgraph_nodes. assert (In x (nodes g)) by (destruct W as (_ & _ & W); now apply W in B).
           split; [auto|]. apply IR. auto.
        -- assert (exists l3, l2 = l3 ++ [s] /\ o = l1 ++ y :: l3) as (l3 & -> & EE).
           { destruct l2 as [|z l2] using rev_ind.
             - apply app_inj_tail in E. destruct E. now subst.
             - clear IHl2. exists l2. replace (l1 ++ y :: l2 ++ [z]) with ((l1 ++ y :: l2) ++ [z]) in E by now rewrite <- app_assoc.
               apply app_inj_tail in E. destruct E; now subst. }
           apply (TO x y l1 l3 EE). apply subgraph_arc. destruct W as (_ & _ & W). pose proof (W _ _ B) as [BX BY].
           repeat split; [auto| |]; apply IR; auto.
Qed.

(** A topological order excludes cycles. *)
Lemma topological_walk : forall g o, topological g o -> wf_graph g ->
  forall x y, walk g x y -> forall l1 l2, o = l1 ++ y :: l2 -> In x l1.
Proof.
  intros g o (N & EO & T) W x y H. induction H as [x y A|x y z A H IH]; intros l1 l2 E.
  - now apply (T x y l1 l2 E).
  - specialize (IH l1 l2 E). apply in_split in IH. destruct IH as (m1 & m2 & ->).
    assert (In x m1). { apply (T x y m1 (m2 ++ z :: l2)); [now rewrite <- app_assoc in E|auto]. }
    apply in_or_app. now left.
Qed.
Lemma topological_acyclic : forall g o, wf_graph g -> topological g o -> acyclic g.
Proof.
  intros g o W T x H. pose proof T as (N & EO & _). pose proof (walk_nodes g x x W H) as [I _]. apply EO in I.
  apply in_split in I. destruct I as (l1 & l2 & E). pose proof (topological_walk g o T W x x H l1 l2 E) as J.
  subst o. apply NoDup_remove_2 in N. apply N. apply in_or_app. now left.
Qed.

(** ** Cycle search (C21) *)
Lemma cycles_from_sound : forall fuel g start cur seen c,
  In c (cycles_from fuel g start cur seen) -> walk g cur start.
Proof.
  induction fuel as [|fuel IH]; intros g start cur seen c I; [destruct I|].
  cbn in I. apply in_flat_map in I. destruct I as (w & J & I). apply in_succs in J.
  destruct (eqd w start) as [-> | N]; [now constructor|]. destruct (mem w seen); [destruct I|].
  apply IH in I. eapply walk_step; eassumption.
Qed.

Lemma cycles_from_complete : forall g start p fuel cur seen,
  ispath g cur (p ++ [start]) -> NoDup p -> ~ In start p -> (forall x, In x p -> ~ In x seen) -> length p < fuel ->
  cycles_from fuel g start cur seen <> [].
Proof.
  intros g start p. induction p as [|w p IH]; intros fuel cur seen P N NS D L; (destruct fuel as [|fuel]; [lia|]); cbn [cycles_from].
  - cbn in P. destruct P as [A _]. apply in_succs in A. intros E.
    assert (I : In (rev seen) []).
    { rewrite <- E. apply in_flat_map. exists start. split; [auto|]. destruct (eqd start start); [now left|congruence]. }
    destruct I.
  - cbn in P. destruct P as [A P]. apply in_succs in A. inversion N; subst. intros E.
    assert (NW : w <> start) by (intros ->; apply NS; now left).
    assert (NM : mem w seen = false). { apply mem_nIn. apply D. now left. }
    destruct (cycles_from fuel g start w (w :: seen)) as [|c r] eqn:EC.
    + revert EC. apply IH; auto.
      * intros I. apply NS. now right.
      * intros x I [<- | J]; [auto|]. apply (D x); [now right|auto].
      * cbn in L. lia.
    + assert (I : In c []).
      { rewrite <- E. apply in_flat_map. exists w. split; [auto|]. destruct (eqd w start); [congruence|].
        rewrite NM, EC. now left. }
      destruct I.
Qed.

Lemma walk_path : forall g x y, walk g x y -> exists p, ispath g x (p ++ [y]).
Proof.
  intros g x y H. induction H as [x y A|x y z A H (p & P)].
  - exists []. cbn. auto.
  - exists (y :: p). cbn. auto.
Qed.

Lemma simple_cycle : forall g n p x, length p <= n -> ispath g x (p ++ [x]) ->
  exists q a, ispath g a (q ++ [a]) /\ NoDup (a :: q).
Proof.
  intros g. induction n as [|n IH]; intros p x L P.
  - destruct p; [|cbn in L; lia]. exists [], x. split; [auto|]. now repeat constructor.
  - destruct (NoDup_dec_ (x :: p)) as [N|(a & l1 & l2 & l3 & E)]; [eauto|].
    apply (IH l2 a).
    + assert (EL : length (x :: p) = length (l1 ++ a :: l2 ++ a :: l3)) by now rewrite E.
      rewrite !app_length in EL. cbn in EL. rewrite app_length in EL. cbn in EL. lia.
    + assert (Q : ispath g a (l2 ++ a :: l3 ++ [x])).
      { destruct l1 as [|b l1].
        - cbn in E. injection E as -> ->. now rewrite <- app_assoc in P.
        - cbn in E. injection E as <- ->. rewrite <- app_assoc in P. apply ispath_walk_mid in P.
          change (ispath g a ((l2 ++ a :: l3) ++ [x])) in P.
          now rewrite <- app_assoc in P. }
      replace (l2 ++ a :: l3 ++ [x]) with ((l2 ++ [a]) ++ (l3 ++ [x])) in Q by now rewrite <- app_assoc.
      now apply ispath_app in Q.
Qed.

Lemma simple_cycles_iff : forall g, wf_graph g -> (simple_cycles g = [] <-> acyclic g).
Proof.
  intros g W. unfold simple_cycles. split.
  - intros E x H. apply walk_path in H. destruct H as (p & P).
    destruct (simple_cycle g (length p) p x (le_n _) P) as (q & a & Q & N). clear p P x.
    assert (IQ : incl (a :: q) (nodes g)).
    { intros z J. destruct W as (_ & _ & W). assert (exists y, walk g z y) as (y & H).
      { destruct J as [<- | J].
        - exists a. apply (ispath_walk _ _ _ Q). apply in_or_app. right. now left.
        - apply in_split in J. destruct J as (l1 & l2 & ->). rewrite <- app_assoc in Q.
          apply ispath_walk_mid in Q. exists a. apply (ispath_walk _ _ _ Q). apply in_or_app. right. now left. }
      destruct H as [u v B|u v t B _]; now apply W in B. }
    assert (IA : In a (nodes g)) by (apply IQ; now left).
    pose proof (NoDup_incl_length N IQ) as L. cbn in L. inversion N; subst.
    destruct (cycles_from (length (nodes g)) g a a [a]) as [|c r] eqn:EC.
    + revert EC. apply cycles_from_complete with q; auto.
      intros y J [<- | []]. auto.
    + assert (I : In c []). { rewrite <- E. apply in_flat_map. exists a. split; [auto|]. rewrite EC. now left. }
      destruct I.
  - intros A. destruct (flat_map _ (nodes g)) as [|c r] eqn:E; [reflexivity|].
    assert (I : In c (flat_map (fun v => cycles_from (length (nodes g)) g v v [v]) (nodes g))) by (rewrite E; now left).
    apply in_flat_map in I. destruct I as (v & _ & I). apply cycles_from_sound in I. now destruct (A v).
Qed.

(** ** Barren nodes (C20) *)

Lemma filter_filter : forall (A : Type) (f h : A -> bool) l, filter f (filter h l) = filter (fun x => h x && f x) l.
Proof.
  intros A f h l. induction l as [|a l IH]; [reflexivity|]. cbn. destruct (h a); cbn; [|auto]. destruct (f a); now rewrite IH.
Qed.
Lemma filter_ext_in_ : forall (A : Type) (f h : A -> bool) l, (forall x, In x l -> f x = h x) -> filter f l = filter h l.
Proof.
  intros A f h l H. induction l as [|a l IH]; [reflexivity|]. cbn. rewrite (H a) by now left. rewrite IH; [reflexivity|].
  intros x I. apply H. now right.
Qed.

(** The graph held by the loop is the induced subgraph on the nodes that are
    not yet barren. *)
Definition without (g : digraph) (b : list var) : digraph :=
  subgraph g (filter (fun x => negb (mem x b)) (nodes g)).

Lemma mem_filter_not : forall (g : digraph) b x, In x (nodes g) ->
  mem x (filter (fun x => negb (mem x b)) (nodes g)) = negb (mem x b).
Proof.
  intros g b x I. destruct (mem x b) eqn:E; cbn.
  - apply mem_nIn. rewrite filter_In, E. cbn. intros [_ H]. discriminate.
  - apply mem_In. apply filter_In. now rewrite E.
Qed.

Lemma without_eq : forall g b, wf_graph g ->
  without g b = mkG (filter (fun x => negb (mem x b)) (nodes g))
                    (filter (fun e => negb (mem (fst e) b) && negb (mem (snd e) b)) (edges g)).
Proof.
  intros g b (N & NE & W). unfold without, subgraph. f_equal.
  - apply filter_ext_in_. intros x I. now apply mem_filter_not.
  - apply filter_ext_in_. intros [x y] I. cbn. apply W in I. now rewrite !mem_filter_not by tauto.
Qed.

Lemma without_arc : forall g b x y, wf_graph g -> arc (without g b) x y <-> arc g x y /\ ~ In x b /\ ~ In y b.
Proof.
  intros g b x y W. rewrite without_eq by auto. unfold arc. cbn. rewrite filter_In. cbn.
  rewrite andb_true_iff, !negb_true_iff, !mem_nIn. tauto.
Qed.
Lemma without_nodes : forall g b x, wf_graph g -> In x (nodes (without g b)) <-> In x (nodes g) /\ ~ In x b.
Proof.
  intros g b x W. rewrite without_eq by auto. cbn. rewrite filter_In, negb_true_iff, mem_nIn. tauto.
Qed.
Lemma without_without : forall g b c, wf_graph g -> incl b c ->
  subgraph (without g b) (filter (fun x => negb (mem x c)) (nodes (without g b))) = without g c.
Proof.
  intros g b c W I. change (without (without g b) c = without g c).
  rewrite without_eq by now apply subgraph_wf. rewrite (without_eq g b W), (without_eq g c W). cbn.
  assert (J : forall x, negb (mem x b) && negb (mem x c) = negb (mem x c)).
  { intros x. destruct (mem x b) eqn:E; cbn; [|reflexivity]. apply mem_In in E. apply I in E. apply mem_In in E. now rewrite E. }
  f_equal.
  - rewrite filter_filter. apply filter_ext_in_. intros x _. apply J.
  - rewrite filter_filter. apply filter_ext_in_. intros [x y] _. cbn. rewrite <- (J x), <- (J y) at 2.
    destruct (mem x b), (mem x c), (mem y b), (mem y c); reflexivity.
Qed.

Lemma barren_loop_ok : forall g Sx, wf_graph g -> acyclic g ->
  forall fuel b,
  (forall x, In x b -> In x (nodes g) /\ ~ exists s, In s Sx /\ reach g x s) ->
  length (nodes (without g b)) < fuel ->
  exists b', barren_loop fuel (without g b) Sx b = Some (without g b', b') /\ incl b b' /\
    (forall x, In x b' -> In x (nodes g) /\ ~ exists s, In s Sx /\ reach g x s) /\
    (forall x, In x (nodes g) -> ~ In x b' -> (exists y, arc g x y /\ ~ In y b') \/ In x Sx).
Proof.
  intros g Sx W A. induction fuel as [|fuel IH]; intros b B L; [lia|].
  cbn [barren_loop].
  destruct (filter (fun x => (length (succs (without g b) x) =? 0) && negb (mem x Sx)) (nodes (without g b))) as [|n0 nr] eqn:E.
  - exists b. split; [reflexivity|]. split; [intros x I; auto|]. split; [auto|].
    intros x I NI. destruct (in_dec string_dec x Sx) as [J|J]; [now right|left].
    destruct (succs (without g b) x) as [|y r] eqn:ES.
    + assert (K : In x []).
      { rewrite <- E. apply filter_In. split; [apply without_nodes; auto|]. rewrite ES. cbn.
        apply negb_true_iff. now apply mem_nIn. }
      destruct K.
    + exists y. assert (K : arc (without g b) x y). { apply in_succs. rewrite ES. now left. }
      apply without_arc in K; tauto.
  - set (new := n0 :: nr) in *.
    assert (HN : forall x, In x new -> In x (nodes (without g b)) /\ succs (without g b) x = [] /\ ~ In x Sx).
    { intros x I. rewrite <- E in I. apply filter_In in I. destruct I as [I J]. apply andb_true_iff in J.
      destruct J as [J K]. apply Nat.eqb_eq in J. apply negb_true_iff, mem_nIn in K.
      split; [auto|]. split; [|auto]. now destruct (succs (without g b) x). }
    cbv zeta. rewrite without_without; [|auto|intros x I; apply in_or_app; now left].
    destruct (IH (b ++ new)) as (b' & E1 & E2 & E3 & E4).
    + intros x I. apply in_app_or in I. destruct I as [I|I]; [auto|]. destruct (HN x I) as (I1 & I2 & I3).
      apply without_nodes in I1; [|auto]. destruct I1 as [I1 I4]. split; [auto|].
      intros (s & J & [-> | R]); [auto|].
      assert (exists y, arc g x y /\ reach g y s) as (y & K1 & K2).
      { destruct R as [x s R|x y s R R']; [exists s; split; [auto|now left]|exists y; split; [auto|now right]]. }
      destruct (in_dec string_dec y b) as [Y|Y].
      * apply (proj2 (B y Y)). eauto.
      * assert (In y []). { rewrite <- I2. apply in_succs. apply without_arc; auto. } auto.
    + assert (KK : length (nodes (without g (b ++ new))) < length (nodes (without g b))); [|lia].
      rewrite <- (without_without g b (b ++ new)); [|auto|intros x I; apply in_or_app; now left].
      apply filter_length_lt with (x := n0).
      * apply HN. now left.
      * apply mem_nIn. rewrite filter_In. intros [_ J]. apply negb_true_iff in J. apply mem_nIn in J.
        apply J. apply in_or_app. right. now left.
    + exists b'. repeat split; auto.
      * intros x I. apply E2. apply in_or_app. now left.
      * now apply E3.
      * now apply E3.
Qed.

Lemma filter_all : forall (A : Type) (f : A -> bool) l, (forall x, In x l -> f x = true) -> filter f l = l.
Proof.
  intros A f l H. induction l as [|a l IH]; [reflexivity|]. cbn. rewrite (H a) by now left. f_equal. apply IH.
  intros x I. apply H. now right.
Qed.

Lemma without_nil : forall g, wf_graph g -> without g [] = g.
Proof.
  intros g W. rewrite without_eq by auto. destruct g as [n e]. cbn. f_equal; now apply filter_all.
Qed.

Lemma barren_ok : forall g Sx, wf_graph g -> acyclic g ->
  exists b, barren_info g Sx = Some (without g b, b) /\
    forall x, In x b <-> In x (nodes g) /\ ~ exists s, In s Sx /\ reach g x s.
Proof.
  intros g Sx W A.
  assert (barren_info g Sx = barren_loop (length (nodes g) + 1) (without g []) Sx []) as -> by now rewrite without_nil.
  destruct (barren_loop_ok g Sx W A (length (nodes g) + 1) []) as (b & E1 & E2 & E3 & E4).
  - intros x [].
  - rewrite without_nil by auto. lia.
  - exists b. split; [exact E1|]. intros x. split; [apply E3|]. intros [I NR].
    destruct (in_dec string_dec x b) as [J|J]; [auto|]. exfalso.
    destruct (acyclic_topological g W A) as (o & T). pose proof T as (NO & EO & TO).
    (* follow arcs forward: induction on the suffix of the order after x *)
    assert (H : forall n x l1 l2, length l2 < n -> o = l1 ++ x :: l2 -> ~ In x b -> exists s, In s Sx /\ reach g x s).
    { clear x I NR J. induction n as [|n IHn]; intros x l1 l2 L EX NB.
      - lia.
      - assert (IX : In x (nodes g)) by (apply EO; rewrite EX, in_app_iff; right; now left).
        destruct (E4 x IX NB) as [(y & B & NY)|K]; [|exists x; split; [auto|now left]].
        assert (IY : In y o) by (apply EO; destruct W as (_ & _ & W'); now apply W' in B).
        apply in_split in IY. destruct IY as (m1 & m2 & EY). pose proof (TO x y m1 m2 EY B) as M.
        apply in_split in M. destruct M as (k1 & k2 & ->).
        assert (LL : length m2 < length l2).
        { assert (k1 = l1 /\ k2 ++ y :: m2 = l2) as [-> <-].
          { clear -EX EY NO. rewrite EX in EY. rewrite <- app_assoc in EY. cbn in EY. rewrite EX in NO. clear EX.
            revert k1 EY NO. induction l1 as [|a l1 IH]; intros k1 EY NO; destruct k1 as [|b k1]; cbn in *.
            - injection EY as <-. auto.
            - injection EY as <- E. exfalso. inversion NO; subst. apply H1. rewrite in_app_iff. right. now left.
            - injection EY as -> E. exfalso. inversion NO; subst. apply H1. rewrite in_app_iff. right. now left.
            - injection EY as <- E. inversion NO; subst. destruct (IH k1 E); auto. now subst. }
          rewrite app_length. cbn. lia. }
        destruct (IHn y (k1 ++ x :: k2) m2) as (s & S1 & S2); [lia|auto|auto|].
        exists s. split; [auto|]. right. eapply arc_reach; eassumption. }
    pose proof I as IO. apply EO in IO. apply in_split in IO. destruct IO as (l1 & l2 & EX).
    apply NR. exact (H (S (length l2)) x l1 l2 (le_n _) EX J).
Qed.

(** ** Queries (C49) *)
Lemma fromkeys_acc : forall l acc, (NoDup acc -> NoDup (fold_left (fun acc x => if mem x acc then acc else acc ++ [x]) l acc)) /\
  (forall x : var, In x (fold_left (fun acc x => if mem x acc then acc else acc ++ [x]) l acc) <-> In x acc \/ In x l).
Proof.
  induction l as [|a l IH]; intros acc; cbn; [split; [auto|intros x; tauto]|].
  destruct (IH (if mem a acc then acc else acc ++ [a])) as [I1 I2]. split.
  - intros N. apply I1. destruct (mem a acc) eqn:E; [auto|]. apply mem_nIn in E.
    apply NoDup_app_intro; [auto|now repeat constructor|]. intros x J [<- | []]. auto.
  - intros x. rewrite I2. destruct (mem a acc) eqn:E.
    + apply mem_In in E. split; [tauto|]. intros [J|[<- | J]]; auto.
    + rewrite in_app_iff. cbn. tauto.
Qed.
Lemma fromkeys_NoDup : forall l, NoDup (fromkeys l).
Proof. intros. apply fromkeys_acc. constructor. Qed.
Lemma in_fromkeys : forall l x, In x (fromkeys l) <-> In x l.
Proof. intros. unfold fromkeys. rewrite (proj2 (fromkeys_acc l [])). cbn. tauto. Qed.

Lemma get_children_ok : forall g vs, incl vs (nodes g) ->
  exists l, get_children g vs = Ok l /\ NoDup l /\ forall y, In y l <-> exists v, In v vs /\ arc g v y.
Proof.
  intros g vs I. unfold get_children.
  assert (E : mapM (successors g) vs = Ok (map (succs g) vs)).
  { apply mapM_ok. induction vs as [|v vs IH]; constructor.
    - unfold successors. assert (mem v (nodes g) = true) as -> by (apply mem_In, I; now left). reflexivity.
    - apply IH. intros x J. apply I. now right. }
  rewrite E. cbn [bind]. eexists. split; [reflexivity|]. split; [apply fromkeys_NoDup|].
  intros y. rewrite in_fromkeys, in_concat. split.
  - intros (l & J & K). apply in_map_iff in J. destruct J as (v & <- & J). exists v. split; [auto|]. now apply in_succs.
  - intros (v & J & K). exists (succs g v). split; [now apply in_map|now apply in_succs].
Qed.
Lemma get_parents_ok : forall g vs, incl vs (nodes g) ->
  exists l, get_parents g vs = Ok l /\ NoDup l /\ forall y, In y l <-> exists v, In v vs /\ arc g y v.
Proof.
  intros g vs I. unfold get_parents.
  assert (E : mapM (predecessors g) vs = Ok (map (preds g) vs)).
  { apply mapM_ok. induction vs as [|v vs IH]; constructor.
    - unfold predecessors. assert (mem v (nodes g) = true) as -> by (apply mem_In, I; now left). reflexivity.
    - apply IH. intros x J. apply I. now right. }
  rewrite E. cbn [bind]. eexists. split; [reflexivity|]. split; [apply fromkeys_NoDup|].
  intros y. rewrite in_fromkeys, in_concat. split.
  - intros (l & J & K). apply in_map_iff in J. destruct J as (v & <- & J). exists v. split; [auto|]. now apply in_preds.
  - intros (v & J & K). exists (preds g v). split; [now apply in_map|now apply in_preds].
Qed.
Lemma mapM_raise : forall (A B : Type) (f : A -> res B) (e : err) l,
  (forall x, In x l -> (exists y, f x = Ok y) \/ f x = Raise e) -> (exists x, In x l /\ f x = Raise e) -> mapM f l = Raise e.
Proof.
  intros A B f e l. induction l as [|a l IH]; intros H (x & I & E); [destruct I|]. cbn.
  destruct (H a (or_introl eq_refl)) as [(y & Y)|Y].
  - rewrite Y. cbn. destruct I as [-> | I]; [congruence|]. rewrite IH; [reflexivity|intros z J; apply H; now right|eauto].
  - now rewrite Y.
Qed.
Lemma get_children_unknown : forall g vs v, In v vs -> ~ In v (nodes g) -> get_children g vs = Raise NetworkXError.
Proof.
  intros g vs v I N. unfold get_children. rewrite (mapM_raise _ _ (successors g) NetworkXError); [reflexivity| |].
  - intros x _. unfold successors. destruct (mem x (nodes g)); eauto.
  - exists v. split; [auto|]. unfold successors. apply mem_nIn in N. now rewrite N.
Qed.
Lemma get_parents_unknown : forall g vs v, In v vs -> ~ In v (nodes g) -> get_parents g vs = Raise NetworkXError.
Proof.
  intros g vs v I N. unfold get_parents. rewrite (mapM_raise _ _ (predecessors g) NetworkXError); [reflexivity| |].
  - intros x _. unfold predecessors. destruct (mem x (nodes g)); eauto.
  - exists v. split; [auto|]. unfold predecessors. apply mem_nIn in N. now rewrite N.
Qed.

Lemma markov_blanket_ok : forall g v, wf_graph g -> acyclic g -> In v (nodes g) ->
  exists l, markov_blanket g v = Ok l /\ NoDup l /\
    forall y, In y l <-> arc g v y \/ arc g y v \/ (y <> v /\ exists c, arc g v c /\ arc g y c).
Proof.
  intros g v W A I. unfold markov_blanket.
  destruct (get_children_ok g [v]) as (ch & EC & NC & HC); [intros x [<- | []]; auto|].
  destruct (get_parents_ok g [v]) as (pa & EP & NP & HP); [intros x [<- | []]; auto|].
  destruct (get_parents_ok g ch) as (pc & EQ & NQ & HQ).
  { intros x J. apply HC in J. destruct J as (u & _ & J). destruct W as (_ & _ & W). now apply W in J. }
  rewrite EC. cbn [bind]. rewrite EP. cbn [bind]. rewrite EQ. cbn [bind].
  eexists. split; [reflexivity|]. split; [apply fromkeys_NoDup|].
  assert (S1 : forall y, In y ch <-> arc g v y).
  { intros y. rewrite HC. split; [intros (u & [<- | []] & K); auto|intros K; exists v; split; [now left|auto]]. }
  assert (S2 : forall y, In y pa <-> arc g y v).
  { intros y. rewrite HP. split; [intros (u & [<- | []] & K); auto|intros K; exists v; split; [now left|auto]]. }
  intros y. rewrite in_fromkeys, !in_app_iff, filter_In, S1, S2, HQ. split.
  - intros [K|[K|[(c & K1 & K2) K]]]; [auto|auto|]. right. right. destruct (eqd y v); [discriminate|].
    split; [auto|]. exists c. now rewrite <- S1.
  - intros [K|[K|(N & c & K1 & K2)]]; [auto|auto|]. right. right. split; [exists c; now rewrite S1|].
    now destruct (eqd y v).
Qed.

(** ** Edge removal *)
Lemma remove_ingoing_ok : forall g vs, wf_graph g ->
  nodes (remove_ingoing_edges g vs) = nodes g /\ wf_graph (remove_ingoing_edges g vs) /\
  (forall x y, arc (remove_ingoing_edges g vs) x y <-> arc g x y /\ ~ In y vs).
Proof.
  intros g vs W. assert (A : forall x y, arc (remove_ingoing_edges g vs) x y <-> arc g x y /\ ~ In y vs).
  { intros x y. unfold arc at 1. cbn. rewrite filter_In, in_g_edges by auto. cbn. rewrite negb_true_iff, mem_nIn. tauto. }
  split; [reflexivity|]. split; [|exact A]. pose proof (g_edges_NoDup g W). destruct W as (N & NE & W).
  split; [exact N|]. split; [now apply NoDup_filter_|]. intros x y I. apply A in I. now apply W.
Qed.
Lemma remove_outgoing_ok : forall g vs, wf_graph g ->
  nodes (remove_outgoing_edges g vs) = nodes g /\ wf_graph (remove_outgoing_edges g vs) /\
  (forall x y, arc (remove_outgoing_edges g vs) x y <-> arc g x y /\ ~ In x vs).
Proof.
  intros g vs W. assert (A : forall x y, arc (remove_outgoing_edges g vs) x y <-> arc g x y /\ ~ In x vs).
  { intros x y. unfold arc at 1. cbn. rewrite filter_In, in_g_edges by auto. cbn. rewrite negb_true_iff, mem_nIn. tauto. }
  split; [reflexivity|]. split; [|exact A]. pose proof (g_edges_NoDup g W). destruct W as (N & NE & W).
  split; [exact N|]. split; [now apply NoDup_filter_|]. intros x y I. apply A in I. now apply W.
Qed.
Lemma remove_nodes_ok : forall g vs, wf_graph g ->
  wf_graph (remove_nodes g vs) /\ (forall v, In v (nodes (remove_nodes g vs)) <-> In v (nodes g) /\ ~ In v vs) /\
  (forall x y, arc (remove_nodes g vs) x y <-> arc g x y /\ ~ In x vs /\ ~ In y vs).
Proof.
  intros g vs W. assert (A : forall x y, arc (remove_nodes g vs) x y <-> arc g x y /\ ~ In x vs /\ ~ In y vs).
  { intros x y. unfold arc at 1. cbn. rewrite filter_In, in_g_edges by auto. cbn.
    rewrite andb_true_iff, !negb_true_iff, !mem_nIn. tauto. }
  assert (B : forall v, In v (nodes (remove_nodes g vs)) <-> In v (nodes g) /\ ~ In v vs).
  { intros v. cbn. rewrite filter_In, negb_true_iff, mem_nIn. tauto. }
  split; [|auto]. pose proof (g_edges_NoDup g W). destruct W as (N & NE & W).
  split; [now apply NoDup_filter_|]. split; [now apply NoDup_filter_|]. intros x y I. rewrite !B. apply A in I.
  destruct I as (I & J & K). apply W in I. tauto.
Qed.
