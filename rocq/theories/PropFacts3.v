(** Property statements about graphs, put together from the graph facts. *)

From Coq Require Import String Ascii Bool Arith ZArith List Lia.
From Verif Require Import PyBase PyFacts DomainModel GraphModel GraphSpec GraphFacts GraphFacts2 GraphFacts3 GraphChecks.
From Coq Require Import List.
Import ListNotations.
Local Open Scope nat_scope.
Local Open Scope string_scope.
Local Arguments eqd : simpl never.

Lemma barren_nodes_ok : forall g S, wf_graph g -> acyclic g ->
  exists b, barren_nodes g S = Some b /\
    forall x, In x b <-> In x (nodes g) /\ ~ In x S /\ ~ (exists s, In s S /\ walk g x s).
Proof.
  intros g S W A. destruct (barren_ok g S W A) as (b & E & P). exists b. unfold barren_nodes. rewrite E.
  split; [reflexivity|]. intros x. rewrite P. split.
  - intros [I N]. split; [auto|]. split; [intros J; apply N; exists x; split; [auto|now left]|].
    intros (s & J & K). apply N. exists s. split; [auto|now right].
  - intros (I & N1 & N2). split; [auto|]. intros (s & J & [<- | K]); [auto|]. apply N2. eauto.
Qed.

Lemma in_dec_set : forall (x : var) l, {In x l} + {~ In x l}.
Proof. intros. apply in_dec. apply string_dec. Qed.

Lemma Exists_decP : forall (A : Type) (P : A -> Prop), (forall x, P x \/ ~ P x) -> forall l, Exists P l \/ ~ Exists P l.
Proof.
  intros A P H. induction l as [|x l IH]; [right; intros X; inversion X|].
  destruct (H x) as [K|K]; [left; now apply Exists_cons_hd|]. destruct IH as [J|J]; [left; now apply Exists_cons_tl|].
  right. intros X. inversion X; auto.
Qed.

Lemma barren_removal_ok : forall g S, wf_graph g -> acyclic g ->
  exists h, barren_removal g S = Some h /\ wf_graph h /\
    (forall x, In x (nodes h) <-> In x (nodes g) /\ exists s, In s S /\ reach g x s) /\
    (forall x y, arc h x y <-> arc g x y /\ In x (nodes h) /\ In y (nodes h)).
Proof.
  intros g S W A. destruct (barren_ok g S W A) as (b & E & P). exists (without g b). unfold barren_removal. rewrite E.
  split; [reflexivity|]. split; [now apply subgraph_wf|]. split.
  - intros x. rewrite without_nodes by auto. split.
    + intros [I N]. split; [auto|]. destruct (in_dec_set x b) as [J|_]; [tauto|].
      (* decidability of reaching S *)
      destruct (Exists_decP _ (fun s => reach g x s)) with (l := S) as [X|X].
      { intros s. destruct (string_dec x s) as [-> | D]; [left; now left|].
        destruct (descendants_ok g x W I) as (d & _ & D2). destruct (in_dec_set s d) as [K|K].
        - left. right. now apply D2.
        - right. intros [-> | Z]; [auto|]. apply K. apply D2. split; auto. }
      * apply Exists_exists in X. auto.
      * exfalso. apply N. apply P. split; [auto|]. intros (s & J & K). apply X. apply Exists_exists. eauto.
    + intros [I R]. split; [auto|]. intros J. apply P in J. tauto.
  - intros x y. rewrite without_arc by auto. rewrite !without_nodes by auto. split.
    + intros (K & N1 & N2). split; [auto|]. destruct W as (_ & _ & W3). destruct (W3 _ _ K). tauto.
    + tauto.
Qed.

Lemma str2dag_same : forall g, wf_graph g -> nodes g <> [] ->
  (forall v, In v (nodes g) -> delimiter_free v) ->
  (forall v, In v (nodes g) -> exists w, arc g v w \/ arc g w v) -> acyclic g ->
  exists h, str2dag (dag2str g) = Ok h /\ same_graph h g.
Proof.
  intros g W N F I A.
  assert (L : 2 <= length (nodes g)).
  { destruct (nodes g) as [|x [|y r]] eqn:E; [congruence| |cbn; lia]. exfalso.
    destruct (I x) as (w & K); [now left|]. destruct W as (_ & _ & W3).
    assert (w = x). { destruct K as [K|K]; apply W3 in K; rewrite E in K; cbn in K; destruct K as [[K1|[]] [K2|[]]]; congruence. }
    subst. apply (A x). destruct K; now apply walk_one. }
  destruct (str2dag_ok g W L F) as (h & E & Wh & H1 & H2). exists h. split; [auto|]. split; [|auto].
  intros v. rewrite H2. split; [|auto]. intros (w & K). destruct W as (_ & _ & W3). destruct K as [K|K]; apply W3 in K; tauto.
Qed.

Lemma str2dag_isolated : forall g v, wf_graph g -> 2 <= length (nodes g) ->
  (forall w, In w (nodes g) -> delimiter_free w) ->
  In v (nodes g) -> (forall w, ~ arc g v w /\ ~ arc g w v) ->
  exists h, str2dag (dag2str g) = Ok h /\ ~ In v (nodes h).
Proof.
  intros g v W L F I N. destruct (str2dag_ok g W L F) as (h & E & Wh & H1 & H2). exists h. split; [auto|].
  intros J. apply H2 in J. destruct J as (w & K). destruct (N w). tauto.
Qed.

Definition delimiter_freeb (s : string) : bool :=
  forallb (fun c => negb (existsb (Ascii.eqb c) ["["%char; "]"%char; "|"%char; ":"%char])) (list_ascii_of_string s).
Lemma delimiter_freeb_sound : forall l, forallb delimiter_freeb l = true -> forall v, In v l -> delimiter_free v.
Proof.
  intros l B v I c J. rewrite forallb_forall in B. specialize (B _ I). unfold delimiter_freeb in B.
  rewrite forallb_forall in B. specialize (B _ J). cbn [existsb] in B. apply negb_true_iff in B. rewrite !orb_false_iff in B.
  destruct B as (B1 & B2 & B3 & B4 & _). apply Ascii.eqb_neq in B1, B2, B3, B4. auto.
Qed.

Lemma get_ccomponent_both : forall g endo v, wf_graph g ->
  (touches_exo g endo v ->
     exists c, get_ccomponent g endo v = Ok (Some c) /\ NoDup c /\ forall x, In x c <-> linked (exo_arc g endo) v x) /\
  (~ touches_exo g endo v -> get_ccomponent g endo v = Raise KeyError).
Proof. intros g endo v W. split; [apply get_ccomponent_ok; auto|apply get_ccomponent_other; auto]. Qed.

Lemma get_children_both : forall g vs,
  (incl vs (nodes g) ->
     exists l, get_children g vs = Ok l /\ NoDup l /\ forall y, In y l <-> exists v, In v vs /\ arc g v y) /\
  (forall v, In v vs -> ~ In v (nodes g) -> get_children g vs = Raise NetworkXError).
Proof. intros g vs. split; [apply get_children_ok|apply get_children_unknown]. Qed.
Lemma get_parents_both : forall g vs,
  (incl vs (nodes g) ->
     exists l, get_parents g vs = Ok l /\ NoDup l /\ forall y, In y l <-> exists v, In v vs /\ arc g y v) /\
  (forall v, In v vs -> ~ In v (nodes g) -> get_parents g vs = Raise NetworkXError).
Proof. intros g vs. split; [apply get_parents_ok|apply get_parents_unknown]. Qed.

Lemma qgraph_cyclic : exists g endo,
  wf_graph g /\ acyclic g /\ (forall x y, arc g x y -> In y endo) /\
  (exists order, topological (endo_graph g endo) order) /\
  forall order, topological (endo_graph g endo) order ->
    exists q, get_qgraph g endo order = Ok q /\ ~ acyclic q.
Proof.
  exists g_cross, endo_cross. assert (B : dagb g_cross = true) by (vm_compute; reflexivity). apply dagb_sound in B as [W A].
  split; [exact W|]. split; [exact A|]. split.
  { intros x y K.
    assert (F : forallb (fun e => mem (snd e) endo_cross) (edges g_cross) = true) by (vm_compute; reflexivity).
    rewrite forallb_forall in F. specialize (F _ K). apply mem_In in F. exact F. }
  split.
  { exists ["x1"; "y1"; "x2"; "y2"]. apply topob_sound. vm_compute. reflexivity. }
  intros order T. destruct (cross_cycle order T) as (q & E & A1 & A2). exists q. split; [exact E|].
  intros N. apply (N "x1"). eapply walk_step; [exact A1|]. now apply walk_one.
Qed.

Lemma tf_total : forall v dom, NoDup dom -> dom <> [] ->
  identify_true_false v dom = Raise ValueError \/
  exists t f, identify_true_false v dom = Ok (t, f) /\ t <> f /\ In t dom /\ In f dom /\
    ((t = SInt 1 /\ f = SInt 0) \/
     (exists a b i j, t = SStr a /\ f = SStr b /\ lower a = append (lower v) i /\ lower b = append (lower v) j /\
        suffix_rank i j)).
Proof.
  intros v dom N D. destruct (identify_true_false v dom) as [[t f]|e] eqn:E.
  - right. exists t, f. split; [auto|]. now apply tf_cases.
  - left. now rewrite (tf_raises v dom e E D).
Qed.

Lemma tf_edges : forall v,
  identify_true_false v [] = Raise IndexError /\
  (forall s, lower s = append (lower v) "1" ->
     identify_true_false v [SStr s; SStr s] = Ok (SStr s, SStr s)).
Proof.
  intros v. split; [reflexivity|]. intros s L. unfold identify_true_false.
  assert (D : forall c, "1" <> c -> String.eqb (append (lower v) "1") (append (lower v) c) = false).
  { intros c N. apply String.eqb_neq. intros X. apply append_inj in X. auto. }
  cbn. rewrite L, String.eqb_refl, (D "0"), (D "2") by discriminate.
  destruct (eqd TStr TStr) as [_|N]; [reflexivity|congruence].
Qed.
