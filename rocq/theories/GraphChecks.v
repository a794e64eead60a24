(** Checkers and sample graphs for the examples about graphs. *)

From Coq Require Import String Ascii Bool Arith ZArith List.
From Verif Require Import PyBase PyFacts DomainModel GraphModel GraphSpec GraphFacts GraphFacts2 Checks.
Import ListNotations.
Local Open Scope nat_scope.
Local Open Scope string_scope.

Fixpoint nodupK {K} `{EqD K} (l : list K) : bool :=
  match l with [] => true | x :: r => negb (mem x r) && nodupK r end.
Lemma nodupK_sound {K} `{EqD K} (l : list K) : nodupK l = true -> NoDup l.
Proof.
  induction l as [|x r IH]; cbn; intros B; constructor; apply andb_true_iff in B as [B1 B2]; [|auto].
  apply negb_true_iff in B1. now apply mem_nIn in B1.
Qed.
Definition graphb (g : digraph) : bool :=
  nodupK (nodes g) && nodupK (edges g) &&
  forallb (fun e => mem (fst e) (nodes g) && mem (snd e) (nodes g)) (edges g).
Lemma graphb_sound : forall g, graphb g = true -> wf_graph g.
Proof.
  intros g B. unfold graphb in B. rewrite !andb_true_iff, forallb_forall in B. destruct B as [[B1 B2] B3].
  split; [now apply nodupK_sound|]. split; [now apply nodupK_sound|].
  intros x y I. specialize (B3 _ I). apply andb_true_iff in B3 as [A1 A2]. apply mem_In in A1. apply mem_In in A2. auto.
Qed.
Definition dagb (g : digraph) : bool := graphb g && match simple_cycles g with [] => true | _ => false end.
Lemma dagb_sound : forall g, dagb g = true -> wf_graph g /\ acyclic g.
Proof.
  intros g B. apply andb_true_iff in B as [B1 B2]. apply graphb_sound in B1. split; [auto|].
  apply simple_cycles_iff; [auto|]. now destruct (simple_cycles g).
Qed.
Definition arcb (g : digraph) (x y : var) : bool := mem (x, y) (edges g).
Lemma arcb_iff : forall g x y, arcb g x y = true <-> arc g x y.
Proof. intros. unfold arcb, arc. apply mem_In. Qed.

Fixpoint topo_go (g : digraph) (seen order : list var) : bool :=
  match order with
  | [] => true
  | y :: r => forallb (fun e => negb (if eqd (snd e) y then true else false) || mem (fst e) seen) (edges g) &&
              topo_go g (seen ++ [y]) r
  end.
Definition topob (g : digraph) (order : list var) : bool :=
  nodupK order && forallb (fun v => mem v (nodes g)) order && forallb (fun v => mem v order) (nodes g) &&
  topo_go g [] order.
Lemma topo_go_sound : forall g order seen x y l1 l2, topo_go g seen order = true -> order = (l1 ++ y :: l2)%list ->
  arc g x y -> In x (seen ++ l1)%list.
Proof.
  induction order as [|z r IH]; intros seen x y l1 l2 B E A; [destruct l1; discriminate|].
  cbn [topo_go] in B. apply andb_true_iff in B as [B1 B2]. destruct l1 as [|w l1]; cbn [app] in E; injection E as -> E.
  - rewrite forallb_forall in B1. specialize (B1 _ A). cbn [fst snd] in B1. destruct (eqd y y); [|congruence]. cbn in B1.
    rewrite app_nil_r. now apply mem_In.
  - specialize (IH _ _ _ _ _ B2 E A). now rewrite <- app_assoc in IH.
Qed.
Lemma topob_sound : forall g order, topob g order = true -> topological g order.
Proof.
  intros g order B. unfold topob in B. rewrite !andb_true_iff, !forallb_forall in B. destruct B as [[[B1 B2] B3] B4].
  split; [now apply nodupK_sound|]. split.
  - intros v. split; intros I; apply mem_In; auto.
  - intros x y l1 l2 E A. exact (topo_go_sound g order [] x y l1 l2 B4 E A).
Qed.

Definition no_walkb (g : digraph) (v w : var) : bool :=
  mem v (nodes g) && (if eqd v w then false else true) &&
  match descendants g v with Ok d => negb (mem w d) | Raise _ => false end.
Lemma no_walkb_sound : forall g v w, wf_graph g -> no_walkb g v w = true -> ~ walk g v w.
Proof.
  intros g v w W B K. unfold no_walkb in B. rewrite !andb_true_iff in B. destruct B as [[B1 B2] B3].
  apply mem_In in B1. destruct (descendants_ok g v W B1) as (d & E & P). rewrite E in B3. apply negb_true_iff in B3.
  apply mem_nIn in B3. apply B3. apply P. split; [|auto]. destruct (eqd v w); [discriminate|congruence].
Qed.
Lemma linked_component : forall g endo v w c, wf_graph g -> touches_exo g endo v -> get_ccomponent g endo v = Ok (Some c) ->
  (linked (exo_arc g endo) v w <-> mem w c = true).
Proof.
  intros g endo v w c W T E. destruct (get_ccomponent_ok g endo v W T) as (c' & E' & _ & P).
  rewrite E in E'. injection E' as <-. rewrite mem_In. symmetry. apply P.
Qed.

(** Smoking: S -> L, S -> B, L -> X, L -> D, B -> D. *)
Definition g_asia : digraph :=
  graph_of [("S", "L"); ("S", "B"); ("L", "X"); ("L", "D"); ("B", "D")].
(** Two confounders over interleaved chains. *)
Definition g_cross : digraph :=
  graph_of [("U1", "x1"); ("U1", "x2"); ("U2", "y1"); ("U2", "y2"); ("y1", "x2"); ("x1", "y2")].
Definition endo_cross : list var := ["x1"; "x2"; "y1"; "y2"].

Lemma cross_cycle : forall order, topological (endo_graph g_cross endo_cross) order ->
  exists q, get_qgraph g_cross endo_cross order = Ok q /\ arc q "x1" "y1" /\ arc q "y1" "x1".
Proof.
  intros order T. assert (B : dagb g_cross = true) by (vm_compute; reflexivity). apply dagb_sound in B as [W A].
  destruct (get_qgraph_ok g_cross endo_cross order W A T) as (q & E & Wq & N & R).
  exists q. split; [exact E|].
  assert (We : wf_graph (endo_graph g_cross endo_cross)) by (apply graphb_sound; vm_compute; reflexivity).
  assert (T1 : touches_exo g_cross endo_cross "x1").
  { exists "U1", "x1". split; [|now right]. split; [refine (proj1 (arcb_iff _ _ _) _); vm_compute; reflexivity|]. intros I. apply mem_In in I. vm_compute in I. discriminate. }
  assert (T2 : touches_exo g_cross endo_cross "y1").
  { exists "U2", "y1". split; [|now right]. split; [refine (proj1 (arcb_iff _ _ _) _); vm_compute; reflexivity|]. intros I. apply mem_In in I. vm_compute in I. discriminate. }
  assert (M : forall (v : var) l, mem v l = true -> In v l) by (intros v l; now apply mem_In).
  assert (N1 : ~ walk (endo_graph g_cross endo_cross) "x1" "y1").
  { apply no_walkb_sound; [exact We|vm_compute; reflexivity]. }
  assert (N2 : ~ walk (endo_graph g_cross endo_cross) "y1" "x1").
  { apply no_walkb_sound; [exact We|vm_compute; reflexivity]. }
  assert (G1 : get_ccomponent g_cross endo_cross "x1" = Ok (Some ["x1"; "U1"; "x2"])) by (vm_compute; reflexivity).
  assert (G2 : get_ccomponent g_cross endo_cross "y1" = Ok (Some ["y1"; "U2"; "y2"])) by (vm_compute; reflexivity).
  pose proof (fun w => linked_component _ _ _ w _ W T1 G1) as L1.
  pose proof (fun w => linked_component _ _ _ w _ W T2 G2) as L2.
  assert (I1 : In "x1" endo_cross) by (apply M; vm_compute; reflexivity).
  assert (I2 : In "y1" endo_cross) by (apply M; vm_compute; reflexivity).
  assert (J1 : In "x1" (nodes g_cross)) by (apply M; vm_compute; reflexivity).
  assert (J2 : In "y1" (nodes g_cross)) by (apply M; vm_compute; reflexivity).
  assert (K1 : arc g_cross "y1" "x2") by (refine (proj1 (arcb_iff _ _ _) _); vm_compute; reflexivity).
  assert (K2 : arc g_cross "x1" "y2") by (refine (proj1 (arcb_iff _ _ _) _); vm_compute; reflexivity).
  assert (P1 : ~ linked (exo_arc g_cross endo_cross) "x1" "y1").
  { intros L. apply L1 in L. vm_compute in L. discriminate. }
  assert (P2 : ~ linked (exo_arc g_cross endo_cross) "y1" "x1").
  { intros L. apply L2 in L. vm_compute in L. discriminate. }
  assert (Q1 : linked (exo_arc g_cross endo_cross) "x1" "x2") by (apply L1; vm_compute; reflexivity).
  assert (Q2 : linked (exo_arc g_cross endo_cross) "y1" "y2") by (apply L2; vm_compute; reflexivity).
  assert (I3 : In "x2" endo_cross) by (apply M; vm_compute; reflexivity).
  assert (I4 : In "y2" endo_cross) by (apply M; vm_compute; reflexivity).
  split; apply R; right.
  - split; [exact J1|]. split; [exact J2|]. split; [exact I1|]. split; [exact I2|]. split; [exact T2|]. split; [exact N2|].
    right. split; [exact P2|]. exists "y2". split; [exact I4|]. split; [exact Q2|exact K2].
  - split; [exact J2|]. split; [exact J1|]. split; [exact I2|]. split; [exact I1|]. split; [exact T1|]. split; [exact N1|].
    right. split; [exact P1|]. exists "x2". split; [exact I3|]. split; [exact Q1|exact K1].
Qed.
