(** Properties C20, C22, C34, C35, C47, C49: graphs and true/false states.
    Statements use GraphSpec; proofs are in GraphFacts, GraphFacts2, GraphFacts3
    CaseFacts and PropFacts3. *)

From Coq Require Import String Ascii Bool Arith ZArith List.
From Verif Require Import PyBase DomainModel GraphModel GraphSpec GraphFacts GraphFacts2 GraphFacts3 GraphChecks PropFacts3 CaseSpec CaseFacts
  QModel AccessModel AccessFacts.
From Verif Require GradModel.
Import ListNotations.
Local Open Scope nat_scope.
Local Open Scope string_scope.

(** ** C20 *)
Theorem C20_barren_nodes : forall g S, wf_graph g -> acyclic g ->
  exists b, barren_nodes g S = Some b /\
    forall x, In x b <-> In x (nodes g) /\ ~ In x S /\ ~ (exists s, In s S /\ walk g x s).
Proof. exact barren_nodes_ok. Qed.
Print Assumptions C20_barren_nodes.

Theorem C20_barren_removal : forall g S, wf_graph g -> acyclic g ->
  exists h, barren_removal g S = Some h /\ wf_graph h /\
    (forall x, In x (nodes h) <-> In x (nodes g) /\ exists s, In s S /\ reach g x s) /\
    (forall x y, arc h x y <-> arc g x y /\ In x (nodes h) /\ In y (nodes h)).
Proof. exact barren_removal_ok. Qed.
Print Assumptions C20_barren_removal.

Example C20_case : wf_graph g_asia /\ acyclic g_asia /\
  barren_nodes g_asia ["L"] = Some ["X"; "D"; "B"] /\
  barren_removal g_asia ["L"] = Some (mkG ["S"; "L"] [("S", "L")]).
Proof.
  destruct (dagb_sound g_asia) as [W A]; [vm_compute; reflexivity|].
  split; [exact W|]. split; [exact A|]. split; vm_compute; reflexivity.
Qed.

(** ** C22 *)
(** What the round trip keeps: all arcs, and the nodes touching an arc. *)
Theorem C22_roundtrip : forall g, wf_graph g -> 2 <= length (nodes g) ->
  (forall v, In v (nodes g) -> delimiter_free v) ->
  exists h, str2dag (dag2str g) = Ok h /\ wf_graph h /\
    (forall x y, arc h x y <-> arc g x y) /\
    (forall v, In v (nodes h) <-> exists w, arc g v w \/ arc g w v).
Proof. exact str2dag_ok. Qed.
Print Assumptions C22_roundtrip.

Theorem C22_no_isolated : forall g, wf_graph g -> nodes g <> [] ->
  (forall v, In v (nodes g) -> delimiter_free v) ->
  (forall v, In v (nodes g) -> exists w, arc g v w \/ arc g w v) -> acyclic g ->
  exists h, str2dag (dag2str g) = Ok h /\ same_graph h g.
Proof. exact str2dag_same. Qed.
Print Assumptions C22_no_isolated.

(** The full statement fails: isolated nodes are lost ... *)
Theorem C22_isolated_refuted : forall g v, wf_graph g -> 2 <= length (nodes g) ->
  (forall w, In w (nodes g) -> delimiter_free w) ->
  In v (nodes g) -> (forall w, ~ arc g v w /\ ~ arc g w v) ->
  exists h, str2dag (dag2str g) = Ok h /\ ~ In v (nodes h).
Proof. exact str2dag_isolated. Qed.
Print Assumptions C22_isolated_refuted.
(** ... and a graph with at most one node is rejected. *)
Theorem C22_small_refuted : forall g, wf_graph g -> length (nodes g) <= 1 ->
  (forall v, In v (nodes g) -> delimiter_free v) ->
  str2dag (dag2str g) = Raise IndexError.
Proof. exact str2dag_small. Qed.
Print Assumptions C22_small_refuted.

Example C22_case : wf_graph g_asia /\ dag2str g_asia = "[S][L|S][B|S][X|L][D|L:B]" /\
  (forall v, In v (nodes g_asia) -> delimiter_free v) /\
  str2dag (dag2str g_asia) = Ok g_asia /\
  str2dag (dag2str (mkG ["A"; "B"; "C"] [("A", "B")])) = Ok (mkG ["A"; "B"] [("A", "B")]) /\
  str2dag (dag2str (mkG ["A"] [])) = Raise IndexError.
Proof.
  split; [apply graphb_sound; vm_compute; reflexivity|]. split; [vm_compute; reflexivity|].
  split; [apply delimiter_freeb_sound; vm_compute; reflexivity|]. split; [vm_compute; reflexivity|].
  split; vm_compute; reflexivity.
Qed.

(** ** C34 *)
Theorem C34_partition : forall g endo, wf_graph g ->
  exists cs, ccomponents g endo = Some cs /\
    (forall c, In c cs -> c <> [] /\ NoDup c) /\
    (forall i j c d x, nth_error cs i = Some c -> nth_error cs j = Some d -> i <> j -> In x c -> ~ In x d) /\
    (forall v, (exists c, In c cs /\ In v c) <-> touches_exo g endo v) /\
    (forall x y, touches_exo g endo x ->
       ((exists c, In c cs /\ In x c /\ In y c) <-> linked (exo_arc g endo) x y)).
Proof. exact ccomponents_ok. Qed.
Print Assumptions C34_partition.

Theorem C34_component_of : forall g endo v, wf_graph g ->
  (touches_exo g endo v ->
     exists c, get_ccomponent g endo v = Ok (Some c) /\ NoDup c /\ forall x, In x c <-> linked (exo_arc g endo) v x) /\
  (~ touches_exo g endo v -> get_ccomponent g endo v = Raise KeyError).
Proof. exact get_ccomponent_both. Qed.
Print Assumptions C34_component_of.

(** Each component splits into endogenous and exogenous variables. *)
Theorem C34_sides : forall g endo v, wf_graph g ->
  (touches_exo g endo v -> exists c d, get_endo_ccomponent g endo v = Ok c /\ get_exo_ccomponent g endo v = Ok d /\ NoDup c /\ NoDup d /\
     (forall x, In x c <-> linked (exo_arc g endo) v x /\ In x endo) /\ (forall x, In x d <-> linked (exo_arc g endo) v x /\ ~ In x endo)) /\
  (~ touches_exo g endo v -> get_endo_ccomponent g endo v = Raise KeyError /\ get_exo_ccomponent g endo v = Raise KeyError).
Proof. exact sides_ok. Qed.
Print Assumptions C34_sides.
Theorem C34_all_sides : forall g endo, wf_graph g -> exists cs ds es,
  ccomponents g endo = Some cs /\ endo_ccomponents g endo = Some ds /\ exo_ccomponents g endo = Some es /\
  Forall2 (fun c d => NoDup d /\ forall x, In x d <-> In x c /\ In x endo) cs ds /\
  Forall2 (fun c e => NoDup e /\ forall x, In x e <-> In x c /\ ~ In x endo) cs es.
Proof. exact component_sides. Qed.
Print Assumptions C34_all_sides.
Example C34_sides_case :
  get_endo_ccomponent g_cross endo_cross "y1" = Ok ["y1"; "y2"] /\ get_exo_ccomponent g_cross endo_cross "y1" = Ok ["U2"] /\
  endo_ccomponents g_cross endo_cross = Some [["x1"; "x2"]; ["y1"; "y2"]] /\ exo_ccomponents g_cross endo_cross = Some [["U1"]; ["U2"]].
Proof. repeat split; vm_compute; reflexivity. Qed.

Example C34_case : wf_graph g_cross /\
  ccomponents g_cross endo_cross = Some [["U1"; "x1"; "x2"]; ["U2"; "y1"; "y2"]] /\
  get_ccomponent g_cross endo_cross "y1" = Ok (Some ["y1"; "U2"; "y2"]) /\
  get_ccomponent g_asia ["S"; "L"; "B"; "X"; "D"] "X" = Raise KeyError.
Proof.
  split; [apply graphb_sound; vm_compute; reflexivity|]. split; [vm_compute; reflexivity|].
  split; vm_compute; reflexivity.
Qed.

(** ** C35 *)
(** The arcs of the Q-graph, for whatever topological order networkx returns. *)
Theorem C35_arcs : forall g endo order, wf_graph g -> acyclic g -> topological (endo_graph g endo) order ->
  exists q, get_qgraph g endo order = Ok q /\ wf_graph q /\
    (forall v, In v (nodes q) <-> In v (nodes g) /\ In v endo) /\
    (forall p x, arc q p x <->
       (arc g p x /\ In p endo /\ In x endo) \/
       (In p (nodes g) /\ In x (nodes g) /\ In p endo /\ In x endo /\ touches_exo g endo x /\
        ~ walk (endo_graph g endo) x p /\
        ((before order p x /\ linked (exo_arc g endo) x p) \/
         (~ linked (exo_arc g endo) x p /\ exists x', In x' endo /\ linked (exo_arc g endo) x x' /\ arc g p x')))).
Proof. exact get_qgraph_ok. Qed.
Print Assumptions C35_arcs.

(** It is acyclic when parents of a component's variables come before all
    variables of the component. *)
Theorem C35_acyclic : forall g endo order, wf_graph g -> acyclic g -> topological (endo_graph g endo) order ->
  (forall p x x', In p endo -> In x endo -> In x' endo -> touches_exo g endo x -> arc g p x' ->
     linked (exo_arc g endo) x x' -> ~ linked (exo_arc g endo) x p ->
     before order p x \/ walk (endo_graph g endo) x p) ->
  exists q, get_qgraph g endo order = Ok q /\ topological q order /\ acyclic q.
Proof. exact get_qgraph_acyclic. Qed.
Print Assumptions C35_acyclic.

(** Without that it need not be, whatever topological order is used. *)
Theorem C35_acyclic_refuted : exists g endo,
  wf_graph g /\ acyclic g /\ (forall x y, arc g x y -> In y endo) /\
  (exists order, topological (endo_graph g endo) order) /\
  forall order, topological (endo_graph g endo) order ->
    exists q, get_qgraph g endo order = Ok q /\ ~ acyclic q.
Proof. exact qgraph_cyclic. Qed.
Print Assumptions C35_acyclic_refuted.

Example C35_case : let g := graph_of [("U", "X"); ("U", "Y"); ("X", "Z"); ("Z", "Y"); ("W", "Z")] in
  let endo := ["X"; "Y"; "Z"] in
  wf_graph g /\ acyclic g /\ topological (endo_graph g endo) ["X"; "Z"; "Y"] /\
  get_qgraph g endo ["X"; "Z"; "Y"] = Ok (mkG ["X"; "Y"; "Z"] [("X", "Z"); ("Z", "Y"); ("X", "Y")]).
Proof.
  destruct (dagb_sound (graph_of [("U", "X"); ("U", "Y"); ("X", "Z"); ("Z", "Y"); ("W", "Z")])) as [W A]; [vm_compute; reflexivity|].
  cbv zeta. split; [exact W|]. split; [exact A|]. split; [apply topob_sound; vm_compute; reflexivity|vm_compute; reflexivity].
Qed.

(** ** C47 *)
Theorem C47_true_false : forall v dom, NoDup dom -> dom <> [] ->
  identify_true_false v dom = Raise ValueError \/
  exists t f, identify_true_false v dom = Ok (t, f) /\ t <> f /\ In t dom /\ In f dom /\
    ((t = SInt 1 /\ f = SInt 0) \/
     (exists a b i j, t = SStr a /\ f = SStr b /\ lower a = append (lower v) i /\ lower b = append (lower v) j /\
        suffix_rank i j)).
Proof. exact tf_total. Qed.
Print Assumptions C47_true_false.

(** The empty domain is an IndexError instead of a ValueError, and repeated
    states can be returned twice. *)
Theorem C47_edges_refuted : forall v,
  identify_true_false v [] = Raise IndexError /\
  (forall s, lower s = append (lower v) "1" ->
     identify_true_false v [SStr s; SStr s] = Ok (SStr s, SStr s)).
Proof. exact tf_edges. Qed.
Print Assumptions C47_edges_refuted.

(** Two states named after the variable are recognised in either order. *)
Theorem C47_names : forall v a b i j, lower a = append (lower v) i -> lower b = append (lower v) j ->
  suffix_rank i j -> i <> j ->
  identify_true_false v [SStr a; SStr b] = Ok (SStr a, SStr b) /\
  identify_true_false v [SStr b; SStr a] = Ok (SStr a, SStr b).
Proof. exact tf_strings. Qed.
Print Assumptions C47_names.

(** The comparison ignores case: capitals are read as their small letters and
    nothing else is changed. *)
Theorem C47_lower : forall s, String.length (lower s) = String.length s /\
  forall i c, get i s = Some c -> exists c', get i (lower s) = Some c' /\ lowers_to c c'.
Proof. exact lower_string. Qed.
Print Assumptions C47_lower.

Example C47_case_lower : lower "AZ_az@[09" = "az_az@[09" /\
  identify_true_false "A" [SStr "A0"; SStr "a1"] = Ok (SStr "a1", SStr "A0").
Proof. split; vm_compute; reflexivity. Qed.

Example C47_case :
  identify_true_false "X" [SInt 0; SInt 1] = Ok (SInt 1, SInt 0) /\
  identify_true_false "X" [SStr "x2"; SStr "x1"] = Ok (SStr "x1", SStr "x2") /\
  identify_true_false "X" [SStr "x2"; SStr "x0"] = Ok (SStr "x0", SStr "x2") /\
  identify_true_false "X" [SStr "no"; SStr "yes"] = Raise ValueError /\
  identify_true_false "X" [SBool true; SBool false] = Raise ValueError.
Proof. repeat split; vm_compute; reflexivity. Qed.

(** ** C49 *)
Theorem C49_children : forall g vs,
  (incl vs (nodes g) ->
     exists l, get_children g vs = Ok l /\ NoDup l /\ forall y, In y l <-> exists v, In v vs /\ arc g v y) /\
  (forall v, In v vs -> ~ In v (nodes g) -> get_children g vs = Raise NetworkXError).
Proof. exact get_children_both. Qed.
Print Assumptions C49_children.
Theorem C49_parents : forall g vs,
  (incl vs (nodes g) ->
     exists l, get_parents g vs = Ok l /\ NoDup l /\ forall y, In y l <-> exists v, In v vs /\ arc g y v) /\
  (forall v, In v vs -> ~ In v (nodes g) -> get_parents g vs = Raise NetworkXError).
Proof. exact get_parents_both. Qed.
Print Assumptions C49_parents.
Theorem C49_blanket : forall g v, wf_graph g -> acyclic g -> In v (nodes g) ->
  exists l, markov_blanket g v = Ok l /\ NoDup l /\
    forall y, In y l <-> arc g v y \/ arc g y v \/ (y <> v /\ exists c, arc g v c /\ arc g y c).
Proof. exact markov_blanket_ok. Qed.
Print Assumptions C49_blanket.

(** The endogenous and exogenous ones among the parents and children. *)
Theorem C49_relatives : forall g endo v, (In v (nodes g) -> exists p q c d,
    endo_parents g endo v = Ok p /\ exo_parents g endo v = Ok q /\ GradModel.endo_children g endo v = Ok c /\ exo_children g endo v = Ok d /\
    NoDup p /\ NoDup q /\ NoDup c /\ NoDup d /\
    (forall x, In x p <-> arc g x v /\ In x endo) /\ (forall x, In x q <-> arc g x v /\ ~ In x endo) /\
    (forall x, In x c <-> arc g v x /\ In x endo) /\ (forall x, In x d <-> arc g v x /\ ~ In x endo)) /\
  (~ In v (nodes g) -> endo_parents g endo v = Raise NetworkXError /\ exo_parents g endo v = Raise NetworkXError /\
     GradModel.endo_children g endo v = Raise NetworkXError /\ exo_children g endo v = Raise NetworkXError).
Proof. exact relatives_ok. Qed.
Print Assumptions C49_relatives.
Example C49_relatives_case : In "U1" (nodes g_cross) /\
  GradModel.endo_children g_cross endo_cross "U1" = Ok ["x1"; "x2"] /\ exo_children g_cross endo_cross "U1" = Ok [] /\
  exo_parents g_cross endo_cross "x1" = Ok ["U1"] /\ exo_parents g_cross endo_cross "Q" = Raise NetworkXError.
Proof. repeat split; vm_compute; auto. Qed.

Example C49_case :
  get_parents g_asia ["D"; "L"] = Ok ["L"; "B"; "S"] /\ get_children g_asia ["S"; "L"] = Ok ["L"; "B"; "X"; "D"] /\
  markov_blanket g_asia "L" = Ok ["X"; "D"; "S"; "B"] /\ get_parents g_asia ["Q"] = Raise NetworkXError.
Proof. repeat split; vm_compute; reflexivity. Qed.
