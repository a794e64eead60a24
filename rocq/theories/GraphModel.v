(** Model of the directed graphs (networkx DiGraph, as used by the code), of
    bcause/util/graphutils.py and of the graph queries of the model classes
    (bcause/models/pgmodel.py, bcause/models/cmodel.py, bcause/models/info.py).

    Node names are strings.  The order in which networkx iterates nodes and
    edges is the insertion order here, also for subgraph views (where networkx
    may follow the order of a set): no statement depends on it. *)

From Coq Require Import String Ascii Bool Arith ZArith List.
From Verif Require Import PyBase.
Import ListNotations.

(** ** networkx DiGraph *)

(** Nodes and arcs in insertion order. (pgmodel.py:23-31, graphutils.py:31) *)
Record digraph := mkG { nodes : list var; edges : list (var * var) }.

(** combination.py:17 [add_node] *)
Definition add_node (g : digraph) (v : var) : digraph :=
  if mem v (nodes g) then g else mkG (nodes g ++ [v]) (edges g).
(** networkx add_edge (combination.py:20, info.py:41) *)
Definition add_edge (g : digraph) (e : var * var) : digraph :=
  let g' := add_node (add_node g (fst e)) (snd e) in
  if mem e (edges g') then g' else mkG (nodes g') (edges g' ++ [e]).
(** nx.DiGraph(arcs) (graphutils.py:31, cmodel.py:78) *)
Definition graph_of (arcs : list (var * var)) : digraph := fold_left add_edge arcs (mkG [] []).

(** graphutils.py:38, pgmodel.py:155-156 [succs] *)
Definition succs (g : digraph) (v : var) : list var :=
  map snd (filter (fun e => if eqd (fst e) v then true else false) (edges g)).
(** graphutils.py:13, pgmodel.py:158-159 [preds] *)
Definition preds (g : digraph) (v : var) : list var :=
  map fst (filter (fun e => if eqd (snd e) v then true else false) (edges g)).
(** dag.successors(v), dag.predecessors(v): unknown nodes raise NetworkXError (pgmodel.py:155-156) *)
Definition successors (g : digraph) (v : var) : res (list var) :=
  if mem v (nodes g) then Ok (succs g v) else Raise NetworkXError.
(** pgmodel.py:158-159, graphutils.py:92 [predecessors] *)
Definition predecessors (g : digraph) (v : var) : res (list var) :=
  if mem v (nodes g) then Ok (preds g v) else Raise NetworkXError.

(** dag.edges: node by node (graphutils.py:71, 78) *)
Definition g_edges (g : digraph) : list (var * var) :=
  flat_map (fun u => map (fun w => (u, w)) (succs g u)) (nodes g).
(** graphutils.py:72, 79, 85 [g_copy] *)
Definition g_copy (g : digraph) : digraph := mkG (nodes g) (g_edges g).
(** dag.subgraph(ns): the induced subgraph (graphutils.py:41, cmodel.py:69) *)
Definition subgraph (g : digraph) (ns : list var) : digraph :=
  mkG (filter (fun v => mem v ns) (nodes g)) (filter (fun e => mem (fst e) ns && mem (snd e) ns) (edges g)).

(** ** graphutils.py *)

(** graphutils.py:70-74 [remove_outgoing_edges] *)
Definition remove_outgoing_edges (g : digraph) (vs : list var) : digraph :=
  mkG (nodes g) (filter (fun e => negb (mem (fst e) vs)) (g_edges g)).
(** graphutils.py:77-81 [remove_ingoing_edges] *)
Definition remove_ingoing_edges (g : digraph) (vs : list var) : digraph :=
  mkG (nodes g) (filter (fun e => negb (mem (snd e) vs)) (g_edges g)).
(** graphutils.py:84-87 [remove_nodes] *)
Definition remove_nodes (g : digraph) (vs : list var) : digraph :=
  mkG (filter (fun v => negb (mem v vs)) (nodes g))
      (filter (fun e => negb (mem (fst e) vs) && negb (mem (snd e) vs)) (g_edges g)).
(** graphutils.py:91-92 [relevat_vars] *)
Definition relevat_vars (g : digraph) (v : var) : res (list var) :=
  let* p := predecessors g v in Ok (p ++ [v]).

(** graphutils.py:34-46 [_barren_info]; [None] stands for an endless loop
    (excluded: every round removes a node). *)
Fixpoint barren_loop (fuel : nat) (g : digraph) (S barren : list var) : option (digraph * list var) :=
  match fuel with
  | 0 => None
  | Datatypes.S fuel' =>
      match filter (fun x => (length (succs g x) =? 0) && negb (mem x S)) (nodes g) with
      | [] => Some (g, barren)
      | new => let barren' := barren ++ new in
               barren_loop fuel' (subgraph g (filter (fun x => negb (mem x barren')) (nodes g))) S barren'
      end
  end.
(** graphutils.py:34-46 [barren_info] *)
Definition barren_info (g : digraph) (S : list var) : option (digraph * list var) :=
  barren_loop (length (nodes g) + 1) g S [].
(** graphutils.py:49-54 [barren_removal], [barren_nodes] *)
Definition barren_removal (g : digraph) (S : list var) : option digraph :=
  match barren_info g S with Some (g', _) => Some g' | None => None end.
(** graphutils.py:53-54 [barren_nodes] *)
Definition barren_nodes (g : digraph) (S : list var) : option (list var) :=
  match barren_info g S with Some (_, b) => Some b | None => None end.

(** ** Cycles *)

(** nx.simple_cycles(dag): the elementary cycles.  networkx lists each cycle
    once, here it is listed once per start node; the code only asks whether
    there is one (pgmodel.py:120). *)
Fixpoint cycles_from (fuel : nat) (g : digraph) (start cur : var) (seen : list var) : list (list var) :=
  match fuel with
  | 0 => []
  | S fuel' =>
      flat_map (fun w => if eqd w start then [rev seen]
                         else if mem w seen then []
                         else cycles_from fuel' g start w (w :: seen)) (succs g cur)
  end.
(** pgmodel.py:120 [simple_cycles] *)
Definition simple_cycles (g : digraph) : list (list var) :=
  flat_map (fun v => cycles_from (length (nodes g)) g v v [v]) (nodes g).

(** ** String notation *)

(** graphutils.py:10-31, strings as lists of characters [chars] *)
Definition chars := list_ascii_of_string.
(** graphutils.py:10-31, lists of characters as strings [str] *)
Definition str := string_of_list_ascii.

(** graphutils.py:24-28, the separator at a position of str.split [starts_with] *)
Fixpoint starts_with (p s : list ascii) : bool :=
  match p, s with
  | [], _ => true
  | a :: p', b :: s' => Ascii.eqb a b && starts_with p' s'
  | _, [] => false
  end.
(** str.split(sep) for a non-empty separator: scan from the left; [skip]
    characters of a separator remain to be dropped; [cur] is the current piece
    reversed. (graphutils.py:24-28) *)
Fixpoint split_go (sep s cur : list ascii) (skip : nat) : list (list ascii) :=
  match s with
  | [] => [rev cur]
  | c :: r =>
      match skip with
      | S k => split_go sep r cur k
      | 0 => if starts_with sep s then rev cur :: split_go sep r [] (length sep - 1)
             else split_go sep r (c :: cur) 0
      end
  end.
(** graphutils.py:24-28 [split] *)
Definition split (sep s : list ascii) : list (list ascii) := split_go sep s [] 0.
(** sep.join(l) *)
(** graphutils.py:17 [join_str] *)
Fixpoint join_str (sep : list ascii) (l : list (list ascii)) : list ascii :=
  match l with
  | [] => []
  | [x] => x
  | x :: r => x ++ sep ++ join_str sep r
  end.

(** graphutils.py:14-18: one node with its parents *)
Definition node_str (g : digraph) (v : var) : list ascii :=
  let parents := preds g v in
  ["["%char] ++ chars v ++
  (match parents with [] => [] | _ => ["|"%char] ++ join_str [":"%char] (map chars parents) end) ++ ["]"%char].
(** graphutils.py:10-19 [dag2str] (also pgmodel.py:169-178 [get_dag_str]) *)
Definition dag2str (g : digraph) : string := str (flat_map (node_str g) (nodes g)).

(** s[1:-1] (graphutils.py:24-25) *)
Definition strip_ends (s : list ascii) : list ascii := removelast (tl s).

(** graphutils.py:25-29: the arcs of one piece; unpacking the split at "|"
    needs exactly two parts (ValueError otherwise). *)
Definition piece_arcs (s : list ascii) : res (list (var * var)) :=
  if existsb (fun c => Ascii.eqb c "|"%char) s then
    match split ["|"%char] s with
    | [x; right_vars] => Ok (map (fun y => (str y, str x)) (split [":"%char] right_vars))
    | _ => Raise ValueError
    end
  else Ok [].
(** graphutils.py:22-31 [str2dag]; line 24 takes element 1 of the pieces *)
Definition str2dag (s : string) : res digraph :=
  let pieces := split ["]"%char; "["%char] (strip_ends (chars s)) in
  let* _ := py_nth pieces 1 in
  let* arcs := mapM piece_arcs pieces in
  Ok (graph_of (concat arcs)).

(** ** Queries of the model classes *)

(** list(dict.fromkeys(l)) (pgmodel.py:156-159) *)
Definition fromkeys (l : list var) : list var :=
  fold_left (fun acc x => if mem x acc then acc else acc ++ [x]) l [].

(** pgmodel.py:155-159 [get_children], [get_parents] *)
Definition get_children (g : digraph) (vs : list var) : res (list var) :=
  let* ls := mapM (successors g) vs in Ok (fromkeys (concat ls)).
(** pgmodel.py:158-159 [get_parents] *)
Definition get_parents (g : digraph) (vs : list var) : res (list var) :=
  let* ls := mapM (predecessors g) vs in Ok (fromkeys (concat ls)).

(** pgmodel.py:161-167 [markov_blanket] (also graphutils.py:106-110 without
    hidden variables) *)
Definition markov_blanket (g : digraph) (v : var) : res (list var) :=
  let* ch := get_children g [v] in
  let* pa := get_parents g [v] in
  let* pa_ch := get_parents g ch in
  Ok (fromkeys (ch ++ pa ++ filter (fun x => if eqd x v then false else true) pa_ch)).

(** ** Causal graphs *)

(** cmodel.py:40-45 [exogenous] *)
Definition exogenous (g : digraph) (endo : list var) : list var := filter (fun v => negb (mem v endo)) (nodes g).

(** cmodel.py:63-69 [endo_graph] *)
Definition endo_graph (g : digraph) (endo : list var) : digraph := subgraph g endo.
(** cmodel.py:71-78 [exo_graph] *)
Definition exo_graph (g : digraph) (endo : list var) : digraph :=
  graph_of (filter (fun e => negb (mem (fst e) endo)) (g_edges g)).

(** neighbours in the undirected version (cmodel.py:86) *)
Definition neighbours (g : digraph) (v : var) : list var := fromkeys (succs g v ++ preds g v).

(** networkx [_plain_bfs] on the undirected graph (cmodel.py:86) *)
Fixpoint bfs (fuel : nat) (g : digraph) (seen level : list var) : option (list var) :=
  match fuel with
  | 0 => None
  | S fuel' =>
      match level with
      | [] => Some seen
      | _ =>
          let next := filter (fun w => negb (mem w seen)) (fromkeys (flat_map (neighbours g) level)) in
          bfs fuel' g (seen ++ next) next
      end
  end.
(** cmodel.py:86, info.py:17 [component] *)
Definition component (g : digraph) (v : var) : option (list var) := bfs (length (nodes g) + 2) g [v] [v].

(** nx.connected_components (cmodel.py:86) *)
Fixpoint components_go (g : digraph) (vs seen : list var) : option (list (list var)) :=
  match vs with
  | [] => Some []
  | v :: r =>
      if mem v seen then components_go g r seen
      else match component g v with
           | None => None
           | Some c => match components_go g r (seen ++ c) with
                       | None => None
                       | Some cs => Some (c :: cs)
                       end
           end
  end.
(** cmodel.py:86 [connected_components] *)
Definition connected_components (g : digraph) : option (list (list var)) := components_go g (nodes g) [].

(** cmodel.py:80-86 [ccomponents] *)
Definition ccomponents (g : digraph) (endo : list var) : option (list (list var)) :=
  connected_components (exo_graph g endo).
(** cmodel.py:88-102 [exo_ccomponents], [endo_ccomponents] *)
Definition exo_ccomponents (g : digraph) (endo : list var) : option (list (list var)) :=
  match ccomponents g endo with
  | Some cs => Some (map (filter (fun v => mem v (exogenous g endo))) cs)
  | None => None
  end.
(** cmodel.py:96-102 [endo_ccomponents] *)
Definition endo_ccomponents (g : digraph) (endo : list var) : option (list (list var)) :=
  match ccomponents g endo with
  | Some cs => Some (map (filter (fun v => mem v endo)) cs)
  | None => None
  end.
(** info.py:16-17 [get_ccomponent]: nx.node_connected_component raises KeyError
    for a node that is not in the graph *)
Definition get_ccomponent (g : digraph) (endo : list var) (v : var) : res (option (list var)) :=
  let h := exo_graph g endo in
  if mem v (nodes h) then Ok (component h v) else Raise KeyError.

(** nx.descendants: nodes reachable by at least one arc (the start node is
    excluded; it raises for unknown nodes) (info.py:40) *)
Fixpoint reach_loop (fuel : nat) (g : digraph) (seen level : list var) : list var :=
  match fuel with
  | 0 => seen
  | S fuel' =>
      let next := filter (fun w => negb (mem w seen)) (fromkeys (flat_map (succs g) level)) in
      match next with
      | [] => seen
      | _ => reach_loop fuel' g (seen ++ next) next
      end
  end.
(** info.py:40 [descendants] *)
Definition descendants (g : digraph) (v : var) : res (list var) :=
  if mem v (nodes g)
  then Ok (filter (fun w => if eqd w v then false else true) (reach_loop (length (nodes g) + 1) g [v] [v]))
  else Raise NetworkXError.

(** cmodel.py:53-54 [get_edogenous_parents] *)
Definition endo_parents (g : digraph) (endo : list var) (v : var) : res (list var) :=
  let* p := get_parents g [v] in Ok (filter (fun x => mem x endo) p).

(** info.py:28-43 [get_qgraph]; [order] is the result of topological_sort *)
Definition qgraph_comp (g : digraph) (endo : list var) (order : list var) (q : digraph) (c : list var) : res digraph :=
  let comp := filter (fun v => mem v c) order in
  let* ps := mapM (endo_parents g endo) comp in
  let pa_c := filter (fun v => negb (mem v comp)) (fromkeys (concat ps)) in
  foldM (fun q ix =>
           let x := snd ix in
           foldM (fun q p => let* d := descendants (endo_graph g endo) x in
                             Ok (if mem p d then q else add_edge q (p, x)))
                 (pa_c ++ firstn (fst ix) comp) q)
        (combine (seq 0 (length comp)) comp) q.
(** info.py:28-43 [get_qgraph] *)
Definition get_qgraph (g : digraph) (endo : list var) (order : list var) : res digraph :=
  match endo_ccomponents g endo with
  | None => Raise Unmodelled
  | Some cs => foldM (qgraph_comp g endo order) cs (g_copy (endo_graph g endo))
  end.
