(** Model of bcause/conversion/pgmpy.py: factors and networks to pgmpy and back.

    pgmpy is not part of the repository; the parts of it that are called
    (TabularCPD, DiscreteFactor.get_value, BayesianNetwork, of version 0.1.17,
    /repo/setup.py:36) are transcribed below from its published source. *)

From Coq Require Import String Bool Arith ZArith List.
From Verif Require Import PyBase Num DomainModel NdArray StoreModel NumStore FactorModel GraphModel ModelModel.
Import ListNotations.
Local Open Scope nat_scope.

(** A pgmpy TabularCPD: `variable`, `variables` (the variable, then its
    evidence), `values` (one axis per variable) and `state_names`. (conversion/pgmpy.py:25-48) *)
Record tabcpd := MkTab { tb_variable : var; tb_variables : list var; tb_values : nd num; tb_states : domain }.

(** `len(set(l)) == len(l)` (conversion/pgmpy.py:25-48, inside pgmpy) *)
Definition distinct {K} `{EqD K} (l : list K) : bool := length (nodup eqd l) =? length l.

(** pgmpy TabularCPD.__init__(variable, variable_card, values, evidence,
    evidence_card, state_names), with DiscreteFactor.__init__ and
    store_state_names.  The types of the scalar arguments are given by typing;
    no evidence is the empty list (the product of no cardinalities is 1, the
    width then required). (conversion/pgmpy.py:25-48) *)
Definition tab_init (v : var) (c : nat) (values : nd num) (evidence : list var) (ecard : list nat) (names : domain)
  : res tabcpd :=
  if negb (length ecard =? length evidence) then Raise ValueError
  else if negb (length (shape values) =? 2) then Raise TypeError
  else if negb (if eqd (shape values) [c; prodl ecard] then true else false) then Raise ValueError
  else if negb (distinct (v :: evidence)) then Raise ValueError
  else
    let* a := np_reshape values (c :: ecard) in
    if negb (forallb (fun l => distinct (snd l)) names) then Raise ValueError
    else Ok (MkTab v (v :: evidence) a names).

(** How get_value turns a state into an index of its axis.  In pgmpy 0.1.17 a
    string is looked up among the names, and anything else is used as the index
    itself (a negative one counts from the end; indexing an array by a bool
    selects differently and is not modelled). (conversion/pgmpy.py:21) *)
Definition index_as_is (l : list state) (s : state) : res nat :=
  match s with
  | SInt z => if (0 <=? z)%Z then Ok (Z.to_nat z)
              else if (0 <=? Z.of_nat (length l) + z)%Z then Ok (Z.to_nat (Z.of_nat (length l) + z))
              else Raise IndexError
  | SBool _ => Raise Unmodelled
  | SStr _ => Raise IndexError
  end.
(** conversion/pgmpy.py:21 [index_by_type] *)
Definition index_by_type (l : list state) (s : state) : res nat :=
  match s with
  | SStr _ => match index_of s l with Some i => Ok i | None => Raise KeyError end
  | _ => index_as_is l s
  end.
(** Later releases (setup.py accepts any 0.1 version from 0.1.17) look every
    state up among the names and fall back to using it as the index. (conversion/pgmpy.py:21) *)
Definition index_by_name (l : list state) (s : state) : res nat :=
  match index_of s l with Some i => Ok i | None => index_as_is l s end.

Section Pgmpy.
  (** The rule in use. *)
  Variable state_index : list state -> state -> res nat.

  (** pgmpy DiscreteFactor.get_value( **o ).  (A variable named "self" cannot be
      passed as a keyword; this is not modelled.) (conversion/pgmpy.py:21) *)
  Definition tab_get (t : tabcpd) (o : obs) : res num :=
    if negb (forallb (fun v => mem v (tb_variables t)) (keys o)) then Raise ValueError else
    let* idx := mapM (fun v => match dget v o with
                               | None => Raise ValueError
                               | Some s => let* l := dlook v (tb_states t) in state_index l s
                               end) (tb_variables t) in
    nd_get (tb_values t) idx.

  (** bcause/conversion/pgmpy.py:17-23 [toMultinomialFactor] *)
  Definition to_multinomial_factor (t : tabcpd) (vt : vtype) : res mfactor :=
    let dom := tb_states t in
    let* xs := mapM (tab_get t) (assignment_space dom) in
    let* a := np_reshape (mkNd [length xs] xs) (card dom) in
    mf_init dom (FArr a) None
            (Some (filter (fun v => if eqd v (tb_variable t) then false else true) (tb_variables t))) vt.
End Pgmpy.

(** bcause/conversion/pgmpy.py:28-34: the values as a matrix *)
Definition as_matrix {V} (a : nd V) : res (nd V) :=
  let a := if length (shape a) <? 2 then mkNd (1 :: shape a) (flat a) else a in
  if 2 <? length (shape a)
  then let* first := py_nth (shape a) 0 in np_reshape a [prodl (removelast (shape a)); first]
  else Ok a.

(** `values.T`: the axes reversed (conversion/pgmpy.py:39) *)
Definition np_T {V} (a : nd V) : res (nd V) := np_transpose a (rev (seq 0 (length (shape a)))).

(** bcause/conversion/pgmpy.py:25-49 [toTabularCPT] *)
Definition to_tabular (f : mfactor) : res tabcpd :=
  let* v := py_nth (keys (mf_left_domain f)) 0 in
  let size_of w := let* l := dlook w (mf_domain f) in Ok (length l) in
  let* a := mf_values_array f [] in
  let* a := as_matrix a in
  let* c := size_of v in
  let* t := np_T a in
  let* ec := mapM size_of (mf_right f) in
  tab_init v c t (mf_right f) ec (mf_domain f).

(** toTabularCPT on whatever a model holds: None has no `left_domain`; the
    store of a deterministic factor does not know its left variable (line 40). (conversion/pgmpy.py:61) *)
Definition fo_tabular (f : option fobj) : res tabcpd :=
  match f with
  | Some (FM f) => to_tabular f
  | Some (FD f) => let* _ := py_nth (keys (df_left_domain f)) 0 in
                   let* a := df_values_array f [] in
                   let* _ := as_matrix a in
                   Raise KeyError
  | Some FObj | None => Raise AttributeError
  end.

(** A pgmpy BayesianNetwork: the graph and the list `cpds`. (conversion/pgmpy.py:59-62) *)
Record pgnet := MkPg { pn_graph : digraph; pn_cpds : list tabcpd }.

(** pgmpy BayesianNetwork.add_cpds, one table: its variables must be nodes; it
    replaces a table for the same variable. (conversion/pgmpy.py:59-62) *)
Definition add_cpd (n : pgnet) (c : tabcpd) : res pgnet :=
  if negb (forallb (fun v => mem v (nodes (pn_graph n))) (tb_variables c)) then Raise ValueError
  else
    let same d := if eqd (tb_variable d) (tb_variable c) then true else false in
    Ok (MkPg (pn_graph n)
             (if existsb same (pn_cpds n) then map (fun d => if same d then c else d) (pn_cpds n)
              else pn_cpds n ++ [c])).

(** bcause/conversion/pgmpy.py:60-63 [toPgmpyBNet]; pgmpy's BayesianNetwork
    copies the graph and rejects cycles. *)
Definition to_pgmpy (m : pgm) : res pgnet :=
  let g := g_copy (m_graph m) in
  if 0 <? length (simple_cycles g) then Raise ValueError else
  let* cs := mapM (fun vf => fo_tabular (snd vf)) (m_factors m) in
  foldM add_cpd cs (MkPg g []).

(** `orig.in_edges`: for each node the arcs that enter it (conversion/pgmpy.py:53) *)
Definition in_edges (g : digraph) : list (var * var) :=
  flat_map (fun v => map (fun p => (p, v)) (preds g v)) (nodes g).

(** bcause/conversion/pgmpy.py:52-57 [toBCauseBNet] *)
Definition to_bcause (state_index : list state -> state -> res nat) (n : pgnet) (vt : vtype) : res pgm :=
  let dag := graph_of (in_edges (pn_graph n)) in
  let* fs := mapM (fun c => let* f := to_multinomial_factor state_index c vt in Ok (tb_variable c, FM f)) (pn_cpds n) in
  bn_init (GDag dag) (Some (FsDict (dict_of fs))) true.
