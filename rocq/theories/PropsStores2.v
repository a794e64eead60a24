(** Further statements on stores: pruned trees (C06, C08), and inputs on which
    the four store types disagree (C10) or a positional alignment goes wrong. *)

From Coq Require Import String Bool Arith ZArith QArith Qcanon List.
From Verif Require Import PyBase Num DomainModel NdArray StoreModel NumStore Spec StoreSpec TreePruned Checks StoreLists StoreChecks.
Import ListNotations.
Local Open Scope nat_scope.

(** * C06, pruned trees *)
Theorem C06_pruned_trees : forall (op : num -> num -> num) (d1 d2 : domain) (t1 t2 : tree num),
  wf_dom d1 -> wf_dom d2 -> compatible d1 d2 -> tprun d1 t1 -> tprun d2 t2 ->
  exists t, tree_combine op d1 t1 d2 t2 = st_init VTree (join d1 d2) (tree_darg t) /\ tprun (join d1 d2) t /\
    (forall w ch, t = Node w ch -> tree_combine op d1 t1 d2 t2 = Ok (StTree (join d1 d2) t)) /\
    forall o, full (join d1 d2) o -> exists x y,
      get_value (StTree d1 t1) o = Ok x /\ get_value (StTree d2 t2) o = Ok y /\
      get_value (StTree (join d1 d2) t) o = Ok (op x y).
Proof. exact (fun op d1 d2 t1 t2 => pruned_combine op d1 t1 d2 t2). Qed.
Print Assumptions C06_pruned_trees.

(** * C08, pruned trees *)
Theorem C08_pruned_tree : forall (d : domain) (t : tree num) (v : var) (l : list state),
  wf_dom d -> tprun d t -> In (v, l) d ->
  exists t', st_marginalize (StTree d t) [v] = st_init VTree (drop [v] d) (tree_darg t') /\ tprun (drop [v] d) t' /\
    (forall w ch, t' = Node w ch -> st_marginalize (StTree d t) [v] = Ok (StTree (drop [v] d) t')) /\
    forall o, full (drop [v] d) o -> exists xs,
      Forall2 (fun s x => get_value (StTree d t) ((v, s) :: o) = Ok x) l xs /\
      get_value (StTree (drop [v] d) t') o = Ok (nsum xs).
Proof. exact pruned_marginalize. Qed.
Print Assumptions C08_pruned_tree.

Example C08_pruned_case :
  wf_dom dAB /\ tprun dAB pruned /\ ~ tcomp dAB pruned /\
  listing (st_marginalize (StTree dAB pruned) ["B"%string]) = Ok (map q [15; 6]%Q).
Proof. exact pruned_case. Qed.

(** A pruned tree that collapses to a leaf while variables remain is rebuilt
    wrongly: two variables left raise TypeError, one variable left loses the
    states after the first. *)
Theorem C05_pruned_tree_refuted :
  exists (d : domain) (t : tree num) (o : obs) s,
    wf_dom d /\ tprun d t /\ (forall v l x, In (v, l) d -> dget v o = Some x -> In x l) /\
    st_restrict (StTree d t) o = Ok s /\
    exists o', full (drop (keys o) d) o' /\ get_value (StTree d t) (o ++ o') = Ok (q 5) /\
               get_value s o' = Raise KeyError.
Proof. exact pruned_restrict. Qed.
Print Assumptions C05_pruned_tree_refuted.

Theorem C05_pruned_tree_raises_refuted :
  exists (d : domain) (t : tree num) (o : obs),
    wf_dom d /\ tprun d t /\ (forall v l x, In (v, l) d -> dget v o = Some x -> In x l) /\
    st_restrict (StTree d t) o = Raise TypeError.
Proof. exact pruned_restrict_raises. Qed.
Print Assumptions C05_pruned_tree_raises_refuted.

(** * C10: inputs on which the store types disagree *)

(** A variable listed twice. *)
Theorem C10_duplicate_variable_refuted : exists (d : domain) (l : list Q) (vs : list var),
  wf_dom d /\ length l = size d /\ incl vs (keys d) /\
  listing (st_marginalize (tab VList d l) vs) = Ok (map q [5; 7; 9]%Q) /\
  listing (st_marginalize (tab VTree d l) vs) = Ok (map q [10; 14; 18]%Q) /\
  st_marginalize (tab VNumpy d l) vs = Raise ValueError.
Proof. exact duplicate_disagree. Qed.
Print Assumptions C10_duplicate_variable_refuted.

(** A variable outside the domain. *)
Theorem C10_absent_variable_refuted : exists (d : domain) (l : list Q) (vs : list var),
  wf_dom d /\ length l = size d /\
  listing (st_marginalize (tab VList d l) vs) = Ok (map q l) /\
  st_marginalize (tab VTree d l) vs = Raise KeyError /\
  st_marginalize (tab VNumpy d l) vs = Raise ValueError.
Proof. exact absent_disagree. Qed.
Print Assumptions C10_absent_variable_refuted.

(** A shared variable whose states are listed in another order: the numpy store
    aligns by position, the list store by state. *)
Theorem C10_state_order_refuted : exists (d1 d2 : domain) (l1 l2 : list Q),
  wf_dom d1 /\ wf_dom d2 /\ length l1 = size d1 /\ length l2 = size d2 /\
  (forall v m1 m2, In (v, m1) d1 -> In (v, m2) d2 -> forall s, In s m1 <-> In s m2) /\
  listing (st_multiply (tab VList d1 l1) (tab VList d2 l2)) = Ok (map q [10; 20]%Q) /\
  listing (st_multiply (tab VTree d1 l1) (tab VTree d2 l2)) = Ok (map q [10; 20]%Q) /\
  listing (st_multiply (tab VNumpy d1 l1) (tab VNumpy d2 l2)) = Ok (map q [5; 40]%Q).
Proof. exact state_order_disagree. Qed.
Print Assumptions C10_state_order_refuted.

(** A shared variable with a single state in the first table and more in the
    second: the numpy store repeats the value of that state (and raises with the
    tables swapped), the list store raises. *)
Theorem C10_missing_state_refuted : exists (d1 d2 : domain) (l1 l2 : list Q) e,
  wf_dom d1 /\ wf_dom d2 /\ length l1 = size d1 /\ length l2 = size d2 /\
  (forall v m1 m2, In (v, m1) d1 -> In (v, m2) d2 -> incl m1 m2) /\
  st_multiply (tab VList d1 l1) (tab VList d2 l2) = Raise e /\
  listing (st_multiply (tab VNumpy d1 l1) (tab VNumpy d2 l2)) = Ok (map q [5; 20]%Q) /\
  st_multiply (tab VNumpy d2 l2) (tab VNumpy d1 l1) = Raise ValueError.
Proof. exact missing_state. Qed.
Print Assumptions C10_missing_state_refuted.

(** * C05: a list of states as observation value *)

(** The values come in the order of the list while the domain keeps its own
    order. *)
Theorem C05_list_value_refuted : exists (d : domain) (l : list Q) (v : var) (xs : list state) s,
  wf_dom d /\ length l = size d /\ (forall m, In (v, m) d -> incl xs m) /\
  st_restrict_ext (tab VNumpy d l) [(v, Many xs)] = Ok s /\
  get_value s [(v, SStr "a0"%string)] = Ok (q 2) /\
  get_value (tab VNumpy d l) [(v, SStr "a0"%string)] = Ok (q 1).
Proof. exact list_value. Qed.
Print Assumptions C05_list_value_refuted.

(** A list together with a single state of an earlier variable, with a variable
    in between: numpy puts the axis of the list first, so the values are
    transposed when the sizes happen to fit. *)
Theorem C05_list_and_state_refuted : exists (d : domain) (l : list Q) (o : dict var oval) s,
  wf_dom d /\ length l = size d /\ o = [("A", One (SInt 1)); ("C", Many [SInt 0; SInt 1])]%string /\
  st_restrict_ext (tab VNumpy d l) o = Ok s /\
  get_value s [("Z", SInt 1); ("B", SInt 0); ("C", SInt 0)]%string = Ok (q 8) /\
  get_value (tab VNumpy d l) [("Z", SInt 1); ("A", SInt 1); ("B", SInt 0); ("C", SInt 0)]%string = Ok (q 19).
Proof. exact list_and_state. Qed.
Print Assumptions C05_list_and_state_refuted.

(** Lists of states for two variables are never combined: numpy pairs the lists
    off, so the restriction raises. *)
Theorem C05_two_lists_raises : forall (V : Type) (s : store V) (o : dict var oval) v w l l' xs ys,
  st_type s = VNumpy -> v <> w -> In (v, l) (st_domain s) -> In (w, l') (st_domain s) ->
  dget v o = Some (Many xs) -> dget w o = Some (Many ys) -> length xs <> 1 -> length ys <> 1 ->
  exists e, st_restrict_ext s o = Raise e.
Proof. exact @two_lists. Qed.
Print Assumptions C05_two_lists_raises.

Theorem C05_two_lengths_raises : forall (V : Type) (s : store V) (o : dict var oval) v w l l' xs ys,
  st_type s = VNumpy ->
  (forall u m x, In (u, m) (st_domain s) -> dget u o = Some (One x) -> In x m) ->
  (forall u m zs, In (u, m) (st_domain s) -> dget u o = Some (Many zs) -> incl zs m) ->
  In (v, l) (st_domain s) -> In (w, l') (st_domain s) ->
  dget v o = Some (Many xs) -> dget w o = Some (Many ys) -> length xs <> 1 -> length ys <> 1 -> length xs <> length ys ->
  st_restrict_ext s o = Raise IndexError.
Proof. exact @two_lengths. Qed.
Print Assumptions C05_two_lengths_raises.

Example C05_two_lists_case : let d := [("A", [SInt 0; SInt 1]); ("B", [SInt 0; SInt 1; SInt 2])]%string in
  let s := tab VNumpy d [1; 2; 3; 4; 5; 6]%Q in
  st_type s = VNumpy /\ st_domain s = d /\
  st_restrict_ext s [("A", Many [SInt 0; SInt 1]); ("B", Many [SInt 1; SInt 2])]%string = Raise ValueError /\
  st_restrict_ext s [("A", Many [SInt 0; SInt 1]); ("B", Many [SInt 0; SInt 1; SInt 2])]%string = Raise IndexError /\
  listing (st_restrict_ext s [("A", Many [SInt 1]); ("B", Many [SInt 1; SInt 2])]%string) = Ok (map q [5; 6]%Q).
Proof. repeat split; vm_compute; reflexivity. Qed.

(** A list of one state is the same as the state, for the numpy store; the other
    stores accept no lists at all. *)
Theorem C05_single_list : forall (V : Type) (s : store V) (o : dict var oval), st_type s = VNumpy ->
  st_restrict_ext s (map (fun vx => (fst vx, match snd vx with Many [x] => One x | y => y end)) o) = st_restrict_ext s o.
Proof. exact @single_list. Qed.
Print Assumptions C05_single_list.

Theorem C05_lists_raises : forall (V : Type) (s : store V) (o : dict var oval) v xs, st_type s <> VNumpy -> In (v, Many xs) o ->
  st_restrict_ext s o = Raise NotImplementedError.
Proof. exact @lists_elsewhere. Qed.
Print Assumptions C05_lists_raises.

Example C05_single_list_case : let d := [("A", [SInt 0; SInt 1]); ("B", [SInt 0; SInt 1; SInt 2])]%string in
  listing (st_restrict_ext (tab VNumpy d [1; 2; 3; 4; 5; 6]%Q) [("B", Many [SInt 1])]%string) = Ok (map q [2; 5]%Q) /\
  st_type (tab VList d [1; 2; 3; 4; 5; 6]%Q) <> VNumpy /\
  st_restrict_ext (tab VList d [1; 2; 3; 4; 5; 6]%Q) [("B", Many [SInt 1])]%string = Raise NotImplementedError /\
  st_restrict_ext (tab VTree d [1; 2; 3; 4; 5; 6]%Q) [("B", Many [SInt 1])]%string = Raise NotImplementedError.
Proof. split; [vm_compute; reflexivity|]. split; [vm_compute; discriminate|]. split; vm_compute; reflexivity. Qed.
