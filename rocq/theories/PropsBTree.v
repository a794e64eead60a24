(** C48: binary trees represent the table they are built from; C05 for lists of
    states. *)

From Coq Require Import String Bool Arith ZArith QArith Qcanon List.
From Verif Require Import PyBase Num DomainModel NdArray StoreModel NumStore Spec StoreSpec
  BTreeModel BTreeSpec BTreeFacts BTreeFacts2 BTreeFacts3 BTreeFacts4 BTreeFacts5 Checks BTreeChecks.
Import ListNotations.
Local Open Scope nat_scope.

(** * C48 *)

(** Whatever rule cuts the tables in halves, a tree that is built gives every
    full observation the value of the table. *)
Theorem C48_any_split : forall (choose : store num -> res split) fuel T t,
  lawful choose -> is_table T -> build_from_table choose fuel T = Ok t -> represents t T.
Proof. intros choose fuel T t L. exact (build_ok choose L fuel T t). Qed.
Print Assumptions C48_any_split.

(** ... and it is built when the rule finds a split in every visited table that
    is not constant. *)
Theorem C48_any_split_builds : forall (choose : store num -> res split) T,
  lawful choose -> is_table T ->
  (forall T', visited choose T T' -> ~ constant T' -> exists sp, choose T' = Ok sp) ->
  exists t, build_from_table choose (size (st_domain T)) T = Ok t.
Proof. intros choose T L IT. exact (build_total choose L _ T IT (le_n _)). Qed.
Print Assumptions C48_any_split_builds.

(** The rule of the code is such a rule. *)
Theorem C48_lawful : forall lg, lawful (best_split lg).
Proof. exact best_split_lawful. Qed.
Print Assumptions C48_lawful.

(** The constructor: whenever it returns, the tree represents the array. *)
Theorem C48_built : forall lg dom a s,
  wf_dom dom -> dom <> [] -> shape a = card dom -> length (flat a) = size dom ->
  bt_init lg dom (BArr a) = Ok s ->
  exists t, s = MkB dom (BGiven t) /\ tree_of t dom (flat a).
Proof. exact bt_built. Qed.
Print Assumptions C48_built.

(** It returns exactly when every visited sub-table that is not constant has
    positive mass. *)
Theorem C48_builds_iff : forall lg dom a T,
  wf_dom dom -> dom <> [] -> shape a = card dom -> length (flat a) = size dom ->
  st_init VNumpy dom (DArr a) = Ok T -> finite_table T ->
  ((exists s, bt_init lg dom (BArr a) = Ok s) <->
   forall T', visited (best_split lg) T T' -> ~ constant T' -> positive_mass T').
Proof. exact bt_builds_iff. Qed.
Print Assumptions C48_builds_iff.

(** In particular for every table without negative numbers. *)
Theorem C48_nonnegative : forall lg dom a,
  wf_dom dom -> dom <> [] -> shape a = card dom -> length (flat a) = size dom ->
  (forall x, In x (flat a) -> exists p, x = Fin p /\ (0 <= p)%Qc) ->
  exists t, bt_init lg dom (BArr a) = Ok (MkB dom (BGiven t)) /\ tree_of t dom (flat a).
Proof. exact bt_nonnegative. Qed.
Print Assumptions C48_nonnegative.

Example C48_case : forall lg,
  wf_dom bdom /\ bdom <> [] /\ shape btab = card bdom /\ length (flat btab) = size bdom /\
  bt_init lg bdom (BArr btab) = Ok (MkB bdom (BGiven btr)) /\
  follow btr [("A", SStr "a2"); ("B", SStr "b3")]%string = Ok (q (3 # 5)).
Proof.
  intros lg. split; [exact bdom_wf|]. split; [discriminate|]. split; [reflexivity|]. split; [reflexivity|].
  split; [exact (btree_case lg)|reflexivity].
Qed.

(** Without positive mass the constructor raises. *)
Theorem C48_mass_raises : forall lg dom a T qs,
  wf_dom dom -> shape a = card dom -> length (flat a) = size dom ->
  st_init VNumpy dom (DArr a) = Ok T -> ~ constant T -> entries T qs ->
  ((fold_right Qcplus 0 qs < 0)%Qc -> bt_init lg dom (BArr a) = Raise ValueError) /\
  (fold_right Qcplus 0%Qc qs = 0%Qc -> bt_init lg dom (BArr a) = Raise NameError).
Proof. exact bt_mass_raises. Qed.
Print Assumptions C48_mass_raises.

Example C48_mass_case : forall lg,
  bt_init lg [("A", bA)]%string (BArr (bsign (-1#1)%Q)) = Raise NameError /\
  bt_init lg [("A", bA)]%string (BArr (bsign (-2#1)%Q)) = Raise ValueError.
Proof. intros lg. split; [exact (bsign_zero lg)|exact (bsign_negative lg)]. Qed.

(** An array of another shape is rejected. *)
Theorem C48_shape_raises : forall lg dom a,
  dom <> [] -> shape a <> card dom -> bt_init lg dom (BArr a) = Raise ValueError.
Proof. exact bt_shape_raises. Qed.
Print Assumptions C48_shape_raises.

(** Without data there is a tree for one variable only. *)
Theorem C48_default : forall lg v l, NoDup l -> l <> [] ->
  bt_init lg [(v, l)] BNone = Ok (MkB [(v, l)] (BGiven (BLeaf (Fin 0)))).
Proof. exact bt_default_one. Qed.
Print Assumptions C48_default.
Theorem C48_default_raises : forall lg d1 d2 r, bt_init lg (d1 :: d2 :: r) BNone = Raise ValueError.
Proof. exact bt_default_raises. Qed.
Print Assumptions C48_default_raises.

(** The split is not the best one: whatever the logarithm and the entries, it is
    the last cut of the last variable with more than one state. *)
Theorem C48_last_split : forall lg T qs,
  is_table T -> ~ constant T -> entries T qs -> (0 < fold_right Qcplus 0 qs)%Qc ->
  exists v lefts rights TL TR, best_split lg T = Ok (v, lefts, rights, TL, TR) /\
    last_cut (st_domain T) v lefts rights.
Proof.
  exact (fun lg T qs IT NC E P =>
    best_split_last lg T _ IT
      (positive_mass_finite T (proj1 IT) (ex_intro _ qs (conj E P))) (entries_sum T qs E) P NC).
Qed.
Print Assumptions C48_last_split.

(** Copying keeps the tree, except that a constant table has a plain number as
    its tree, and copying that raises. *)
Theorem C48_copy : forall lg dom a s T,
  wf_dom dom -> dom <> [] -> shape a = card dom -> length (flat a) = size dom ->
  bt_init lg dom (BArr a) = Ok s -> st_init VNumpy dom (DArr a) = Ok T ->
  (constant T -> bt_copy lg s = Raise ValueError) /\ (~ constant T -> bt_copy lg s = Ok s).
Proof. exact bt_copy_iff. Qed.
Print Assumptions C48_copy.

(** The ways to give the cut of a node agree, and the node sends each state to
    its side. *)
Theorem C48_node : forall v lefts rights l r,
  lefts <> [] -> rights <> [] -> NoDup (lefts ++ rights) ->
  let node := BNode v (lefts ++ rights) (length lefts) l r in
  node_build v (lefts ++ rights) l r (Some lefts) None None true = Ok node /\
  node_build v (lefts ++ rights) l r None (Some rights) None true = Ok node /\
  node_build v (lefts ++ rights) l r None None (Some (Z.of_nat (length lefts))) true = Ok node /\
  node_build v (lefts ++ rights) l r (Some lefts) (Some rights) (Some (Z.of_nat (length lefts))) true = Ok node /\
  (length (lefts ++ rights) = 2 -> node_build v (lefts ++ rights) l r None None None true = Ok node) /\
  left_states node = Ok lefts /\ right_states node = Ok rights /\
  (forall s, In s lefts -> is_on_left node s = Ok true /\ is_on_right node s = Ok false) /\
  (forall s, In s rights -> is_on_left node s = Ok false /\ is_on_right node s = Ok true).
Proof. exact node_ways. Qed.
Print Assumptions C48_node.

Theorem C48_cut_range : forall v dom l r c, (0 <= c)%Z ->
  (exists t, node_build v dom l r None None (Some c) true = Ok t) <-> (1 <= c < Z.of_nat (length dom))%Z.
Proof. exact cut_range. Qed.
Print Assumptions C48_cut_range.

(** A negative cut is meant to count from the end; it is always rejected. *)
Theorem C48_negative_cut_raises : forall v dom l r c, (c < 0)%Z ->
  node_build v dom l r None None (Some c) true = Raise ValueError.
Proof. exact negative_cut. Qed.
Print Assumptions C48_negative_cut_raises.

(** * C05: restriction to a list of states in domain order *)

Theorem C05_states : forall (V : Type) (s : store V) v l xs,
  wf_store s -> st_type s = VNumpy -> In (v, l) (st_domain s) ->
  xs <> [] -> filter (fun x => mem x xs) l = xs ->
  exists s', st_restrict_ext s [(v, Many xs)] = Ok s' /\ wf_store s' /\ st_type s' = VNumpy /\
    st_domain s' = match xs with
                   | [_] => drop [v] (st_domain s)
                   | _ => map (fun wl => if eqd (fst wl) v then (fst wl, xs) else wl) (st_domain s)
                   end /\
    (forall o y, full (st_domain s) o -> dget v o = Some y -> In y xs ->
       full (st_domain s') o /\ get_value s' o = get_value s o) /\
    (forall o', full (st_domain s') o' ->
       exists o y, full (st_domain s) o /\ dget v o = Some y /\ In y xs /\
         get_value s o = get_value s' o').
Proof. exact @restrict_states. Qed.
Print Assumptions C05_states.

Example C05_states_case : exists s, st_restrict_ext (StNumpy bdom btab)
    [("B", Many [SStr "b2"; SStr "b4"])]%string = Ok s /\
  st_domain s = [("A", bA); ("B", [SStr "b2"; SStr "b4"])]%string /\
  get_value s [("A", SStr "a1"); ("B", SStr "b4")]%string = Ok (q (1 # 10)).
Proof. exact states_case. Qed.
