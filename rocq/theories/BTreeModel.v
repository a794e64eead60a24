(** Model of the binary trees of bcause/factors/values/btreestore.py: nodes, the
    construction from a table, the store constructor and its copy. *)

From Coq Require Import String Bool Arith ZArith QArith Qcanon List.
From Verif Require Import PyBase Num DomainModel NdArray StoreModel NumStore.
Import ListNotations.
Local Open Scope nat_scope.

(** A tree: a value, or a [BTreeNodeConsecutive] with its variable, the states
    of the variable, the position where the right states begin and two children
    (btreestore.py:75-82). *)
Inductive btree : Type :=
| BLeaf (x : num)
| BNode (v : var) (dom : list state) (cut : nat) (l r : btree).

(** btreestore.py:75-82 [BTreeNodeConsecutive.__init__] *)
Definition node_init (v : var) (dom : list state) (l r : btree) (cut : Z) : res btree :=
  if ((cut <? 1) || (Z.of_nat (length dom) <=? cut))%Z then Raise ValueError
  else Ok (BNode v dom (Z.to_nat cut) l r).

(** btreestore.py:84-86 *)
Definition left_states (t : btree) : res (list state) :=
  match t with BNode _ dom cut _ _ => Ok (firstn cut dom) | BLeaf _ => Raise AttributeError end.
(** btreestore.py:88-90 *)
Definition right_states (t : btree) : res (list state) :=
  match t with BNode _ dom cut _ _ => Ok (skipn cut dom) | BLeaf _ => Raise AttributeError end.

(** `l.index(x)` (ValueError when absent) (btreestore.py:56, 58, 93) *)
Definition list_index (x : state) (l : list state) : res nat :=
  match index_of x l with Some i => Ok i | None => Raise ValueError end.

(** btreestore.py:92-93 *)
Definition is_on_left (t : btree) (s : state) : res bool :=
  match t with
  | BNode _ dom cut _ _ => let* i := list_index s dom in Ok (Nat.ltb i cut)
  | BLeaf _ => Raise AttributeError
  end.
(** btreestore.py:44-45 *)
Definition is_on_right (t : btree) (s : state) : res bool :=
  let* b := is_on_left t s in Ok (negb b).

(** `l[-1]` (btreestore.py:56) *)
Definition py_last (l : list state) : res state :=
  match l with [] => Raise IndexError | x :: r => Ok (last r x) end.

(** btreestore.py:47-70 [BTreeNode.build] *)
Definition node_build (v : var) (dom : list state) (l r : btree)
    (lefts rights : option (list state)) (cut : option Z) (consecutive : bool) : res btree :=
  if consecutive then
    let p1 := match cut with
              | Some c => [if (c <? 0)%Z then (Z.of_nat (length dom) - c)%Z else c]
              | None => []
              end in
    let* p2 := match lefts with
               | Some ls => let* s := py_last ls in
                            let* i := list_index s dom in Ok [Z.of_nat (i + 1)]
               | None => Ok []
               end in
    let* p3 := match rights with
               | Some rs => let* s := py_nth rs 0 in
                            let* i := list_index s dom in Ok [Z.of_nat i]
               | None => Ok []
               end in
    let points := p1 ++ p2 ++ p3 in
    let points := if (length (nodup Z.eq_dec points) =? 0) && (length dom =? 2)
                  then [1%Z] else points in
    if length (nodup Z.eq_dec points) =? 1 then
      match points with c :: _ => node_init v dom l r c | [] => Raise IndexError end
    else Raise ValueError
  else Raise NotImplementedError.

(** python `x != y` on floats (store.py:138 [all_equal]) *)
Definition num_neqb (x y : num) : bool :=
  match x, y with
  | Fin a, Fin b => if Qc_eq_dec a b then false else true
  | PInf, PInf | NInf, NInf => false
  | _, _ => true
  end.

(** bcause/factors/values/store.py:138-145 [all_equal] *)
Definition st_all_equal (s : store num) : res bool :=
  let confs := assignment_space (st_domain s) in
  let* c0 := py_nth confs 0 in
  let* val := get_value s c0 in
  (fix go l := match l with
               | [] => Ok true
               | x :: r => let* y := get_value s x in
                           if num_neqb y val then Ok false else go r
               end) (tl confs).

(** A split of a table: variable, left and right states, left and right table
    (btreestore.py:167). *)
Definition split : Type := var * list state * list state * store num * store num.

(** `math.log(x)`: [lg] stands for the finite result on finite positive
    arguments, of which nothing is assumed; other arguments are NaN, infinite,
    or rejected with ValueError. (btreestore.py:147, 160, 162) *)
Definition math_log (lg : Qc -> Qc) (x : num) : res num :=
  match x with
  | Fin a => if qpos a then Ok (Fin (lg a)) else Raise ValueError
  | NaN => Ok NaN
  | PInf => Ok PInf
  | NInf => Raise ValueError
  end.

(** a python int as a float (btreestore.py:147) *)
Definition num_of (k : nat) : num := Fin (Q2Qc (inject_Z (Z.of_nat k))).

(** btreestore.py:149-165: the inner loop body.  [info_max] is initialised to
    minus infinity (line 140) and never assigned again. *)
Definition try_split (lg : Qc -> Qc) (table : store num) (v : var) (dv : list state)
    (info_at : num) (best : option split) (s : nat) : res (option split) :=
  let lefts := firstn s dv in
  let rights := skipn s dv in
  let* left_table := st_restrict_ext table [(v, Many lefts)] in
  let* right_table := st_restrict_ext table [(v, Many rights)] in
  let* sum_left := st_sum_all left_table in
  let* sum_right := st_sum_all right_table in
  let* info := if nltb n0 sum_left
               then let* k := math_log lg (ndiv sum_left (num_of (length lefts))) in
                    Ok (nadd info_at (nmul sum_left k))
               else Ok info_at in
  let* info := if nltb n0 sum_right
               then let* k := math_log lg (ndiv sum_right (num_of (length rights))) in
                    Ok (nadd info (nmul sum_right k))
               else Ok info in
  if nltb NInf info then Ok (Some (v, lefts, rights, left_table, right_table)) else Ok best.

(** btreestore.py:145-165: the outer loop body *)
Definition try_var (lg : Qc -> Qc) (table : store num) (best : option split) (v : var)
  : res (option split) :=
  let* sum_at := st_sum_all table in
  let* dv := dlook v (st_domain table) in
  let* k := math_log lg (ndiv (num_of (length dv)) sum_at) in
  foldM (try_split lg table v dv (nmul sum_at k)) (seq 1 (length dv - 1)) best.

(** btreestore.py:138-167 [_best_split_point]; without a split
    `best_right_states` is unbound (line 167). *)
Definition best_split (lg : Qc -> Qc) (table : store num) : res split :=
  let* best := foldM (try_var lg table) (st_variables table) None in
  match best with Some b => Ok b | None => Raise NameError end.

(** btreestore.py:124-136 [_build_from_table], for any rule [choose] in the place
    of [_best_split_point].  The recursion is on [fuel]; [Unmodelled] when it is
    exhausted. *)
Fixpoint build_from_table (choose : store num -> res split) (fuel : nat) (table : store num)
  : res btree :=
  match fuel with
  | 0 => Raise Unmodelled
  | S fuel' =>
      let* same := st_all_equal table in
      if same then
        let* xs := values_list table in
        let* x := py_nth xs 0 in Ok (BLeaf x)
      else
        let* sp := choose table in
        let '(v, lefts, _, left_table, right_table) := sp in
        let* tree_left := build_from_table choose fuel' left_table in
        let* tree_right := build_from_table choose fuel' right_table in
        let* dv := dlook v (st_domain table) in
        node_build v dv tree_left tree_right (Some lefts) None None true
  end.

(** The `data` of the constructor: nothing, a number or array, or a node. (btreestore.py:108-115) *)
Inductive bdata := BNone | BArr (a : nd num) | BGiven (t : btree).

(** A store: domain and data (btreestore.py:106-122).  For a table over no
    variables the data are kept as given. *)
Record bstore := MkB { bs_domain : domain; bs_data : bdata }.

(** btreestore.py:108-122 [BTreeStore.__init__] ([_check_consistency], lines
    169-171, accepts everything).  A plain value is not a [BTreeNode] (line
    113): it is turned into a table. *)
Definition bt_init (lg : Qc -> Qc) (dom : domain) (data : bdata) : res bstore :=
  let* data := match data, dom with
               | BNone, [] => Raise TypeError
               | BNone, _ :: _ => let n := prodl (card dom) in Ok (BArr (mkNd [n] (repeat n0 n)))
               | _, _ => Ok data
               end in
  let from_table a :=
    let* table := st_init VNumpy dom (DArr a) in
    let* t := build_from_table (best_split lg) (prodl (card dom)) table in
    Ok (MkB dom (BGiven t)) in
  match dom, data with
  | [], _ => Ok (MkB dom data)
  | _ :: _, BArr a => from_table a
  | _ :: _, BGiven (BLeaf x) => from_table (mkNd [] [x])
  | _ :: _, BGiven (BNode _ _ _ _ _) => Ok (MkB dom data)
  | _ :: _, BNone => Raise Unmodelled
  end.

(** bcause/factors/values/store.py:31-34 [copy] with btreestore.py:117-118,
    173-174: the builder is called with the (copied) data. *)
Definition bt_copy (lg : Qc -> Qc) (s : bstore) : res bstore := bt_init lg (bs_domain s) (bs_data s).
