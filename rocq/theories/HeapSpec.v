(** What it means for a store object to hold a table, and for two store objects
    to be independent of each other. *)

From Coq Require Import String List.
From Verif Require Import PyBase Num DomainModel NdArray StoreModel NumStore Spec StoreSpec HeapModel.
Import ListNotations.

(** [reads h v t F]: following the references from [v] in the heap [h] one finds
    the tree [t]; [F] lists the addresses of the dictionaries met on the way
    (with repetitions, if a dictionary is met more than once). *)
Inductive reads (h : heap) : hval -> tree num -> list nat -> Prop :=
| reads_num x : reads h (HNum x) (Leaf x) []
| reads_node a w kids ch F :
    nth_error h a = Some (CNode w kids) ->
    reads_kids h kids ch F ->
    reads h (HRef a) (Node w ch) (a :: F)
with reads_kids (h : heap) : dict state hval -> list (state * tree num) -> list nat -> Prop :=
| reads_nil : reads_kids h [] [] []
| reads_cons s k kids c ch F G :
    reads h k c F -> reads_kids h kids ch G ->
    reads_kids h ((s, k) :: kids) ((s, c) :: ch) (F ++ G).

(** [holds h s p F]: the store object [s] holds, in the heap [h], the table [p],
    in the objects with the addresses [F]. *)
Inductive holds (h : heap) : hstore -> store num -> list nat -> Prop :=
| holds_numpy d a x :
    nth_error h a = Some (CArr x) ->
    holds h (mkHS VNumpy d (HRef a)) (StNumpy d x) [a]
| holds_numpy1d d a x :
    nth_error h a = Some (CArr x) ->
    holds h (mkHS VNumpy1D d (HRef a)) (StNp1 d (flat x)) [a]
| holds_list d a l :
    nth_error h a = Some (CList l) ->
    holds h (mkHS VList d (HRef a)) (StList d l) [a]
| holds_tree d v t F :
    reads h v t F ->
    holds h (mkHS VTree d v) (StTree d t) F.

(** No object in common. *)
Definition apart (F G : list nat) : Prop := forall a, In a F -> In a G -> False.

(** Restricting the tree to the observation leaves no part of it untouched: on
    every path the observation is used up only at the end. *)
Inductive used_up : obs -> tree num -> Prop :=
| used_leaf o x : used_up o (Leaf x)
| used_skip o w ch :
    o <> [] -> dget w o = None -> (forall s c, In (s, c) ch -> used_up o c) ->
    used_up o (Node w ch)
| used_pick o w ch s c :
    dget w o = Some s -> dget s ch = Some c -> used_up (dremove w o) c ->
    used_up o (Node w ch).

(** The variable has at least two states. *)
Definition several (d : domain) (v : var) : Prop := exists l, dget v d = Some l /\ 2 <= length l.

(** The second store of a derivation, if there is one. *)
Definition operand (dv : deriv) : option hstore :=
  match dv with
  | DMultiply s2 | DAddition s2 | DSubtract s2 | DDivide s2 => Some s2
  | _ => None
  end.

(** The derivations of a table [p] whose result is a store of its own.  For the
    array and list stores these are all derivations, except the shallow copy of a
    numpy1d store.  For the treedict store: every combination, the deep copy,
    marginalisation (by sum or by maximum) if some removed variable has several
    states, restriction if the observation is used up at the end of each path. *)
Definition own_result (dv : deriv) (p : store num) : Prop :=
  match p with
  | StNumpy _ _ | StList _ _ => True
  | StNp1 _ _ => dv <> DCopy false
  | StTree d t =>
      match dv with
      | DRestrict o => used_up (ones o) t
      | DMarginalize vs | DMaxmarginalize vs =>
          wf_store p /\ NoDup vs /\ incl vs (keys d) /\ exists v, In v vs /\ several d v
      | DMultiply _ | DAddition _ | DSubtract _ | DDivide _ => True
      | DCopy deep => deep = true
      end
  end.

(** The table a derivation is meant to compute (StoreModel.v, NumStore.v), given
    the table [q] of the second store. *)
Definition table_of (dv : deriv) (p : store num) (q : option (store num)) : res (store num) :=
  match dv, q with
  | DRestrict o, _ => st_restrict_ext p o
  | DMarginalize vs, _ => st_marginalize p vs
  | DMaxmarginalize vs, _ => st_maxmarginalize p vs
  | DMultiply _, Some q => st_multiply p q
  | DAddition _, Some q => st_addition p q
  | DSubtract _, Some q => st_subtract p q
  | DDivide _, Some q => st_divide p q
  | DCopy _, _ => Ok p
  | _, None => Raise Unmodelled
  end.

(** The second store holds the table [q]. *)
Definition operand_holds (h : heap) (dv : deriv) (q : option (store num)) : Prop :=
  match operand dv, q with
  | None, _ => True
  | Some s2, Some q => exists G, holds h s2 q G
  | Some _, None => False
  end.

(** An observation that gives each variable one state. *)
Definition single (o : obs) : dict var oval := map (fun vs => (fst vs, One (snd vs))) o.

(** A later set_value on the derived store changes an entry of the store it was
    derived from. *)
Definition changes_source (n : nat) (dv : deriv) (p : store num) : Prop :=
  exists h s F r h1 x o r' h2 p2 F2 ob y y2,
    wf_store p /\ holds h s p F /\ NoDup F /\
    derive n dv s h = (Ok r, h1) /\ hs_set_value n r x o h1 = (Ok r', h2) /\
    holds h2 s p2 F2 /\ get_value p ob = Ok y /\ get_value p2 ob = Ok y2 /\ y <> y2.
