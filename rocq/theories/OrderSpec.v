(** What the elimination orderings are measured against: the moral graph of a
    DAG, the graph left after eliminating some of its nodes, and the three
    costs of a node in it. *)

From Coq Require Import String Bool Arith Permutation List.
From Verif Require Import PyBase GraphModel GraphSpec InferModel.
Import ListNotations.
Local Open Scope nat_scope.

(** Two nodes are married or joined by an arc. *)
Definition moral (g : digraph) (x y : var) : Prop :=
  x <> y /\ (arc g x y \/ arc g y x \/ exists z, arc g x z /\ arc g y z).

(** A path of the moral graph whose inner nodes are among [gone]. *)
Inductive through (g : digraph) (gone : list var) : var -> var -> Prop :=
| th_one x y : moral g x y -> through g gone x y
| th_step x w y : moral g x w -> In w gone -> through g gone w y -> through g gone x y.

(** Adjacent in the graph left after eliminating [gone]: eliminating a node
    joins its neighbours. *)
Definition adjacent (g : digraph) (gone : list var) (x y : var) : Prop :=
  x <> y /\ ~ In x gone /\ ~ In y gone /\ through g gone x y.

(** [ns] lists the neighbours of [v] once each. *)
Definition neighbours (g : digraph) (gone : list var) (v : var) (ns : list var) : Prop :=
  NoDup ns /\ forall w, In w ns <-> adjacent g gone v w.

(** [ps] lists each pair of neighbours of [v] that are not adjacent once, in
    one of its two directions. *)
Definition missing_pairs (g : digraph) (gone : list var) (v : var) (ps : list (var * var)) : Prop :=
  NoDup ps /\ (forall x y, In (x, y) ps -> ~ In (y, x) ps) /\
  forall x y, In (x, y) ps \/ In (y, x) ps <->
    x <> y /\ adjacent g gone v x /\ adjacent g gone v y /\ ~ adjacent g gone x y.

(** [c] is the cost of [v] once [gone] has been eliminated: the number of
    neighbours, the number of values of [v] and its neighbours together, or the
    number of arcs that eliminating [v] adds. *)
Definition cost_is (h : heuristic) (g : digraph) (sizes : dict var nat) (gone : list var) (v : var) (c : nat) : Prop :=
  match h with
  | MIN_SIZE => exists ns, neighbours g gone v ns /\ c = length ns
  | MIN_WEIGHT => exists ns ks, neighbours g gone v ns /\
                    Forall2 (fun w k => dget w sizes = Some k) (v :: ns) ks /\ c = fold_right Nat.mul 1 ks
  | MIN_FILL => exists ps, missing_pairs g gone v ps /\ c = length ps
  end.

(** At every step the next variable is one of the cheapest of those left. *)
Definition greedy (h : heuristic) (g : digraph) (sizes : dict var nat) (order : list var) : Prop :=
  forall gone v later, order = gone ++ v :: later ->
    exists c, cost_is h g sizes gone v c /\
      forall w, In w later -> exists c', cost_is h g sizes gone w c' /\ c <= c'.

(** The random choice returns one of the candidates. *)
Definition chooses (choose : nat -> list var -> var) : Prop := forall n l, l <> [] -> In (choose n l) l.
