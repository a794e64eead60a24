(** Vocabulary for statements about canonical equations. *)

From Coq Require Import String Bool Arith ZArith QArith Qcanon List.
From Verif Require Import PyBase Num DomainModel FactorModel GraphModel Spec FactorSpec GraphSpec GenSpec NetSpec.
Import ListNotations.

(** The probability of an event, for elements [us] with the probabilities [p]. *)
Definition chance {A} (us : list A) (p : A -> Qc) (event : A -> bool) : Qc := total (map p (filter event us)).

(** [p] is a probability distribution on [us]. *)
Definition distribution {A} (us : list A) (p : A -> Qc) : Prop :=
  (forall u, In u us -> (0 <= p u)%Qc) /\ total (map p us) = 1%Qc.

(** The entries of a table are not negative. *)
Definition no_negative (f : mfactor) : Prop := forall o, full (mf_domain f) o -> (0 <= entry f o)%Qc.

(** The graph [g] with a new parent [U v] for every variable [v]. *)
Definition exo_graph (g : digraph) (U : var -> var) : digraph :=
  mkG (nodes g ++ map U (nodes g)) (edges g ++ map (fun v => (U v, v)) (nodes g)).
(** The states of the variables, with those of the new parents. *)
Definition exo_dom (D : domain) (U : var -> var) (lu : var -> list state) : domain :=
  D ++ map (fun vl => (U (fst vl), lu (fst vl))) D.
(** [U] gives the variables new and distinct names, and [lu] as many states to
    the new parent of a variable as there are functions from the values of the
    other parents to the states of the variable. *)
Definition new_parents (D : domain) (g : digraph) (U : var -> var) (lu : var -> list state) : Prop :=
  usable (exo_dom D U lu) /\
  forall v l, In (v, l) D -> length (lu v) = (length l ^ size (order_dom D (preds g v)))%nat.

(** [X] are the exogenous variables, those without parents.  Every other
    variable [v] has exactly one exogenous parent, [U v], and no other variable
    has that parent. *)
Definition markovian (g : digraph) (X : list var) (U : var -> var) : Prop :=
  (forall v, In v X <-> In v (nodes g) /\ forall x, ~ arc g x v) /\
  (forall v, In v (nodes g) -> ~ In v X -> forall x, In x X /\ arc g x v <-> x = U v) /\
  (forall v w, In v (nodes g) -> In w (nodes g) -> ~ In v X -> ~ In w X -> U v = U w -> v = w) /\
  (forall x, In x X -> exists v, arc g x v).
(** The parents of [v] that are not exogenous. *)
Definition inner_parents (g : digraph) (X : list var) (v : var) : list var := filter (fun w => negb (mem w X)) (preds g v).
(** The states of the variables, with other states for those in [X]. *)
Definition with_states (D : domain) (X : list var) (lu : var -> list state) : domain :=
  map (fun vl => (fst vl, if mem (fst vl) X then lu (fst vl) else snd vl)) D.
(** Every exogenous variable has as many states as there are functions from the
    values of the other parents of its child to the states of the child. *)
Definition response_states (D : domain) (g : digraph) (X : list var) (U : var -> var) (lu : var -> list state) : Prop :=
  usable (with_states D X lu) /\
  forall v l, In (v, l) D -> ~ In v X -> length (lu (U v)) = (length l ^ size (order_dom D (inner_parents g X v)))%nat.
