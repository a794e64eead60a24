(** Vocabulary of the specifications: assignments, well-formed domains, full
    observations.  Nothing here models code. *)

From Coq Require Import String List.
From Verif Require Import PyBase.
Import ListNotations.

(** A total assignment of states to variables. *)
Definition asg := var -> state.

Definition upd (a : asg) (v : var) (x : state) : asg :=
  fun w => if eqd w v then x else a w.

(** [a] overridden by the entries of the dictionary [o]. *)
Definition over (o : obs) (a : asg) : asg :=
  fun w => match dget w o with Some s => s | None => a w end.

(** A usable domain: distinct variables, each with a non-empty list of distinct
    states. *)
Definition wf_dom (d : domain) : Prop :=
  NoDup (keys d) /\ forall v l, In (v, l) d -> NoDup l /\ l <> [].

(** Every variable of [d] gets one of its states. *)
Definition valid (d : domain) (a : asg) : Prop :=
  forall v l, In (v, l) d -> In (a v) l.

(** The dictionary [o] contains, for the variables [vs], the states of [a]. *)
Definition agrees (o : obs) (a : asg) (vs : list var) : Prop :=
  forall v, In v vs -> dget v o = Some (a v).

(** [o] observes every variable of [d] with one of its states (and possibly
    other variables). *)
Definition full (d : domain) (o : obs) : Prop :=
  forall v l, In (v, l) d -> exists s, dget v o = Some s /\ In s l.

(** The observed variables of [d] have known states. *)
Definition known (d : domain) (o : obs) : Prop :=
  forall v l s, In (v, l) d -> dget v o = Some s -> In s l.

(** Two domains give the same states, in the same order, to shared variables. *)
Definition compatible (d1 d2 : domain) : Prop :=
  forall v l1 l2, In (v, l1) d1 -> In (v, l2) d2 -> l1 = l2.

(** All assignments of a domain, as dictionaries, in row-major order (the last
    variable changes fastest). *)
Fixpoint all_assignments (d : domain) : list obs :=
  match d with
  | [] => [[]]
  | (v, l) :: r => flat_map (fun s => map (cons (v, s)) (all_assignments r)) l
  end.

(** Number of assignments of a domain. *)
Fixpoint size (d : domain) : nat :=
  match d with [] => 1 | (_, l) :: r => length l * size r end.

(** Row-major position of an assignment: the last variable counts fastest. *)
Fixpoint rowpos (d : domain) (o : obs) : nat :=
  match d with
  | [] => 0
  | (v, l) :: r =>
      match dget v o with
      | Some s => match index_of s l with Some i => i | None => 0 end
      | None => 0
      end * size r + rowpos r o
  end.

(** The assignment [a] does not contradict the observation [o]. *)
Definition consistent (o a : obs) : bool :=
  forallb (fun vs => match dget (fst vs) o with
                     | Some s => if eqd s (snd vs) then true else false
                     | None => true
                     end) a.

(** Increasing list of the positions (counted from [n]) where [p] holds. *)
Fixpoint positions {A} (p : A -> bool) (l : list A) (n : nat) : list nat :=
  match l with
  | [] => []
  | x :: r => if p x then n :: positions p r (S n) else positions p r (S n)
  end.

(** The variables of [d] outside / inside a list, in order. *)
Definition drop (vs : list var) (d : domain) : domain :=
  filter (fun vl => negb (mem (fst vl) vs)) d.
Definition pick (vs : list var) (d : domain) : domain :=
  filter (fun vl => mem (fst vl) vs) d.

(** Union of two domains: first [d1], then the new variables of [d2]. *)
Definition join (d1 d2 : domain) : domain := d1 ++ drop (keys d1) d2.
