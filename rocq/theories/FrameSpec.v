(** Vocabulary of the statements about factors read from data frames. *)

From Coq Require Import String Bool Arith List.
From Verif Require Import PyBase DomainModel LearnModel Spec.
Import ListNotations.
Local Open Scope nat_scope.

(** A cell of column [v] holds a state of [v]. *)
Definition cell (D : domain) (v : var) (s : state) : Prop := exists l, dget v D = Some l /\ In s l.
(** [xs] are states for the columns [cols]. *)
Definition configuration (D : domain) (cols : list var) (xs : list state) : Prop := Forall2 (cell D) cols xs.

(** The rows [rs] tabulate a function: one row for every configuration of the
    columns [cols], with the value, a state of [v], in the last column. *)
Definition function_table (D : domain) (cols : list var) (v : var) (rs : list (list state)) : Prop :=
  NoDup rs /\
  (forall r, In r rs -> exists xs y, r = xs ++ [y] /\ configuration D cols xs /\ cell D v y) /\
  (forall xs, configuration D cols xs -> exists y, In (xs ++ [y]) rs /\ forall y', In (xs ++ [y']) rs -> y' = y).

(** The frame with these rows. *)
Definition frame_of (cols : list var) (rs : list (list state)) : frame := mkF cols (map (map Some) rs).

(** All columns are known, with states that differ. *)
Definition known_columns (D : domain) (cols : list var) : Prop :=
  NoDup (keys D) /\ NoDup cols /\ forall v, In v cols -> exists l, dget v D = Some l /\ NoDup l /\ l <> [].

(** No name of a column is part of the name [v]. *)
Definition no_part (cols : list var) (v : var) : Prop :=
  forall w a b, In w cols -> v <> (a ++ w ++ b)%string.

(** A row without the entries that are no states of their columns. *)
Definition without_strangers (D : domain) (cols : list var) (r : list (option state)) : list (option state) :=
  map (fun vx => match snd vx with
                 | Some s => match dget (fst vx) D with
                             | Some l => if mem s l then Some s else None
                             | None => None
                             end
                 | None => None
                 end) (combine cols r).

(** The number of configurations of the columns. *)
Definition table_size (D : domain) (cols : list var) : nat :=
  fold_right Nat.mul 1 (map (fun v => match dget v D with Some l => length l | None => 0 end) cols).
