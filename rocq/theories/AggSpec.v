(** Vocabulary of the statements about aggregators. *)

From Coq Require Import String Bool Arith ZArith Permutation List.
From Verif Require Import PyBase DomainModel GraphModel ModelModel CausalModel AggModel.
Import ListNotations.
Local Open Scope nat_scope.

Section AggSpec.
  Context {L M : Type}.

  (** The tasks of a call of run(n), by number. *)
  Definition task_list (t : tasks L M) : list nat := seq 0 (Z.to_nat (t_number t)).
  (** The call delivers the learners and models [ps], in the order of the
      tasks. *)
  Definition delivers (t : tasks L M) (ps : list (L * M)) : Prop :=
    (1 <= t_number t)%Z /\ Forall2 (fun i lm => t_make t i = Ok lm) (task_list t) ps.
  (** The call does not deliver: the number is wrong or a task raises. *)
  Definition fails (t : tasks L M) : Prop :=
    (t_number t < 1)%Z \/ exists i e, In i (task_list t) /\ t_make t i = Raise e.
  (** Every task that succeeds runs once; the others append nothing. *)
  Definition scheduled (t : tasks L M) : Prop := Permutation (t_schedule t) (task_list t).

  (** The aggregator after a sequence of calls of run, whether they raise or
      not. *)
  Definition runs (a : aggregator L M) (ts : list (tasks L M)) : aggregator L M :=
    fold_left (fun a t => fst (a_run a t)) ts a.
  (** The aggregator after a sequence of calls of generate. *)
  Definition generates (a : aggregator L M) (ts : list (tasks L M)) : aggregator L M :=
    fold_left (fun a t => fst (a_generate a t)) ts a.
End AggSpec.

(** The variables to train: those given, or all exogenous variables if none is. *)
Definition to_train (m : pgm) (given : option (list var)) (tr : list var) : Prop :=
  match given with
  | Some (v :: r) => tr = v :: r
  | _ => forall x, In x tr <-> In x (nodes (m_graph m)) /\ ~ In x (scm_endogenous m)
  end.
