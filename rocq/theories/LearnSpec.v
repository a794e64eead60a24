(** Vocabulary of the statements about parameter learning. *)

From Coq Require Import String Bool Arith ZArith QArith Qcanon List.
From Verif Require Import PyBase Num DomainModel NdArray StoreModel NumStore FactorModel GraphModel ModelModel InferModel
  LearnModel ModelSpec.
Import ListNotations.
Local Open Scope nat_scope.

(** [f'] is what a model of the kind of [m] stores when it is given [f] for [v]:
    [f] itself, except that an SCM that turns the equations of its endogenous
    variables into tables stores the table of an equation. *)
Definition kept_as (m : pgm) (v : var) (f f' : fobj) : Prop :=
  match f, m_kind m with
  | FD d, KScm endo true =>
      (In v endo -> exists g, df_to_multinomial d = Ok g /\ f' = FM g) /\ (~ In v endo -> f' = f)
  | _, _ => f' = f
  end.

(** [m'] is [m] with the factors of [probs] in place of its own. *)
Definition updated (m : pgm) (probs : dict var fobj) (m' : pgm) : Prop :=
  m_graph m' = m_graph m /\
  forall v f, In v (nodes (m_graph m)) ->
    dget v probs = Some f \/ (dget v probs = None /\ stored m v f) ->
    exists f', kept_as m' v f f' /\ stored m' v f'.

Section Histories.
  Context {S Data : Type}.
  Variable process_data : learner S -> Data -> S * option err.
  Variable calculate : learner S -> S * res (dict var fobj).
  Variable stop : learner S -> S * res bool.

  (** The learner goes from [l] through the states [ts], one step at a time; the
      stopping test after each step but the last says no. *)
  Fixpoint goes_on (l : learner S) (ts : list (learner S)) : Prop :=
    match ts with
    | [] => True
    | t :: ts =>
        step process_data calculate l None = (t, None) /\
        match ts with
        | [] => True
        | _ => exists s, stop t = (s, Ok false) /\ goes_on (with_sub t s) ts
        end
    end.

  (** A method call on the learner: run (with the fuel that the model's loop is
      given) or step. *)
  Inductive call := CRun (fuel : nat) (data : Data) (max_iter : option Z) | CStep (data : option Data).
  Definition perform (l : learner S) (c : call) : learner S :=
    match c with
    | CRun fuel data max_iter => fst (run process_data calculate stop fuel l data max_iter)
    | CStep data => fst (step process_data calculate l data)
    end.
  Definition history (l : learner S) (cs : list call) : learner S := fold_left perform cs l.
  (** The largest number of steps a call may make. *)
  Definition allowed (c : call) (n : nat) : Prop :=
    match c with CRun _ _ (Some k) => (Z.of_nat n <= Z.max 0 k)%Z | CRun _ _ None => True | CStep _ => n <= 1 end.
End Histories.
Arguments CRun {Data}.
Arguments CStep {Data}.

(** ** Expectation maximization *)

(** The trainable variables of a learner. *)
Definition trains (l : learner em_state) (v : var) : Prop :=
  exists tr, em_trainable (l_sub l) = Some tr /\ In v tr.
(** The variables whose factors it considers converged. *)
Definition has_converged (l : learner em_state) (v : var) : Prop := In v (em_converged (l_sub l)).

(** A python set iterates its elements, each once. *)
Definition iterates (set_iter : list var -> list var) : Prop :=
  forall l, NoDup (set_iter l) /\ same_set (set_iter l) l.

(** A model whose stored factors are what set_factor of its class stores: an SCM
    that turns equations into tables has no equation left, and it has a list of
    endogenous variables unless there are no arcs. *)
Definition settled (m : pgm) : Prop :=
  match m_kind m with
  | KBn => True
  | KScm endo cast =>
      (endo = [] -> edges (m_graph m) = []) /\
      (cast = true -> forall v d, In v endo -> ~ stored m v (FD d))
  end.

(** What `sum(rel_entr(P, Q)) == 0` decides for the values of two tables with
    the same total (Gibbs' inequality): whether they are equal. *)
Definition divergence_test (no_divergence : list num -> list num -> res bool) : Prop :=
  forall P Q, Forall (fun x => exists q, x = Fin q /\ (0 <= q)%Qc) P -> Forall (fun x => exists q, x = Fin q /\ (0 <= q)%Qc) Q ->
    nsum P = nsum Q -> (P = Q -> no_divergence P Q = Ok true) /\ (P <> Q -> no_divergence P Q = Ok false).
