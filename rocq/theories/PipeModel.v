(** Model of the inference objects that train their models from data: EMCC and
    GDCC (bcause/inference/causal/multi.py:77-124) with the aggregator of
    gradient runs (bcause/learning/aggregator/aggregator.py:92-109).

    The models of one training are what an aggregator returns (AggModel.v), the
    object that uses them is that of MultiModel.v. *)

From Coq Require Import String Bool Arith ZArith QArith Qcanon List.
From Verif Require Import PyBase Num DomainModel NdArray StoreModel NumStore FactorModel GraphModel ModelModel InferModel
  CausalModel MultiModel LearnModel GradModel AggModel.
Import ListNotations.
Local Open Scope nat_scope.

Section GDAggregator.
  (** the numbers of the objective, and the optimiser (which keeps the tolerance
      aggregator.py:94 passes on), as in GradModel.v *)
  Variable L : Type.
  Variable l0 : L.
  Variable ladd : L -> L -> L.
  Variable lopp : L -> L.
  Variable lg : Qc -> L.
  Variable lnan : L.
  Variable minimize : option Z -> (list Qc -> res (option L)) -> list num -> res (list Qc).
  Variable dflt : vtype.

  (** aggregator.py:92-97 [ModelAggregatorGD._single_generate], with the
      variables to train of 101-109 [SimpleModelAggregatorGD.__init__], which are
      chosen as in the aggregator of EM runs *)
  Definition gd_generate (m : pgm) (data : frame) (trainable : option (list var)) (max_iter : option Z) (draw : nat -> var -> list num)
      (i : nat) : res (learner gr_state * pgm) :=
    let tr := agg_trainable m trainable in
    let* prior := randomize_factors dflt m tr false (draw i) in
    match gr_run L l0 ladd lopp lg lnan minimize dflt (gr_init prior (Some tr)) data max_iter with
    | (l, None) => match l_model l with Some m' => Ok (l, m') | None => Raise AttributeError end
    | (l, Some e) => Raise e
    end.
End GDAggregator.

(** multi.py:90-91, 116-117: a new aggregator runs; self._agg *)
Definition train_agg {S} (parallel : bool) (num_runs : Z) (make : nat -> res (S * pgm)) (schedule : list nat) : aggregator S pgm * option err :=
  a_run (a_new parallel) (MkT num_runs make schedule).
(** multi.py:92, 118: its models *)
Definition train_models {S} (parallel : bool) (num_runs : Z) (make : nat -> res (S * pgm)) (schedule : list nat) : res (list pgm) :=
  match train_agg parallel num_runs make schedule with
  | (a, None) => Ok (a_models a)
  | (_, Some e) => Raise e
  end.

(** multi.py:78-93, EMCC: what the k-th training returns.  [draw k i] are the
    random arrays of run [i] of that training, [schedule k] is the order in which
    its threads finish. *)
Definition emcc_trainer query set_iter no_divergence dflt (m : pgm) (data : frame) (max_iter num_runs : Z) (parallel : bool)
    (draw : nat -> nat -> var -> list num) (schedule : nat -> list nat) (k : nat) : res (list pgm) :=
  train_models parallel num_runs (em_generate query set_iter no_divergence dflt m data None max_iter (draw k)) (schedule k).
(** multi.py:104-120, GDCC *)
Definition gdcc_trainer L l0 ladd lopp lg lnan minimize dflt (m : pgm) (data : frame) (max_iter : option Z) (num_runs : Z) (parallel : bool)
    (draw : nat -> nat -> var -> list num) (schedule : nat -> list nat) (k : nat) : res (list pgm) :=
  train_models parallel num_runs (gd_generate L l0 ladd lopp lg lnan minimize dflt m data None max_iter (draw k)) (schedule k).

(** multi.py:122-124 [get_model_evolution] of an object whose last aggregator is
    [agg] (None before the first training); Python's indexing of a list *)
Definition get_model_evolution {S} (agg : option (aggregator (learner S) pgm)) (index : Z) : res (option (list pgm)) :=
  match agg with
  | None => Ok None
  | Some a =>
      let n := Z.of_nat (length (a_objects a)) in
      let j := if (index <? 0)%Z then (index + n)%Z else index in
      if (j <? 0)%Z then Raise IndexError else
      match nth_error (a_objects a) (Z.to_nat j) with
      | Some l => Ok (Some (model_evolution l))
      | None => Raise IndexError
      end
  end.

(** multi.py:96-102 [compile_incremental] of an EMCC object, one resumption of
    the generator (before it has raised): None is its end, otherwise it yields or
    raises.  The k-th training of the object makes [step_runs] models. *)
Definition compile_next {I} (make : pgm -> res I) (num_runs : Z) (w : world I) (i : nat) : world I * option (res unit) :=
  match nth_error (w_objects w) i with
  | None => (w, Some (Raise Unmodelled))
  | Some o =>
      if (Z.of_nat (length (list_at w (mi_models o))) <? num_runs)%Z
      then let (w, r) := compile_more make w i o in (w, Some r)
      else (w, None)
  end.
