(** Model of the aggregation of learned models:
    bcause/learning/aggregator/aggregator.py and
    StructuralCausalModel.randomize_factors (cmodel.py:209-215).

    An aggregator is an object whose methods change it in place; each method is
    a function to the new state and the exception raised, if any. *)

From Coq Require Import String Bool Arith ZArith QArith Qcanon List.
From Verif Require Import PyBase Num DomainModel NdArray StoreModel NumStore FactorModel GenModel GraphModel ModelModel InferModel
  CausalModel UaiModel LearnModel.
Import ListNotations.
Local Open Scope nat_scope.

Section Aggregator.
  (** the learners and the models they produce *)
  Context {L M : Type}.

  (** aggregator.py:34-41: `_parallel`, `_generated_models`, `_learn_objects`.
      `_final_models` is a list of its own (empty) until merge makes it the
      very list object `_generated_models`; [a_merged] says which. *)
  Record aggregator := MkA {
    a_parallel : bool;
    a_generated : list M;
    a_merged : bool;
    a_objects : list L }.

  (** aggregator.py:38-41 [reset], 34-36 [__init__] *)
  Definition a_reset (a : aggregator) : aggregator := MkA (a_parallel a) [] false [].
  (** aggregator.py:34-41 [a_new] *)
  Definition a_new (parallel : bool) : aggregator := MkA parallel [] false [].
  (** aggregator.py:46-48 [models]; += on the shared list shows here *)
  Definition a_models (a : aggregator) : list M := if a_merged a then a_generated a else [].

  (** What a call of generate(n) meets: [t_make i] is what `_single_generate(i)`
      does, the learner it appends to `_learn_objects` and the model it returns
      or an exception before the append.  In threads, [t_schedule] lists the
      tasks in the order in which they reach the append. (aggregator.py:53-56, 76-80, 93-97) *)
  Record tasks := MkT { t_number : Z; t_make : nat -> res (L * M); t_schedule : list nat }.

  (** aggregator.py:53, the list comprehension: the appends of the tasks before
      one that raises remain *)
  Fixpoint one_by_one (make : nat -> res (L * M)) (is : list nat) (objects : list L) : list L * res (list M) :=
    match is with
    | [] => (objects, Ok [])
    | i :: is =>
        match make i with
        | Raise e => (objects, Raise e)
        | Ok (l, m) => let (objects, r) := one_by_one make is (objects ++ [l]) in
                       (objects, let* ms := r in Ok (m :: ms))
        end
    end.
  (** aggregator.py:55-56, joblib's Parallel: the results are in the order of
      the tasks; an exception of a task is raised again (of several, which one
      depends on the timing: the model takes the first) *)
  Definition in_threads (t : tasks) (is : list nat) (objects : list L) : list L * res (list M) :=
    (objects ++ flat_map (fun i => match t_make t i with Ok (l, _) => [l] | Raise _ => [] end) (t_schedule t),
     let* lms := mapM (t_make t) is in Ok (map snd lms)).

  (** aggregator.py:50-56 [generate] *)
  Definition a_generate (a : aggregator) (t : tasks) : aggregator * option err :=
    if (t_number t <? 1)%Z then (a, Some ValueError) else
    let is := seq 0 (Z.to_nat (t_number t)) in
    let (objects, r) := if a_parallel a then in_threads t is (a_objects a)
                        else one_by_one (t_make t) is (a_objects a) in
    match r with
    | Raise e => (MkA (a_parallel a) (a_generated a) (a_merged a) objects, Some e)
    | Ok ms => (MkA (a_parallel a) (a_generated a ++ ms) (a_merged a) objects, None)
    end.
  (** aggregator.py:71-73 [merge] of SimpleModelAggregator *)
  Definition a_merge (a : aggregator) : aggregator := MkA (a_parallel a) (a_generated a) true (a_objects a).
  (** aggregator.py:66-68 [run] *)
  Definition a_run (a : aggregator) (t : tasks) : aggregator * option err :=
    let (a, e) := a_generate a t in
    match e with Some e => (a, Some e) | None => (a_merge a, None) end.
End Aggregator.
Arguments aggregator : clear implicits.
Arguments tasks : clear implicits.

(** ** The aggregator of EM runs *)

(** cmodel.py:209-215 [randomize_factors] of a copy; [draw x] is the array
    drawn for the variable [x] *)
Definition randomize_factors (dflt : vtype) (m : pgm) (vars : list var) (allow_zero : bool) (draw : var -> list num) : res pgm :=
  let* m := m_copy m in
  foldM (fun m x =>
           let* vs := relevat_vars (m_graph m) x in
           if existsb (fun w => match dget w (m_domains m) with Some None => true | _ => false end) vs
           then Raise TypeError else
           let* dom := var_parents_domain (known_domains m) (m_graph m) x in
           let* f := random_multinomial dom (filter (fun v => if eqd x v then false else true) (keys dom)) dflt allow_zero (draw x) in
           match set_factor m x (FM f) with
           | (m, None) => Ok m
           | (_, Some e) => Raise e
           end) vars m.

Section EMAggregator.
  Variable query : pgm -> list var -> obs -> res mfactor.
  Variable set_iter : list var -> list var.
  Variable no_divergence : list num -> list num -> res bool.
  Variable dflt : vtype.

  (** aggregator.py:84-89 [SimpleModelAggregatorEM.__init__]: the variables to
      train *)
  Definition agg_trainable (m : pgm) (trainable : option (list var)) : list var :=
    match trainable with Some (v :: r) => v :: r | _ => scm_exogenous m end.

  (** aggregator.py:75-80 [ModelAggregatorEM._single_generate].  The number of
      steps is at most max_iter, which serves as the fuel of the loop.  (The
      columns that the first run adds to the data frame are there for the others:
      adding them again changes nothing.) *)
  Definition em_generate (m : pgm) (data : frame) (trainable : option (list var)) (max_iter : Z) (draw : nat -> var -> list num)
      (i : nat) : res (learner em_state * pgm) :=
    let tr := agg_trainable m trainable in
    let* prior := randomize_factors dflt m tr false (draw i) in
    match em_run query set_iter no_divergence dflt (Z.to_nat max_iter) (em_init prior (Some tr)) data (Some max_iter) with
    | (l, Done) => match l_model l with Some m' => Ok (l, m') | None => Raise AttributeError end
    | (l, Raised e) => Raise e
    | (l, Running) => Raise Unmodelled
    end.
End EMAggregator.
