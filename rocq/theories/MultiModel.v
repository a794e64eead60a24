(** Model of inference with several models:
    bcause/inference/causal/multi.py, with prob_necessity_sufficiency,
    prob_necessity and prob_sufficiency of causal.py:93-134 as inherited.

    The lists of models are objects: set_models keeps the list it is given, and
    `+=` in add_models extends that same list.  So the model has a heap of lists,
    named by their positions, and inference objects that refer to them. *)

From Coq Require Import String Bool Arith ZArith QArith Qcanon List.
From Verif Require Import PyBase Num DomainModel NdArray StoreModel NumStore FactorModel GenModel GraphModel ModelModel InferModel
  CausalModel.
Import ListNotations.
Local Open Scope nat_scope.

(** The arguments of query (multi.py:45): target, do, evidence, counterfactual,
    targets_subgraphs. *)
Record request := MkR {
  r_target : list var;
  r_do : doarg;
  r_evidence : obs;
  r_counterfactual : bool;
  r_subgraphs : option (list nat) }.

(** What the methods return: a list of factors, an interval factor, a list of
    numbers, or nothing. (multi.py:50-66) *)
Inductive answer := AFactors (fs : list mfactor) | AInterval (f : ifactor) | ANums (l : list num) | ANone.

(** Python's min and max of a non-empty list: the first of the least elements,
    where a comparison with NaN is false. (multi.py:50-66) *)
Definition py_min (l : list num) : res num :=
  match l with [] => Raise ValueError | x :: r => Ok (fold_left (fun m y => if nltb y m then y else m) r x) end.
(** multi.py:50-66 [py_max] *)
Definition py_max (l : list num) : res num :=
  match l with [] => Raise ValueError | x :: r => Ok (fold_left (fun m y => if nltb m y then y else m) r x) end.

Section Multi.
  (** `causal_inf_fn`: builds an inference object for one model; and its query *)
  Context {I : Type}.
  Variable make : pgm -> res I.
  Variable ask : I -> request -> res mfactor.
  (** DataStore.DEFAULT_STORE *)
  Variable dflt : vtype.

  (** The attributes: `_models` (a list object), `_compiled`, `_model` and
      `_causal_inf` (absent before the first compile), `_interval_result`.
      EMCC and GDCC objects train their models themselves: [mi_trainer k] is
      what the aggregator of the k-th training returns, [mi_trained] counts
      them. (multi.py:15-44, 79-120) *)
  Record multi := MkMI {
    mi_models : nat;
    mi_compiled : bool;
    mi_model : option pgm;
    mi_infs : option (list I);
    mi_interval : bool;
    mi_trainer : option (nat -> res (list pgm));
    mi_trained : nat }.
  (** multi.py:15-44, the list objects and the inference objects of a program [world] *)
  Record world := MkW { w_lists : list (list pgm); w_objects : list multi }.

  (** multi.py:15-44 [list_at] *)
  Definition list_at (w : world) (k : nat) : list pgm := nth k (w_lists w) [].
  (** a new list object (multi.py:15-20) *)
  Definition new_list (w : world) (ms : list pgm) : world * nat :=
    (MkW (w_lists w ++ [ms]) (w_objects w), length (w_lists w)).
  (** multi.py:15-44, replacing the object at an address [put] *)
  Fixpoint put {A} (l : list A) (k : nat) (x : A) : list A :=
    match l, k with
    | [], _ => []
    | _ :: r, 0 => x :: r
    | y :: r, S k => y :: put r k x
    end.
  (** multi.py:15-44, an assignment to attributes of an object [put_object] *)
  Definition put_object (w : world) (i : nat) (o : multi) : world := MkW (w_lists w) (put (w_objects w) i o).
  (** `models or []`: a new list for None or an empty one (multi.py:15-20) *)
  Definition or_new (w : world) (models : option nat) : world * nat :=
    match models with
    | Some k => match list_at w k with [] => new_list w [] | _ => (w, k) end
    | None => new_list w []
    end.

  (** multi.py:29-31 [set_models] *)
  Definition set_models (w : world) (i : nat) (o : multi) (models : option nat) : world :=
    let (w, k) := or_new w models in
    put_object w i (MkMI k false (mi_model o) (mi_infs o) (mi_interval o) (mi_trainer o) (mi_trained o)).
  (** multi.py:33-36 [add_models] *)
  Definition add_models (w : world) (i : nat) (o : multi) (models : option nat) : world :=
    let ms := match models with Some k => list_at w k | None => [] end in
    let k := mi_models o in
    put_object (MkW (put (w_lists w) k (list_at w k ++ ms)) (w_objects w)) i
      (MkMI k false (mi_model o) (mi_infs o) (mi_interval o) (mi_trainer o) (mi_trained o)).
  (** multi.py:16-23 [__init__]: `models or []` is passed to set_models; multi.py:80-87, 105-114 for the trained kinds *)
  Definition new_multi (w : world) (models : option nat) (interval : bool) (trainer : option (nat -> res (list pgm))) : world :=
    let (w, k) := or_new w models in
    let (w, k) := or_new w (Some k) in
    MkW (w_lists w) (w_objects w ++ [MkMI k false None None interval trainer 0]).
  (** multi.py:68-69 [set_interval_result] *)
  Definition set_interval (w : world) (i : nat) (o : multi) (b : bool) : world :=
    put_object w i (MkMI (mi_models o) (mi_compiled o) (mi_model o) (mi_infs o) b (mi_trainer o) (mi_trained o)).

  (** multi.py:38-43 [compile] *)
  Definition base_compile (w : world) (i : nat) (o : multi) : world * res unit :=
    match list_at w (mi_models o) with
    | [] => (w, Raise ValueError)
    | m :: ms =>
        match mapM make (m :: ms) with
        | Raise e => (put_object w i (MkMI (mi_models o) (mi_compiled o) (Some m) (mi_infs o) (mi_interval o) (mi_trainer o) (mi_trained o)), Raise e)
        | Ok infs => (put_object w i (MkMI (mi_models o) true (Some m) (Some infs) (mi_interval o) (mi_trainer o) (mi_trained o)), Ok tt)
        end
    end.
  (** the aggregator of an EMCC or GDCC object runs (multi.py:89-91, 98-100,
      116-118); its list of models is a new object *)
  Definition train (w : world) (i : nat) (o : multi) (gen : nat -> res (list pgm)) : world * multi * res nat :=
    let o := MkMI (mi_models o) (mi_compiled o) (mi_model o) (mi_infs o) (mi_interval o) (mi_trainer o) (S (mi_trained o)) in
    let w := put_object w i o in
    match gen (pred (mi_trained o)) with
    | Raise e => (w, o, Raise e)
    | Ok ms => let (w, k) := new_list w ms in (w, o, Ok k)
    end.
  (** [compile] of the class of the object: multi.py:38-43, or 89-93 and 116-120 *)
  Definition compile (w : world) (i : nat) (o : multi) : world * res unit :=
    match mi_trainer o with
    | None => base_compile w i o
    | Some gen =>
        match train w i o gen with
        | (w, o, Raise e) => (w, Raise e)
        | (w, o, Ok k) =>
            let w := set_models w i o (Some k) in
            match nth_error (w_objects w) i with
            | Some o => base_compile w i o
            | None => (w, Raise Unmodelled)
            end
        end
    end.
  (** multi.py:96-102 [compile_incremental], one turn of its loop (the caller
      asks for another while there are fewer than num_runs models) *)
  Definition compile_more (w : world) (i : nat) (o : multi) : world * res unit :=
    match mi_trainer o with
    | None => (w, Raise AttributeError)
    | Some gen =>
        match train w i o gen with
        | (w, o, Raise e) => (w, Raise e)
        | (w, o, Ok k) =>
            let w := add_models w i o (Some k) in
            match nth_error (w_objects w) i with
            | Some o => base_compile w i o
            | None => (w, Raise Unmodelled)
            end
        end
    end.

  (** `.values` of an interval factor (factor.py:90-92) *)
  Definition if_values (f : ifactor) : res (list num) := values_list (if_store f).
  (** multi.py:49-66 [_process_output] *)
  Definition process_output (interval : bool) (r : answer) (obs : option obs) : res answer :=
    let* r := match obs with
              | None => Ok r
              | Some o =>
                  match r with
                  | AFactors fs => let* l := mapM (fun f => mf_get_value f o) fs in Ok (ANums l)
                  | AInterval f => let* g := if_restrict f o in let* l := if_values g in Ok (ANums l)
                  | _ => Raise AttributeError
                  end
              end in
    if interval then
      match r with
      | ANums l => let* lo := py_min l in let* hi := py_max l in Ok (ANums [lo; hi])
      | AFactors [] => Raise ValueError
      | AFactors fs => let* f := from_precise dflt fs in Ok (AInterval f)
      | _ => Raise TypeError
      end
    else Ok r.

  (** multi.py:45-47 [query] *)
  Definition query (w : world) (i : nat) (o : multi) (rq : request) : world * res answer :=
    let (w, e) := if mi_compiled o then (w, Ok tt) else compile w i o in
    match e with
    | Raise e => (w, Raise e)
    | Ok _ =>
        match nth_error (w_objects w) i with
        | None => (w, Raise Unmodelled)
        | Some o =>
            match mi_infs o with
            | None => (w, Raise AttributeError)
            | Some infs => (w, let* fs := mapM (fun f => ask f rq) infs in process_output (mi_interval o) (AFactors fs) None)
            end
        end
    end.

  (** causal.py:95-96 with self.model, which does not exist before the first
      compile *)
  Definition true_false_of (o : multi) (v : var) (given : option (state * state)) : res (state * state) :=
    match given with
    | Some p => Ok p
    | None => match mi_model o with None => Raise AttributeError | Some m => true_false m v None end
    end.
  (** which of the three probabilities: causal.py:93-103, 108-120, 122-134 *)
  Inductive probability := PNS | PN | PS.
  (** the query made and the observation read off its result (causal.py:93-134) *)
  Definition prob_request (p : probability) (cause effect : var) (tc fc te fe : state) : request * obs :=
    match p with
    | PNS => (MkR [effect; effect] (DoList [[(cause, fc)]; [(cause, tc)]]) [] true (Some [1; 2]),
              dict_of [(effect ++ "_1", fe); (effect ++ "_2", te)]%string)
    | PN => (MkR [effect] (DoDict [(cause, fc)]) (dict_of [(cause, tc); (effect, te)]) true None, [((effect ++ "_1")%string, fe)])
    | PS => (MkR [effect] (DoDict [(cause, tc)]) (dict_of [(cause, fc); (effect, fe)]) true None, [((effect ++ "_1")%string, te)])
    end.
  (** causal.py:93-134, multi.py:46-66 [prob] *)
  Definition prob (w : world) (i : nat) (o : multi) (p : probability) (cause effect : var) (tfc tfe : option (state * state))
    : world * res answer :=
    match (let* a := true_false_of o cause tfc in let* b := true_false_of o effect tfe in Ok (a, b)) with
    | Raise e => (w, Raise e)
    | Ok ((tc, fc), (te, fe)) =>
        let (rq, at_) := prob_request p cause effect tc fc te fe in
        let (w, r) := query w i o rq in
        (w, let* r := r in process_output (mi_interval o) r (Some at_))
    end.

  (** The statements of a program using such objects; objects and lists are
      named by their numbers.  [OList] creates a list, [OMulti] and [OTrained]
      an inference object. (multi.py:16-69) *)
  Inductive op :=
  | OList (ms : list pgm)
  | OMulti (models : option nat) (interval : bool)
  | OTrained (gen : nat -> res (list pgm)) (interval : bool)
  | OSet (i : nat) (models : option nat)
  | OAdd (i : nat) (models : option nat)
  | OInterval (i : nat) (b : bool)
  | OCompile (i : nat)
  | OMore (i : nat)
  | OQuery (i : nat) (rq : request)
  | OProb (i : nat) (p : probability) (cause effect : var) (tfc tfe : option (state * state)).

  (** An object that does not exist is not a program's: Unmodelled. (multi.py:16-69) *)
  Definition on (w : world) (i : nat) (f : multi -> world * res answer) : world * res answer :=
    match nth_error (w_objects w) i with Some o => f o | None => (w, Raise Unmodelled) end.
  (** multi.py:16-69, a call whose result is dropped [no_answer] *)
  Definition no_answer (wr : world * res unit) : world * res answer := (fst wr, let* _ := snd wr in Ok ANone).
  (** multi.py:16-69, one statement [exec] *)
  Definition exec (w : world) (s : op) : world * res answer :=
    match s with
    | OList ms => (fst (new_list w ms), Ok ANone)
    | OMulti models interval => (new_multi w models interval None, Ok ANone)
    | OTrained gen interval => (new_multi w None interval (Some gen), Ok ANone)
    | OSet i models => on w i (fun o => (set_models w i o models, Ok ANone))
    | OAdd i models => on w i (fun o => (add_models w i o models, Ok ANone))
    | OInterval i b => on w i (fun o => (set_interval w i o b, Ok ANone))
    | OCompile i => on w i (fun o => no_answer (compile w i o))
    | OMore i => on w i (fun o => no_answer (compile_more w i o))
    | OQuery i rq => on w i (fun o => query w i o rq)
    | OProb i p cause effect tfc tfe => on w i (fun o => prob w i o p cause effect tfc tfe)
    end.
  (** multi.py:16-69, the statements one after the other [program] *)
  Definition program (w : world) (ss : list op) : world := fold_left (fun w s => fst (exec w s)) ss w.
End Multi.
Arguments MkW {I}.
Arguments MkMI {I}.
Arguments op : clear implicits.
Arguments world : clear implicits.
Arguments multi : clear implicits.

(** multi.py:20-22: the default `causal_inf_fn`, CausalVariableElimination, and
    its query (causal.py:79-85) *)
Definition ve_make (m : pgm) : res pgm := cve_init m.
(** multi.py:20-22, 46-48 [ve_ask] *)
Definition ve_ask (heur : digraph -> list var -> dict var nat -> res (list var)) (so : list (list var) -> list var) (m1 : pgm) (rq : request) : res mfactor :=
  ci_query heur so m1 (r_target rq) (r_do rq) (r_evidence rq) (r_counterfactual rq) (r_subgraphs rq).
