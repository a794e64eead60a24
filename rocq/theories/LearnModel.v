(** Model of the parameter learners: bcause/learning/parameter/parameter.py and
    bcause/learning/parameter/expectation_maximization.py, with the analysis of
    the data they use (bcause/util/datadeps.py, graphutils.py:57-67).

    A learner is an object that its methods change in place.  A method is
    modelled as a function from the state of the object to its new state and the
    exception raised, if any, so that what an interrupted call leaves behind is
    visible to later calls. *)

From Coq Require Import String Bool Arith ZArith QArith Qcanon List.
From Verif Require Import PyBase Num DomainModel NdArray StoreModel NumStore FactorModel GraphModel ModelModel InferModel.
Import ListNotations.
Local Open Scope nat_scope.

(** ** The iteration shared by all learners (parameter.py) *)

(** The state of a learner: `_prior_model`, `_model` and `_model_evolution`
    (both absent at first) and [l_sub], whatever else the subclass keeps. (parameter.py:8-19, 49-58) *)
Record learner (S : Type) := MkL {
  l_prior : pgm;
  l_model : option pgm;
  l_evo : option (list pgm);
  l_sub : S }.
Arguments MkL {S}.
Arguments l_prior {S}.
Arguments l_model {S}.
Arguments l_evo {S}.
Arguments l_sub {S}.

(** How a run ends: normally, with an exception, or not at all (the fuel given
    to the model's loop is used up). (parameter.py:67-84) *)
Inductive outcome := Done | Raised (e : err) | Running.

Section Learner.
  Context {S Data : Type}.
  (** The abstract methods, parameter.py:33-46: _process_data and _stop_learning
      may change what the subclass keeps, also when they raise. *)
  Variable process_data : learner S -> Data -> S * option err.
  Variable calculate_updated_factors : learner S -> S * res (dict var fobj).
  Variable stop_learning : learner S -> S * res bool.

  (** parameter.py:33-46 [with_sub] *)
  Definition with_sub (l : learner S) (s : S) : learner S := MkL (l_prior l) (l_model l) (l_evo l) s.

  (** parameter.py:48-52 [model_evolution] (the attribute it creates on the way
      has the same effect as its absence) *)
  Definition model_evolution (l : learner S) : list pgm :=
    match l_evo l with Some ms => ms | None => [l_prior l] end.

  (** parameter.py:54-57 [_record_model] *)
  Definition record_model (l : learner S) (m : pgm) : learner S :=
    MkL (l_prior l) (l_model l) (Some (model_evolution l ++ [m])) (l_sub l).

  (** parameter.py:61-62: the factors of the other variables are kept *)
  Definition complete_probs (m : pgm) (new_probs : dict var fobj) : res (dict var fobj) :=
    foldM (fun d v => if mem v (keys d) then Ok d
                      else let* f := dlook v (m_factors m) in Ok (dset v (as_fobj f) d))
          (nodes (m_graph m)) new_probs.

  (** parameter.py:60-64 [_update_model] *)
  Definition update_model (l : learner S) (new_probs : dict var fobj) : learner S * option err :=
    match l_model l with
    | None => (l, Some AttributeError)
    | Some m =>
        match (let* fs := complete_probs m new_probs in m_builder m (m_graph m) (Some (FsDict fs)) false) with
        | Raise e => (l, Some e)
        | Ok m' => (record_model (MkL (l_prior l) (Some m') (l_evo l) (l_sub l)) m', None)
        end
    end.

  (** parameter.py:24-27 [step] *)
  Definition step (l : learner S) (data : option Data) : learner S * option err :=
    let (l, e) := match data with
                  | None => (l, None)
                  | Some d => let (s, e) := process_data l d in (with_sub l s, e)
                  end in
    match e with
    | Some e => (l, Some e)
    | None =>
        let (s, r) := calculate_updated_factors l in
        let l := with_sub l s in
        match r with
        | Raise e => (l, Some e)
        | Ok new_probs => update_model l new_probs
        end
    end.

  (** expectation_maximization.py:24-26 and gradient.py:47-49 [initialize]: the
      model becomes a copy of the prior model *)
  Definition initialize (l : learner S) (data : Data) : learner S * option err :=
    match m_copy (l_prior l) with
    | Raise e => (l, Some e)
    | Ok m => let l := MkL (l_prior l) (Some m) (l_evo l) (l_sub l) in
              let (s, e) := process_data l data in (with_sub l s, e)
    end.

  (** parameter.py:78-82, the loop of [run]; [max_iter = None] is infinity *)
  Fixpoint run_loop (fuel : nat) (max_iter : option Z) (i : Z) (l : learner S) : learner S * outcome :=
    if match max_iter with Some k => Z.ltb i k | None => true end then
      match fuel with
      | 0 => (l, Running)
      | Datatypes.S fuel =>
          let (l, e) := step l None in
          match e with
          | Some e => (l, Raised e)
          | None =>
              let (s, r) := stop_learning l in
              let l := with_sub l s in
              match r with
              | Raise e => (l, Raised e)
              | Ok true => (l, Done)
              | Ok false => run_loop fuel max_iter (i + 1)%Z l
              end
          end
      end
    else (l, Done).

  (** parameter.py:66-82 [run] *)
  Definition run (fuel : nat) (l : learner S) (data : Data) (max_iter : option Z) : learner S * outcome :=
    let (l, e) := initialize l data in
    match e with
    | Some e => (l, Raised e)
    | None => run_loop fuel max_iter 0 l
    end.
End Learner.

(** ** Which observations matter for a variable (datadeps.py) *)

(** equality of cells (NaN equals NaN in drop_duplicates) *)
#[export] Instance EqD_option {A} `{EqD A} : EqD (option A).
Proof. intros a b. decide equality. Defined.

(** A pandas DataFrame: the columns and the rows, None standing for NaN. (datadeps.py:15-19) *)
Record frame := mkF { f_cols : list var; f_rows : list (list (option state)) }.
(** A row as a dictionary (to_dict("records")). (datadeps.py:16-19) *)
Definition row_dict (cols : list var) (r : list (option state)) : dict var (option state) :=
  dict_of (combine cols r).
(** The values that are not NaN, as an observation. (datadeps.py:32) *)
Definition known (d : dict var (option state)) : obs :=
  flat_map (fun vs => match snd vs with Some s => [(fst vs, s)] | None => [] end) d.

(** networkx 2.6.3 d_separated for sets x, y, z: an exception if the graph is
    not acyclic or lacks a node; leaves outside x, y and z are removed until
    there are none (the loop of barren_removal does the same), then the arcs
    out of z; the sets are separated if no weakly connected component meets
    both x and y. (graphutils.py:57-64, datadeps.py:33) *)
Definition d_separated (g : digraph) (x y z : list var) : res bool :=
  if 0 <? length (simple_cycles g) then Raise NetworkXError else
  if negb (forallb (fun v => mem v (nodes g)) (x ++ y ++ z)) then Raise NodeNotFound else
  match barren_removal g (x ++ y ++ z) with
  | None => Raise Unmodelled
  | Some g =>
      let g := remove_outgoing_edges g z in
      let* bs := mapM (fun v => match component g v with
                                | Some c => Ok (existsb (fun w => mem w c) y)
                                | None => Raise Unmodelled
                                end) x in
      Ok (negb (existsb (fun b => b) bs))
  end.
(** graphutils.py:57-64 [dsep_nodes], one target *)
Definition dsep_nodes (g : digraph) (target : var) (evidence : list var) : res (list var) :=
  let* bs := mapM (fun v => let* b := d_separated g [target] [v] (filter (fun w => if eqd w v then false else true) evidence) in
                            Ok (v, b)) (nodes g) in
  Ok (map fst (filter snd bs)).
(** graphutils.py:66-67 [dcon_nodes] *)
Definition dcon_nodes (g : digraph) (target : var) (evidence : list var) : res (list var) :=
  let* sep := dsep_nodes g target evidence in
  Ok (filter (fun v => negb (mem v sep) && (if eqd v target then false else true)) (nodes g)).

(** datadeps.py:29-32 [dsep_filter]: what is observed in a row and matters for
    the target *)
Definition dsep_filter (g : digraph) (target : var) (d : dict var (option state)) : res obs :=
  let o := known d in
  let* con := dcon_nodes g target (keys o) in
  Ok (filter (fun vs => mem (fst vs) con || (if eqd (fst vs) target then true else false)) o).

(** datadeps.py:38 [obs_eq] *)
Definition obs_eq (o1 o2 : obs) : bool :=
  set_eqb (keys o1) (keys o2) &&
  forallb (fun vs => match dget (fst vs) o2 with Some s => if eqd s (snd vs) then true else false | None => false end) o1.
(** datadeps.py:36-47 [__obs_unique]: entry i is dropped if an earlier one is
    equal to it *)
Definition obs_unique (l : list obs) : list obs :=
  rev (snd (fold_left (fun acc o => (fst acc ++ [o], if existsb (obs_eq o) (fst acc) then snd acc else o :: snd acc))
                      l ([], []))).
(** datadeps.py:15-18 and 27-34 [get_minimal_obs_blanket]; pandas'
    drop_duplicates keeps the first of equal rows (NaN equals NaN) *)
Definition drop_duplicates (l : list (list (option state))) : list (list (option state)) := rev (nodup eqd (rev l)).
(** datadeps.py:15-18, 29-36 [get_minimal_obs_blanket] *)
Definition get_minimal_obs_blanket (g : digraph) (data : frame) (target : var) : res (list obs) :=
  let* os := mapM (dsep_filter g target) (map (row_dict (f_cols data)) (drop_duplicates (f_rows data))) in
  Ok (obs_unique os).

(** ** Expectation maximization (expectation_maximization.py) *)

(** The attributes of ExpectationMaximization: _trainable_vars (None when not
    given), _converged_vars (a set), and _data with the analysis of it. (expectation_maximization.py:43-48, 79-89) *)
Record em_state := MkE {
  em_trainable : option (list var);
  em_converged : list var;
  em_data : option (digraph * frame) }.

(** expectation_maximization.py:43-48 [__init__] *)
Definition em_init (prior : pgm) (trainable : option (list var)) : learner em_state :=
  MkL prior None None (MkE trainable [] None).

(** expectation_maximization.py:80-82: the columns added to the data frame *)
Definition add_missing (prior : pgm) (data : frame) : frame :=
  let missing := filter (fun v => negb (mem v (f_cols data))) (nodes (m_graph prior)) in
  mkF (f_cols data ++ missing) (map (fun r => r ++ map (fun _ => None) missing) (f_rows data)).
(** data.columns[data.isna().any()] (expectation_maximization.py:85) *)
Definition incomplete_columns (data : frame) : list var :=
  filter (fun v => existsb (fun r => match dget v (row_dict (f_cols data) r) with Some None => true | _ => false end)
                           (f_rows data)) (f_cols data).

(** expectation_maximization.py:79-90 [_process_data]; the frame in the state
    is the caller's object, with the columns added to it *)
Definition em_process_data (l : learner em_state) (data : frame) : em_state * option err :=
  let s := l_sub l in
  let data := add_missing (l_prior l) data in
  let trainable := match em_trainable s with
                   | Some (v :: r) => v :: r
                   | _ => incomplete_columns data
                   end in
  match l_model l with
  | None => (MkE (Some trainable) (em_converged s) (em_data s), Some AttributeError)
  | Some m => (MkE (Some trainable) (em_converged s) (Some (m_graph m, data)), None)
  end.

(** `sum(reduce(lambda x, y: x & y, [data[v] == s for v, s in obs.items()]))`:
    the number of rows that agree with the observation (expectation_maximization.py:52) *)
Definition matches (cols : list var) (o : obs) (r : list (option state)) : bool :=
  forallb (fun vs => match dget (fst vs) (row_dict cols r) with
                     | Some (Some s) => if eqd s (snd vs) then true else false
                     | _ => false
                     end) o.
(** expectation_maximization.py:52 [count_rows] *)
Definition count_rows (data : frame) (o : obs) : res nat :=
  match o with
  | [] => Raise TypeError
  | _ => Ok (length (filter (matches (f_cols data) o) (f_rows data)))
  end.

Section EM.
  (** the inference method (a parameter of the learner): query(target, evidence)
      on a model *)
  Variable query : pgm -> list var -> obs -> res mfactor.
  (** the order in which a python set is iterated *)
  Variable set_iter : list var -> list var.
  (** sum(rel_entr(P.values, Q.values)) == 0 *)
  Variable no_divergence : list num -> list num -> res bool.
  (** the default store class of a new factor *)
  Variable dflt : vtype.

  (** self.trainable_vars where it is iterated (None is not iterable) (expectation_maximization.py:39) *)
  Definition trainable_list (s : em_state) : res (list var) :=
    match em_trainable s with Some l => Ok l | None => Raise TypeError end.
  (** set(self.trainable_vars).difference(self._converged_vars), iterated (expectation_maximization.py:60, 74) *)
  Definition active_vars (s : em_state) : res (list var) :=
    let* tr := trainable_list s in
    Ok (set_iter (filter (fun v => negb (mem v (em_converged s))) tr)).

  (** the domains of a model as an argument; a variable without one has None (expectation_maximization.py:36) *)
  Definition known_domains (m : pgm) : domain :=
    flat_map (fun vd => match snd vd with Some d => [(fst vd, d)] | None => [] end) (m_domains m).
  (** expectation_maximization.py:33-37 [get_pcounts]: zero counts; a domain that
      is None is a TypeError of the constructor *)
  Definition get_pcounts (prior : pgm) (v : var) : res mfactor :=
    let* pa := get_parents (m_graph prior) [v] in
    if existsb (fun w => match dget w (m_domains prior) with Some None => true | _ => false end) (v :: pa)
    then Raise TypeError else
    let* dom := subdomain (known_domains prior) (v :: pa) in
    mf_init dom (FScalar n0) None None dflt.
  (** expectation_maximization.py:32-39 [_get_pseudocounts_dict] *)
  Definition get_pseudocounts_dict (prior : pgm) (tr : list var) : res (dict var mfactor) :=
    let* l := mapM (fun v => let* f := get_pcounts prior v in Ok (v, f)) tr in
    Ok (dict_of l).

  (** expectation_maximization.py:50-52 [_get_obs_counts] *)
  Definition get_obs_counts (s : em_state) (v : var) : res (list (obs * nat)) :=
    match em_data s with
    | None => Raise AttributeError
    | Some (g, data) =>
        let* os := get_minimal_obs_blanket g data v in
        mapM (fun o => let* c := count_rows data o in Ok (o, c)) os
    end.

  (** expectation_maximization.py:62-69, the observations of one variable *)
  Definition expected_counts (prior m : pgm) (v : var) (ocs : list (obs * nat)) (pc : mfactor) : res mfactor :=
    foldM (fun pc oc =>
             let* pa := get_parents (m_graph prior) [v] in
             let hidden := filter (fun x => negb (mem x (keys (fst oc)))) (v :: pa) in
             let* q := query m hidden (fst oc) in
             let* ec := mf_multiply q (ONum (Fin (Q2Qc (inject_Z (Z.of_nat (snd oc)))))) in
             mf_addition pc (OFac ec)) ocs pc.

  (** expectation_maximization.py:56-71 [_expectation] *)
  Definition expectation (l : learner em_state) : res (dict var mfactor) :=
    match l_model l with
    | None => Raise AttributeError
    | Some m =>
        let* tr := trainable_list (l_sub l) in
        let* pcounts := get_pseudocounts_dict (l_prior l) tr in
        let* act := active_vars (l_sub l) in
        foldM (fun pcounts v =>
                 let* ocs := get_obs_counts (l_sub l) v in
                 let* pc := dlook v pcounts in
                 let* pc := expected_counts (l_prior l) m v ocs pc in
                 Ok (dset v pc pcounts)) act pcounts
    end.

  (** expectation_maximization.py:73-78 [_maximization] *)
  Definition maximize (joint : mfactor) (v : var) : res mfactor :=
    let* den := mf_marginalize joint [v] in
    mf_divide joint (OFac den).
  (** expectation_maximization.py:72-77 [maximization] *)
  Definition maximization (s : em_state) (pcounts : dict var mfactor) : res (dict var fobj) :=
    let* act := active_vars s in
    foldM (fun new_probs v =>
             let* joint := dlook v pcounts in
             let* p := maximize joint v in
             Ok (dset v (FM p) new_probs)) act [].

  (** expectation_maximization.py:28-30 [_calculate_updated_factors] *)
  Definition em_calculate (l : learner em_state) : em_state * res (dict var fobj) :=
    (l_sub l, let* pcounts := expectation l in maximization (l_sub l) pcounts).

  (** P.values of a factor in a model; those of a deterministic factor are
      states, whose relative entropy (an exception, or a number computed from
      the codes of the states) is left out (expectation_maximization.py:98) *)
  Definition fo_values (f : option fobj) : res (list num) :=
    match f with
    | Some (FM f) => mf_values f
    | Some (FD _) => Raise Unmodelled
    | _ => Raise AttributeError
    end.
  (** self.model_evolution[-2].factors[v] and [-1] (expectation_maximization.py:96-97) *)
  Definition last_two (ms : list pgm) : res (pgm * pgm) :=
    match rev ms with q :: p :: _ => Ok (p, q) | _ => Raise IndexError end.
  (** expectation_maximization.py:92-101 [_stop_learning] *)
  Fixpoint check_converged (evo : list pgm) (vs : list var) (conv : list var) : list var * res unit :=
    match vs with
    | [] => (conv, Ok tt)
    | v :: vs =>
        if mem v conv then check_converged evo vs conv else
        match (let* pq := last_two evo in
               let* p := dlook v (m_factors (fst pq)) in
               let* q := dlook v (m_factors (snd pq)) in
               let* pv := fo_values p in
               let* qv := fo_values q in
               no_divergence pv qv) with
        | Raise e => (conv, Raise e)
        | Ok true => check_converged evo vs (conv ++ [v])
        | Ok false => check_converged evo vs conv
        end
    end.
  (** expectation_maximization.py:91-101 [em_stop] *)
  Definition em_stop (l : learner em_state) : em_state * res bool :=
    let s := l_sub l in
    match trainable_list s with
    | Raise e => (s, Raise e)
    | Ok tr =>
        let (conv, r) := check_converged (model_evolution l) tr (em_converged s) in
        (MkE (em_trainable s) conv (em_data s), let* _ := r in Ok (set_eqb tr conv))
    end.

  (** step and run of an ExpectationMaximization object (parameter.py:24-27) *)
  Definition em_step (l : learner em_state) (data : option frame) : learner em_state * option err :=
    step em_process_data em_calculate l data.
  (** parameter.py:67-84 [em_run] *)
  Definition em_run (fuel : nat) (l : learner em_state) (data : frame) (max_iter : option Z)
    : learner em_state * outcome :=
    run em_process_data em_calculate em_stop fuel l data max_iter.
End EM.
