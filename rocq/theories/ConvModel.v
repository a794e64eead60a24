(** Model of the conversions between causal models and Bayesian networks
    (bcause/models/transform/conversion.py) and of the methods that give a model
    random tables (bcause/models/cmodel.py:209-231, bcause/models/bnet.py:30-34). *)

From Coq Require Import String Bool Arith ZArith QArith Qcanon List.
From Verif Require Import PyBase Num DomainModel NdArray StoreModel NumStore FactorModel GenModel GraphModel ModelModel InferModel
  CausalModel UaiModel LearnModel AggModel.
Import ListNotations.
Local Open Scope nat_scope.

(** ** Conversions *)

(** conversion.py:7: a DeterministicFactor becomes a table, anything else is
    kept *)
Definition fo_multinomial (f : fobj) : res fobj :=
  match f with
  | FD d => let* h := df_to_multinomial d in Ok (FM h)
  | _ => Ok f
  end.
(** conversion.py:6-8 [causal_to_bnet] *)
Definition causal_to_bnet (m : pgm) : res pgm :=
  let* fs := mapM fo_multinomial (vals (m_factor_dict m)) in
  bn_init (GDag (m_graph m)) (Some (FsList fs)) true.
(** conversion.py:10-11 [bnet_to_causal] *)
Definition bnet_to_causal (m : pgm) : res pgm :=
  scm_init (GDag (m_graph m)) (Some (FsDict (m_factor_dict m))) None true true.

(** ** Random tables

    The methods change the model in place: the result is the changed model and
    the exception raised, if any. *)

(** A loop over [xs] whose body changes the model; the first exception ends it. (cmodel.py:211-214, 218-221, 224-227) *)
Fixpoint for_each {X} (body : pgm -> X -> pgm * option err) (xs : list X) (m : pgm) : pgm * option err :=
  match xs with
  | [] => (m, None)
  | x :: r => match body m x with
              | (m, None) => for_each body r m
              | (m, Some e) => (m, Some e)
              end
  end.
(** `self.set_factor(x, f)` with the table [f] computed before, or not (cmodel.py:214, 221, 227) *)
Definition set_computed (m : pgm) (x : var) (f : res mfactor) : pgm * option err :=
  match f with
  | Ok f => set_factor m x (FM f)
  | Raise e => (m, Some e)
  end.
(** The variables of a domain other than [x] (cmodel.py:213,220) *)
Definition others (x : var) (dom : domain) : list var := filter (fun v => if eqd x v then false else true) (keys dom).

Section Fill.
  (** DataStore.DEFAULT_STORE *)
  Variable dflt : vtype.
  (** The random choices of np.random.choice (domainutils.py:73-84) for the table
      of each variable: the k-th row, and the variable. *)
  Variable choose : var -> nat -> var -> nat.
  (** The arrays drawn by np.random.uniform for each variable. *)
  Variable draw : var -> list num.

  (** cmodel.py:217-221 [fill_random_equations] *)
  Definition fill_random_equations (domains : domain) (m : pgm) : pgm * option err :=
    for_each (fun m x => set_computed m x (
                let* dom := var_parents_domain domains (m_graph m) x in
                random_deterministic dom (Some (others x dom)) dflt (choose x))) (scm_endogenous m) m.
  (** cmodel.py:223-227 [fill_random_marginals] *)
  Definition fill_random_marginals (domains : domain) (m : pgm) : pgm * option err :=
    for_each (fun m u => set_computed m u (
                let* dom := subdomain domains [u] in
                random_multinomial dom [] dflt true (draw u))) (scm_exogenous m) m.
  (** cmodel.py:229-231 [fill_random_factors] *)
  Definition fill_random_factors (domains : domain) (m : pgm) : pgm * option err :=
    match fill_random_equations domains m with
    | (m, None) => fill_random_marginals domains m
    | (m, Some e) => (m, Some e)
    end.

  (** bnet.py:30-34 [randomize_factors] *)
  Definition bn_randomize_factors (domains : domain) (m : pgm) : pgm * option err :=
    for_each (fun m v => set_computed m v (
                let* ps := get_parents (m_graph m) [v] in
                let dom := filter (fun xd => (if eqd (fst xd) v then true else false) || mem (fst xd) ps) domains in
                random_multinomial dom ps dflt true (draw v))) (nodes (m_graph m)) m.

  (** cmodel.py:209-215 [randomize_factors] with in_place=True: as on a copy
      ([AggModel.randomize_factors]), but the model itself is changed, also when
      an exception is raised later *)
  Definition randomize_in_place (vars : list var) (allow_zero : bool) (m : pgm) : pgm * option err :=
    for_each (fun m x => set_computed m x (
                let* vs := relevat_vars (m_graph m) x in
                if existsb (fun w => match dget w (m_domains m) with Some None => true | _ => false end) vs
                then Raise TypeError else
                let* dom := var_parents_domain (known_domains m) (m_graph m) x in
                random_multinomial dom (others x dom) dflt allow_zero (draw x))) vars m.
End Fill.
