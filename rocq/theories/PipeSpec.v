(** Vocabulary of the statements about EMCC and GDCC objects. *)

From Coq Require Import String Bool Arith ZArith QArith Qcanon List.
From Verif Require Import PyBase Num DomainModel NdArray StoreModel FactorModel GraphModel ModelModel InferModel CausalModel MultiModel LearnModel AggModel
  GenModel Spec FactorSpec GraphSpec ModelSpec NetSpec EmSpec QSpec GradSpec ConvSpec GenSpec MultiSpec.
Import ListNotations.
Local Open Scope nat_scope.

(** The structural model [m]: the tables [F] of the endogenous variables are
    equations. *)
Definition structural (m : pgm) (D : domain) (F : var -> mfactor) (vt : vtype) (endo : list var) : Prop :=
  causal_tables m D F vt endo /\ forall v, In v endo -> zero_one (F v).
(** An exogenous variable. *)
Definition exogenous (m : pgm) (endo : list var) (u : var) : Prop := In u (nodes (m_graph m)) /\ ~ In u endo.

(** The random numbers drawn for the exogenous variables (before the sign is
    changed): negative ones, as many as there are states. *)
Definition drawn_exogenous (m : pgm) (D : domain) (endo : list var) (draw : nat -> var -> list num) : Prop :=
  forall i u, exogenous m endo u -> drawn_for [(u, states_of D u)] [] false (draw i u).

(** Every row of the data is explained by some states of the exogenous
    variables: with them, the equations give what is observed. *)
Definition explained (D : domain) (F : var -> mfactor) (endo : list var) (data : frame) : Prop :=
  forall r, In r (f_rows data) -> exists o, full D o /\
    (forall v s, In (v, s) (row_obs data r) -> dget v o = Some s) /\
    forall v, In v endo -> mf_get_value (F v) o = Ok n1.

(** Data about all endogenous variables and no exogenous one. *)
Definition about (m : pgm) (D : domain) (endo : list var) (data : frame) (E : list var) : Prop :=
  observes D data E /\ incl endo E /\ (forall u, exogenous m endo u -> ~ In u E) /\ f_rows data <> [].

(** [m'] has the structure and the equations of [m]; its tables are [F']. *)
Definition keeps_equations (m : pgm) (D : domain) (F : var -> mfactor) (vt : vtype) (endo : list var) (m' : pgm) (F' : var -> mfactor) : Prop :=
  m_graph m' = m_graph m /\ m_kind m' = m_kind m /\ structural m' D F' vt endo /\ forall v, In v endo -> F' v = F v.

(** A stopping rule that compares any two lists of one length. *)
Definition decides (no_divergence : list num -> list num -> res bool) : Prop :=
  forall P Q, length P = length Q -> exists b, no_divergence P Q = Ok b.
(** No name of another node is part of the name [u]. *)
Definition distinct_name (g : digraph) (u : var) : Prop :=
  forall w a b, In w (nodes g) -> u = (a ++ w ++ b)%string -> w = u.

(** ** Programs with an object that trains its models *)

(** What a statement does to object [i]: [(n, b)] are the number of trainings
    so far and whether its answers are intervals.  Compiling trains, and so does
    the first question. *)
Definition turn (i : nat) (nb : nat * bool) (s : op) : nat * bool :=
  let (n, b) := nb in
  match s with
  | OCompile j => if j =? i then (S n, b) else nb
  | OQuery j _ | OProb j _ _ _ _ _ => if j =? i then (Nat.max n 1, b) else nb
  | OInterval j b' => if j =? i then (n, b') else nb
  | _ => nb
  end.
(** The statement sets or adds no models of object [i], and asks for
    probabilities of causation with the states true and false given if the
    object was not trained yet. *)
Definition undisturbed (i : nat) (nb : nat * bool) (s : op) : Prop :=
  match s with
  | OSet j _ | OAdd j _ | OMore j => j <> i
  | OProb j _ _ _ tfc tfe => j = i -> 0 < fst nb \/ (tfc <> None /\ tfe <> None)
  | _ => True
  end.
(** The models of the first [t] trainings. *)
Definition so_far (gen : nat -> res (list pgm)) (t : nat) : list pgm :=
  concat (map (fun k => match gen k with Ok ms => ms | Raise _ => [] end) (seq 0 t)).
Section Programs.
  Context {I : Type}.
  Variable make : pgm -> res I.
  Variable ask : I -> request -> res mfactor.
  Variable dflt : vtype.
  (** The statements after the creation of object [i] in any world. *)
  Inductive comes (gen : nat -> res (list pgm)) (i : nat) : world I -> nat * bool -> Prop :=
  | comes_new w b : i = length (w_objects w) -> comes gen i (fst (exec make ask dflt w (OTrained gen b))) (0, b)
  | comes_next w nb s : comes gen i w nb -> undisturbed i nb s -> comes gen i (fst (exec make ask dflt w s)) (turn i nb s).

  (** A statement that gives the list of models of object [i] to another
      object. *)
  Definition gives_away (w : world I) (i : nat) (s : op) : Prop :=
    exists o, nth_error (w_objects w) i = Some o /\
      match s with OMulti (Some k) _ | OSet _ (Some k) => k = mi_models o | _ => False end.
  (** A statement that leaves the models of object [i] alone, after [t] turns of
      its compile_incremental. *)
  Definition aside (i t : nat) (s : op) : Prop :=
    match s with
    | OSet j _ | OAdd j _ | OCompile j | OMore j => j <> i
    | OQuery j _ | OProb j _ _ _ _ _ => j = i -> 0 < t
    | _ => True
    end.
  (** The object [i], created in any program, after [t] turns and any other
      statements before, between and after them. *)
  Inductive grows (gen : nat -> res (list pgm)) (i : nat) : world I -> nat * bool -> Prop :=
  | grows_new ss b : i = length (w_objects (program make ask dflt (MkW [] []) ss)) ->
      grows gen i (fst (exec make ask dflt (program make ask dflt (MkW [] []) ss) (OTrained gen b))) (0, b)
  | grows_more w t b : grows gen i w (t, b) -> grows gen i (fst (exec make ask dflt w (OMore i))) (S t, b)
  | grows_next w t b s : grows gen i w (t, b) -> aside i t s -> ~ gives_away w i s ->
      grows gen i (fst (exec make ask dflt w s)) (t, match s with OInterval j b' => if j =? i then b' else b | _ => b end).

  (** A program that only creates an object with the models [ms] and compiles
      it. *)
  Definition plain (ms : list pgm) (b : bool) : world I :=
    program make ask dflt (MkW [] []) [OList ms; OMulti (Some 0) b; OCompile 0].
End Programs.

(** [m'] is the model that the k-th training made from the start [m0] with the
    tables [F0] (random exogenous tables, all positive): its tables are [F'], and
    the data has a positive probability that is not less than with [F0]. *)
Definition random_start (m : pgm) (D : domain) (F : var -> mfactor) (vt : vtype) (endo : list var) (draw : var -> list num)
    (m0 : pgm) (F0 : var -> mfactor) : Prop :=
  randomize_factors vt m (agg_trainable m None) false draw = Ok m0 /\ keeps_equations m D F vt endo m0 F0 /\
  forall u o, exogenous m endo u -> full (mf_domain (F0 u)) o -> (0 < entry (F0 u) o)%Qc.
Definition improved (m : pgm) (D : domain) (F : var -> mfactor) (vt : vtype) (endo : list var) (data : frame) (draw : var -> list num)
    (m' : pgm) (F' : var -> mfactor) : Prop :=
  keeps_equations m D F vt endo m' F' /\
  exists m0 F0, random_start m D F vt endo draw m0 F0 /\ (0 < likelihood D F0 data)%Qc /\ (likelihood D F0 data <= likelihood D F' data)%Qc.

(** The states true and false of [v]: given, or recognised in the first of the
    models. *)
Definition told (ms : list pgm) (v : var) (given : option (state * state)) (t f : state) : Prop :=
  match given with
  | Some q => q = (t, f)
  | None => exists m l, hd_error ms = Some m /\ has_domain m v l /\ identify_true_false v l = Ok (t, f)
  end.

(** The answer about [v] (with the states [l]): for each of the functions [xs]
    a table with its values, or one interval table with their ranges. *)
Definition gives (dflt : vtype) (b : bool) (v : var) (l : list state) (ans : res answer) (xs : list (state -> Qc)) : Prop :=
  (b = false -> exists fs, ans = Ok (AFactors fs) /\
     Forall2 (fun f x => mf_domain f = [(v, l)] /\ forall s, In s l -> mf_get_value f [(v, s)] = Ok (Fin (x s))) fs xs) /\
  (b = true -> exists g, ans = Ok (AInterval g) /\ if_domain g = [(v, l)] /\ st_type (if_store g) = dflt /\
     forall s, In s l -> exists lo hi, interval g [(v, s)] lo hi /\ range (map (fun x => x s) xs) lo hi).
