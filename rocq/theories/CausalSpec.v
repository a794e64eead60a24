(** What causal models, interventions and counterfactuals mean. *)

From Coq Require Import String Bool Arith ZArith QArith Qcanon DecimalString Permutation List.
From Verif Require Import PyBase Num DomainModel NdArray StoreModel NumStore FactorModel GraphModel ModelModel
  Spec StoreSpec FactorSpec GraphSpec ModelSpec NetSpec.
Import ListNotations.
Local Open Scope nat_scope.

(** The table [f] lists the values of the factor object [fo] of the variable
    [v]: it is the object itself, or the 0/1 table of the function it stores. *)
Definition tabulates (v : var) (fo : fobj) (f : mfactor) : Prop :=
  match fo with
  | FM g => g = f
  | FD d => (exists l, wf_df d v l) /\ usable (df_domain d) /\
      mf_domain f = df_domain d /\ mf_right f = df_right d /\ mf_vtype f = df_vtype d /\
      forall o, full (df_domain d) o -> exists y z,
        get_value (df_store d) o = Ok y /\ dget v o = Some z /\ mf_get_value f o = Ok (if eqd y z then n1 else n0)
  | FObj => False
  end.

(** The model [m] is a structural causal model over the variables and states
    [D] with tables [F]: the graph is acyclic, every node has a normalised
    table given its parents, the tables of the endogenous variables [endo] are
    functions, and every variable with a parent is endogenous.  With [cast] no
    function is kept as such. *)
Definition causal (m : pgm) (D : domain) (F : var -> mfactor) (vt : vtype) (endo : list var) (cast : bool) : Prop :=
  m_kind m = KScm endo cast /\ wf_graph (m_graph m) /\ acyclic (m_graph m) /\ wf_dom D /\
  same_set (keys D) (nodes (m_graph m)) /\
  NoDup (keys (m_factors m)) /\ same_set (keys (m_factors m)) (nodes (m_graph m)) /\
  (forall v, In v (nodes (m_graph m)) -> exists f, stored m v f /\ tabulates v f (F v) /\
     cpt D vt v (preds (m_graph m) v) (F v) /\
     (In v endo -> zero_one (F v) /\ (cast = true -> f = FM (F v)))) /\
  (forall x v, arc (m_graph m) x v -> In v endo).

(** The variables without parents have multinomial factors. *)
Definition plain_roots (m : pgm) : Prop :=
  forall v f, stored m v f -> (forall x, ~ arc (m_graph m) x v) -> exists g, f = FM g.

(** The table [f] of [v] says: [x] for certain. *)
Definition point_mass (v : var) (l : list state) (x : state) (f : mfactor) : Prop :=
  mf_domain f = [(v, l)] /\ mf_right f = [] /\
  forall o s, dget v o = Some s -> In s l -> mf_get_value f o = Ok (if eqd s x then n1 else n0).

(** ** Interventions *)

(** The truncated factorisation for the intervention [d]: the product of the
    tables of the other variables if the assignment agrees with [d], else 0. *)
Definition do_joint (D : domain) (F : var -> mfactor) (d o : obs) : Qc :=
  if consistent d o then joint F (keys (drop (keys d) D)) o else 0%Qc.
(** The interventional probability of [o]. *)
Definition do_mass (D : domain) (F : var -> mfactor) (d o : obs) : Qc :=
  total (map (do_joint D F d) (filter (consistent o) (all_assignments D))).
(** The evidence about variables that are not intervened. *)
Definition outside (d e : obs) : obs := filter (fun vs => negb (mem (fst vs) (keys d))) e.

(** ** Counterfactuals *)

(** [X] are the exogenous variables: those without parents. *)
Definition roots (g : digraph) (X : list var) : Prop :=
  forall v, In v X <-> In v (nodes g) /\ forall x, ~ arc g x v.

(** [o] satisfies the equations of the endogenous variables, where those of the
    variables in [d] are replaced by constants. *)
Definition solves (D : domain) (F : var -> mfactor) (X : list var) (d o : obs) : bool :=
  forallb (fun v => match dget v d with
                    | Some x => match dget v o with Some y => if eqd y x then true else false | None => false end
                    | None => if Qc_eq_dec (entry (F v) o) 1 then true else false
                    end) (keys (drop X D)).

(** In the unit [u] (values of the exogenous variables) under the intervention
    [d], the event [t] happens. *)
Definition happens (D : domain) (F : var -> mfactor) (X : list var) (u d t : obs) : bool :=
  existsb (fun o => solves D F X d o && consistent u o && consistent t o) (all_assignments D).

(** The probability of the units in which, for every pair of an intervention
    and an event in the list, the event happens under the intervention. *)
Definition cf_mass (D : domain) (F : var -> mfactor) (X : list var) (events : list (obs * obs)) : Qc :=
  total (map (joint F (keys (pick X D)))
             (filter (fun u => forallb (fun dt => happens D F X u (fst dt) (snd dt)) events) (all_assignments (pick X D)))).

(** The part of an assignment of states [xs] to the targets [ti] (pairs of a
    variable and the number of its world) that is about world [i]. *)
Definition in_world (i : nat) (ti : list (var * nat)) (xs : list state) : obs :=
  map (fun p => (fst (fst p), snd p)) (filter (fun p => snd (fst p) =? i) (combine ti xs)).

(** The interventions, numbered from 1: the worlds of a counterfactual query. *)
Definition worlds (dos : list obs) : list (nat * obs) := combine (seq 1 (length dos)) dos.
(** The name of the copy of [v] in the world [i]: v_i, with [i] in decimal. *)
Definition copy_name (v : var) (i : nat) : var := (v ++ "_" ++ NilEmpty.string_of_uint (Nat.to_uint i))%string.
Definition copy_names (ti : list (var * nat)) : list var := map (fun vi => copy_name (fst vi) (snd vi)) ti.
(** The names that the copies of the endogenous variables get in the worlds are
    not names of variables of the model. *)
Definition fresh_names (g : digraph) (X : list var) (dos : list obs) : Prop :=
  (forall v, In v (nodes g) -> ~ In v X -> v <> ""%string) /\
  (forall v i, In v (nodes g) -> ~ In v X -> 1 <= i <= length dos -> ~ In (copy_name v i) (nodes g)).

(** The joint event of a counterfactual query: the evidence [e] without any
    intervention, and in each world its part of the targets [ti = xs]. *)
Definition cf_events (e : obs) (dos : list obs) (ti : list (var * nat)) (xs : list state) : list (obs * obs) :=
  ([], e) :: map (fun id => (snd id, in_world (fst id) ti xs)) (worlds dos).

(** A child of [v] is not intervened by [d]. *)
Definition keeps_child (g : digraph) (d : obs) (v : var) : Prop := exists w, arc g v w /\ ~ In w (keys d).
(** The interventions are on variables of the model, with known states. *)
Definition interventions (g : digraph) (D : domain) (dos : list obs) : Prop :=
  forall d, In d dos -> known D d /\ NoDup (keys d) /\ incl (keys d) (nodes g).
(** The targets [ti] (variable and number of the world) are endogenous
    variables that are not intervened in their world. *)
Definition targets_ok (g : digraph) (X : list var) (dos : list obs) (ti : list (var * nat)) : Prop :=
  NoDup ti /\ ti <> [] /\
  forall v i, In (v, i) ti -> In v (nodes g) /\ ~ In v X /\ exists d, In (i, d) (worlds dos) /\ ~ In v (keys d).
(** [xs] are states of the targets. *)
Definition states_of (D : domain) (ti : list (var * nat)) (xs : list state) : Prop :=
  Forall2 (fun vi x => exists l, In (fst vi, l) D /\ In x l) ti xs.

(** The states true and false of [v]: given, or recognised in its domain. *)
Definition truth_states (D : domain) (v : var) (given : option (state * state)) (t f : state) : Prop :=
  exists l, In (v, l) D /\ In t l /\ In f l /\
    match given with
    | Some p => p = (t, f)
    | None => identify_true_false v l = Ok (t, f)
    end.
