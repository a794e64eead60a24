(** Property C71: canonical equations instead of those of a Markovian model. *)

From Coq Require Import String Bool Arith ZArith QArith Qcanon List.
From Verif Require Import PyBase Num DomainModel NdArray StoreModel NumStore FactorModel GenModel GraphModel ModelModel Spec StoreSpec FactorSpec GraphSpec ModelSpec GenSpec NetSpec CausalSpec CanonSpec InferModel CausalModel
  CanonFacts9 CanonFacts10 Checks FactorChecks InferChecks CausalChecks RespChecks.
Import ListNotations.
Local Open Scope nat_scope.
Local Open Scope string_scope.
Local Open Scope list_scope.

(** ** C71 *)
(** For every Markovian structural model, with whatever equations and whatever
    numbers of exogenous states, there are distributions of the exogenous
    variables with which the model over the same graph that has the canonical
    equation of every variable gives the same probability to every
    counterfactual: events about the other variables in any number of worlds,
    each under its own interventions. *)
Theorem C71_counterfactuals : forall m D F vt endo cast X U lu, causal m D F vt endo cast -> nonnegative D F -> vt <> VNumpy ->
  markovian (m_graph m) X U -> response_states D (m_graph m) X U lu ->
  exists fs M F' endo',
    (forall v, In v (nodes (m_graph m)) -> ~ In v X -> exists l f t, In (v, l) D /\
       canonical_deterministic ((v, l) :: (U v, lu (U v)) :: order_dom D (inner_parents (m_graph m) X v)) (U v) (inner_parents (m_graph m) X v) vt = Ok f /\
       In (v, FD f) fs /\ In (U v, FM t) fs) /\
    scm_init (GDag (m_graph m)) (Some (FsDict fs)) None false true = Ok M /\ m_graph M = m_graph m /\
    causal M (with_states D X lu) F' vt endo' false /\ plain_roots M /\ nonnegative (with_states D X lu) F' /\
    forall evs, (forall d t, In (d, t) evs -> forall v, In v (keys t) -> ~ In v X) ->
      cf_mass (with_states D X lu) F' X evs = cf_mass D F X evs.
Proof. exact scm_canonical. Qed.
Print Assumptions C71_counterfactuals.

(** In particular the two models answer every counterfactual query with the same
    table, and give the same probability of necessity and sufficiency. *)
Theorem C71_queries : forall m D F vt endo cast X U lu, causal m D F vt endo cast -> plain_roots m -> nonnegative D F -> vt <> VNumpy ->
  markovian (m_graph m) X U -> response_states D (m_graph m) X U lu ->
  exists fs M,
    (forall v, In v (nodes (m_graph m)) -> ~ In v X -> exists l f t, In (v, l) D /\
       canonical_deterministic ((v, l) :: (U v, lu (U v)) :: order_dom D (inner_parents (m_graph m) X v)) (U v) (inner_parents (m_graph m) X v) vt = Ok f /\
       In (v, FD f) fs /\ In (U v, FM t) fs) /\
    scm_init (GDag (m_graph m)) (Some (FsDict fs)) None false true = Ok M /\ m_graph M = m_graph m /\
    forall heur so, is_heuristic heur -> is_set_order so ->
    (forall dd dos, do_list dd = dos -> interventions (m_graph m) D dos -> fresh_names (m_graph m) X dos ->
     forall e, incl (keys e) (nodes (m_graph m)) -> (forall v, In v (keys e) -> ~ In v X) ->
     forall ts sub ti, ti = combine ts sub -> targets_ok (m_graph m) X dos ti ->
     (forall d v, In d dos -> In v (keys d) -> ~ In v X /\ keeps_child (m_graph m) d v) ->
     cf_mass D F X [([], e)] <> 0%Qc ->
     exists m1 M1 r R, cve_init m = Ok m1 /\ cve_init M = Ok M1 /\
       counterfactual_query heur so m1 ts dd e (Some sub) = Ok r /\ counterfactual_query heur so M1 ts dd e (Some sub) = Ok R /\
       same_set (mf_vars R) (mf_vars r) /\
       forall xs, states_of D ti xs -> exists y, mf_get_value r (combine (copy_names ti) xs) = Ok y /\ mf_get_value R (combine (copy_names ti) xs) = Ok y) /\
    (forall cause effect tfc tfe tc fc te fe, truth_states D cause tfc tc fc -> truth_states D effect tfe te fe -> cause <> effect ->
     ~ In cause X -> ~ In effect X -> (exists w, arc (m_graph m) cause w) -> fresh_names (m_graph m) X [[(cause, fc)]; [(cause, tc)]] ->
     exists m1 M1 y, cve_init m = Ok m1 /\ cve_init M = Ok M1 /\
       prob_necessity_sufficiency heur so m1 cause effect tfc tfe = Ok y /\ prob_necessity_sufficiency heur so M1 cause effect tfc tfe = Ok y).
Proof. exact scm_queries. Qed.
Print Assumptions C71_queries.

(** UX -> X -> Y <- UY with three states of each exogenous variable: the model
    with two and four functions for X and Y has the same probabilities of
    Y_{X=0} = 0 with Y_{X=1} = 1, and of Y_{X=0} = 1 given X = 1 and Y = 0. *)
Example C71_case : forall vt, vt <> VNumpy ->
  let F := table_of vt ts_mark in let h := heuristic_fn MIN_FILL first_choice in
  causal (m_mark vt) D_mark F vt ["X"; "Y"] false /\ plain_roots (m_mark vt) /\ nonnegative D_mark F /\
  markovian (m_graph (m_mark vt)) X_mark U_mark /\ response_states D_mark (m_graph (m_mark vt)) X_mark U_mark lu_mark /\
  qeqb (cf_mass D_mark F X_mark [([("X", SInt 0)], [("Y", SInt 0)]); ([("X", SInt 1)], [("Y", SInt 1)])]) (1#3) = true /\
  map (fun mm =>
    let* m := mm in
    let* m1 := cve_init m in
    let* p := prob_necessity_sufficiency h plain_order m1 "X" "Y" None None in
    let* r := counterfactual_query h plain_order m1 ["Y"] (DoDict [("X", SInt 0)]) [("X", SInt 1); ("Y", SInt 0)] (Some [1]) in
    Ok (num_eqb p (q (1#3)), okb (mf_get_value r [("Y_1", SInt 1)]) (q (1#4))))
    [Ok (m_mark vt); scm_mark vt] = [Ok (true, true); Ok (true, true)].
Proof.
  intros vt N F h. split; [apply mark_ok|]. split; [apply mark_roots|]. split; [apply mark_nonneg|].
  split; [apply mark_markovian|]. split; [apply mark_states|].
  destruct vt; [congruence| | |]; split; vm_compute; reflexivity.
Qed.
