(** Property C70: what canonical equations can express. *)

From Coq Require Import String Bool Arith ZArith QArith Qcanon List.
From Verif Require Import PyBase Num DomainModel NdArray StoreModel NumStore FactorModel GenModel GraphModel ModelModel Spec StoreSpec FactorSpec GraphSpec ModelSpec GenSpec NetSpec CausalSpec CanonSpec InferModel CausalModel
  CanonFacts2 CanonFacts4 CanonFacts6 Checks FactorChecks GenChecks InferChecks CanonChecks.
Import ListNotations.
Local Open Scope nat_scope.
Local Open Scope string_scope.
Local Open Scope list_scope.

(** ** C70 *)
(** Whatever random mechanism chooses the response of [x] to the parents, some
    distribution of the exogenous variable of the canonical equation gives
    every event about the responses (to any number of values of the parents at
    the same time) the same probability. *)
Theorem C70_responses : forall dom x exo endo l lu vt, canon_vars dom x exo endo l lu ->
  (vt = VNumpy -> length endo = 1) -> length lu = length l ^ size (order_dom dom endo) ->
  exists f (val : state -> obs -> state), canonical_deterministic dom exo endo vt = Ok f /\
    (forall u p, In u lu -> In p (all_assignments (order_dom dom endo)) -> get_value (df_store f) ((exo, u) :: p) = Ok (val u p)) /\
    forall (W : Type) (others : list W) (r : W -> Qc) (h : W -> obs -> state), distribution others r ->
      (forall w p, In w others -> In p (all_assignments (order_dom dom endo)) -> In (h w p) l) ->
      exists q, distribution lu q /\
        forall event : (obs -> state) -> bool,
          (forall k k', (forall p, In p (all_assignments (order_dom dom endo)) -> k p = k' p) -> event k = event k') ->
          chance lu q (fun u => event (val u)) = chance others r (fun w => event (h w)).
Proof. exact responses_ok. Qed.
Print Assumptions C70_responses.

(** Every conditional table is the product of the canonical equation and a
    table of the exogenous variable, with the exogenous variable summed out. *)
Theorem C70_tables : forall dom x exo endo l lu vt t, usable dom -> canon_vars dom x exo endo l lu ->
  (vt = VNumpy -> length endo = 1) -> length lu = length l ^ size (order_dom dom endo) ->
  cpt dom vt x endo t -> no_negative t ->
  exists c g prod h, canonical_multinomial dom exo endo vt = Ok c /\ cpt dom vt exo [] g /\ no_negative g /\
    mf_multiply g (OFac c) = Ok prod /\ mf_marginalize prod [exo] = Ok h /\
    mf_left h = [x] /\ same_set (mf_vars h) (mf_vars t) /\
    forall o, full (mf_domain t) o -> exists y, mf_get_value t o = Ok y /\ mf_get_value h o = Ok y.
Proof. exact table_of_canonical. Qed.
Print Assumptions C70_tables.

(** The uniform table of the exogenous variable gives the uniform table. *)
Theorem C70_uniform : forall dom x exo endo l lu vt, usable dom -> canon_vars dom x exo endo l lu ->
  (vt = VNumpy -> length endo = 1) -> length lu = length l ^ size (order_dom dom endo) ->
  exists c g prod h, canonical_multinomial dom exo endo vt = Ok c /\ uniform_multinomial [(exo, lu)] [] vt = Ok g /\
    mf_multiply g (OFac c) = Ok prod /\ mf_marginalize prod [exo] = Ok h /\
    mf_left h = [x] /\ same_set (mf_vars h) (x :: endo) /\
    forall o, full (mf_domain h) o -> exists y, mf_get_value h o = Ok (Fin y) /\ (y * Q2Qc (Z.of_nat (length l) # 1) = 1)%Qc.
Proof. exact uniform_mixture. Qed.
Print Assumptions C70_uniform.

(** Every network with non-negative tables is that of a structural model with
    canonical equations: for some tables of the new exogenous variables the
    interventional distributions are those of the network. *)
Theorem C70_networks : forall b D F vt U lu, network b D F vt -> nonnegative D F -> vt <> VNumpy -> new_parents D (m_graph b) U lu ->
  exists fs M F',
    (forall v, In v (nodes (m_graph b)) -> exists l f t, In (v, l) D /\
       canonical_deterministic ((v, l) :: (U v, lu v) :: order_dom D (preds (m_graph b) v)) (U v) (preds (m_graph b) v) vt = Ok f /\
       In (v, FD f) fs /\ In (U v, FM t) fs) /\
    scm_init (GDag (exo_graph (m_graph b) U)) (Some (FsDict fs)) None false true = Ok M /\ m_graph M = exo_graph (m_graph b) U /\
    causal M (exo_dom D U lu) F' vt (nodes (m_graph b)) false /\ plain_roots M /\
    roots (m_graph M) (map U (nodes (m_graph b))) /\ nonnegative (exo_dom D U lu) F' /\
    forall d t, known D d -> known D t -> incl (keys d) (keys D) -> incl (keys t) (keys D) -> (forall v, In v (keys t) -> ~ In v (keys d)) ->
      do_mass (exo_dom D U lu) F' d t = do_mass D F d t.
Proof. exact network_canonical. Qed.
Print Assumptions C70_networks.

(** In particular [causal_query] answers in the structural model with the
    interventional distributions of the network. *)
Theorem C70_answers : forall b D F vt U lu, network b D F vt -> nonnegative D F -> vt <> VNumpy -> new_parents D (m_graph b) U lu ->
  exists fs M F',
    (forall v, In v (nodes (m_graph b)) -> exists l f t, In (v, l) D /\
       canonical_deterministic ((v, l) :: (U v, lu v) :: order_dom D (preds (m_graph b) v)) (U v) (preds (m_graph b) v) vt = Ok f /\
       In (v, FD f) fs /\ In (U v, FM t) fs) /\
    scm_init (GDag (exo_graph (m_graph b) U)) (Some (FsDict fs)) None false true = Ok M /\ m_graph M = exo_graph (m_graph b) U /\
    causal M (exo_dom D U lu) F' vt (nodes (m_graph b)) false /\ plain_roots M /\
    roots (m_graph M) (map U (nodes (m_graph b))) /\ nonnegative (exo_dom D U lu) F' /\
    forall heur so, is_heuristic heur -> is_set_order so ->
    forall d e T, known D d -> known D e -> NoDup (keys d) -> NoDup T -> T <> [] -> incl (keys d ++ keys e ++ T) (nodes (m_graph b)) ->
      (forall v, In v T -> ~ In v (keys d) /\ ~ In v (keys e)) -> do_mass D F d (outside d e) <> 0%Qc ->
      exists m1 r, cve_init M = Ok m1 /\ causal_query heur so m1 T (DoDict d) e = Ok r /\ same_set (mf_left r) T /\ mf_right r = [] /\
        forall t, assigns D T t ->
          mf_get_value r t = Ok (Fin (do_mass D F d (t ++ outside d e) / do_mass D F d (outside d e))%Qc).
Proof. exact network_answers. Qed.
Print Assumptions C70_answers.

(** P(X = 0 | Y = 0) = 1/4 and P(X = 0 | Y = 1) = 2/3, from the probabilities
    1/6, 1/12, 1/2, 1/4 of the four functions. *)
Example C70_case : forall vt,
  let l := [SInt 0; SInt 1]%Z in let lu := [SInt 0; SInt 1; SInt 2; SInt 3]%Z in
  let t := fac vt [("X", l); ("Y", l)] [1#4; 2#3; 3#4; 1#3]%Q ["Y"] in
  usable dXUY /\ canon_vars dXUY "X" "U" ["Y"] l lu /\ length lu = length l ^ size (order_dom dXUY ["Y"]) /\
  cpt dXUY vt "X" ["Y"] t /\ no_negative t /\
  (let* c := canonical_multinomial dXUY "U" ["Y"] vt in
   let* prod := mf_multiply (fac vt [("U", lu)] [1#6; 1#12; 1#2; 1#4]%Q []) (OFac c) in
   let* h := mf_marginalize prod ["U"] in
   Ok (mf_left h, map (fun o => num_eqb (match mf_get_value h o with Ok y => y | Raise _ => NaN end) (Fin (entry t o))) (all_assignments [("X", l); ("Y", l)]))) =
  Ok (["X"], [true; true; true; true]).
Proof.
  intros vt l lu t. split; [apply usableb_sound; reflexivity|]. split; [exact dXUY_canon|]. split; [reflexivity|].
  assert (C : cpt dXUY vt "X" ["Y"] t) by (apply cpt_check; destruct vt; vm_compute; reflexivity).
  split; [exact C|]. split; [apply no_negativeb_sound; [apply C|destruct vt; vm_compute; reflexivity]|].
  destruct vt; vm_compute; reflexivity.
Qed.

(** X -> Y with P(X = 0) = 1/4: the structural model with four functions for Y
    answers with the table of Y under the interventions on X. *)
Example C70_network_case : forall vt, vt <> VNumpy ->
  let b := bn_of vt g_two ts_two in let F := table_of vt ts_two in
  network b D_two F vt /\ nonnegative D_two F /\ new_parents D_two (m_graph b) U_two lu_two /\
  qeqb (do_mass D_two F [("X", SInt 0)] [("Y", SInt 0)]) (1#4) = true /\
  qeqb (do_mass D_two F [("X", SInt 1)] [("Y", SInt 0)]) (2#3) = true /\
  (let* M := scm_two vt in
   let* m1 := cve_init M in
   let* r0 := causal_query (heuristic_fn MIN_FILL first_choice) plain_order m1 ["Y"] (DoDict [("X", SInt 0)]) [] in
   let* r1 := causal_query (heuristic_fn MIN_FILL first_choice) plain_order m1 ["Y"] (DoDict [("X", SInt 1)]) [] in
   let* r := causal_query (heuristic_fn MIN_FILL first_choice) plain_order m1 ["X"] (DoDict []) [] in
   Ok (okb (mf_get_value r0 [("Y", SInt 0)]) (q (1#4)), okb (mf_get_value r1 [("Y", SInt 0)]) (q (2#3)),
       okb (mf_get_value r [("X", SInt 0)]) (q (1#4)))) = Ok (true, true, true).
Proof.
  intros vt N b F. split; [apply two_ok|]. split; [apply two_nonneg|]. split; [apply two_parents|].
  destruct vt; [congruence| | |]; repeat split; vm_compute; reflexivity.
Qed.
