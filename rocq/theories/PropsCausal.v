(** Properties C30-C33: interventions, causal and counterfactual queries, and
    the probabilities of causation. *)

From Coq Require Import String Ascii Bool Arith ZArith QArith Qcanon Permutation List.
From Verif Require Import PyBase Num DomainModel NdArray StoreModel NumStore FactorModel GraphModel ModelModel InferModel CausalModel
  Spec StoreSpec FactorSpec GraphSpec ModelSpec NetSpec OrderSpec CausalSpec
  OrderFacts PropFacts4 CausalFacts CausalFacts2 PropFacts5 Checks FactorChecks GraphChecks InferChecks CausalChecks.
Import ListNotations.
Local Open Scope nat_scope.
Local Open Scope string_scope.
Local Open Scope list_scope.

(** ** C30 *)
(** Variables of [d] that are not in the model are ignored. *)
Theorem C30_surgery : forall m D F vt endo cast, causal m D F vt endo cast -> forall d, known D d ->
  exists m' F', scm_intervention m d = Ok m' /\ causal m' D F' vt endo cast /\
    nodes (m_graph m') = nodes (m_graph m) /\
    (forall x y, arc (m_graph m') x y <-> arc (m_graph m) x y /\ ~ In y (keys d)) /\
    (forall v f, ~ In v (keys d) -> stored m v f -> stored m' v f /\ F' v = F v) /\
    (forall v l x, In (v, l) D -> dget v d = Some x -> point_mass v l x (F' v)) /\
    (forall o, In o (all_assignments D) -> joint F' (keys D) o = do_joint D F d o).
Proof. exact surgery. Qed.
Print Assumptions C30_surgery.

Theorem C30_rejects : forall m D F vt endo cast d v x l, causal m D F vt endo cast ->
  In v (nodes (m_graph m)) -> dget v d = Some x -> In (v, l) D -> ~ In x l -> scm_intervention m d = Raise ValueError.
Proof. exact intervention_bad. Qed.
Print Assumptions C30_rejects.

Example C30_case : forall vt,
  let d := [("Z", SInt 1); ("U", SStr "v")] in
  causal (m_cf vt) D_cf (table_of vt ts_cf) vt ["X"; "Z"; "Y"] false /\ known D_cf d /\
  option_map (fun f => match f with Some (FD _) => true | _ => false end) (dget "Z" (m_factors (m_cf vt))) = Some true /\
  (let* m' := scm_intervention (m_cf vt) d in Ok (edges (m_graph m'))) = Ok [("U", "X"); ("Z", "Y"); ("V", "Y")] /\
  qeqb (do_joint D_cf (table_of vt ts_cf) d [("U", SStr "v"); ("X", SInt 1); ("Z", SInt 1); ("V", SInt 1); ("Y", SStr "y1")]) (4#5) = true /\
  qeqb (do_joint D_cf (table_of vt ts_cf) d [("U", SStr "w"); ("X", SInt 1); ("Z", SInt 1); ("V", SInt 1); ("Y", SStr "y1")]) 0 = true /\
  scm_intervention (m_cf vt) [("Z", SStr "1")] = Raise ValueError.
Proof.
  intros vt d. split; [apply cf_ok|]. split.
  { intros v l s I E. cbn in E. destruct (eqd v "Z") as [->|]; [|destruct (eqd v "U") as [->|]; [|discriminate]]; injection E as <-;
      repeat (destruct I as [I|I]; [try discriminate I; injection I as <-; vm_compute; tauto|]); destruct I. }
  repeat split; destruct vt; vm_compute; reflexivity.
Qed.

(** ** C31 *)
Theorem C31_interventional : forall m D F vt endo cast, causal m D F vt endo cast -> plain_roots m ->
  forall heur so, is_heuristic heur -> is_set_order so ->
  forall d, NoDup (keys d) -> incl (keys d) (nodes (m_graph m)) -> forall e T, known D d ->
  NoDup T -> T <> [] -> incl T (nodes (m_graph m)) -> incl (keys e) (nodes (m_graph m)) ->
  (forall v, In v T -> ~ In v (keys d) /\ ~ In v (keys e)) -> do_mass D F d (outside d e) <> 0%Qc ->
  exists m1 r, cve_init m = Ok m1 /\ causal_query heur so m1 T (DoDict d) e = Ok r /\ wf_mf r /\ mf_vtype r = vt /\
    same_set (mf_vars r) T /\ same_set (mf_left r) T /\ mf_right r = [] /\
    (forall v l, In (v, l) (mf_domain r) -> In (v, l) D) /\
    (forall t, assigns D T t ->
      mf_get_value r t = Ok (Fin (do_mass D F d (t ++ outside d e) / do_mass D F d (outside d e))%Qc)) /\
    total (map (entry r) (all_assignments (pick T D))) = 1%Qc.
Proof. exact causal_query_ok. Qed.
Print Assumptions C31_interventional.

Theorem C31_rejects : forall m D F vt endo cast, causal m D F vt endo cast -> plain_roots m ->
  forall heur so d, incl (keys d) (nodes (m_graph m)) -> forall e T m1, cve_init m = Ok m1 ->
  (forall dd v, In v (do_vars dd) -> ~ In v (nodes (m_graph m)) -> causal_query heur so m1 T dd e = Raise NodeNotFound) /\
  (forall v x l, dget v d = Some x -> In (v, l) D -> ~ In x l -> causal_query heur so m1 T (DoDict d) e = Raise ValueError) /\
  (known D d -> NoDup T -> forall v, In v T -> In v (keys e) \/ In v (keys d) -> causal_query heur so m1 T (DoDict d) e = Raise ValueError) /\
  (known D d -> ~ NoDup T -> causal_query heur so m1 T (DoDict d) e = Raise ValueError) /\
  (known D d -> NoDup T -> (forall v, In v T -> ~ In v (keys d) /\ ~ In v (keys e)) -> ~ incl (T ++ keys e) (nodes (m_graph m)) ->
     causal_query heur so m1 T (DoDict d) e = Raise NodeNotFound).
Proof. exact causal_query_bad. Qed.
Print Assumptions C31_rejects.

(** A list of interventions is not accepted. *)
Theorem C31_list : forall m D F vt endo cast, causal m D F vt endo cast -> plain_roots m ->
  forall heur so e T ds m1, cve_init m = Ok m1 -> (forall v d, In d ds -> In v (keys d) -> In v (nodes (m_graph m))) ->
  causal_query heur so m1 T (DoList ds) e = Raise TypeError.
Proof. exact list_rejected. Qed.
Print Assumptions C31_list.

(** Without [plain_roots] the claim fails: a declared endogenous variable
    without parents may hold a DeterministicFactor, which is not converted. *)
Theorem C31_deterministic_root_refuted : exists m D F vt endo cast, causal m D F vt endo cast /\
  do_mass D F [] [] = 1%Qc /\
  exists m1, cve_init m = Ok m1 /\
    forall h, causal_query (heuristic_fn h first_choice) plain_order m1 ["B"] (DoDict []) [] = Raise NotImplementedError.
Proof. exact deterministic_root. Qed.
Print Assumptions C31_deterministic_root_refuted.

Example C31_case : forall vt,
  let d := [("X", SInt 1)] in let e := [("Y", SStr "y1"); ("X", SInt 0)] in
  causal (m_cf vt) D_cf (table_of vt ts_cf) vt ["X"; "Z"; "Y"] false /\ plain_roots (m_cf vt) /\
  qeqb (do_mass D_cf (table_of vt ts_cf) d (outside d e)) 1 = true /\
  qeqb (do_mass D_cf (table_of vt ts_cf) d ([("Z", SInt 0); ("U", SStr "w")] ++ outside d e)) (1#6) = true /\
  (let* m1 := cve_init (m_cf vt) in
   let* r := causal_query (heuristic_fn MIN_FILL first_choice) plain_order m1 ["Z"; "U"] (DoDict d) e in
   Ok (okb (mf_get_value r [("Z", SInt 0); ("U", SStr "w")]) (q (1#6)), okb (mf_get_value r [("Z", SInt 1); ("U", SStr "w")]) (q 0))) = Ok (true, true) /\
  (let* m1 := cve_init (m_cf vt) in
   let* r := causal_query (heuristic_fn MIN_WEIGHT last_choice) back_order m1 ["V"] (DoDict [("Z", SInt 1)]) [("Y", SStr "y0")] in
   Ok (okb (mf_get_value r [("V", SInt 0)]) (q 1))) = Ok true.
Proof.
  intros vt d e. split; [apply cf_ok|]. split; [apply cf_roots|]. repeat split; destruct vt; vm_compute; reflexivity.
Qed.

(** ** C32 *)
(** Under every intervention, every unit (assignment of the exogenous
    variables) has exactly one solution; an event happens in the unit iff it
    holds in that solution. *)
Theorem C32_units : forall m D F vt endo cast, causal m D F vt endo cast -> plain_roots m -> forall X, roots (m_graph m) X ->
  forall d u, known D d -> NoDup (keys d) -> In u (all_assignments (pick X D)) ->
  exists o, In o (all_assignments D) /\ solves D F X d o = true /\ consistent u o = true /\
    (forall o', In o' (all_assignments D) -> solves D F X d o' = true -> consistent u o' = true -> o' = o) /\
    forall t, happens D F X u d t = consistent t o.
Proof. exact units. Qed.
Print Assumptions C32_units.

(** Several worlds at once: [ti] pairs each target with the number of its world. *)
Theorem C32_counterfactual : forall m D F vt endo cast, causal m D F vt endo cast -> plain_roots m -> forall X, roots (m_graph m) X ->
  forall heur so, is_heuristic heur -> is_set_order so ->
  forall dd dos, do_list dd = dos -> interventions (m_graph m) D dos -> fresh_names (m_graph m) X dos ->
  forall e, incl (keys e) (nodes (m_graph m)) ->
  forall ts sub ti, ti = combine ts sub -> targets_ok (m_graph m) X dos ti ->
  (forall d v, In d dos -> In v (keys d) -> ~ In v X /\ keeps_child (m_graph m) d v) ->
  cf_mass D F X [([], e)] <> 0%Qc ->
  exists m1 r, cve_init m = Ok m1 /\ counterfactual_query heur so m1 ts dd e (Some sub) = Ok r /\
    wf_mf r /\ mf_vtype r = vt /\ same_set (mf_vars r) (copy_names ti) /\ same_set (mf_left r) (copy_names ti) /\ mf_right r = [] /\
    (forall v i l, In (v, i) ti -> In (copy_name v i, l) (mf_domain r) -> In (v, l) D) /\
    forall xs, states_of D ti xs -> 
      mf_get_value r (combine (copy_names ti) xs) = Ok (Fin (cf_mass D F X (cf_events e dos ti xs) / cf_mass D F X [([], e)])%Qc).
Proof. exact counterfactual_ok. Qed.
Print Assumptions C32_counterfactual.

(** Without worlds given, all the targets are in the first. *)
Theorem C32_default : forall heur so dd e ts m1, ts <> [] ->
  counterfactual_query heur so m1 ts dd e None = counterfactual_query heur so m1 ts dd e (Some (repeat 1 (length ts))).
Proof. exact default_worlds. Qed.
Print Assumptions C32_default.

(** The remaining interventions fail: those on a variable without a child that
    is not intervened itself, and those on an exogenous variable. *)
Theorem C32_childless_raises : forall m D F vt endo cast, causal m D F vt endo cast -> plain_roots m -> forall X, roots (m_graph m) X ->
  forall heur so, is_set_order so ->
  forall dd dos, do_list dd = dos -> interventions (m_graph m) D dos -> fresh_names (m_graph m) X dos -> forall e,
  forall ts sub ti m1 d v, cve_init m = Ok m1 -> ti = combine ts sub -> ti <> [] ->
  In d dos -> In v (keys d) -> ~ In v X -> ~ keeps_child (m_graph m) d v ->
  counterfactual_query heur so m1 ts dd e (Some sub) = Raise NetworkXError.
Proof. exact childless_raises. Qed.
Print Assumptions C32_childless_raises.

Theorem C32_exogenous_raises : forall m D F vt endo cast, causal m D F vt endo cast -> plain_roots m -> forall X, roots (m_graph m) X ->
  forall heur so, is_set_order so ->
  forall dd dos, do_list dd = dos -> interventions (m_graph m) D dos -> fresh_names (m_graph m) X dos ->
  forall e, incl (keys e) (nodes (m_graph m)) ->
  forall ts sub ti m1 d v, cve_init m = Ok m1 -> ti = combine ts sub -> targets_ok (m_graph m) X dos ti ->
  (forall d v, In d dos -> In v (keys d) -> ~ In v X -> keeps_child (m_graph m) d v) ->
  In d dos -> In v (keys d) -> In v X -> (forall i, 1 <= i <= length dos -> ~ In (copy_name v i) (nodes (m_graph m))) ->
  counterfactual_query heur so m1 ts dd e (Some sub) = Raise NodeNotFound.
Proof. exact root_raises. Qed.
Print Assumptions C32_exogenous_raises.

Example C32_case : forall vt,
  let e := [("Y", SStr "y1"); ("X", SInt 1)] in
  let dos := [[("X", SInt 0)]; [("Z", SInt 1); ("X", SInt 1)]] in
  let ti := [("Y", 1); ("Z", 1); ("Y", 2)] in
  causal (m_cf vt) D_cf (table_of vt ts_cf) vt ["X"; "Z"; "Y"] false /\ roots (m_graph (m_cf vt)) X_cf /\ plain_roots (m_cf vt) /\
  interventions (m_graph (m_cf vt)) D_cf dos /\ fresh_names (m_graph (m_cf vt)) X_cf dos /\
  qeqb (cf_mass D_cf (table_of vt ts_cf) X_cf [([], e)]) (1#2) = true /\
  (* Y is y1 in world 1 iff V = 1 *)
  qeqb (cf_mass D_cf (table_of vt ts_cf) X_cf (cf_events e dos [("Y", 1); ("Z", 1)] [SStr "y0"; SInt 1])) (1#10) = true /\
  (let* m1 := cve_init (m_cf vt) in
   let* r := counterfactual_query (heuristic_fn MIN_FILL first_choice) plain_order m1 ["Y"; "Z"] (DoDict [("X", SInt 0)]) e None in
   Ok (okb (mf_get_value r [("Y_1", SStr "y0"); ("Z_1", SInt 1)]) (q (1#5)), okb (mf_get_value r [("Y_1", SStr "y1"); ("Z_1", SInt 1)]) (q (4#5)))) = Ok (true, true) /\
  (let* m1 := cve_init (m_cf vt) in
   let* r := counterfactual_query (heuristic_fn MIN_WEIGHT last_choice) back_order m1 ["Y"; "Y"] (DoList [[("X", SInt 0)]; [("Z", SInt 0)]]) e (Some [1; 2]) in
   Ok (okb (mf_get_value r [("Y_1", SStr "y0"); ("Y_2", SStr "y1")]) (q (1#5)))) = Ok true /\
  (let* m1 := cve_init (m_cf vt) in counterfactual_query (heuristic_fn MIN_FILL first_choice) plain_order m1 ["Z"] (DoDict [("Y", SStr "y0")]) e None)
    = Raise NetworkXError /\
  (let* m1 := cve_init (m_cf vt) in counterfactual_query (heuristic_fn MIN_FILL first_choice) plain_order m1 ["Z"] (DoDict [("U", SStr "u")]) e None)
    = Raise NodeNotFound.
Proof.
  intros vt e dos ti. split; [apply cf_ok|]. split; [apply cf_roots|]. split; [apply cf_roots|].
  split; [|split; [|repeat split; destruct vt; vm_compute; reflexivity]].
  - intros d [<-|[<-|[]]]; (split; [|split; [apply nodupb_sound; reflexivity|apply inclb_sound; destruct vt; vm_compute; reflexivity]]);
      apply knownb_sound; vm_compute; reflexivity.
  - apply fresh_check; destruct vt; vm_compute; reflexivity.
Qed.

(** ** C33 *)
Theorem C33_pns : forall m D F vt endo cast, causal m D F vt endo cast -> plain_roots m -> forall X, roots (m_graph m) X ->
  forall heur so, is_heuristic heur -> is_set_order so ->
  forall cause effect tfc tfe tc fc te fe, truth_states D cause tfc tc fc -> truth_states D effect tfe te fe -> cause <> effect ->
  ~ In cause X -> ~ In effect X -> (exists w, arc (m_graph m) cause w) ->
  fresh_names (m_graph m) X [[(cause, fc)]; [(cause, tc)]] ->
  exists m1, cve_init m = Ok m1 /\ prob_necessity_sufficiency heur so m1 cause effect tfc tfe =
    Ok (Fin (cf_mass D F X [([(cause, fc)], [(effect, fe)]); ([(cause, tc)], [(effect, te)])])).
Proof. exact pns_ok. Qed.
Print Assumptions C33_pns.

Theorem C33_pn : forall m D F vt endo cast, causal m D F vt endo cast -> plain_roots m -> forall X, roots (m_graph m) X ->
  forall heur so, is_heuristic heur -> is_set_order so ->
  forall cause effect tfc tfe tc fc te fe, truth_states D cause tfc tc fc -> truth_states D effect tfe te fe -> cause <> effect ->
  ~ In cause X -> ~ In effect X -> (exists w, arc (m_graph m) cause w) -> fresh_names (m_graph m) X [[(cause, fc)]] ->
  cf_mass D F X [([], [(cause, tc); (effect, te)])] <> 0%Qc ->
  exists m1, cve_init m = Ok m1 /\ prob_necessity heur so m1 cause effect tfc tfe =
    Ok (Fin (cf_mass D F X [([], [(cause, tc); (effect, te)]); ([(cause, fc)], [(effect, fe)])]
             / cf_mass D F X [([], [(cause, tc); (effect, te)])])%Qc).
Proof. exact pn_ok. Qed.
Print Assumptions C33_pn.

Theorem C33_ps : forall m D F vt endo cast, causal m D F vt endo cast -> plain_roots m -> forall X, roots (m_graph m) X ->
  forall heur so, is_heuristic heur -> is_set_order so ->
  forall cause effect tfc tfe tc fc te fe, truth_states D cause tfc tc fc -> truth_states D effect tfe te fe -> cause <> effect ->
  ~ In cause X -> ~ In effect X -> (exists w, arc (m_graph m) cause w) -> fresh_names (m_graph m) X [[(cause, tc)]] ->
  cf_mass D F X [([], [(cause, fc); (effect, fe)])] <> 0%Qc ->
  exists m1, cve_init m = Ok m1 /\ prob_sufficiency heur so m1 cause effect tfc tfe =
    Ok (Fin (cf_mass D F X [([], [(cause, fc); (effect, fe)]); ([(cause, tc)], [(effect, te)])]
             / cf_mass D F X [([], [(cause, fc); (effect, fe)])])%Qc).
Proof. exact ps_ok. Qed.
Print Assumptions C33_ps.

(** A cause without children makes all three fail, although the probabilities are defined. *)
Theorem C33_childless_raises : forall m D F vt endo cast, causal m D F vt endo cast -> plain_roots m -> forall X, roots (m_graph m) X ->
  forall heur so, is_set_order so ->
  forall cause effect tfc tfe tc fc te fe, truth_states D cause tfc tc fc -> truth_states D effect tfe te fe -> cause <> effect ->
  ~ In cause X -> (forall w, ~ arc (m_graph m) cause w) -> fresh_names (m_graph m) X [[(cause, fc)]; [(cause, tc)]] ->
  exists m1, cve_init m = Ok m1 /\ 
    prob_necessity_sufficiency heur so m1 cause effect tfc tfe = Raise NetworkXError /\
    prob_necessity heur so m1 cause effect tfc tfe = Raise NetworkXError /\
    prob_sufficiency heur so m1 cause effect tfc tfe = Raise NetworkXError.
Proof. exact childless_cause. Qed.
Print Assumptions C33_childless_raises.

(** A cause or an effect that the model does not know, or has no domain for, is
    rejected if its true and false states are not given. *)
Theorem C33_unknown_raises : forall heur so m cause effect tfc tfe v e,
  ((v = cause /\ tfc = None) \/ (v = effect /\ tfe = None /\ tfc <> None)) ->
  ((dget v (m_domains m) = None /\ e = KeyError) \/ (dget v (m_domains m) = Some None /\ e = TypeError)) ->
  prob_necessity_sufficiency heur so m cause effect tfc tfe = Raise e /\
  prob_necessity heur so m cause effect tfc tfe = Raise e /\ prob_sufficiency heur so m cause effect tfc tfe = Raise e.
Proof. exact truth_unknown. Qed.
Print Assumptions C33_unknown_raises.

Example C33_case : forall vt,
  let F := table_of vt ts_cf in let h := heuristic_fn MIN_FILL first_choice in
  causal (m_cf vt) D_cf F vt ["X"; "Z"; "Y"] false /\ roots (m_graph (m_cf vt)) X_cf /\ plain_roots (m_cf vt) /\
  truth_states D_cf "Z" None (SInt 1) (SInt 0) /\ truth_states D_cf "Y" None (SStr "y1") (SStr "y0") /\
  truth_states D_cf "Z" (Some (SInt 0, SInt 1)) (SInt 0) (SInt 1) /\
  fresh_names (m_graph (m_cf vt)) X_cf [[("Z", SInt 1)]; [("Z", SInt 0)]] /\
  qeqb (cf_mass D_cf F X_cf [([], [("Z", SInt 0); ("Y", SStr "y1")])]) (1#2) = true /\
  (let* m1 := cve_init (m_cf vt) in
   let* p := prob_necessity_sufficiency h plain_order m1 "Z" "Y" (Some (SInt 0, SInt 1)) None in
   let* p' := prob_necessity_sufficiency h plain_order m1 "Z" "Y" None None in
   let* n := prob_necessity h plain_order m1 "Z" "Y" (Some (SInt 0, SInt 1)) None in
   let* s := prob_sufficiency h plain_order m1 "Z" "Y" (Some (SInt 0, SInt 1)) None in
   Ok [num_eqb p (q (1#5)); num_eqb p' (q 0); num_eqb n (q (1#5)); num_eqb s (q 1)]) = Ok [true; true; true; true].
Proof.
  intros vt F h. split; [apply cf_ok|]. split; [apply cf_roots|]. split; [apply cf_roots|].
  split. { exists l01. vm_compute. tauto. }
  split. { exists lY. split; [vm_compute; tauto|]. split; [vm_compute; tauto|]. split; [vm_compute; tauto|]. reflexivity. }
  split. { exists l01. vm_compute. tauto. }
  split; [apply fresh_check; destruct vt; vm_compute; reflexivity|]. split; destruct vt; vm_compute; reflexivity.
Qed.
