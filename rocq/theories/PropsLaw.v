(** Property C68: the probabilities of causation obey the identities and bounds
    that relate them with observational and interventional probabilities. *)

From Coq Require Import String Ascii Bool Arith ZArith QArith Qcanon Permutation List.
From Verif Require Import PyBase Num DomainModel NdArray StoreModel NumStore FactorModel GraphModel ModelModel InferModel CausalModel
  Spec StoreSpec FactorSpec GraphSpec ModelSpec NetSpec OrderSpec CausalSpec LawSpec
  LawFacts3 Checks FactorChecks GraphChecks InferChecks CausalChecks LawChecks.
Import ListNotations.
Local Open Scope nat_scope.
Local Open Scope string_scope.
Local Open Scope list_scope.

(** ** C68 *)
(** Whatever the numbers of states, PNS lies between the Frechet bounds. *)
Theorem C68_frechet : forall m D F vt endo cast, causal m D F vt endo cast -> plain_roots m -> forall X, roots (m_graph m) X ->
  forall heur so, is_heuristic heur -> is_set_order so ->
  forall cause effect tfc tfe tc fc te fe, truth_states D cause tfc tc fc -> truth_states D effect tfe te fe -> cause <> effect ->
  ~ In cause X -> ~ In effect X -> (exists w, arc (m_graph m) cause w) ->
  fresh_names (m_graph m) X [[(cause, fc)]; [(cause, tc)]] -> nonnegative D F ->
  exists m1 pns y1 y0, cve_init m = Ok m1 /\
    prob_necessity_sufficiency heur so m1 cause effect tfc tfe = Ok (Fin pns) /\
    answer (causal_query heur so m1 [effect] (DoDict [(cause, tc)]) []) [(effect, te)] y1 /\
    answer (causal_query heur so m1 [effect] (DoDict [(cause, fc)]) []) [(effect, fe)] y0 /\
    (0 <= pns)%Qc /\ (pns <= y1)%Qc /\ (pns <= y0)%Qc /\ (y1 + y0 - 1 <= pns)%Qc.
Proof. exact frechet. Qed.
Print Assumptions C68_frechet.

(** PNS = P(cause, effect) PN + P(no cause, no effect) PS if the cause has no
    third state; otherwise PNS may be larger. *)
Theorem C68_identity : forall m D F vt endo cast, causal m D F vt endo cast -> plain_roots m -> forall X, roots (m_graph m) X ->
  forall heur so, is_heuristic heur -> is_set_order so ->
  forall cause effect tfc tfe tc fc te fe, truth_states D cause tfc tc fc -> truth_states D effect tfe te fe -> cause <> effect ->
  ~ In cause X -> ~ In effect X -> (exists w, arc (m_graph m) cause w) ->
  fresh_names (m_graph m) X [[(cause, fc)]; [(cause, tc)]] ->
  mass D F [(cause, tc); (effect, te)] <> 0%Qc -> mass D F [(cause, fc); (effect, fe)] <> 0%Qc ->
  exists m1 pns pn ps p11 p00, cve_init m = Ok m1 /\
    prob_necessity_sufficiency heur so m1 cause effect tfc tfe = Ok (Fin pns) /\
    prob_necessity heur so m1 cause effect tfc tfe = Ok (Fin pn) /\ prob_sufficiency heur so m1 cause effect tfc tfe = Ok (Fin ps) /\
    answer (causal_query heur so m1 [cause; effect] (DoDict []) []) [(cause, tc); (effect, te)] p11 /\
    answer (causal_query heur so m1 [cause; effect] (DoDict []) []) [(cause, fc); (effect, fe)] p00 /\
    (two_states D cause tc fc -> pns = p11 * pn + p00 * ps)%Qc /\
    (tc <> fc -> nonnegative D F -> p11 * pn + p00 * ps <= pns)%Qc.
Proof. exact identity. Qed.
Print Assumptions C68_identity.

(** The bounds of Tian and Pearl for a binary cause and a binary effect. *)
Theorem C68_bounds : forall m D F vt endo cast, causal m D F vt endo cast -> plain_roots m -> forall X, roots (m_graph m) X ->
  forall heur so, is_heuristic heur -> is_set_order so ->
  forall cause effect tfc tfe tc fc te fe, truth_states D cause tfc tc fc -> truth_states D effect tfe te fe -> cause <> effect ->
  ~ In cause X -> ~ In effect X -> (exists w, arc (m_graph m) cause w) ->
  fresh_names (m_graph m) X [[(cause, fc)]; [(cause, tc)]] ->
  two_states D cause tc fc -> two_states D effect te fe -> nonnegative D F ->
  exists m1 pns y1 y0 y p11 p10 p01 p00, cve_init m = Ok m1 /\
    prob_necessity_sufficiency heur so m1 cause effect tfc tfe = Ok (Fin pns) /\
    answer (causal_query heur so m1 [effect] (DoDict [(cause, tc)]) []) [(effect, te)] y1 /\
    answer (causal_query heur so m1 [effect] (DoDict [(cause, fc)]) []) [(effect, te)] y0 /\
    answer (causal_query heur so m1 [effect] (DoDict []) []) [(effect, te)] y /\
    answer (causal_query heur so m1 [cause; effect] (DoDict []) []) [(cause, tc); (effect, te)] p11 /\
    answer (causal_query heur so m1 [cause; effect] (DoDict []) []) [(cause, tc); (effect, fe)] p10 /\
    answer (causal_query heur so m1 [cause; effect] (DoDict []) []) [(cause, fc); (effect, te)] p01 /\
    answer (causal_query heur so m1 [cause; effect] (DoDict []) []) [(cause, fc); (effect, fe)] p00 /\
    (0 <= pns /\ y1 - y0 <= pns /\ y - y0 <= pns /\ y1 - y <= pns /\
     pns <= y1 /\ pns <= 1 - y0 /\ pns <= p11 + p00 /\ pns <= y1 - y0 + p10 + p01)%Qc /\
    (p11 <> 0 -> exists pn, prob_necessity heur so m1 cause effect tfc tfe = Ok (Fin pn) /\
      0 <= pn /\ (y - y0) / p11 <= pn /\ pn <= 1 /\ pn <= (1 - y0 - p00) / p11)%Qc /\
    (p00 <> 0 -> exists ps, prob_sufficiency heur so m1 cause effect tfc tfe = Ok (Fin ps) /\
      0 <= ps /\ (y1 - y) / p00 <= ps /\ ps <= 1 /\ ps <= (y1 - p11) / p00)%Qc.
Proof. exact tian_pearl. Qed.
Print Assumptions C68_bounds.

(** The units that the cause saves and those that it harms differ by the effect
    of the intervention. *)
Theorem C68_difference : forall m D F vt endo cast, causal m D F vt endo cast -> plain_roots m -> forall X, roots (m_graph m) X ->
  forall heur so, is_heuristic heur -> is_set_order so ->
  forall cause effect tfc tfe tc fc te fe, truth_states D cause tfc tc fc -> truth_states D effect tfe te fe -> cause <> effect ->
  ~ In cause X -> ~ In effect X -> (exists w, arc (m_graph m) cause w) ->
  fresh_names (m_graph m) X [[(cause, fc)]; [(cause, tc)]] -> two_states D cause tc fc -> two_states D effect te fe ->
  exists m1 pns prev y1 y0, cve_init m = Ok m1 /\
    prob_necessity_sufficiency heur so m1 cause effect tfc tfe = Ok (Fin pns) /\
    prob_necessity_sufficiency heur so m1 cause effect (Some (tc, fc)) (Some (fe, te)) = Ok (Fin prev) /\
    answer (causal_query heur so m1 [effect] (DoDict [(cause, tc)]) []) [(effect, te)] y1 /\
    answer (causal_query heur so m1 [effect] (DoDict [(cause, fc)]) []) [(effect, te)] y0 /\
    (pns - prev = y1 - y0)%Qc.
Proof. exact difference. Qed.
Print Assumptions C68_difference.

(** If the cause prevents the effect in no unit, then all three are determined
    by observational and interventional probabilities. *)
Theorem C68_monotone : forall m D F vt endo cast, causal m D F vt endo cast -> plain_roots m -> forall X, roots (m_graph m) X ->
  forall heur so, is_heuristic heur -> is_set_order so ->
  forall cause effect tfc tfe tc fc te fe, truth_states D cause tfc tc fc -> truth_states D effect tfe te fe -> cause <> effect ->
  ~ In cause X -> ~ In effect X -> (exists w, arc (m_graph m) cause w) ->
  fresh_names (m_graph m) X [[(cause, fc)]; [(cause, tc)]] -> two_states D cause tc fc -> two_states D effect te fe ->
  nonnegative D F -> cf_mass D F X [([(cause, fc)], [(effect, te)]); ([(cause, tc)], [(effect, fe)])] = 0%Qc ->
  exists m1 y1 y0 y p11 p00, cve_init m = Ok m1 /\
    answer (causal_query heur so m1 [effect] (DoDict [(cause, tc)]) []) [(effect, te)] y1 /\
    answer (causal_query heur so m1 [effect] (DoDict [(cause, fc)]) []) [(effect, te)] y0 /\
    answer (causal_query heur so m1 [effect] (DoDict []) []) [(effect, te)] y /\
    answer (causal_query heur so m1 [cause; effect] (DoDict []) []) [(cause, tc); (effect, te)] p11 /\
    answer (causal_query heur so m1 [cause; effect] (DoDict []) []) [(cause, fc); (effect, fe)] p00 /\
    prob_necessity_sufficiency heur so m1 cause effect tfc tfe = Ok (Fin (y1 - y0)%Qc) /\
    (p11 <> 0%Qc -> prob_necessity heur so m1 cause effect tfc tfe = Ok (Fin ((y - y0) / p11)%Qc)) /\
    (p00 <> 0%Qc -> prob_sufficiency heur so m1 cause effect tfc tfe = Ok (Fin ((y1 - y) / p00)%Qc)).
Proof. exact monotone. Qed.
Print Assumptions C68_monotone.

(** Naming the true states the false ones exchanges necessity and sufficiency. *)
Theorem C68_duality : forall heur so m cause effect tc fc te fe,
  prob_necessity heur so m cause effect (Some (fc, tc)) (Some (fe, te)) = prob_sufficiency heur so m cause effect (Some (tc, fc)) (Some (te, fe)) /\
  prob_sufficiency heur so m cause effect (Some (fc, tc)) (Some (fe, te)) = prob_necessity heur so m cause effect (Some (tc, fc)) (Some (te, fe)).
Proof. exact duality. Qed.
Print Assumptions C68_duality.

(** In the confounded model with a unit that the cause harms: PNS = 2/5 is the
    upper bound y1 - y0 + p10 + p01; PN = 3/7 and PS = 1. *)
Example C68_case : forall vt, law_facts vt true /\
  (let h := heuristic_fn MIN_FILL first_choice in
   let* m1 := cve_init (m_law vt true) in
   let ask T d t p := match causal_query h plain_order m1 T (DoDict d) [] with Ok r => okb (mf_get_value r t) (q p) | Raise _ => false end in
   let* pns := prob_necessity_sufficiency h plain_order m1 "X" "Y" None None in
   let* prev := prob_necessity_sufficiency h plain_order m1 "X" "Y" None (Some (SInt 0, SInt 1)) in
   let* pn := prob_necessity h plain_order m1 "X" "Y" None None in
   let* ps := prob_sufficiency h plain_order m1 "X" "Y" None None in
   Ok [num_eqb pns (q (2#5)); num_eqb prev (q (1#5)); num_eqb pn (q (3#7)); num_eqb ps (q 1);
       ask ["Y"] [("X", SInt 1)] [("Y", SInt 1)] (4#5); ask ["Y"] [("X", SInt 0)] [("Y", SInt 1)] (3#5);
       ask ["Y"] [] [("Y", SInt 1)] (9#10); ask ["X"; "Y"] [] [("X", SInt 1); ("Y", SInt 1)] (7#10);
       ask ["X"; "Y"] [] [("X", SInt 0); ("Y", SInt 1)] (1#5); ask ["X"; "Y"] [] [("X", SInt 0); ("Y", SInt 0)] (1#10)]) =
  Ok [true; true; true; true; true; true; true; true; true; true].
Proof. intros vt. split; [apply law_holds|]. destruct vt; vm_compute; reflexivity. Qed.

(** Without that unit the cause prevents nothing, and PNS = y1 - y0. *)
Example C68_monotone_case : forall vt, law_facts vt false /\
  qeqb (cf_mass D_law (table_of vt (ts_law false)) ["U"] [([("X", SInt 0)], [("Y", SInt 1)]); ([("X", SInt 1)], [("Y", SInt 0)])]) 0 = true /\
  (let h := heuristic_fn MIN_FILL first_choice in
   let* m1 := cve_init (m_law vt false) in
   let ask d p := match causal_query h plain_order m1 ["Y"] (DoDict d) [] with Ok r => okb (mf_get_value r [("Y", SInt 1)]) (q p) | Raise _ => false end in
   let* pns := prob_necessity_sufficiency h plain_order m1 "X" "Y" None None in
   let* pn := prob_necessity h plain_order m1 "X" "Y" None None in
   let* ps := prob_sufficiency h plain_order m1 "X" "Y" None None in
   Ok [num_eqb pns (q (2#5)); num_eqb pn (q (3#7)); num_eqb ps (q (1#3)); ask [("X", SInt 1)] (4#5); ask [("X", SInt 0)] (2#5); ask [] (7#10)]) =
  Ok [true; true; true; true; true; true].
Proof. intros vt. split; [apply law_holds|]. split; destruct vt; vm_compute; reflexivity. Qed.
