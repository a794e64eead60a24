(** Properties C40, C41: iterative parameter learning. *)

From Coq Require Import String Ascii Bool Arith ZArith QArith Qcanon List.
From Verif Require Import PyBase PyFacts Num DomainModel NdArray StoreModel NumStore FactorModel GraphModel ModelModel InferModel LearnModel
  Spec StoreSpec FactorSpec GraphSpec ModelSpec LearnSpec LearnFacts LearnFacts2 LearnFacts3 Checks FactorChecks GraphChecks OrderSpec InferChecks
  CausalChecks LearnChecks.
Import ListNotations.
Local Open Scope nat_scope.
Local Open Scope string_scope.
Local Open Scope list_scope.

(** ** C40 *)
(** A run, for any update and stopping rule.  The models [ms] it records are
    those of the states [ts] it goes through; the stopping test fails after all
    of them but the last. *)
Theorem C40_run : forall (S Data : Type) (process_data : learner S -> Data -> S * option err)
    (calculate : learner S -> S * res (dict var fobj)) (stop : learner S -> S * res bool),
  (forall l s probs, calculate l = (s, Ok probs) -> NoDup (keys probs)) ->
  forall fuel l data max_iter l' o, run process_data calculate stop fuel l data max_iter = (l', o) ->
  l_prior l' = l_prior l /\
  exists ms, model_evolution l' = model_evolution l ++ ms /\
    (ms <> [] -> l_model l' = Some (last ms (l_prior l))) /\
    (forall k, max_iter = Some k -> (Z.of_nat (length ms) <= Z.max 0 k)%Z) /\
    (o = Done -> (forall k, max_iter = Some k -> (1 <= k)%Z) -> ms <> []) /\
    (o = Running -> length ms = fuel /\ forall k, max_iter = Some k -> (Z.of_nat fuel < k)%Z) /\
    (o = Done -> exists l0 m0 ts,
       initialize process_data l data = (l0, None) /\ m_copy (l_prior l) = Ok m0 /\ l_model l0 = Some m0 /\
       l_model l' = Some (last ms m0) /\
       goes_on process_data calculate stop l0 ts /\
       Forall2 (fun t m => l_model t = Some m) ts ms /\
       (forall j t, nth_error ts j = Some t -> model_evolution t = model_evolution l ++ firstn (j + 1) ms) /\
       ((exists k, max_iter = Some k /\ Z.of_nat (length ms) = Z.max 0 k) \/
        (ts <> [] /\ exists s, stop (last ts l0) = (s, Ok true)))).
Proof. exact @run_trace. Qed.
Print Assumptions C40_run.

(** One step: the model gets the computed factors and keeps its others; if it
    raises, the model and the evolution stay as they were. *)
Theorem C40_step : forall (S Data : Type) (process_data : learner S -> Data -> S * option err)
    (calculate : learner S -> S * res (dict var fobj)),
  (forall l s probs, calculate l = (s, Ok probs) -> NoDup (keys probs)) ->
  forall l data l' e, step process_data calculate l data = (l', e) ->
  l_prior l' = l_prior l /\
  match e with
  | None => exists m s probs m', l_model l = Some m /\
      calculate (match data with None => l | Some d => with_sub l (fst (process_data l d)) end) = (s, Ok probs) /\
      updated m probs m' /\ l_model l' = Some m' /\ model_evolution l' = model_evolution l ++ [m']
  | Some _ => l_model l' = l_model l /\ model_evolution l' = model_evolution l
  end.
Proof. exact @step_cases. Qed.
Print Assumptions C40_step.

(** Any history of calls: the evolution starts as it was (for a new learner:
    with the prior model) and grows by the models of each call. *)
Theorem C40_history : forall (S Data : Type) (process_data : learner S -> Data -> S * option err)
    (calculate : learner S -> S * res (dict var fobj)) (stop : learner S -> S * res bool),
  (forall l s probs, calculate l = (s, Ok probs) -> NoDup (keys probs)) ->
  forall cs l, exists mss,
  Forall2 (fun c ms => allowed c (length ms)) cs mss /\
  model_evolution (history process_data calculate stop l cs) = model_evolution l ++ concat mss /\
  l_prior (history process_data calculate stop l cs) = l_prior l.
Proof. exact @history_evolution. Qed.
Print Assumptions C40_history.

(** The learner of the example: U is hidden, X copies it and is observed as 0,
    0, 1, 0.  It stops after two steps, or after the one it is allowed; with
    max_iter = 0 it makes none, and then the model is again the prior one while
    the evolution still ends with the learned one. *)
Example C40_case :
  (forall l s probs, em_calculate em_query plain_iter VNumpy l = (s, Ok probs) -> NoDup (keys probs)) /\
  snd (em_go e0 None) = Done /\ length (model_evolution e1) = 3 /\
  stored_value e1 "U" [("U", SInt 0)] (3#4) = true /\
  (let (l, o) := em_go e0 (Some 1%Z) in o = Done /\ length (model_evolution l) = 2) /\
  (let (l, o) := em_go e1 (Some 0%Z) in o = Done /\ length (model_evolution l) = 3 /\
     stored_value l "U" [("U", SInt 0)] (1#2) = true /\
     okb (value_in (last (model_evolution l) m_em) "U" [("U", SInt 0)]) (Fin (Q2Qc (3#4))) = true).
Proof.
  split; [apply (em_dicts em_query plain_iter VNumpy plain_iter_ok)|].
  split; [vm_compute; reflexivity|]. split; [vm_compute; reflexivity|]. split; [vm_compute; reflexivity|].
  split; [vm_compute; split; reflexivity|]. vm_compute; repeat split; reflexivity.
Qed.

(** ** C41 *)
(** Variables that are not trained keep the prior factor in every model of any
    history of run and step calls. *)
Theorem C41_untrained : forall query set_iter no_divergence dflt, iterates set_iter ->
  forall prior tr cs v f, settled prior -> NoDup (keys (m_factors prior)) ->
  let l := history em_process_data (em_calculate query set_iter dflt) (em_stop no_divergence) (em_init prior tr) cs in
  In v (nodes (m_graph prior)) -> stored prior v f -> ~ trains l v ->
  forall m, In m (model_evolution l) \/ l_model l = Some m -> stored m v f.
Proof. exact em_untrained. Qed.
Print Assumptions C41_untrained.

(** Within a run (whose states are those of [C40_run]), the factor of a variable
    that is found converged after some step is the same in all later models. *)
Theorem C41_frozen : forall query set_iter no_divergence dflt, iterates set_iter ->
  forall l data l0 ts1 t ts2 s b v f, settled (l_prior l) -> NoDup (keys (m_factors (l_prior l))) ->
  initialize em_process_data l data = (l0, None) ->
  goes_on em_process_data (em_calculate query set_iter dflt) (em_stop no_divergence) l0 (ts1 ++ t :: ts2) ->
  em_stop no_divergence t = (s, Ok b) -> In v (em_converged s) -> In v (nodes (m_graph (l_prior l))) ->
  holds_factor t v f -> Forall (fun t' => holds_factor t' v f) ts2.
Proof. exact em_frozen. Qed.
Print Assumptions C41_frozen.

(** The same for steps made outside run. *)
Theorem C41_frozen_step : forall query set_iter no_divergence dflt, iterates set_iter ->
  forall prior tr cs data l' v f, settled prior -> NoDup (keys (m_factors prior)) ->
  let l := history em_process_data (em_calculate query set_iter dflt) (em_stop no_divergence) (em_init prior tr) cs in
  em_step query set_iter dflt l data = (l', None) -> In v (nodes (m_graph prior)) -> has_converged l v \/ ~ trains l' v ->
  holds_factor l v f -> holds_factor l' v f.
Proof. exact em_frozen_step. Qed.
Print Assumptions C41_frozen_step.

(** A new run does not train the variables that converged in an earlier one:
    they have the prior factor in all its models. *)
Theorem C41_converged_before : forall query set_iter no_divergence dflt, iterates set_iter ->
  forall prior tr cs fuel data max l' o, settled prior -> NoDup (keys (m_factors prior)) ->
  let l := history em_process_data (em_calculate query set_iter dflt) (em_stop no_divergence) (em_init prior tr) cs in
  em_run query set_iter no_divergence dflt fuel l data max = (l', o) ->
  exists ms, model_evolution l' = model_evolution l ++ ms /\
    forall v f, In v (nodes (m_graph prior)) -> stored prior v f -> has_converged l v ->
    forall m, In m ms -> stored m v f.
Proof. exact em_converged_run. Qed.
Print Assumptions C41_converged_before.

(** So a run after a converged one makes at most one step, to a model that has
    all the prior factors. *)
Theorem C41_rerun : forall query set_iter no_divergence dflt, iterates set_iter ->
  forall prior tr cs fuel data max l' o, settled prior -> NoDup (keys (m_factors prior)) ->
  let l := history em_process_data (em_calculate query set_iter dflt) (em_stop no_divergence) (em_init prior tr) cs in
  (exists v, trains l v) -> (forall v, trains l v -> has_converged l v) ->
  em_run query set_iter no_divergence dflt fuel l data max = (l', o) ->
  exists ms, model_evolution l' = model_evolution l ++ ms /\ length ms <= 1 /\
    forall v f, In v (nodes (m_graph prior)) -> stored prior v f -> forall m, In m ms -> stored m v f.
Proof. exact em_rerun. Qed.
Print Assumptions C41_rerun.

(** "Calling run again trains again" is false: with the exact divergence test
    and exact inference, the first run learns P(U=0) = 3/4 from the prior 1/2
    and the second, on the same data, ends with 1/2. *)
Theorem C41_retrain_refuted : exists set_iter no_divergence prior data,
  iterates set_iter /\ divergence_test no_divergence /\ settled prior /\ NoDup (keys (m_factors prior)) /\
  let again l := em_run em_query set_iter no_divergence VNumpy 5 l data None in
  let l1 := fst (again (em_init prior None)) in
  let l2 := fst (again l1) in
  snd (again (em_init prior None)) = Done /\ snd (again l1) = Done /\
  (exists m f, l_model l1 = Some m /\ stored m "U" (FM f) /\ mf_get_value f [("U", SInt 0)] = Ok (Fin (Q2Qc (3#4)))) /\
  (exists m f, l_model l2 = Some m /\ stored m "U" (FM f) /\ mf_get_value f [("U", SInt 0)] = Ok (Fin (Q2Qc (1#2)))).
Proof.
  exists plain_iter, equality_test, m_em, fr_em. split; [exact plain_iter_ok|]. split; [exact equality_test_ok|].
  split; [exact (proj1 m_em_settled)|]. split; [exact (proj2 m_em_settled)|]. cbv zeta.
  split; [vm_compute; reflexivity|]. split; [vm_compute; reflexivity|].
  split; apply stored_value_sound; vm_compute; reflexivity.
Qed.
Print Assumptions C41_retrain_refuted.

Example C41_case : iterates plain_iter /\ settled m_em /\ NoDup (keys (m_factors m_em)) /\
  e1h = history em_process_data (em_calculate em_query plain_iter VNumpy) (em_stop equality_test) (em_init m_em None) [CRun 5 fr_em None] /\
  trains e1h "U" /\ ~ trains e1h "X" /\ has_converged e1h "U" /\ In "X" (nodes (m_graph m_em)) /\
  stored m_em "X" (FM (table_of VNumpy ts_em "X")) /\
  (exists m f, l_model e1h = Some m /\ stored m "U" (FM f) /\ mf_get_value f [("U", SInt 0)] = Ok (Fin (Q2Qc (3#4)))) /\
  snd (em_step em_query plain_iter VNumpy e1h None) = None.
Proof.
  split; [exact plain_iter_ok|]. split; [exact (proj1 m_em_settled)|]. split; [exact (proj2 m_em_settled)|].
  split; [reflexivity|]. unfold trains, has_converged. rewrite e1h_trainable, e1h_converged, m_em_nodes.
  split; [exists ["U"]; split; [reflexivity|now left]|].
  split. { intros (tr & X & I). injection X as <-. destruct I as [I|[]]. discriminate. }
  split; [now left|]. split; [right; now left|]. split; [exact m_em_stored|].
  split; [exact (stored_value_sound _ _ _ _ e1h_value)|exact e1h_step].
Qed.
