(** Property C42: the likelihood of the data under the models of the EM learner. *)

From Coq Require Import String Ascii Bool Arith ZArith QArith Qcanon List.
From Verif Require Import PyBase PyFacts Num DomainModel NdArray StoreModel NumStore FactorModel GraphModel ModelModel InferModel LearnModel
  Spec StoreSpec FactorSpec GraphSpec ModelSpec NetSpec LearnSpec EmSpec EmFacts6 EmFacts7 Checks FactorChecks GraphChecks OrderSpec InferChecks
  CausalChecks LearnChecks EmChecks.
Import ListNotations.
Local Open Scope nat_scope.
Local Open Scope string_scope.
Local Open Scope list_scope.

(** ** C42 *)
(** A step, with any exact method of inference.  If the same variables are
    observed in all rows, and the variables that are still trained and their
    parents are not among them, then the new model is a network (ready for the
    next step) under which the data is at least as likely.  An exception is
    raised, and nothing changed, if no observed variable bears on some variable
    to train. *)
Theorem C42_step : forall query set_iter vt, exact_query query -> iterates set_iter ->
  forall D E data, observes D data E -> forall l m F, ready D vt E data l m F ->
  ((forall v, trains l v -> ~ has_converged l v -> informed (m_graph m) E v) ->
     exists m' F' l', em_step query set_iter vt l None = (l', None) /\ l_prior l' = l_prior l /\ l_sub l' = l_sub l /\
       model_evolution l' = model_evolution l ++ [m'] /\ m_graph m' = m_graph m /\ ready D vt E data l' m' F' /\
       (likelihood D F data <= likelihood D F' data)%Qc) /\
  ((exists v, trains l v /\ ~ has_converged l v /\ ~ informed (m_graph m) E v) ->
     em_step query set_iter vt l None = (l, Some TypeError)).
Proof. exact step_ready. Qed.
Print Assumptions C42_step.

Example C42_step_case :
  observes D_ch fr_ch' ["X"] /\
  ready D_ch VNumpy ["X"] fr_ch' start_ch (model_of start_ch) (table_in (model_of start_ch)) /\
  (forall v, trains start_ch v -> ~ has_converged start_ch v -> informed (m_graph (model_of start_ch)) ["X"] v).
Proof. exact (conj ch_observes' (conj ch_ready ch_informed)). Qed.

(** A run, for any stopping rule and number of iterations, also if it ends with
    an exception: the likelihood never falls from one recorded model to the
    next. *)
Theorem C42_run : forall query set_iter no_divergence vt, exact_query query -> iterates set_iter ->
  forall D E data fuel max_iter l F l' o,
  network (l_prior l) D F vt -> nonnegative D F -> describes D (l_prior l) -> observes D data E ->
  (forall r, In r (f_rows data) -> mass D F (row_obs data r) <> 0%Qc) ->
  (forall v, to_train (em_trainable (l_sub l)) (m_graph (l_prior l)) data E v -> learnable D F (m_graph (l_prior l)) data E v) ->
  em_run query set_iter no_divergence vt fuel l data max_iter = (l', o) ->
  exists ms, model_evolution l' = model_evolution l ++ ms /\ rises D vt data F ms.
Proof. exact run_rises. Qed.
Print Assumptions C42_run.

(** U -> V -> X with U and V hidden: two steps, after which the data is
    strictly more likely. *)
Example C42_run_case :
  (network m_ch D_ch F_ch VNumpy /\ nonnegative D_ch F_ch /\ describes D_ch m_ch /\ observes D_ch fr_ch ["X"]) /\
  (forall r, In r (f_rows fr_ch) -> mass D_ch F_ch (row_obs fr_ch r) <> 0%Qc) /\
  (forall v, to_train None (m_graph m_ch) fr_ch ["X"] v -> learnable D_ch F_ch (m_graph m_ch) fr_ch ["X"] v) /\
  snd run_ch = Done /\ length (model_evolution (fst run_ch)) = 3 /\
  (likelihood D_ch F_ch fr_ch < likelihood D_ch last_F fr_ch)%Qc.
Proof. exact (conj (conj ch_network (conj ch_nonnegative (conj ch_describes ch_observes))) (conj ch_possible (conj ch_learnable ch_result))). Qed.

(** Variable elimination, with any heuristic and order of sets, is an exact
    method of inference. *)
Theorem C42_elimination : forall heur so, is_heuristic heur -> is_set_order so ->
  exact_query (fun m T e => ve_query heur so m T None e).
Proof. exact ve_exact. Qed.
Print Assumptions C42_elimination.

(** The hypotheses cannot be dropped: the likelihood falls if a trained variable
    has an observed parent, ... *)
Theorem C42_observed_parent_refuted : exists (l : learner em_state) m F D E data,
  set_up D VNumpy data l m F /\ observes D data E /\
  (forall v, trains l v -> In v (nodes (m_graph m)) /\ ~ In v E /\ informed (m_graph m) E v /\
     forall t, assigns D (preds (m_graph m) v) t -> exists r, In r (f_rows data) /\ mass D F (t ++ row_obs data r) <> 0%Qc) /\
  falls em_query plain_iter D VNumpy data l F.
Proof. exact observed_parent. Qed.
Print Assumptions C42_observed_parent_refuted.

(** ... if different variables are missing in different rows, ... *)
Theorem C42_different_rows_refuted : exists (l : learner em_state) m F D data,
  set_up D VNumpy data l m F /\
  (forall r, In r (f_rows data) -> exists E, observes D (mkF (f_cols data) [r]) E /\
     forall v, trains l v -> informed (m_graph m) E v /\ learnable D F (m_graph m) data E v) /\
  falls em_query plain_iter D VNumpy data l F.
Proof. exact different_rows. Qed.
Print Assumptions C42_different_rows_refuted.

(** ... and if an observed variable with hidden parents is trained. *)
Theorem C42_observed_trained_refuted : exists (l : learner em_state) m F D E data,
  set_up D VNumpy data l m F /\ observes D data E /\
  (forall v, trains l v -> In v E /\ (forall x, arc (m_graph m) x v -> ~ In x E) /\
     forall t, assigns D (preds (m_graph m) v) t -> exists r, In r (f_rows data) /\ mass D F (t ++ row_obs data r) <> 0%Qc) /\
  falls em_query plain_iter D VNumpy data l F.
Proof. exact observed_trained. Qed.
Print Assumptions C42_observed_trained_refuted.

(** If some states of the parents of a trained variable are impossible, its new
    table does not sum to one for them. *)
Theorem C42_unseen_parents_refuted : exists (l : learner em_state) m F D E data,
  set_up D VNumpy data l m F /\ observes D data E /\
  (forall v, trains l v -> informed (m_graph m) E v /\ In v (nodes (m_graph m)) /\ ~ In v E /\ (forall x, arc (m_graph m) x v -> ~ In x E)) /\
  exists l' m' v f, em_step em_query plain_iter VNumpy l None = (l', None) /\ l_model l' = Some m' /\
    In v (nodes (m_graph m)) /\ stored m' v (FM f) /\ ~ normalised f.
Proof. exact unseen_parents. Qed.
Print Assumptions C42_unseen_parents_refuted.
