(** Theorems about the gradient learner. *)

From Coq Require Import String ZArith QArith Qcanon List.
From Verif Require Import PyBase Num DomainModel NdArray StoreModel NumStore FactorModel GraphModel ModelModel InferModel LearnModel GradModel
  Spec FactorSpec GraphSpec ModelSpec NetSpec CausalSpec EmSpec QSpec GradSpec InferChecks CausalChecks EmChecks QChecks
  GradFacts2 GradFacts3 GradFacts4 GradFacts5 GradChecks.
Import ListNotations.
Local Open Scope nat_scope.
Local Open Scope string_scope.
Local Open Scope list_scope.

(** ** C60 *)
(** The objective handed to the optimiser: on parameters that are not negative
    it is the negative logarithm of the probability of the children of [U] in
    the data, and infinite where that is 0. *)
Theorem C60_objective : forall (L : Type) (l0 : L) ladd lopp lg lnan, logarithm l0 ladd lg ->
  forall m D F vt endo, causal_tables m D F vt endo -> describes D m ->
  forall U, sole_cause (m_graph m) F endo U ->
  forall data E, observes D data E -> incl endo E -> incl endo (f_cols data) ->
  exists stats, statistics m data U = Ok stats /\
    forall theta, length theta = length (states_of D U) -> (forall x, In x theta -> 0 <= x)%Qc ->
      negative_log_likelihood L l0 ladd lopp lg lnan stats theta =
      Ok (match succs (m_graph m) U with [] => Some (lopp l0) | _ => cost lopp lg (mixtures D F (m_graph m) U theta data) end).
Proof. exact @objective_ok. Qed.
Print Assumptions C60_objective.

(** The probability of the data is this probability times a number that does
    not depend on the table of [U]. *)
Theorem C60_share : forall m D F vt endo, causal_tables m D F vt endo ->
  forall data E, observes D data E -> incl endo E ->
  forall U, sole_cause (m_graph m) F endo U -> ~ In U E ->
  exists c, (0 <= c)%Qc /\ forall F', (forall v, v <> U -> F' v = F v) ->
    cpt D vt U [] (F' U) /\ (forall o, full (mf_domain (F' U)) o -> 0 <= entry (F' U) o)%Qc ->
    likelihood D F' data = (mixtures D F (m_graph m) U (params D F' U) data * c)%Qc.
Proof. exact likelihood_share. Qed.
Print Assumptions C60_share.

(** A run with an optimiser that returns distributions ends with a model of the
    same kind and structure, where only the trained tables have changed, to what
    the optimiser returned.  If the optimiser does not return anything worse
    than its start, the data has not become less likely. *)
Theorem C60_run : forall (L : Type) (l0 : L) ladd lopp lg lnan, logarithm l0 ladd lg ->
  forall minimize, stays_feasible minimize ->
  forall D F vt endo E l data k, causal_tables (l_prior l) D F vt endo -> (forall v, In v endo -> zero_one (F v)) ->
  describes D (l_prior l) -> observes D data E -> incl endo E ->
  (forall v, to_train (gr_trainable (l_sub l)) (m_graph (l_prior l)) data E v ->
     sole_cause (m_graph (l_prior l)) F endo v /\ ~ In v E /\ name_apart (l_prior l) v) ->
  f_rows data <> [] ->
  exists l' m' F', gr_run L l0 ladd lopp lg lnan minimize vt l data k = (l', None) /\ l_prior l' = l_prior l /\
    l_model l' = Some m' /\ model_evolution l' = model_evolution l ++ [m'] /\
    m_graph m' = m_graph (l_prior l) /\ m_kind m' = m_kind (l_prior l) /\ causal_tables m' D F' vt endo /\
    fitted lopp lg minimize k D (m_graph (l_prior l)) data
      (to_train (gr_trainable (l_sub l)) (m_graph (l_prior l)) data E) F F' /\
    forall lle, orders lopp lg lle -> descends lle minimize -> (likelihood D F data <= likelihood D F' data)%Qc.
Proof. exact @run_ok. Qed.
Print Assumptions C60_run.

Example C60_case : logarithm 1%Qc Qcmult lg_id /\ stays_feasible best /\ orders Qcinv lg_id Qcle /\ descends Qcle best /\
  causal_tables m_fd D_fd F_fd VNumpy endo_fd /\ (forall v, In v endo_fd -> zero_one (F_fd v)) /\ describes D_fd m_fd /\
  observes D_fd fr_gr ["X"; "Z"; "Y"] /\
  (forall v, to_train None (m_graph m_fd) fr_gr ["X"; "Z"; "Y"] v ->
     sole_cause (m_graph m_fd) F_fd endo_fd v /\ ~ In v ["X"; "Z"; "Y"] /\ name_apart m_fd v) /\
  f_rows fr_gr <> [] /\
  learned (run_best l_gr fr_gr None) D_fd ["U"; "W"] = Some [[1#4; 1#4; 1#4; 1#4]; [1#2; 1#2]]%Q /\
  this (likelihood D_fd F_fd fr_gr) = (9#131072)%Q.
Proof.
  split; [exact lg_id_ok|]. split; [exact best_feasible|]. split; [exact inverse_orders|]. split; [exact best_descends|].
  split; [exact fd_tables|]. split; [exact gr_deterministic|]. split; [exact (proj1 fd_describes)|]. split; [exact gr_observes|].
  split; [exact gr_trains|]. split; [discriminate|]. exact gr_learns.
Qed.

(** With two exogenous parents of one variable the objective is another one,
    and the data can become less likely. *)
Theorem C60_two_causes_refuted : exists D F endo E l l' m' F' data,
  causal_tables (l_prior l) D F VNumpy endo /\ (forall v, In v endo -> zero_one (F v)) /\ describes D (l_prior l) /\
  observes D data E /\ incl endo E /\
  (forall v, to_train (gr_trainable (l_sub l)) (m_graph (l_prior l)) data E v -> name_apart (l_prior l) v) /\
  run_best l data None = (l', None) /\ l_model l' = Some m' /\ causal_tables m' D F' VNumpy endo /\
  (likelihood D F' data < likelihood D F data)%Qc.
Proof.
  exists D_two, F_two, ["X"], ["X"], l_two, (fst (run_best l_two fr_two None)), m_two', (table_in m_two'), fr_two.
  split; [exact two_tables|]. split; [exact two_deterministic|]. split; [exact two_describes|]. split; [exact two_observes|].
  split; [apply incl_refl|]. split; [exact two_apart|]. split; [exact (proj1 two_run)|]. split; [exact (proj2 two_run)|].
  split; [exact two_tables'|]. exact two_falls.
Qed.
Print Assumptions C60_two_causes_refuted.

(** A name that contains the name of another variable stops the run. *)
Theorem C60_names_refuted : exists m D F endo E data,
  causal_tables m D F VNumpy endo /\ (forall v, In v endo -> zero_one (F v)) /\ describes D m /\ observes D data E /\ incl endo E /\
  (forall v, to_train None (m_graph m) data E v -> sole_cause (m_graph m) F endo v) /\
  snd (run_best (gr_init m None) data None) = Some ValueError.
Proof.
  exists m_name, D_name, (table_in m_name), ["X"], ["X"], fr_two.
  split; [exact name_tables|]. split; [exact name_deterministic|]. split; [exact name_describes|]. split; [exact name_observes|].
  split; [apply incl_refl|]. split; [exact name_sole|]. exact name_raises.
Qed.
Print Assumptions C60_names_refuted.

(** So does an equation that is kept as a DeterministicFactor. *)
Theorem C60_deterministic_refuted : exists m D F endo data, causal m D F VNumpy endo false /\
  snd (run_best (gr_init m None) data None) = Some KeyError.
Proof. exists m_det, D_det, (table_of VNumpy ts_det), ["X"], fr_two. split; [exact det_ok|]. exact det_raises. Qed.
Print Assumptions C60_deterministic_refuted.

(** Variables that are endogenous, or observed, are refused; an unknown variable
    and a model that is a Bayesian network raise as well. *)
Theorem C60_refused : forall (L : Type) (l0 : L) ladd lopp lg lnan minimize dflt l m0 data k endo cast tr,
  m_copy (l_prior l) = Ok m0 -> m_kind (l_prior l) = KScm endo cast -> wf_graph (m_graph (l_prior l)) ->
  NoDup (f_cols data) -> (forall r, In r (f_rows data) -> length r = length (f_cols data)) ->
  gr_trainable (l_sub l) = Some tr -> incl tr (nodes (m_graph (l_prior l))) ->
  (exists v, In v tr /\ (In v endo \/ exists r, In r (f_rows data) /\ In v (keys (row_obs data r)))) ->
  exists l', gr_run L l0 ladd lopp lg lnan minimize dflt l data k = (l', Some ValueError) /\
    l_prior l' = l_prior l /\ l_model l' = Some m0 /\ l_evo l' = l_evo l.
Proof. exact run_refused. Qed.
Print Assumptions C60_refused.
Theorem C60_unknown_raises : forall (L : Type) (l0 : L) ladd lopp lg lnan minimize dflt l m0 data k v tr endo cast,
  m_copy (l_prior l) = Ok m0 -> m_kind (l_prior l) = KScm endo cast -> gr_trainable (l_sub l) = Some (v :: tr) ->
  ~ In v endo -> ~ In v (nodes (m_graph (l_prior l))) -> ~ In v (f_cols data) ->
  exists l', gr_run L l0 ladd lopp lg lnan minimize dflt l data k = (l', Some KeyError) /\
    l_prior l' = l_prior l /\ l_model l' = Some m0 /\ l_evo l' = l_evo l.
Proof. exact run_unknown_raises. Qed.
Print Assumptions C60_unknown_raises.
Theorem C60_network_raises : forall (L : Type) (l0 : L) ladd lopp lg lnan minimize dflt l m0 data k v tr,
  m_copy (l_prior l) = Ok m0 -> m_kind (l_prior l) = KBn -> gr_trainable (l_sub l) = Some (v :: tr) ->
  exists l', gr_run L l0 ladd lopp lg lnan minimize dflt l data k = (l', Some AttributeError) /\
    l_prior l' = l_prior l /\ l_model l' = Some m0 /\ l_evo l' = l_evo l.
Proof. exact run_network_raises. Qed.
Print Assumptions C60_network_raises.

(** A step before the first run raises, whatever it is given. *)
Theorem C60_step_first_raises : forall (L : Type) (l0 : L) ladd lopp lg lnan minimize dflt l data,
  l_model l = None -> gr_max_iter (l_sub l) = None ->
  exists l' e, gr_step L l0 ladd lopp lg lnan minimize dflt l data = (l', Some e) /\ l_model l' = None /\ l_evo l' = l_evo l.
Proof. exact step_before_run. Qed.
Print Assumptions C60_step_first_raises.
Theorem C60_new_raises : forall (L : Type) (l0 : L) ladd lopp lg lnan minimize dflt prior trainable data,
  exists l' e, gr_step L l0 ladd lopp lg lnan minimize dflt (gr_init prior trainable) data = (l', Some e) /\ l_model l' = None /\ l_evo l' = None.
Proof. exact step_of_new. Qed.
Print Assumptions C60_new_raises.

Example C60_error_cases : (exists m0, m_copy m_fd = Ok m0) /\ m_kind m_fd = KScm endo_fd false /\ wf_graph (m_graph m_fd) /\
  incl ["U"; "X"] (nodes (m_graph m_fd)) /\ (exists m0, m_copy m_bn = Ok m0) /\
  snd (run_best (gr_init m_fd (Some ["U"; "X"])) fr_gr None) = Some ValueError /\
  snd (run_best (gr_init m_fd (Some ["U"; "A"])) fr_gr None) = Some KeyError /\
  snd (run_best (gr_init m_bn (Some ["U"])) fr_two None) = Some AttributeError /\
  snd (step_best (gr_init m_fd (Some ["U"])) (Some fr_gr)) = Some AttributeError /\
  snd (step_best (gr_init m_fd None) None) = Some TypeError.
Proof.
  split; [exact fd_copied|]. split; [exact fd_kind|]. split; [exact fd_wf|]. split; [exact fd_nodes|]. split; [exact bn_copied|]. exact gr_bad.
Qed.
