(** Property C63: the tables at which EM stops make the data as likely as possible. *)

From Coq Require Import String Ascii Bool Arith ZArith QArith Qcanon List.
From Verif Require Import PyBase PyFacts Num DomainModel NdArray StoreModel NumStore FactorModel GraphModel ModelModel InferModel LearnModel
  Spec StoreSpec FactorSpec GraphSpec ModelSpec NetSpec QSpec GradSpec LearnSpec EmSpec PipeSpec OptSpec OptFacts2 OptFacts4 OptFacts5
  Checks FactorChecks GraphChecks InferChecks CausalChecks LearnChecks EmChecks PipeChecks OptChecks.
Import ListNotations.
Local Open Scope nat_scope.
Local Open Scope string_scope.
Local Open Scope list_scope.

(** ** C63 *)
(** How far a table is from the best one can be read off from a step: if the
    step multiplies no entry of the table of [v] by more than [x], then no table
    of [v] makes the n rows of data more than x^n times as likely. *)
Theorem C63_gap : forall query set_iter vt, exact_query query -> iterates set_iter ->
  forall D E data, observes D data E -> forall l m F l' m' F' v x,
  ready D vt E data l m F -> em_step query set_iter vt l None = (l', None) -> l_model l' = Some m' -> network m' D F' vt ->
  trains l v -> ~ has_converged l v -> rules_nothing_out D F data v ->
  (forall o, In o (all_assignments D) -> (entry (F' v) o <= x * entry (F v) o)%Qc) ->
  forall G, retabled D vt (m_graph m) F v G -> (likelihood D G data <= power x (length (f_rows data)) * likelihood D F data)%Qc.
Proof. exact gap. Qed.
Print Assumptions C63_gap.

(** In particular, a table that a step leaves as it is is a best one. *)
Theorem C63_fixed : forall query set_iter vt, exact_query query -> iterates set_iter ->
  forall D E data, observes D data E -> forall l m F l' m' F' v,
  ready D vt E data l m F -> em_step query set_iter vt l None = (l', None) -> l_model l' = Some m' -> network m' D F' vt ->
  trains l v -> ~ has_converged l v -> rules_nothing_out D F data v ->
  (forall o, In o (all_assignments D) -> entry (F' v) o = entry (F v) o) ->
  best_table D vt (m_graph m) data F v.
Proof. exact fixed. Qed.
Print Assumptions C63_fixed.

(** Two steps: the first multiplies the entries by at most 4/3, the second does
    not change them. *)
Example C63_steps_case :
  observes D_op fr_op' ["Z"; "X"] /\
  (ready D_op VNumpy ["Z"; "X"] fr_op' s0_op (model_of s0_op) (tables_of s0_op) /\
   ready D_op VNumpy ["Z"; "X"] fr_op' s1_op (model_of s1_op) (tables_of s1_op)) /\
  (em_step em_query plain_iter VNumpy s0_op None = (s1_op, None) /\ em_step em_query plain_iter VNumpy s1_op None = (s2_op, None)) /\
  (l_model s1_op = Some (model_of s1_op) /\ network (model_of s1_op) D_op (tables_of s1_op) VNumpy /\
   l_model s2_op = Some (model_of s2_op) /\ network (model_of s2_op) D_op (tables_of s2_op) VNumpy) /\
  forall v, In v ["V"; "U"] -> (trains s0_op v /\ ~ has_converged s0_op v /\ trains s1_op v /\ ~ has_converged s1_op v) /\
    (rules_nothing_out D_op (tables_of s0_op) fr_op' v /\ rules_nothing_out D_op (tables_of s1_op) fr_op' v) /\
    (forall o, In o (all_assignments D_op) -> (entry (tables_of s1_op v) o <= Q2Qc (4#3) * entry (tables_of s0_op v) o)%Qc) /\
    (forall o, In o (all_assignments D_op) -> entry (tables_of s2_op v) o = entry (tables_of s1_op v) o).
Proof.
  exact (conj op_observes (conj op_ready (conj op_steps (conj op_models (fun v J => conj (op_trains v J) (conj (op_rules v J) (conj (op_grows v J) (op_same v J)))))))).
Qed.

(** Tables without zeros rule nothing out, and a step lets no table rule out
    anything new. *)
Theorem C63_positive : forall (D : domain) F data v, (forall o, full D o -> (0 < entry (F v) o)%Qc) -> NoDup (keys D) -> rules_nothing_out D F data v.
Proof. exact positive. Qed.
Print Assumptions C63_positive.

Theorem C63_kept : forall query set_iter vt, exact_query query -> iterates set_iter ->
  forall D E data, observes D data E -> forall l m F l' m' F' v,
  ready D vt E data l m F -> em_step query set_iter vt l None = (l', None) -> l_model l' = Some m' -> network m' D F' vt ->
  In v (nodes (m_graph m)) -> rules_nothing_out D F data v -> rules_nothing_out D F' data v.
Proof. exact kept. Qed.
Print Assumptions C63_kept.

(** A run that starts afresh from a causal model whose trained variables are
    each the only exogenous parent of their children, with equations for these
    children.  The stopping rule may be any test that accepts only equal
    tables.  Every variable considered converged has a best table.  If these
    are all exogenous variables, no model with the same equations makes the data
    more likely than the one learned.  Without a limit on the iterations, a run
    that ends has every trained variable converged. *)
Theorem C63_run : forall query set_iter no_divergence vt, exact_query query -> iterates set_iter -> divergence_test no_divergence ->
  forall prior D F endo E data,
  causal_tables prior D F vt endo -> describes D prior -> observes D data E -> incl endo E -> f_rows data <> [] ->
  (forall r, In r (f_rows data) -> mass D F (row_obs data r) <> 0%Qc) ->
  forall tr fuel max l' o m' F',
  (forall U, to_train tr (m_graph prior) data E U -> sole_cause (m_graph prior) F endo U /\ ~ In U E /\ rules_nothing_out D F data U) ->
  em_run query set_iter no_divergence vt fuel (em_init prior tr) data max = (l', o) -> l_model l' = Some m' -> network m' D F' vt ->
  (forall U, has_converged l' U -> best_table D vt (m_graph prior) data F' U) /\
  ((forall u, exogenous prior endo u -> has_converged l' u) -> forall m2 G, keeps_equations prior D F vt endo m2 G ->
     (likelihood D G data <= likelihood D F' data)%Qc) /\
  (max = None -> o = Done -> forall U, to_train tr (m_graph prior) data E U -> has_converged l' U).
Proof. exact run_top. Qed.
Print Assumptions C63_run.

(** Z = V, and X is Z for two of the three states of U and 1 - Z for the other:
    a run without a limit, the tables it ends with, and a model with the same
    equations under which the data is less likely. *)
Example C63_run_case :
  (causal_tables m_op D_op F_op VNumpy endo_op /\ describes D_op m_op /\ about m_op D_op endo_op fr_op ["Z"; "X"]) /\
  (forall r, In r (f_rows fr_op) -> mass D_op F_op (row_obs fr_op r) <> 0%Qc) /\
  (forall U, to_train None (m_graph m_op) fr_op ["Z"; "X"] U -> sole_cause (m_graph m_op) F_op endo_op U /\ ~ In U ["Z"; "X"] /\ rules_nothing_out D_op F_op fr_op U) /\
  (em_run em_query plain_iter equality_test VNumpy 5 (em_init m_op None) fr_op None = (fst run_op, Done) /\
   l_model (fst run_op) = Some (model_of (fst run_op)) /\ network (model_of (fst run_op)) D_op F_end VNumpy) /\
  (forall u, exogenous m_op endo_op u -> has_converged (fst run_op) u) /\
  keeps_equations m_op D_op F_op VNumpy endo_op m_op2 (table_in m_op2) /\
  map (fun v => map this (params D_op F_end v)) ["V"; "U"] = [[2#3; 1#3]; [4#9; 2#9; 1#3]]%Q /\
  this (likelihood D_op F_op fr_op) = (9#512)%Q /\ this (likelihood D_op F_end fr_op) = (16#729)%Q /\ this (likelihood D_op (table_in m_op2) fr_op) = (675#32768)%Q.
Proof.
  exact (conj (conj op_tables (conj op_describes op_about)) (conj op_possible (conj op_sole (conj op_run (conj op_converged (conj op_keeps op_numbers)))))).
Qed.

(** The hypotheses cannot be dropped: a table that gives the probability 0 to a
    state that could explain the data is not corrected, ... *)
Theorem C63_zero_refuted : exists prior D F endo E data l' m' F' U,
  causal_tables prior D F VNumpy endo /\ describes D prior /\ observes D data E /\ incl endo E /\ f_rows data <> [] /\
  (forall r, In r (f_rows data) -> mass D F (row_obs data r) <> 0%Qc) /\
  (forall u, to_train None (m_graph prior) data E u -> sole_cause (m_graph prior) F endo u /\ ~ In u E) /\
  em_run em_query plain_iter equality_test VNumpy 5 (em_init prior None) data None = (l', Done) /\ l_model l' = Some m' /\ network m' D F' VNumpy /\
  has_converged l' U /\ ~ best_table D VNumpy (m_graph prior) data F' U.
Proof. exact zero. Qed.
Print Assumptions C63_zero_refuted.

(** ... and with two exogenous parents of one variable, a table that did not
    change in one step is never changed again, although it is not a best one
    any more once the other table has changed. *)
Theorem C63_shared_refuted : exists prior D F endo E data l' m' F' U,
  causal_tables prior D F VNumpy endo /\ describes D prior /\ observes D data E /\ incl endo E /\ f_rows data <> [] /\
  (forall r, In r (f_rows data) -> mass D F (row_obs data r) <> 0%Qc) /\
  (forall u, to_train None (m_graph prior) data E u -> learnable D F (m_graph prior) data E u /\ rules_nothing_out D F data u) /\
  em_run em_query plain_iter equality_test VNumpy 5 (em_init prior None) data (Some 1%Z) = (l', Done) /\ l_model l' = Some m' /\ network m' D F' VNumpy /\
  has_converged l' U /\ ~ best_table D VNumpy (m_graph prior) data F' U.
Proof. exact shared. Qed.
Print Assumptions C63_shared_refuted.
