(** Theorems about the Q-factorisation of causal models and the likelihood of
    data. *)

From Coq Require Import String ZArith QArith Qcanon List.
From Verif Require Import PyBase Num DomainModel NdArray StoreModel NumStore FactorModel GraphModel ModelModel InferModel DataModel
  Spec FactorSpec GraphSpec ModelSpec NetSpec LearnModel DataSpec EmSpec Checks FactorChecks CausalChecks EmChecks InferChecks QModel QSpec QFacts5 QFacts11 QFacts12 QFacts13 QChecks.
Import ListNotations.
Local Open Scope string_scope.
Local Open Scope list_scope.

(** ** C55 *)
(** The Q-graph, whose arcs C35 describes. *)
Theorem C55_qgraph : forall topo, sorts topo -> forall m D F vt endo, causal_tables m D F vt endo ->
  exists q, m_qgraph topo m = Ok q /\ get_qgraph (m_graph m) endo (topo (endo_graph (m_graph m) endo)) = Ok q /\ wf_graph q /\
    (forall v, In v (nodes q) <-> In v endo) /\
    (forall x, In x endo -> NoDup (preds q x) /\ incl (preds q x) endo /\ ~ In x (preds q x)).
Proof. exact q_setup. Qed.
Print Assumptions C55_qgraph.

(** The Q-factors of a variable are the conditional distributions of the
    endogenous variables of its component, given their parents in the Q-graph. *)
Theorem C55_qfactors : forall topo so heur dflt, sorts topo -> is_set_order so -> is_heuristic heur ->
  forall m D F vt endo, causal_tables m D F vt endo ->
  forall q v, m_qgraph topo m = Ok q ->
    (touches_exo (m_graph m) endo v -> exists d, get_qfactors topo so heur dflt m None v = Ok d /\ NoDup (keys d) /\
       (forall x, In x (keys d) <-> In x endo /\ linked (exo_arc (m_graph m) endo) v x) /\
       (forall x f, In (x, f) d -> exists t, f = FM t /\ table_given D vt (mass D F) x (preds q x) t)) /\
    (~ touches_exo (m_graph m) endo v -> get_qfactors topo so heur dflt m None v = Raise KeyError).
Proof. exact qfactors_all. Qed.
Print Assumptions C55_qfactors.

(** The network of all of them has the joint distribution of the endogenous
    variables; a Q-graph with a cycle is rejected. *)
Theorem C55_qbnet : forall topo so pop heur dflt, sorts topo -> is_set_order so -> pops pop -> is_heuristic heur ->
  forall m D F vt endo, causal_tables m D F vt endo ->
  forall q, m_qgraph topo m = Ok q -> all_disturbed (m_graph m) endo ->
    (acyclic q -> exists b, get_qbnet topo so pop heur dflt m None = Ok b /\ m_graph b = q /\ m_kind b = KBn /\
       (forall x, In x endo -> exists t, stored b x (FM t) /\ table_given D vt (mass D F) x (preds q x) t) /\
       (endo <> [] -> exists P,
          (forall os, (forall o, In o os -> full (pick endo D) o) -> m_prob b os = Ok (map P os)) /\
          (forall o, full (pick endo D) o -> vt = VNumpy \/ (forall x, In x endo -> mass D F (part (preds q x) o) <> 0%Qc) ->
             P o = Fin (mass D F (part endo o))) /\
          (forall o, full (pick endo D) o -> vt <> VNumpy -> (exists x, In x endo /\ mass D F (part (preds q x) o) = 0%Qc) -> P o = NaN))) /\
    (~ acyclic q -> get_qbnet topo so pop heur dflt m None = Raise ValueError).
Proof. exact qbnet_all. Qed.
Print Assumptions C55_qbnet.

Example C55_case : oracles /\ causal_tables m_fd D_fd F_fd VNumpy endo_fd /\ m_qgraph sink_sort m_fd = Ok q_fd /\ acyclic q_fd /\
  all_disturbed (m_graph m_fd) endo_fd /\
  (match fs_fd "Y" with Ok d => keys d | Raise _ => [] end = ["Y"; "X"] /\ fs_fd "Q" = Raise KeyError /\
   q_value (fs_fd "Y") "Y" (o_fd 0 1 1) = Some (4#5)%Q /\ q_value (fs_fd "Z") "Z" (o_fd 0 1 1) = Some (1#4)%Q) /\
  get_qbnet sink_sort plain_order first_of heur_q VNumpy m_fd None = Ok b_fd /\ full (pick endo_fd D_fd) (o_fd 0 1 1) /\
  match m_prob b_fd [o_fd 0 1 1; o_fd 1 0 0] with Ok l => Checks.nums_eqb l [Fin (Q2Qc (1#8)); Fin (Q2Qc (1#16))] | Raise _ => false end = true /\
  this (mass D_fd F_fd (o_fd 0 1 1)) = (1#8)%Q.
Proof. exact (conj oracles_ok (conj fd_tables (conj fd_qgraph (conj fd_acyclic (conj fd_disturbed (conj fd_factors fd_prob)))))). Qed.
Example C55_cyclic_case : causal_tables m_cy D_cy (table_in m_cy) VNumpy endo_cy /\ all_disturbed (m_graph m_cy) endo_cy /\
  m_qgraph sink_sort m_cy = Ok q_cy /\ ~ acyclic q_cy /\ get_qbnet sink_sort plain_order first_of heur_q VNumpy m_cy None = Raise ValueError.
Proof. exact (conj (proj1 cy_tables) (conj (proj2 cy_tables) (conj cy_qgraph (conj cy_cyclic (proj1 cy_raises))))). Qed.

(** A variable without exogenous parents has no factor in the network, and no
    joint probability can be computed from it. *)
Theorem C55_undisturbed_raises : forall topo so pop heur dflt, sorts topo -> is_set_order so -> pops pop -> is_heuristic heur ->
  forall m D F vt endo, causal_tables m D F vt endo ->
  forall q v, m_qgraph topo m = Ok q -> acyclic q -> In v endo -> (forall u, arc (m_graph m) u v -> In u endo) ->
    exists b, get_qbnet topo so pop heur dflt m None = Ok b /\ m_graph b = q /\ dget v (m_factors b) = Some None /\
      forall os, (forall o, In o os -> full (pick endo D) o) -> m_prob b os = Raise AttributeError.
Proof. exact qbnet_undisturbed. Qed.
Print Assumptions C55_undisturbed_raises.

Example C55_undisturbed_case : causal_tables m_gap D_gap (table_in m_gap) VNumpy ["X"; "Y"] /\
  (m_qgraph sink_sort m_gap = Ok q_gap /\ acyclic q_gap) /\ (forall u, arc (m_graph m_gap) u "Y" -> In u ["X"; "Y"]) /\
  (let* b := get_qbnet sink_sort plain_order first_of heur_q VNumpy m_gap None in m_prob b [[("X", SInt 0); ("Y", SInt 1)]]) = Raise AttributeError.
Proof. exact (conj gap_tables (conj gap_qgraph (conj gap_parents gap_raises))). Qed.

(** ** C56 *)
(** The log-likelihood is the logarithm of the probability that the rows have the
    states that they show for the endogenous variables; it is rejected if some
    row is impossible. *)
Theorem C56_log_likelihood : forall topo so pop heur dflt, sorts topo -> is_set_order so -> pops pop -> is_heuristic heur ->
  forall m D F vt endo, causal_tables m D F vt endo -> forall q, m_qgraph topo m = Ok q ->
  forall (L : Type) l0 ladd lg lnan linf, @logarithm L l0 ladd lg ->
  forall data, full_data D data endo -> acyclic q -> all_disturbed (m_graph m) endo -> endo <> [] ->
  forall variables, variables = None \/ variables = Some [] ->
    ((forall r, In r (f_rows data) -> mass D F (part endo (row_obs data r)) <> 0%Qc) ->
       log_likelihood topo so pop heur dflt L l0 ladd lg lnan linf m data variables = Ok (lg (likelihood_of D F data endo))) /\
    ((exists r, In r (f_rows data) /\ mass D F (part endo (row_obs data r)) = 0%Qc) ->
       log_likelihood topo so pop heur dflt L l0 ladd lg lnan linf m data variables = Raise ValueError).
Proof. exact lik_all. Qed.
Print Assumptions C56_log_likelihood.

(** For some of the variables it is the logarithm of the product of their
    conditional probabilities given their parents in the Q-graph. *)
Theorem C56_variables : forall topo so pop heur dflt, sorts topo -> is_set_order so -> pops pop -> is_heuristic heur ->
  forall m D F vt endo, causal_tables m D F vt endo -> forall q, m_qgraph topo m = Ok q ->
  forall (L : Type) l0 ladd lg lnan linf, @logarithm L l0 ladd lg ->
  forall data, full_data D data endo -> acyclic q -> all_disturbed (m_graph m) endo ->
  forall vs, vs <> [] -> incl vs endo ->
    ((forall r v, In r (f_rows data) -> In v vs -> mass D F (part (v :: preds q v) (row_obs data r)) <> 0%Qc) ->
       log_likelihood topo so pop heur dflt L l0 ladd lg lnan linf m data (Some vs) =
       Ok (lg (product_of (map (fun r => product_of (map (fun v =>
         (mass D F (part (v :: preds q v) (row_obs data r)) / mass D F (part (preds q v) (row_obs data r)))%Qc) vs)) (f_rows data))))) /\
    ((exists r v, In r (f_rows data) /\ In v vs /\ mass D F (part (v :: preds q v) (row_obs data r)) = 0%Qc /\
                  mass D F (part (preds q v) (row_obs data r)) <> 0%Qc) ->
       log_likelihood topo so pop heur dflt L l0 ladd lg lnan linf m data (Some vs) = Raise ValueError).
Proof. exact lik_some. Qed.
Print Assumptions C56_variables.

Example C56_case : oracles /\ causal_tables m_fd D_fd F_fd VNumpy endo_fd /\ m_qgraph sink_sort m_fd = Ok q_fd /\ acyclic q_fd /\
  all_disturbed (m_graph m_fd) endo_fd /\ logarithm 1%Qc Qcmult lg_id /\ (full_data D_fd fr_fd endo_fd /\ f_rows fr_fd <> []) /\
  (forall r, In r (f_rows fr_fd) -> mass D_fd F_fd (part endo_fd (row_obs fr_fd r)) <> 0%Qc) /\
  (num_of (lik_q m_fd fr_fd None) = Some (27#32768)%Q /\ this (likelihood_of D_fd F_fd fr_fd endo_fd) = (27#32768)%Q) /\
  num_of (lik_q m_fd fr_fd (Some ["X"; "Z"])) = Some (10125#1048576)%Q /\ lik_q m_fd fr_fd (Some ["X"; "W"]) = Raise KeyError.
Proof. exact (conj oracles_ok (conj fd_tables (conj fd_qgraph (conj fd_acyclic (conj fd_disturbed (conj lg_id_ok (conj fd_data (conj fd_possible (conj fd_lik fd_lik_some))))))))). Qed.
Example C56_impossible_case : causal_tables m_fd0 D_fd (table_in m_fd0) VNumpy endo_fd /\
  (In r_fd0 (f_rows fr_fd) /\ mass D_fd (table_in m_fd0) (part endo_fd (row_obs fr_fd r_fd0)) = 0%Qc) /\ lik_q m_fd0 fr_fd None = Raise ValueError.
Proof. exact (conj fd0_tables (conj fd0_zero fd0_raises)). Qed.

(** Other variables are rejected, and so are models with a cyclic Q-graph. *)
Theorem C56_unknown_raises : forall topo so pop heur dflt, sorts topo -> is_set_order so -> pops pop -> is_heuristic heur ->
  forall m D F vt endo, causal_tables m D F vt endo -> forall q, m_qgraph topo m = Ok q ->
  forall (L : Type) l0 ladd lg lnan linf data, full_data D data endo -> acyclic q -> all_disturbed (m_graph m) endo -> endo <> [] ->
  forall vs v, In v vs -> ~ In v endo ->
    log_likelihood topo so pop heur dflt L l0 ladd lg lnan linf m data (Some vs) = Raise KeyError.
Proof. exact lik_unknown. Qed.
Print Assumptions C56_unknown_raises.
Theorem C56_cyclic_raises : forall topo so pop heur dflt, sorts topo -> is_set_order so -> pops pop -> is_heuristic heur ->
  forall m D F vt endo, causal_tables m D F vt endo -> forall q, m_qgraph topo m = Ok q ->
  forall (L : Type) l0 ladd lg lnan linf data, ~ acyclic q -> forall variables,
    log_likelihood topo so pop heur dflt L l0 ladd lg lnan linf m data variables = Raise ValueError.
Proof. exact lik_cyclic. Qed.
Print Assumptions C56_cyclic_raises.

(** The log-probabilities of observations need multinomial factors. *)
Theorem C56_factors_raises : forall (L : Type) ladd lg lnan linf (m : pgm) os pre v post,
  (forall w, In w pre -> exists f, stored m w (FM f) /\ forall o, In o os -> exists x, mf_get_value f o = Ok (Fin x) /\ (0 < x)%Qc) ->
  In v (keys (m_factors m)) -> (forall f, ~ stored m v (FM f)) -> (forall w, In w post -> In w (keys (m_factors m))) ->
  m_log_prob L ladd lg lnan linf m os (Some (pre ++ v :: post)) = Raise AttributeError.
Proof. exact others_raise. Qed.
Print Assumptions C56_factors_raises.

Example C56_factors_case : forall vt,
  (exists f, stored (m_cf vt) "U" (FM f) /\ okb (mf_get_value f [("U", SStr "v")]) (q (1#3)) = true) /\
  match dget "Z" (m_factors (m_cf vt)) with Some (Some (FD _)) => true | _ => false end = true /\
  m_log_prob Qc Qcplus (fun x => x) 0%Qc 0%Qc (m_cf vt) [[("U", SStr "v"); ("X", SInt 1); ("Z", SInt 1)]] (Some ["U"; "Z"; "X"]) = Raise AttributeError.
Proof.
  intros vt. split; [|destruct vt; vm_compute; split; reflexivity].
  exists (table_of vt ts_cf "U"). split; destruct vt; vm_compute; reflexivity.
Qed.

Example C56_cyclic_case : causal_tables m_cy D_cy (table_in m_cy) VNumpy endo_cy /\ m_qgraph sink_sort m_cy = Ok q_cy /\ ~ acyclic q_cy /\
  lik_q m_cy fr_cy None = Raise ValueError.
Proof. exact (conj (proj1 cy_tables) (conj cy_qgraph (conj cy_cyclic (proj1 (proj2 cy_raises))))). Qed.

(** ** C57 *)
(** The network fitted to data has the relative frequencies as tables. *)
Theorem C57_tables : forall topo so pop heur dflt, sorts topo -> is_set_order so -> pops pop ->
  forall m D F vt endo, causal_tables m D F vt endo -> forall q, m_qgraph topo m = Ok q ->
  forall data, full_data D data endo -> describes D m -> incl (keys (m_domains m)) (keys D) -> f_rows data <> [] ->
  acyclic q -> all_disturbed (m_graph m) endo ->
    exists b, get_qbnet topo so pop heur dflt m (Some data) = Ok b /\ m_graph b = q /\ m_kind b = KBn /\
      forall x, In x endo -> exists t, stored b x (FM t) /\
        table_given D dflt (fun o => Q2Qc (inject_Z (Z.of_nat (count data o)))) x (preds q x) t.
Proof. exact max_tables. Qed.
Print Assumptions C57_tables.

(** The largest log-likelihood is that of the relative frequencies ... *)
Theorem C57_value : forall topo so pop heur dflt, sorts topo -> is_set_order so -> pops pop ->
  forall m D F vt endo, causal_tables m D F vt endo -> forall q, m_qgraph topo m = Ok q ->
  forall (L : Type) l0 ladd lg lnan linf, @logarithm L l0 ladd lg ->
  forall data, full_data D data endo -> describes D m -> incl (keys (m_domains m)) (keys D) -> f_rows data <> [] ->
  acyclic q -> all_disturbed (m_graph m) endo -> endo <> [] -> forall variables, variables = None \/ variables = Some [] ->
    max_log_likelihood topo so pop heur dflt L l0 ladd lg lnan linf m data variables = Ok (lg (empirical q data)) /\
    (0 < empirical q data)%Qc.
Proof. exact max_value. Qed.
Print Assumptions C57_value.

(** ... and no model with the same graph, whatever its tables and the states of
    its exogenous variables, gives the data a larger one. *)
Theorem C57_bound : forall topo so pop heur dflt, sorts topo -> is_set_order so -> pops pop -> is_heuristic heur ->
  forall m D F vt endo q, causal_tables m D F vt endo -> m_qgraph topo m = Ok q -> acyclic q -> all_disturbed (m_graph m) endo -> endo <> [] ->
  describes D m -> incl (keys (m_domains m)) (keys D) ->
  forall data, full_data D data endo -> f_rows data <> [] ->
  forall m' D' F' vt', causal_tables m' D' F' vt' endo -> m_graph m' = m_graph m -> full_data D' data endo ->
  (likelihood_of D' F' data endo <= empirical q data)%Qc /\
  forall (L : Type) l0 ladd lg lnan linf (le : L -> L -> Prop), logarithm l0 ladd lg ->
  (forall a b, (0 < a)%Qc -> (a <= b)%Qc -> le (lg a) (lg b)) ->
  forall x y, log_likelihood topo so pop heur dflt L l0 ladd lg lnan linf m' data None = Ok x ->
    max_log_likelihood topo so pop heur dflt L l0 ladd lg lnan linf m data None = Ok y -> le x y.
Proof. exact lik_max. Qed.
Print Assumptions C57_bound.

(** A cyclic Q-graph is rejected. *)
Theorem C57_cyclic_raises : forall topo so pop heur dflt, sorts topo -> is_set_order so -> pops pop ->
  forall m D F vt endo, causal_tables m D F vt endo -> forall q, m_qgraph topo m = Ok q ->
  forall (L : Type) l0 ladd lg lnan linf data, full_data D data endo -> describes D m -> incl (keys (m_domains m)) (keys D) -> f_rows data <> [] ->
  ~ acyclic q -> forall variables,
    max_log_likelihood topo so pop heur dflt L l0 ladd lg lnan linf m data variables = Raise ValueError.
Proof. exact max_cyclic. Qed.
Print Assumptions C57_cyclic_raises.

Example C57_case : oracles /\ causal_tables m_fd D_fd F_fd VNumpy endo_fd /\ m_qgraph sink_sort m_fd = Ok q_fd /\ acyclic q_fd /\
  all_disturbed (m_graph m_fd) endo_fd /\ (describes D_fd m_fd /\ incl (keys (m_domains m_fd)) (keys D_fd)) /\
  (full_data D_fd fr_fd endo_fd /\ f_rows fr_fd <> []) /\
  (causal_tables m_fd0 D_fd (table_in m_fd0) VNumpy endo_fd /\ m_graph m_fd0 = m_graph m_fd) /\
  (num_of (max_q m_fd fr_fd None) = Some (1#256)%Q /\ this (empirical q_fd fr_fd) = (1#256)%Q) /\
  (likelihood_of D_fd F_fd fr_fd endo_fd < empirical q_fd fr_fd)%Qc.
Proof. exact (conj oracles_ok (conj fd_tables (conj fd_qgraph (conj fd_acyclic (conj fd_disturbed (conj fd_describes (conj fd_data (conj (conj fd0_tables fd0_same) (conj fd_max fd_below))))))))). Qed.
Example C57_cyclic_case : causal_tables m_cy D_cy (table_in m_cy) VNumpy endo_cy /\ m_qgraph sink_sort m_cy = Ok q_cy /\ ~ acyclic q_cy /\
  (full_data D_cy fr_cy endo_cy /\ describes D_cy m_cy /\ incl (keys (m_domains m_cy)) (keys D_cy) /\ f_rows fr_cy <> []) /\
  max_q m_cy fr_cy None = Raise ValueError.
Proof. exact (conj (proj1 cy_tables) (conj cy_qgraph (conj cy_cyclic (conj cy_data (proj2 (proj2 cy_raises)))))). Qed.
