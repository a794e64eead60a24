(** Property C78: samples have the distribution of the model, and frequencies
    in large samples come close to its probabilities. *)

From Coq Require Import String Ascii Bool Arith ZArith QArith Qcanon List.
From Verif Require Import PyBase Num DomainModel NdArray StoreModel NumStore FactorModel GraphModel ModelModel InferModel CausalModel LearnModel DataModel
  Spec StoreSpec FactorSpec GraphSpec ModelSpec NetSpec CausalSpec DataSpec OrderSpec OrderFacts SampleSpec SampleFacts SampleFacts2 SampleFacts3 SampleFacts4
  Checks FactorChecks GraphChecks InferChecks CausalChecks DataChecks SampleChecks.
Import ListNotations.
Local Open Scope string_scope.
Local Open Scope nat_scope.
Local Open Scope list_scope.

(** ** C78 *)
(** Every sample is one of [samples], and each of these is drawn exactly for the
    numbers of a region of the unit cube, whose volume is the product of the
    probabilities of its rows. ([D] lists the variables in the order in which
    they are drawn.) *)
Theorem C78_sample : forall m D F vt, network m D F vt -> nonnegative D F -> topological (m_graph m) (keys D) -> nodes (m_graph m) <> [] ->
  forall n u, n <> 0 -> uniform u ->
  exists rows, forward_sampling (keys D) m (Z.of_nat n) u = Ok rows /\ In rows (samples D n).
Proof. exact sample_table. Qed.
Print Assumptions C78_sample.

Theorem C78_volume : forall m D F vt, network m D F vt -> nonnegative D F -> topological (m_graph m) (keys D) -> nodes (m_graph m) <> [] ->
  forall n rows, n <> 0 -> In rows (samples D n) ->
  exists lo hi, (forall v i, In v (keys D) -> i < n -> (0 <= lo v i)%Qc /\ (lo v i <= hi v i)%Qc /\ (hi v i <= 1)%Qc) /\
    volume (keys D) n lo hi = likelihood D F rows /\
    forall u, uniform u -> (forward_sampling (keys D) m (Z.of_nat n) u = Ok rows <-> inside (keys D) n lo hi u).
Proof. exact sample_box. Qed.
Print Assumptions C78_volume.

(** These probabilities add up to one. *)
Theorem C78_total : forall m D F vt, network m D F vt -> forall n, chance D F n (fun _ => true) = 1%Qc.
Proof. exact chance_all. Qed.
Print Assumptions C78_total.

(** The rows are independent, and each agrees with an observation with its
    probability in the model: with observations of the endogenous variables this
    is the distribution of sampleEndogenous (below). *)
Theorem C78_rows : forall D F ts, chance D F (length ts) (all_match ts) = product_of (map (mass D F) ts).
Proof. exact rows_independent. Qed.
Print Assumptions C78_rows.

(** sampleEndogenous returns the columns of the endogenous variables, which have
    the distribution of these variables in the model. *)
Theorem C78_endogenous : forall m D F vt endo cast, causal m D F vt endo cast -> (forall v f, stored m v f -> exists g, f = FM g) ->
  nonnegative D F -> NoDup endo -> incl endo (nodes (m_graph m)) -> topological (m_graph m) (keys D) -> nodes (m_graph m) <> [] ->
  forall n u, n <> 0 -> uniform u ->
  exists rows, forward_sampling (keys D) m (Z.of_nat n) u = Ok rows /\ In rows (samples D n) /\
    sample_endogenous (keys D) m (Z.of_nat n) u true = Ok (map (columns endo) rows).
Proof. exact endogenous_rows. Qed.
Print Assumptions C78_endogenous.
Theorem C78_endogenous_chance : forall m D F vt endo cast, causal m D F vt endo cast -> NoDup endo -> incl endo (nodes (m_graph m)) ->
  forall ts, Forall (assigns D endo) ts -> chance D F (length ts) (columns_are endo ts) = product_of (map (mass D F) ts).
Proof. exact endogenous_chance. Qed.
Print Assumptions C78_endogenous_chance.

(** The mean of the frequency of an event is its probability p, and its variance
    is p (1 - p) / n. *)
Theorem C78_mean : forall m D F vt, network m D F vt -> forall t n, n <> 0 -> mean_of D F n (frequency t) = mass D F t.
Proof. exact unbiased. Qed.
Print Assumptions C78_mean.
Theorem C78_variance : forall m D F vt, network m D F vt -> forall t n, n <> 0 ->
  mean_of D F n (fun rows => (frequency t rows - mass D F t) * (frequency t rows - mass D F t))%Qc =
  (mass D F t * (1 - mass D F t) / Q2Qc (inject_Z (Z.of_nat n)))%Qc.
Proof. exact spread. Qed.
Print Assumptions C78_variance.

(** The probability that the frequency of an event differs from its probability
    by [eps] or more is at most p (1 - p) / (n eps^2), so it tends to 0. *)
Theorem C78_large_numbers : forall m D F vt, network m D F vt -> nonnegative D F -> forall t n eps, n <> 0 -> (0 < eps)%Qc ->
  (chance D F n (fun rows => apart eps (frequency t rows) (mass D F t))
   <= mass D F t * (1 - mass D F t) / (Q2Qc (inject_Z (Z.of_nat n)) * (eps * eps)))%Qc.
Proof. exact large_numbers. Qed.
Print Assumptions C78_large_numbers.

Theorem C78_limit : forall m D F vt, network m D F vt -> nonnegative D F -> forall t eps delta, (0 < eps)%Qc -> (0 < delta)%Qc ->
  exists N, forall n, N <= n -> (chance D F n (fun rows => apart eps (frequency t rows) (mass D F t)) <= delta)%Qc.
Proof. exact limit. Qed.
Print Assumptions C78_limit.

(** LaplaceInference on a large sample of the model answers, with any evidence
    of positive probability, what VariableElimination answers on the model, up
    to [eps], except with probability [delta]. *)
Theorem C78_laplace : forall m D F vt, network m D F vt -> nonnegative D F -> usable D ->
  forall heur so, is_heuristic heur -> is_set_order so -> forall dflt pre e T t eps delta,
  NoDup T -> T <> [] -> incl T (nodes (m_graph m)) -> NoDup (keys e) -> incl (keys e) (nodes (m_graph m)) ->
  (forall v, In v T -> ~ In v (keys e)) -> mass D F e <> 0%Qc -> assigns D T t -> (0 < eps)%Qc -> (0 < delta)%Qc ->
  exists N, forall n, N <= n ->
    (chance D F n (fun rows => differ eps (laplace_query so dflt (frame_of D rows) D pre T None e) (ve_query heur so m T None e) t) <= delta)%Qc.
Proof. exact laplace_limit. Qed.
Print Assumptions C78_laplace.

(** With conditioning, where the condition has a positive probability. *)
Theorem C78_conditional : forall m D F vt, network m D F vt -> nonnegative D F -> usable D ->
  forall heur so, is_heuristic heur -> is_set_order so -> forall dflt pre e T C t c eps delta,
  NoDup T -> T <> [] -> NoDup C -> incl T (nodes (m_graph m)) -> incl C (nodes (m_graph m)) -> NoDup (keys e) -> incl (keys e) (nodes (m_graph m)) ->
  (forall v, In v (T ++ C) -> ~ In v (keys e)) -> (forall v, In v T -> ~ In v C) ->
  assigns D T t -> assigns D C c -> mass D F (c ++ e) <> 0%Qc -> (0 < eps)%Qc -> (0 < delta)%Qc ->
  exists N, forall n, N <= n ->
    (chance D F n (fun rows => differ eps (laplace_query so dflt (frame_of D rows) D pre T (Some C) e) (ve_query heur so m T (Some C) e) (t ++ c)) <= delta)%Qc.
Proof. exact given_limit. Qed.
Print Assumptions C78_conditional.

(** A simulated experiment: the causal model m, prepared as CausalVariableElimination
    does (m1) and intervened (m2), can be sampled, and LaplaceInference on a
    large sample answers what causal_query answers. *)
Theorem C78_do : forall m D F vt endo cast, causal m D F vt endo cast -> plain_roots m -> nonnegative D F -> usable D ->
  forall heur so, is_heuristic heur -> is_set_order so ->
  forall d, NoDup (keys d) -> incl (keys d) (nodes (m_graph m)) -> Spec.known D d -> forall dflt pre,
  exists m1 m2 F2, cve_init m = Ok m1 /\ scm_intervention m1 d = Ok m2 /\ network m2 D F2 vt /\ nonnegative D F2 /\
    (forall o, mass D F2 o = do_mass D F d o) /\
    forall e T t eps delta, NoDup T -> T <> [] -> incl T (nodes (m_graph m)) -> NoDup (keys e) -> incl (keys e) (nodes (m_graph m)) ->
    (forall v, In v T -> ~ In v (keys d) /\ ~ In v (keys e)) -> (forall v, In v (keys e) -> ~ In v (keys d)) -> do_mass D F d e <> 0%Qc ->
    assigns D T t -> (0 < eps)%Qc -> (0 < delta)%Qc ->
    exists N, forall n, N <= n ->
      (chance D F2 n (fun rows => differ eps (laplace_query so dflt (frame_of D rows) D pre T None e) (causal_query heur so m1 T (DoDict d) e) t) <= delta)%Qc.
Proof. exact do_limit. Qed.
Print Assumptions C78_do.

(** Two rows drawn from a network, and their probability; the frequency of A = a0
    in one row differs from 1/4 by 1/2 with probability 1/4 (the bound is 3/4);
    the frequency of C in the rows with E is 43/179 from the exact answer. *)
Example C78_case :
  network m_net D_net F_net VNumpy /\ nonnegative D_net F_net /\ topological (m_graph m_net) (keys D_net) /\ usable D_net /\
  uniform two /\ In two_rows (samples D_net 2) /\ forward_sampling (keys D_net) m_net 2 two = Ok two_rows /\
  likelihood D_net F_net two_rows = Q2Qc (21#3200) /\
  chance D_net F_net 1 (fun rows => apart (Q2Qc (1#2)) (frequency a0 rows) (mass D_net F_net a0)) = Q2Qc (1#4) /\
  (mass D_net F_net a0 * (1 - mass D_net F_net a0) / (Q2Qc (inject_Z (Z.of_nat 1)) * (Q2Qc (1#2) * Q2Qc (1#2))))%Qc = Q2Qc (3#4) /\
  is_heuristic (heuristic_fn MIN_FILL first_choice) /\ is_set_order plain_order /\ mass D_net F_net eE <> 0%Qc /\
  differs (1#5) = true /\ differs (1#4) = false /\
  mean_of D_net F_net 1 (frequency a0) = Q2Qc (1#4) /\
  mean_of D_net F_net 1 (fun rows => (frequency a0 rows - Q2Qc (1#4)) * (frequency a0 rows - Q2Qc (1#4)))%Qc = Q2Qc (3#16) /\
  chance D_net F_net 1 (all_match [a0]) = Q2Qc (1#4).
Proof.
  split; [exact (net_ok VNumpy)|]. split; [exact net_nonneg|]. split; [exact keys_net_ok|]. split; [exact usable_net|].
  split; [exact two_ok|]. split; [exact two_in|]. split; [exact two_drawn|]. split; [exact two_likelihood|].
  split; [exact (proj1 one_apart)|]. split; [exact (proj2 one_apart)|]. split; [apply heuristic_ok, first_chooses|].
  split; [exact plain_order_ok|]. split; [exact mass_eE|]. split; [exact (proj1 two_differ)|].
  split; [exact (proj2 two_differ)|exact one_mean].
Qed.

(** Three rows drawn under do(X = 1): U = u has the frequency 1/3 and the
    probability 1/2. *)
Example C78_do_case :
  causal (m_cf VNumpy) D_cf F_tab VNumpy ["X"; "Z"; "Y"] false /\ plain_roots (m_cf VNumpy) /\ nonnegative D_cf F_tab /\ usable D_cf /\
  do_mass D_cf F_tab dX eY <> 0%Qc /\ drawn = Ok do_rows /\ do_differs (1#6) = Ok true /\ do_differs (1#5) = Ok false.
Proof.
  split; [exact (cf_ok VNumpy)|]. split; [exact (proj2 (cf_roots VNumpy))|]. split; [exact tab_nonneg|]. split; [exact usable_cf|].
  split; [exact do_mass_eY|exact do_drawn].
Qed.

(** The two rows say about C given E the same as with E observed. *)
Example C78_conditional_case : mass D_net F_net (eE ++ []) <> 0%Qc /\ differs_given (1#5) = true /\ differs_given (1#4) = false.
Proof. split; [exact mass_eE|exact two_given]. Qed.

(** Three rows; X = 0, Z = 1, Y = y0 has the probability 1/2 * 1/5. *)
Example C78_endogenous_case :
  causal m_tab D_cf F_tab VNumpy ["X"; "Z"; "Y"] false /\ (forall v f, stored m_tab v f -> exists g, f = FM g) /\ nonnegative D_cf F_tab /\
  topological (m_graph m_tab) (keys D_cf) /\ uniform three /\
  sample_endogenous (keys D_cf) m_tab 3 three true = Ok [endo_row 1 0 "y1"; endo_row 1 0 "y1"; endo_row 0 1 "y0"] /\
  chance D_cf F_tab 1 (columns_are ["X"; "Z"; "Y"] [endo_row 0 1 "y0"]) = Q2Qc (1#10).
Proof.
  split; [exact tab_ok|]. split; [exact tab_plain|]. split; [exact tab_nonneg|]. split; [exact cf_topo|]. split; [exact three_ok|exact endo_rows].
Qed.
