(** The properties C38 and C39 as theorems about the model: samples and
    relative frequencies. *)

From Coq Require Import String Ascii Bool Arith ZArith QArith Qcanon List.
From Verif Require Import PyBase Num DomainModel NdArray StoreModel NumStore FactorModel GraphModel ModelModel InferModel LearnModel DataModel
  Spec StoreSpec FactorSpec GraphSpec ModelSpec NetSpec CausalSpec DataSpec DataFacts2 DataFacts3 DataFacts4 Checks FactorChecks GraphChecks InferChecks CausalChecks
  DataChecks.
Import ListNotations.
Local Open Scope string_scope.
Local Open Scope nat_scope.
Local Open Scope list_scope.

(** * C38: samples lie in the support of the model *)

(** The sample has n rows, each of positive probability; row [i] is exactly the
    assignment that the [i]-th numbers drawn for the variables select. *)
Theorem C38_sample : forall m D F vt, network m D F vt -> nonnegative D F ->
  forall order, topological (m_graph m) order -> nodes (m_graph m) <> [] ->
  forall n, (1 <= n)%Z -> forall u, uniform u ->
  exists rows, forward_sampling order m n u = Ok rows /\ length rows = Z.to_nat n /\
    (forall i r, nth_error rows i = Some r -> keys r = order /\ full D r /\ (0 < joint F (keys D) r)%Qc) /\
    (forall i r, i < Z.to_nat n -> (nth_error rows i = Some r <-> selected D F (fun v => u v i) order r)).
Proof. exact sample_rows. Qed.
Print Assumptions C38_sample.

(** Every assignment of positive probability can be drawn. *)
Theorem C38_support : forall m D F vt, network m D F vt -> nonnegative D F ->
  forall order, topological (m_graph m) order -> nodes (m_graph m) <> [] ->
  forall n, (1 <= n)%Z -> forall o, keys o = order -> full D o -> (0 < joint F (keys D) o)%Qc ->
  exists u, uniform u /\ forward_sampling order m n u = Ok (repeat o (Z.to_nat n)).
Proof. exact sample_reaches. Qed.
Print Assumptions C38_support.

(** The samples of a causal model with tables satisfy its equations. *)
Theorem C38_equations : forall m D F vt endo cast order n u rows, causal m D F vt endo cast ->
  (forall v f, stored m v f -> exists g, f = FM g) -> nonnegative D F ->
  topological (m_graph m) order -> nodes (m_graph m) <> [] -> (1 <= n)%Z -> uniform u ->
  forward_sampling order m n u = Ok rows ->
  forall r v, In r rows -> In v endo -> In v (nodes (m_graph m)) -> entry (F v) r = 1%Qc.
Proof. exact equations. Qed.
Print Assumptions C38_equations.

(** sampleEndogenous keeps the columns of the endogenous variables. *)
Theorem C38_endogenous : forall m D F vt endo cast order n u, causal m D F vt endo cast ->
  (forall v f, stored m v f -> exists g, f = FM g) -> nonnegative D F ->
  topological (m_graph m) order -> nodes (m_graph m) <> [] -> incl endo (nodes (m_graph m)) -> (1 <= n)%Z -> uniform u ->
  exists rows full_rows, forward_sampling order m n u = Ok full_rows /\ sample_endogenous order m n u true = Ok rows /\
    Forall2 (fun r o => keys r = endo /\ forall v, In v endo -> dget v r = dget v o) rows full_rows.
Proof. exact endogenous. Qed.
Print Assumptions C38_endogenous.

(** "Every model" fails for models with a DeterministicFactor: they cannot be
    sampled at all. *)
Theorem C38_deterministic_raises : forall m D F vt endo cast order n u v d, causal m D F vt endo cast -> nonnegative D F ->
  topological (m_graph m) order -> (1 <= n)%Z -> uniform u -> In v (nodes (m_graph m)) -> stored m v (FD d) ->
  forward_sampling order m n u = Raise TypeError.
Proof. exact deterministic_raises. Qed.
Print Assumptions C38_deterministic_raises.

Theorem C38_size_raises : forall m D F vt order n u, network m D F vt -> topological (m_graph m) order -> nodes (m_graph m) <> [] -> (n < 1)%Z ->
  forward_sampling order m n u = Raise ValueError.
Proof. exact size_raises. Qed.
Print Assumptions C38_size_raises.

(** Three rows of a Bayesian network, and of a causal model with a function as
    table and as DeterministicFactor. *)
Example C38_case :
  network m_net D_net F_net VNumpy /\ nonnegative D_net F_net /\ topological (m_graph m_net) order_net /\ uniform three /\
  forward_sampling order_net m_net 3 three = Ok
    [[("B", SInt 1); ("A", SStr "a1"); ("C", SBool true); ("E", SBool true); ("H", SBool true)];
     [("B", SInt 2); ("A", SStr "a1"); ("C", SBool true); ("E", SBool true); ("H", SBool true)];
     [("B", SInt 0); ("A", SStr "a0"); ("C", SBool false); ("E", SBool false); ("H", SBool false)]] /\
  causal m_tab D_cf F_tab VNumpy ["X"; "Z"; "Y"] false /\ (forall v f, stored m_tab v f -> exists g, f = FM g) /\ nonnegative D_cf F_tab /\
  topological (m_graph m_tab) order_cf /\
  sample_endogenous order_cf m_tab 3 three true = Ok
    [[("X", SInt 1); ("Z", SInt 0); ("Y", SStr "y1")]; [("X", SInt 1); ("Z", SInt 0); ("Y", SStr "y1")];
     [("X", SInt 0); ("Z", SInt 1); ("Y", SStr "y0")]] /\
  causal (m_cf VNumpy) D_cf F_tab VNumpy ["X"; "Z"; "Y"] false /\ (exists d, stored (m_cf VNumpy) "Z" (FD d)) /\
  forward_sampling order_cf (m_cf VNumpy) 3 three = Raise TypeError.
Proof.
  split; [exact (net_ok VNumpy)|]. split; [exact net_nonneg|]. split; [exact order_net_ok|]. split; [exact three_ok|]. split; [exact net_rows|].
  split; [exact tab_ok|]. split; [exact tab_plain|]. split; [exact tab_nonneg|]. split; [exact (proj1 order_cf_ok)|]. split; [exact tab_endo|].
  split; [exact (cf_ok VNumpy)|]. split; [exact (proj2 cf_rows)|exact (proj1 cf_rows)].
Qed.

(** * C39: LaplaceInference returns relative frequencies *)

Theorem C39_query : forall so, is_set_order so -> forall dflt data D pre e, usable D -> wf_frame data -> incl (keys e) (f_cols data) ->
  forall T, NoDup T -> T <> [] -> incl T (keys D) -> incl T (f_cols data) -> (forall v, In v T -> ~ In v (keys e)) ->
  complete data D T -> count data e <> 0 ->
  exists f, laplace_query so dflt data D pre T None e = Ok f /\ wf_mf f /\ mf_vtype f = dflt /\ mf_domain f = pick T D /\ mf_right f = [] /\
    forall t, assigns D T t -> mf_get_value f t = Ok (Fin (ratio (count data (t ++ e)) (count data e))).
Proof. exact query_ok. Qed.
Print Assumptions C39_query.

(** With conditioning; where no row matches the result is 0 (numpy store) or
    NaN (other stores). *)
Theorem C39_conditional : forall so, is_set_order so -> forall dflt data D pre e, usable D -> wf_frame data -> incl (keys e) (f_cols data) ->
  forall T C, NoDup T -> T <> [] -> NoDup C -> incl T (keys D) -> incl C (keys D) -> incl (T ++ C) (f_cols data) ->
  (forall v, In v (T ++ C) -> ~ In v (keys e)) -> (forall v, In v T -> ~ In v C) -> complete data D (T ++ C) -> count data e <> 0 ->
  exists r, laplace_query so dflt data D pre T (Some C) e = Ok r /\ wf_mf r /\ mf_vtype r = dflt /\
    same_set (mf_vars r) (T ++ C) /\ same_set (mf_left r) T /\ same_set (mf_right r) C /\
    (forall v l, In (v, l) (mf_domain r) -> In (v, l) D) /\
    forall t c, assigns D T t -> assigns D C c ->
      (count data (c ++ e) <> 0 -> mf_get_value r (t ++ c) = Ok (Fin (ratio (count data (t ++ c ++ e)) (count data (c ++ e))))) /\
      (count data (c ++ e) = 0 -> mf_get_value r (t ++ c) = Ok (match dflt with VNumpy => Fin 0%Qc | _ => NaN end)).
Proof. exact query_given_ok. Qed.
Print Assumptions C39_conditional.

(** The queries that are rejected. *)
Theorem C39_no_rows_raises : forall so, is_set_order so -> forall dflt data D pre e, usable D -> wf_frame data -> incl (keys e) (f_cols data) ->
  forall T, NoDup T -> T <> [] -> incl T (keys D) -> incl T (f_cols data) -> (forall v, In v T -> ~ In v (keys e)) ->
  complete data D T -> count data e = 0 ->
  laplace_query so dflt data D pre T None e = Raise ZeroDivisionError.
Proof. exact query_none. Qed.
Print Assumptions C39_no_rows_raises.

Theorem C39_no_column_raises : forall so dflt data D pre T e v, is_set_order so -> NoDup T -> (forall v, In v T -> ~ In v (keys e)) -> wf_frame data ->
  ~ In v (f_cols data) -> In v (keys e) \/ (In v T /\ In v (keys D)) -> laplace_query so dflt data D pre T None e = Raise KeyError.
Proof. exact laplace_key_error. Qed.
Print Assumptions C39_no_column_raises.

Theorem C39_rejects : forall so dflt data D pre T e,
  (~ NoDup T -> laplace_query so dflt data D pre T None e = Raise ValueError) /\
  (NoDup T -> forall v, In v T -> In v (keys e) -> laplace_query so dflt data D pre T None e = Raise ValueError) /\
  (forall C v, In v T -> In v C -> laplace_query so dflt data D pre T (Some C) e = Raise ValueError).
Proof. exact laplace_rejects. Qed.
Print Assumptions C39_rejects.

(** Outside complete data: rows with a missing value are not counted, neither
    in the total nor for the state "nan" that is added to the domain. *)
Theorem C39_missing_refuted : exists data D, usable D /\ wf_frame data /\ forall pre, exists f,
  laplace_query plain_order VNumpy data D pre ["A"] None [] = Ok f /\
  mf_get_value f [("A", SStr "a0")] = Ok (Fin 1%Qc) /\ mf_get_value f [("A", SStr "nan")] = Ok (Fin 0%Qc) /\
  ratio (count data [("A", SStr "a0")]) (count data []) = Q2Qc (1#2).
Proof. exact missing_values. Qed.
Print Assumptions C39_missing_refuted.

(** Five rows, with a missing value in a column that is not asked for; a target
    without a domain is ignored. *)
Example C39_case :
  is_set_order plain_order /\ usable D3 /\ wf_frame frame3 /\ complete frame3 D3 ["A"; "B"] /\
  (forall pre, view (laplace_query plain_order VNumpy frame3 D3 pre ["A"] None [("B", SInt 2)]) = Ok ([("A", sA)], ["A"], [], map q [2#3; 1#3]%Q)) /\
  view (laplace_query plain_order VNumpy frame3 D3 true ["A"; "B"] None [("N", SInt 1)]) =
    Ok ([("B", sB); ("A", sA)], ["B"; "A"], [], map q [1#3; 1#3; 0; 0; 0; 1#3]%Q) /\
  view (laplace_query plain_order VNumpy frame3 D3 true ["A"] (Some ["B"]) []) =
    Ok ([("B", sB); ("A", sA)], ["A"], ["B"], map q [1#2; 1#2; 0; 0; 2#3; 1#3]%Q) /\
  (let* r := laplace_query plain_order VList frame3 D3 true ["A"] (Some ["B"]) [] in mf_get_value r [("A", SStr "a0"); ("B", SInt 1)]) = Ok NaN /\
  (forall pre, laplace_query plain_order VNumpy (mkF ["B"] [[Some (SInt 0)]; [None]]) [("B", sB)] pre ["B"] None [] = Raise ValueError) /\
  (forall pre, view (laplace_query plain_order VNumpy frame3 D3 pre ["A"; "N"] None [("B", SInt 2)]) = Ok ([("A", sA)], ["A"], [], map q [2#3; 1#3]%Q) /\
     laplace_query plain_order VNumpy frame3 D3 pre ["N"] None [("B", SInt 2)] = Raise ValueError).
Proof.
  split; [exact plain_order_ok|]. split; [exact (proj1 D3_ok)|]. split; [exact (proj1 (proj2 D3_ok))|]. split; [exact (proj2 (proj2 D3_ok))|].
  split; [exact ask_posterior|]. split; [exact ask_other|]. split; [exact ask_given|]. split; [exact ask_given_list|]. split; [exact missing_numbers|exact unknown_target].
Qed.
