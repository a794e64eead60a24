(** Further statements on C38 and C39: which calls raise, and where the state
    "nan" is put. *)

From Coq Require Import String Ascii Bool Arith ZArith QArith Qcanon List.
From Verif Require Import PyBase Num DomainModel NdArray StoreModel NumStore FactorModel GraphModel ModelModel InferModel LearnModel DataModel
  Spec StoreSpec FactorSpec GraphSpec ModelSpec NetSpec CausalSpec DataSpec DataRaise Checks FactorChecks GraphChecks InferChecks CausalChecks
  DataChecks.
Import ListNotations.
Local Open Scope string_scope.
Local Open Scope nat_scope.
Local Open Scope list_scope.

(** * C38 *)

(** A position is drawn exactly from the lists of finite nonnegative numbers
    that sum to one; other lists are a ValueError. *)
Theorem C38_choice_accepts : forall ps u,
  ((exists i, choice ps u = Ok i) <->
   exists l, ps = map Fin l /\ l <> [] /\ (forall p, In p l -> (0 <= p)%Qc) /\ fold_right Qcplus 0%Qc l = 1%Qc) /\
  (forall e, choice ps u = Raise e -> e = ValueError).
Proof. exact choice_accepts. Qed.
Print Assumptions C38_choice_accepts.

(** A conditional table cannot be sampled without a state for the conditioning
    variables, ... *)
Theorem C38_conditional_raises : forall f n u, (1 <= n)%Z -> mf_right f <> [] -> mf_sample f n u = Raise NotImplementedError.
Proof. exact sample_raises. Qed.
Print Assumptions C38_conditional_raises.

(** ... nor can a table of zeros. *)
Theorem C38_zero_table_raises : forall f n u, (1 <= n)%Z -> wf_mf f -> mf_right f = [] ->
  (forall o, full (mf_domain f) o -> mf_get_value f o = Ok n0) -> mf_sample f n u = Raise ValueError.
Proof. exact zero_table. Qed.
Print Assumptions C38_zero_table_raises.

(** A model whose first variable has no factor cannot be sampled. *)
Theorem C38_missing_factor_raises : forall order m n u v, dget v (m_factors m) = Some None ->
  forward_sampling (v :: order) m n u = Raise AttributeError.
Proof. exact missing_factor. Qed.
Print Assumptions C38_missing_factor_raises.

(** sampleEndogenous cannot return a list of dictionaries. *)
Theorem C38_endogenous_list_raises : forall m D F vt endo cast order n u, causal m D F vt endo cast ->
  (forall v f, stored m v f -> exists g, f = FM g) -> nonnegative D F ->
  topological (m_graph m) order -> nodes (m_graph m) <> [] -> incl endo (nodes (m_graph m)) -> (1 <= n)%Z -> uniform u ->
  sample_endogenous order m n u false = Raise TypeError.
Proof. exact endogenous_list. Qed.
Print Assumptions C38_endogenous_list_raises.

Example C38_raises_case : forall vt,
  let zero := fac vt [("A", [SInt 0; SInt 1])] [0; 0]%Q [] in
  let given := fac vt [("A", [SInt 0; SInt 1]); ("B", [SInt 0; SInt 1])] [1#2; 1#3; 1#2; 2#3]%Q ["B"] in
  wf_mf zero /\ mf_right zero = [] /\ mf_right given = ["B"] /\
  mf_sample zero 2 (three "A") = Raise ValueError /\ mf_sample given 2 (three "A") = Raise NotImplementedError /\
  mf_sample_conditional given [] (three "A") = Raise ValueError /\
  choice [q (1#2); q (1#3)] (Q2Qc (1#4)) = Raise ValueError /\ choice [q (1#2); NaN; q (1#2)] (Q2Qc (1#4)) = Raise ValueError /\
  choice [q (3#2); q (-1#2)] (Q2Qc (1#4)) = Raise ValueError /\ choice [q (1#2); q (1#2)] (Q2Qc (1#2)) = Ok 1 /\
  forward_sampling order_net (mkPgm (m_graph m_net) (map (fun v => (v, None)) order_net) (m_domains m_net) true KBn) 3 three = Raise AttributeError.
Proof.
  intros vt zero given. destruct (fac_wf vt [("A", [SInt 0; SInt 1])] [0; 0]%Q []) as (W & _ & _); [vm_compute; reflexivity|].
  split; [exact W|]. repeat split; destruct vt; vm_compute; reflexivity.
Qed.

(** * C39 *)

(** The state "nan" comes last in the domain of the answer. *)
Example C39_nan_case : forall pre, view (laplace_query plain_order VNumpy frame_nan D_nan pre ["A"] None []) =
  Ok ([("A", sA ++ [SStr "nan"])], ["A"], [], map q [1; 0; 0]%Q).
Proof. exact nan_answer. Qed.
