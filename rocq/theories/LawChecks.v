(** A sample confounded causal model for the examples about laws. *)

From Coq Require Import String Ascii Bool Arith ZArith QArith Qcanon Lia Permutation List.
From Verif Require Import PyBase PyFacts Num DomainModel NdArray StoreModel NumStore FactorModel GraphModel ModelModel InferModel CausalModel
  Spec StoreSpec StoreFacts FactorSpec FactorFacts FactorFacts2 PropFacts1 GraphSpec GraphFacts GraphChecks ModelSpec ModelFacts Checks FactorChecks
  NetSpec OrderSpec InferChecks CausalSpec CausalFacts CausalChecks LawSpec.
Import ListNotations.
Local Open Scope nat_scope.
Local Open Scope string_scope.
Local Open Scope list_scope.
Local Arguments eqd : simpl never.

(** U -> X, U -> Y, X -> Y. U has four states: X = [U >= 2]; Y copies X for
    U = 0 and U = 2, is 1 for U = 3, and for U = 1 it is not X ([wild]) or 0. *)
Definition lU : list state := [SInt 0; SInt 1; SInt 2; SInt 3].
Definition D_law : domain := [("U", lU); ("X", l01); ("Y", l01)].
Definition ts_law (wild : bool) : tables :=
  [("U", ([("U", lU)], [1#10; 1#5; 3#10; 2#5]%Q, []));
   ("X", ([("U", lU); ("X", l01)], [1; 0; 1; 0; 0; 1; 0; 1]%Q, ["U"]));
   ("Y", ([("U", lU); ("X", l01); ("Y", l01)],
          [1; 0; 0; 1] ++ (if wild then [0; 1; 1; 0] else [1; 0; 1; 0]) ++ [1; 0; 0; 1; 0; 1; 0; 1], ["U"; "X"]))]%Q.
Definition g_law : digraph := graph_of [("U", "X"); ("U", "Y"); ("X", "Y")].
Definition m_law (vt : vtype) (wild : bool) : pgm := scm_of vt g_law (ts_law wild) [] None false.

Lemma law_ok vt wild : causal (m_law vt wild) D_law (table_of vt (ts_law wild)) vt ["X"; "Y"] false.
Proof.
  apply causal_check with (os := []); [destruct vt, wild; vm_compute; reflexivity|destruct vt, wild; vm_compute; reflexivity|].
  assert (E : nodes (m_graph (m_law vt wild)) = ["U"; "X"; "Y"]) by (destruct vt, wild; vm_compute; reflexivity).
  intros v J. rewrite E in J. destruct J as [<-|[<-|[<-|[]]]]; destruct vt, wild; vm_compute; reflexivity.
Qed.
Lemma law_graph vt wild : m_graph (m_law vt wild) = g_law.
Proof. destruct vt, wild; vm_compute; reflexivity. Qed.
Lemma law_roots vt wild : roots (m_graph (m_law vt wild)) ["U"] /\ plain_roots (m_law vt wild).
Proof.
  split; [apply rootsb_sound; rewrite law_graph; vm_compute; reflexivity|].
  intros v f S N. assert (J : In v ["U"; "X"; "Y"]).
  { unfold stored in S. apply dget_In in S. apply (in_map fst) in S. destruct vt, wild; vm_compute in S; vm_compute; tauto. }
  destruct J as [<-|[<-|[<-|[]]]].
  - unfold stored in S. destruct vt, wild; vm_compute in S; injection S as <-; eexists; reflexivity.
  - exfalso. apply (N "U"). rewrite law_graph. vm_compute. tauto.
  - exfalso. apply (N "U"). rewrite law_graph. vm_compute. tauto.
Qed.
Lemma law_nonneg vt wild : nonnegative D_law (table_of vt (ts_law wild)).
Proof.
  apply (nonneg_check _ _ vt (m_law vt wild)); [|destruct vt, wild; vm_compute; reflexivity].
  eapply causal_network; [apply law_ok|]. intros v J. rewrite law_graph in J.
  destruct J as [<-|[<-|[<-|[]]]]; destruct vt, wild; vm_compute; reflexivity.
Qed.
Definition law_facts (vt : vtype) (wild : bool) : Prop :=
  causal (m_law vt wild) D_law (table_of vt (ts_law wild)) vt ["X"; "Y"] false /\ plain_roots (m_law vt wild) /\
  roots (m_graph (m_law vt wild)) ["U"] /\ nonnegative D_law (table_of vt (ts_law wild)) /\
  truth_states D_law "X" None (SInt 1) (SInt 0) /\ truth_states D_law "Y" None (SInt 1) (SInt 0) /\
  two_states D_law "X" (SInt 1) (SInt 0) /\ two_states D_law "Y" (SInt 1) (SInt 0) /\
  (exists w, arc (m_graph (m_law vt wild)) "X" w) /\ fresh_names (m_graph (m_law vt wild)) ["U"] [[("X", SInt 0)]; [("X", SInt 1)]].
Lemma law_holds vt wild : law_facts vt wild.
Proof.
  split; [apply law_ok|]. split; [apply law_roots|]. split; [apply law_roots|]. split; [apply law_nonneg|].
  do 2 (split; [exists l01; vm_compute; tauto|]).
  do 2 (split; [exists l01; split; [vm_compute; tauto|]; split; [intros s; vm_compute; tauto|discriminate]|]).
  split; [exists "Y"; rewrite law_graph; vm_compute; tauto|]. apply fresh_check. rewrite law_graph. vm_compute. reflexivity.
Qed.
