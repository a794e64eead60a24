(** The concrete models and data shown beside the theorems about samples and
    frequencies. *)

From Coq Require Import String Ascii Bool Arith ZArith QArith Qcanon Lia List.
From Verif Require Import PyBase PyFacts Num DomainModel NdArray StoreModel NumStore FactorModel GraphModel ModelModel InferModel LearnModel DataModel
  Spec StoreSpec FactorSpec GraphSpec ModelSpec NetSpec CausalSpec CausalFacts DataSpec Checks FactorChecks GraphChecks InferChecks CausalChecks.
Import ListNotations.
Local Open Scope string_scope.
Local Open Scope nat_scope.
Local Open Scope list_scope.

(** A generator that returns the same three numbers for every variable. *)
Definition three (v : var) (i : nat) : Qc :=
  match i with 0 => Q2Qc (1#2) | 1 => Q2Qc (9#10) | _ => Q2Qc (1#10) end.
Lemma three_ok : uniform three.
Proof. intros v [|[|i]]; split; vm_compute; discriminate || reflexivity. Qed.

Definition order_net : list var := ["B"; "A"; "C"; "E"; "H"].
Lemma order_net_ok : topological (m_graph m_net) order_net.
Proof. apply topob_sound. vm_compute. reflexivity. Qed.
Lemma net_nonneg : nonnegative D_net F_net.
Proof. apply (nonneg_check _ _ VNumpy m_net); [exact (net_ok VNumpy)|vm_compute; reflexivity]. Qed.
Lemma net_rows : forward_sampling order_net m_net 3 three = Ok
  [[("B", SInt 1); ("A", SStr "a1"); ("C", SBool true); ("E", SBool true); ("H", SBool true)];
   [("B", SInt 2); ("A", SStr "a1"); ("C", SBool true); ("E", SBool true); ("H", SBool true)];
   [("B", SInt 0); ("A", SStr "a0"); ("C", SBool false); ("E", SBool false); ("H", SBool false)]].
Proof. vm_compute. reflexivity. Qed.

(** The causal model of the counterfactual queries, without the deterministic
    factor and with it. *)
Definition m_tab : pgm := scm_of VNumpy g_cf ts_cf [] None false.
Definition F_tab : var -> mfactor := table_of VNumpy ts_cf.
Lemma tab_ok : causal m_tab D_cf F_tab VNumpy ["X"; "Z"; "Y"] false.
Proof.
  apply causal_check with (os := []); [vm_compute; reflexivity|vm_compute; reflexivity|].
  assert (E : nodes (m_graph m_tab) = ["U"; "X"; "Z"; "Y"; "V"]) by (vm_compute; reflexivity).
  intros v J. rewrite E in J. destruct J as [<-|[<-|[<-|[<-|[<-|[]]]]]]; vm_compute; reflexivity.
Qed.
Lemma tab_plain : forall v f, stored m_tab v f -> exists g, f = FM g.
Proof.
  intros v f S. assert (J : In v ["U"; "X"; "Z"; "V"; "Y"]).
  { unfold stored in S. apply dget_In in S. apply (in_map fst) in S. vm_compute in S; vm_compute; tauto. }
  destruct J as [<-|[<-|[<-|[<-|[<-|[]]]]]]; unfold stored in S; vm_compute in S; injection S as <-; eexists; reflexivity.
Qed.
Lemma tab_nonneg : nonnegative D_cf F_tab.
Proof.
  apply (nonneg_check _ _ VNumpy m_tab); [|vm_compute; reflexivity]. eapply causal_network; [exact tab_ok|].
  assert (E : nodes (m_graph m_tab) = ["U"; "X"; "Z"; "Y"; "V"]) by (vm_compute; reflexivity).
  intros v J. rewrite E in J. destruct J as [<-|[<-|[<-|[<-|[<-|[]]]]]]; vm_compute; reflexivity.
Qed.
Definition order_cf : list var := ["U"; "V"; "X"; "Z"; "Y"].
Lemma order_cf_ok : topological (m_graph m_tab) order_cf /\ topological (m_graph (m_cf VNumpy)) order_cf.
Proof. split; apply topob_sound; vm_compute; reflexivity. Qed.
Lemma tab_rows : forward_sampling order_cf m_tab 3 three = Ok
  [[("U", SStr "v"); ("V", SInt 1); ("X", SInt 1); ("Z", SInt 0); ("Y", SStr "y1")];
   [("U", SStr "w"); ("V", SInt 1); ("X", SInt 1); ("Z", SInt 0); ("Y", SStr "y1")];
   [("U", SStr "u"); ("V", SInt 0); ("X", SInt 0); ("Z", SInt 1); ("Y", SStr "y0")]].
Proof. vm_compute. reflexivity. Qed.
Lemma tab_endo : sample_endogenous order_cf m_tab 3 three true = Ok
  [[("X", SInt 1); ("Z", SInt 0); ("Y", SStr "y1")];
   [("X", SInt 1); ("Z", SInt 0); ("Y", SStr "y1")];
   [("X", SInt 0); ("Z", SInt 1); ("Y", SStr "y0")]].
Proof. vm_compute. reflexivity. Qed.
Lemma cf_rows : forward_sampling order_cf (m_cf VNumpy) 3 three = Raise TypeError /\
  exists d, stored (m_cf VNumpy) "Z" (FD d).
Proof. split; [vm_compute; reflexivity|]. eexists. vm_compute. reflexivity. Qed.

(** ** Data *)

Definition xA : state := SStr "a0".
Definition yA : state := SStr "a1".
Definition frame3 : frame :=
  mkF ["A"; "N"; "B"]
    [[Some xA; Some (SInt 1); Some (SInt 0)]; [Some yA; Some (SInt 1); Some (SInt 2)]; [Some xA; None; Some (SInt 2)];
     [Some xA; Some (SInt 2); Some (SInt 2)]; [Some yA; Some (SInt 1); Some (SInt 0)]].
Definition D3 : domain := [("B", sB); ("A", sA)].
Lemma D3_ok : usable D3 /\ wf_frame frame3 /\ complete frame3 D3 ["A"; "B"].
Proof.
  split; [|split].
  - apply usableb_sound. vm_compute. reflexivity.
  - split; [|vm_compute; intros r J; decompose [or] J; subst; reflexivity || contradiction].
    apply nodupb_sound. vm_compute. reflexivity.
  - intros r v c J K Jc. vm_compute in J. vm_compute in K.
    decompose [or] K; try contradiction; subst v; decompose [or] J; try contradiction; subst r; vm_compute in Jc; decompose [or] Jc; try contradiction;
      try discriminate; match goal with H : (_, _) = (_, _) |- _ => injection H as <- end;
      eexists; eexists; (split; [first [now left | right; now left]|]); (split; [|reflexivity]); vm_compute; tauto.
Qed.
Definition ask (pre : bool) (T : list var) (C : option (list var)) (e : obs) : res mfactor := laplace_query plain_order VNumpy frame3 D3 pre T C e.
Lemma ask_posterior : forall pre, view (ask pre ["A"] None [("B", SInt 2)]) = Ok ([("A", sA)], ["A"], [], map q [2#3; 1#3]%Q).
Proof. intros pre. apply view_ok. destruct pre; vm_compute; reflexivity. Qed.
Lemma ask_other : view (ask true ["A"; "B"] None [("N", SInt 1)]) = Ok ([("B", sB); ("A", sA)], ["B"; "A"], [], map q [1#3; 1#3; 0; 0; 0; 1#3]%Q).
Proof. apply view_ok. vm_compute. reflexivity. Qed.
Lemma ask_given : view (ask true ["A"] (Some ["B"]) []) = Ok ([("B", sB); ("A", sA)], ["A"], ["B"], map q [1#2; 1#2; 0; 0; 2#3; 1#3]%Q).
Proof. apply view_ok. vm_compute. reflexivity. Qed.
Lemma ask_given_list : (let* r := laplace_query plain_order VList frame3 D3 true ["A"] (Some ["B"]) [] in mf_get_value r [("A", xA); ("B", SInt 1)]) = Ok NaN.
Proof. apply okb_sound. vm_compute. reflexivity. Qed.

(** A missing value in a column of the query. *)
Definition frame_nan : frame := mkF ["A"] [[Some xA]; [None]].
Definition D_nan : domain := [("A", sA)].
Lemma nan_answer : forall pre, view (laplace_query plain_order VNumpy frame_nan D_nan pre ["A"] None []) =
  Ok ([("A", sA ++ [SStr "nan"])], ["A"], [], map q [1; 0; 0]%Q).
Proof. intros pre. apply view_ok. destruct pre; vm_compute; reflexivity. Qed.
Lemma missing_values : exists data D, usable D /\ wf_frame data /\ forall pre, exists f,
  laplace_query plain_order VNumpy data D pre ["A"] None [] = Ok f /\
  mf_get_value f [("A", xA)] = Ok (Fin 1%Qc) /\ mf_get_value f [("A", SStr "nan")] = Ok (Fin 0%Qc) /\
  ratio (count data [("A", xA)]) (count data []) = Q2Qc (1#2).
Proof.
  exists frame_nan, D_nan. split; [apply usableb_sound; vm_compute; reflexivity|]. split.
  { split; [apply nodupb_sound; vm_compute; reflexivity|]. vm_compute; intros r J; decompose [or] J; subst; reflexivity || contradiction. }
  intros pre.
  assert (B1 : (let* f := laplace_query plain_order VNumpy frame_nan D_nan pre ["A"] None [] in mf_get_value f [("A", xA)]) = Ok (Fin 1%Qc))
    by (apply okb_sound; destruct pre; vm_compute; reflexivity).
  assert (B2 : (let* f := laplace_query plain_order VNumpy frame_nan D_nan pre ["A"] None [] in mf_get_value f [("A", SStr "nan")]) = Ok (Fin 0%Qc))
    by (apply okb_sound; destruct pre; vm_compute; reflexivity).
  destruct (laplace_query plain_order VNumpy frame_nan D_nan pre ["A"] None []) as [f|er]; [|discriminate]. cbn [bind] in B1, B2.
  exists f. split; [reflexivity|]. split; [exact B1|]. split; [exact B2|]. apply Qc_is_canon. vm_compute. reflexivity.
Qed.
(** With other states than strings the query fails. *)
Lemma missing_numbers : forall pre, laplace_query plain_order VNumpy (mkF ["B"] [[Some (SInt 0)]; [None]]) [("B", sB)] pre ["B"] None [] = Raise ValueError.
Proof. intros [|]; vm_compute; reflexivity. Qed.
(** A target without domain is ignored. *)
Lemma unknown_target : forall pre, view (ask pre ["A"; "N"] None [("B", SInt 2)]) = Ok ([("A", sA)], ["A"], [], map q [2#3; 1#3]%Q) /\
  ask pre ["N"] None [("B", SInt 2)] = Raise ValueError.
Proof. intros pre. split; [apply view_ok|]; destruct pre; vm_compute; reflexivity. Qed.
