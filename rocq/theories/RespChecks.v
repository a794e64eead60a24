(** Decision procedures for the cases about Markovian structural models. *)

From Coq Require Import String Bool Arith ZArith QArith Qcanon List.
From Verif Require Import PyBase PyFacts Num DomainModel NdArray StoreModel NumStore FactorModel GraphModel ModelModel Spec StoreSpec FactorSpec GraphSpec ModelSpec NetSpec GenSpec CausalSpec CanonSpec GenModel InferModel CausalModel
  DomainFacts StoreFacts FactorFacts FactorFacts2 GraphFacts CausalFacts Checks FactorChecks GraphChecks InferChecks EmChecks GenChecks CausalChecks.
Import ListNotations.
Local Open Scope nat_scope.
Local Open Scope string_scope.
Local Open Scope list_scope.
Local Arguments eqd : simpl never.

Definition same_varb (v w : var) : bool := if eqd v w then true else false.
Definition markovianb (g : digraph) (X : list var) (U : var -> var) : bool :=
  rootsb g X &&
  forallb (fun v => mem v X || (forallb (fun x => Bool.eqb (mem x X) (same_varb x (U v))) (preds g v) && mem (U v) (preds g v) && mem (U v) X)) (nodes g) &&
  forallb (fun v => forallb (fun w => mem v X || mem w X || negb (same_varb (U v) (U w)) || same_varb v w) (nodes g)) (nodes g) &&
  forallb (fun x => match succs g x with [] => false | _ => true end) X.
Lemma same_varb_iff v w : same_varb v w = true <-> v = w.
Proof. unfold same_varb. destruct (eqd v w); split; intros E; congruence. Qed.
Lemma markovianb_sound g X U : markovianb g X U = true -> markovian g X U.
Proof.
  unfold markovianb. rewrite !andb_true_iff, !forallb_forall. intros [[[A B] C] E].
  split; [now apply rootsb_sound|]. split; [|split].
  - intros v J N x. specialize (B v J). apply orb_true_iff in B as [B | B]; [now apply mem_In in B|].
    rewrite !andb_true_iff, forallb_forall in B. destruct B as [[B1 B2] B3]. apply mem_In in B2, B3. split.
    + intros [Jx Ax]. apply in_preds in Ax. specialize (B1 x Ax). apply eqb_prop in B1. apply same_varb_iff. rewrite <- B1. now apply mem_In.
    + intros ->. split; [assumption|]. now apply in_preds.
  - intros v w J K N M Q. specialize (C v J). rewrite forallb_forall in C. specialize (C w K).
    rewrite !orb_true_iff, !mem_In, negb_true_iff in C. destruct C as [[[C | C] | C] | C]; try tauto.
    + apply same_varb_iff in Q. congruence.
    + now apply same_varb_iff.
  - intros x J. specialize (E x J). destruct (succs g x) as [|w l] eqn:Es; [discriminate|]. exists w. apply in_succs. rewrite Es. now left.
Qed.

(** UX -> X -> Y <- UY, where X is 0 in one of three states of UX, and Y is 0,
    X or not X, as UY says. *)
Definition g_mark : digraph := graph_of [("UX", "X"); ("X", "Y"); ("UY", "Y")].
Definition s_mark : list state := [SInt 0; SInt 1]%Z.
Definition u_mark : list state := [SStr "u"; SStr "v"; SStr "w"].
Definition D_mark : domain := [("UX", u_mark); ("X", s_mark); ("Y", s_mark); ("UY", u_mark)].
Definition ts_mark : tables :=
  [("UX", ([("UX", u_mark)], [1#4; 1#4; 1#2]%Q, []));
   ("UY", ([("UY", u_mark)], [1#2; 1#3; 1#6]%Q, []));
   ("X", ([("X", s_mark); ("UX", u_mark)], [0; 1; 0; 1; 0; 1]%Q, ["UX"]));
   ("Y", ([("X", s_mark); ("UY", u_mark); ("Y", s_mark)], [1; 0; 1; 0; 0; 1; 1; 0; 0; 1; 1; 0]%Q, ["X"; "UY"]))].
Definition m_mark (vt : vtype) : pgm := scm_of vt g_mark ts_mark [] None false.
Definition X_mark : list var := ["UX"; "UY"].
Definition U_mark (v : var) : var := append "U" v.
Definition lu_mark (u : var) : list state := if eqd u "UX" then [SStr "a"; SStr "b"] else [SInt 0; SInt 1; SInt 2; SInt 3]%Z.

Lemma mark_ok vt : causal (m_mark vt) D_mark (table_of vt ts_mark) vt ["X"; "Y"] false.
Proof.
  apply causal_check with (os := []); [destruct vt; vm_compute; reflexivity|destruct vt; vm_compute; reflexivity|].
  assert (E : nodes (m_graph (m_mark vt)) = ["UX"; "X"; "Y"; "UY"]) by (destruct vt; vm_compute; reflexivity).
  intros v J. rewrite E in J. destruct J as [<-|[<-|[<-|[<-|[]]]]]; destruct vt; vm_compute; reflexivity.
Qed.
Lemma mark_roots vt : plain_roots (m_mark vt).
Proof.
  intros v f S N. assert (J : In v ["UX"; "UY"; "X"; "Y"]).
  { unfold stored in S. apply dget_In in S. apply (in_map fst) in S. destruct vt; vm_compute in S; vm_compute; tauto. }
  assert (B : forall x, In v ["X"; "Y"] -> x = hd "" (preds (m_graph (m_mark vt)) v) -> arc (m_graph (m_mark vt)) x v).
  { intros x I ->. apply in_preds. destruct I as [<-|[<-|[]]]; destruct vt; vm_compute; tauto. }
  destruct J as [<-|[<-|[<-|[<-|[]]]]]; try (exfalso; eapply N, B; [cbn; tauto|reflexivity]);
    unfold stored in S; destruct vt; vm_compute in S; injection S as <-; eexists; reflexivity.
Qed.
Lemma mark_nonneg vt : nonnegative D_mark (table_of vt ts_mark).
Proof.
  apply (nonneg_check _ _ vt (bn_of vt g_mark ts_mark)); [|destruct vt; vm_compute; reflexivity].
  apply network_check; [destruct vt; vm_compute; reflexivity|].
  assert (E : nodes (m_graph (bn_of vt g_mark ts_mark)) = ["UX"; "X"; "Y"; "UY"]) by (destruct vt; vm_compute; reflexivity).
  intros v J. rewrite E in J. destruct J as [<-|[<-|[<-|[<-|[]]]]]; destruct vt; vm_compute; reflexivity.
Qed.
Lemma mark_markovian vt : markovian (m_graph (m_mark vt)) X_mark U_mark.
Proof. apply markovianb_sound. destruct vt; vm_compute; reflexivity. Qed.
Lemma mark_states vt : response_states D_mark (m_graph (m_mark vt)) X_mark U_mark lu_mark.
Proof.
  split; [apply usableb_sound; vm_compute; reflexivity|].
  intros v l [[= <- <-] | [[= <- <-] | [[= <- <-] | [[= <- <-] | []]]]] N; try (exfalso; apply N; vm_compute; tauto); destruct vt; vm_compute; reflexivity.
Qed.

(** The structural model with the canonical equations. *)
Definition scm_mark (vt : vtype) : res pgm :=
  let* fx := canonical_deterministic [("X", s_mark); ("UX", lu_mark "UX")] "UX" [] vt in
  let* fy := canonical_deterministic [("Y", s_mark); ("UY", lu_mark "UY"); ("X", s_mark)] "UY" ["X"] vt in
  scm_init (GDag g_mark)
    (Some (FsDict [("X", FD fx); ("Y", FD fy);
                   ("UX", FM (fac vt [("UX", lu_mark "UX")] [1#4; 3#4]%Q []));
                   ("UY", FM (fac vt [("UY", lu_mark "UY")] [1#2; 1#3; 1#6; 0]%Q []))])) None false true.
