(** Sample models for the examples and refutations about model objects. *)

From Coq Require Import String Ascii Bool Arith ZArith QArith Qcanon List.
From Verif Require Import PyBase PyFacts Num DomainModel NdArray StoreModel NumStore FactorModel GraphModel ModelModel
  Spec StoreSpec FactorSpec GraphSpec GraphFacts GraphChecks ModelSpec ModelFacts Checks FactorChecks.
Import ListNotations.
Local Open Scope nat_scope.
Local Open Scope string_scope.

(** A -> B, A -> C *)
Definition g_fork : digraph := graph_of [("A", "B"); ("A", "C")].
Definition m_fork : pgm := fresh g_fork true KBn.
Definition lA : list state := [SStr "a0"; SStr "a1"].
Definition lB : list state := [SInt 0; SInt 1].
Definition fA : fobj := FM (fac VNumpy [("A", lA)] [1#4; 3#4]%Q []).
Definition fB : fobj := FM (fac VNumpy [("A", lA); ("B", lB)] [1#2; 1#2; 1#3; 2#3]%Q ["A"]).
Definition fC : fobj := FM (fac VNumpy [("A", lA); ("C", lB)] [1#5; 4#5; 1; 0]%Q ["A"]).
(** the same with other states for A, and with the states of A swapped *)
Definition fC_other : fobj := FM (fac VNumpy [("A", [SStr "x"; SStr "y"]); ("C", lB)] [1#5; 4#5; 1; 0]%Q ["A"]).
Definition fC_swap : fobj := FM (fac VNumpy [("A", [SStr "a1"; SStr "a0"]); ("C", lB)] [1#5; 4#5; 1; 0]%Q ["A"]).
(** a factor of the wrong shape *)
Definition fB_bad : fobj := FM (fac VNumpy [("B", lB)] [1#2; 1#2]%Q []).

Ltac vm := vm_compute; reflexivity.

Lemma fork_fresh : is_fresh m_fork /\ m_check m_fork = true.
Proof. split; [apply fresh_is_fresh|reflexivity]. Qed.

Lemma is_factor_FM : forall f, is_factor (FM f) (mf_domain f) (mf_left f) (mf_right f).
Proof. intros. repeat split. Qed.

Lemma disagree : exists m calls, is_fresh m /\ m_check m = true /\ all_succeed m calls /\
  exists v1 f1 d1 l1 r1 v2 f2 d2 l2 r2 w s1 s2,
    stored (run_calls m calls) v1 f1 /\ stored (run_calls m calls) v2 f2 /\
    is_factor f1 d1 l1 r1 /\ is_factor f2 d2 l2 r2 /\
    dget w d1 = Some s1 /\ dget w d2 = Some s2 /\ (forall x, In x s1 -> ~ In x s2).
Proof.
  exists m_fork, [("B", fB); ("C", fC_other)]. destruct fork_fresh as [F C]. split; [exact F|]. split; [exact C|].
  split; [split; [vm|split; [vm|exact I]]|].
  exists "B", fB, [("A", lA); ("B", lB)], ["B"], ["A"].
  exists "C", fC_other, [("A", [SStr "x"; SStr "y"]); ("C", lB)], ["C"], ["A"].
  exists "A", lA, [SStr "x"; SStr "y"].
  split; [vm|]. split; [vm|]. split; [split; [vm|split; vm]|]. split; [split; [vm|split; vm]|].
  split; [vm|]. split; [vm|]. intros x [<- | [<- | []]] [E|[E|[]]]; discriminate.
Qed.

Lemma swapped : exists m calls, is_fresh m /\ m_check m = true /\ all_succeed m calls /\ parents_first m calls /\
  exists v1 f1 d1 l1 r1 v2 f2 d2 l2 r2 w s1 s2,
    stored (run_calls m calls) v1 f1 /\ stored (run_calls m calls) v2 f2 /\
    is_factor f1 d1 l1 r1 /\ is_factor f2 d2 l2 r2 /\
    dget w d1 = Some s1 /\ dget w d2 = Some s2 /\ s1 <> s2.
Proof.
  exists m_fork, [("A", fA); ("C", fC_swap)]. destruct fork_fresh as [F C]. split; [exact F|]. split; [exact C|].
  split; [split; [vm|split; [vm|exact I]]|].
  split.
  { split; [intros p K; exfalso; vm_compute in K; intuition discriminate|]. split; [|exact I].
    intros p K. assert (p = "A") as -> by (vm_compute in K; intuition congruence). exists lA. vm. }
  exists "A", fA, [("A", lA)], ["A"], [].
  exists "C", fC_swap, [("A", [SStr "a1"; SStr "a0"]); ("C", lB)], ["C"], ["A"].
  exists "A", lA, [SStr "a1"; SStr "a0"].
  split; [vm|]. split; [vm|]. split; [split; [vm|split; vm]|]. split; [split; [vm|split; vm]|].
  split; [vm|]. split; [vm|]. discriminate.
Qed.

(** An SCM U -> X -> Y with deterministic equations. *)
Definition g_scm : digraph := graph_of [("U", "X"); ("X", "Y")].
Definition m_scm : pgm := fresh g_scm true (KScm ["X"; "Y"] true).
Definition dX : fobj := FD (dfac VNumpy [("U", lB); ("X", lA)] "X" [SStr "a1"; SStr "a0"]).
Definition fX_soft : fobj := FM (fac VNumpy [("U", lB); ("X", lA)] [1#2; 1#2; 1#3; 2#3]%Q ["U"]).
