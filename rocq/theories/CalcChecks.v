(** A sample causal model with a mediator for the examples about the calculus
    of interventions, and checks of separations. *)

From Coq Require Import String Ascii Bool Arith ZArith QArith Qcanon Lia Permutation List.
From Verif Require Import PyBase PyFacts Num DomainModel NdArray StoreModel NumStore FactorModel GraphModel ModelModel InferModel CausalModel LearnModel
  Spec StoreSpec StoreFacts FactorSpec FactorFacts FactorFacts2 PropFacts1 PropFacts3 GraphSpec GraphFacts GraphFacts2 GraphChecks ModelSpec ModelFacts Checks FactorChecks
  NetSpec OrderSpec InferChecks CausalSpec CausalFacts CfFacts CausalChecks SepSpec SepFacts1 LawSpec CalcSpec.
From Coq Require Import List.
Import ListNotations.
Local Open Scope nat_scope.
Local Open Scope string_scope.
Local Open Scope list_scope.
Local Arguments eqd : simpl never.

Definition apartb (g : digraph) (Z X Y : list var) : bool :=
  dagb g && inclb (X ++ Y ++ Z) (nodes g) && forallb (fun v => negb (mem v Z)) (X ++ Y) &&
  match d_separated g X Y Z with Ok true => true | _ => false end.
Lemma apartb_sound g Z X Y : apartb g Z X Y = true -> apart g Z X Y.
Proof.
  unfold apartb. rewrite !andb_true_iff. intros [[[A B] C] E]. destruct (dagb_sound _ A) as [W Ac]. apply inclb_sound in B.
  assert (Dj : forall v, In v (X ++ Y) -> ~ In v Z) by (intros v J K; rewrite forallb_forall in C; specialize (C v J); apply mem_In in K; rewrite K in C; discriminate).
  destruct (d_separated_trails g X Y Z W Ac B Dj) as (b & Eb & Hb). rewrite Eb in E. destruct b; [|discriminate].
  intros x y Jx Jy Cn. assert (true = false) by (apply Hb; eauto). discriminate.
Qed.
Definition upstreamb (g : digraph) (X Y : list var) : bool :=
  dagb g && inclb X (nodes g) &&
  forallb (fun x => negb (mem x Y) && match descendants g x with Ok d => forallb (fun y => negb (mem y d)) Y | Raise _ => false end) X.
Lemma upstreamb_sound g X Y : upstreamb g X Y = true -> upstream g X Y.
Proof.
  unfold upstreamb. rewrite !andb_true_iff. intros [[A B] C] x y Jx Jy R. destruct (dagb_sound _ A) as [W Ac]. apply inclb_sound in B.
  rewrite forallb_forall in C. specialize (C x Jx). apply andb_prop in C as [C1 C2].
  assert (N : x <> y) by (intros ->; apply mem_In in Jy; rewrite Jy in C1; discriminate).
  destruct (descendants_ok g x W (B x Jx)) as (d & Ed & Hd). rewrite Ed in C2. rewrite forallb_forall in C2. specialize (C2 y Jy).
  destruct R as [E|R]; [auto|]. assert (K : In y d) by (apply Hd; split; auto). apply mem_In in K. rewrite K in C2. discriminate.
Qed.
Definition statesb (g : digraph) (D : domain) (d : obs) : bool := knownb D d && nodupb (keys d) && inclb (keys d) (nodes g).
Lemma statesb_sound g D d : statesb g D d = true -> states_for g D d.
Proof. unfold statesb. rewrite !andb_true_iff. intros [[A B] C]. split; [now apply knownb_sound|]. split; [now apply nodupb_sound|now apply inclb_sound]. Qed.

(** U -> X -> M -> Y, U -> Y, B -> M: X = [U >= 1], M = X xor B, and Y is M for
    U = 0, 1 for U = 1 and not M for U = 2. *)
Definition l012 : list state := [SInt 0; SInt 1; SInt 2].
Definition D_med : domain := [("U", l012); ("B", l01); ("X", l01); ("M", l01); ("Y", l01)].
Definition ts_med : tables :=
  [("U", ([("U", l012)], [2#5; 3#10; 3#10]%Q, []));
   ("B", ([("B", l01)], [3#4; 1#4]%Q, []));
   ("X", ([("U", l012); ("X", l01)], [1; 0; 0; 1; 0; 1]%Q, ["U"]));
   ("M", ([("X", l01); ("B", l01); ("M", l01)], [1; 0; 0; 1; 0; 1; 1; 0]%Q, ["X"; "B"]));
   ("Y", ([("M", l01); ("U", l012); ("Y", l01)], [1; 0; 0; 1; 0; 1; 0; 1; 0; 1; 1; 0]%Q, ["M"; "U"]))].
Definition g_med : digraph := graph_of [("U", "X"); ("U", "Y"); ("X", "M"); ("B", "M"); ("M", "Y")].
Definition m_med (vt : vtype) : pgm := scm_of vt g_med ts_med [] None false.
Lemma med_graph vt : m_graph (m_med vt) = g_med.
Proof. destruct vt; vm_compute; reflexivity. Qed.
Lemma med_ok vt : causal (m_med vt) D_med (table_of vt ts_med) vt ["X"; "Y"; "M"] false.
Proof.
  apply causal_check with (os := []); [destruct vt; vm_compute; reflexivity|destruct vt; vm_compute; reflexivity|].
  intros v J. rewrite med_graph in J. destruct J as [<-|[<-|[<-|[<-|[<-|[]]]]]]; destruct vt; vm_compute; reflexivity.
Qed.
Lemma med_plain vt : plain_roots (m_med vt).
Proof.
  intros v f S N. assert (J : In v ["U"; "B"; "X"; "M"; "Y"]).
  { unfold stored in S. apply dget_In in S. apply (in_map fst) in S. destruct vt; vm_compute in S; vm_compute; tauto. }
  rewrite med_graph in N. destruct J as [<-|[<-|[<-|[<-|[<-|[]]]]]].
  - unfold stored in S. destruct vt; vm_compute in S; injection S as <-; eexists; reflexivity.
  - unfold stored in S. destruct vt; vm_compute in S; injection S as <-; eexists; reflexivity.
  - exfalso. apply (N "U"). vm_compute. tauto.
  - exfalso. apply (N "X"). vm_compute. tauto.
  - exfalso. apply (N "U"). vm_compute. tauto.
Qed.
(** the probability of [t] under the intervention [d] is not 0 *)
Definition positive (vt : vtype) (d t : obs) : bool := negb (qeqb (do_mass D_med (table_of vt ts_med) d t) 0).
Lemma positive_sound vt d t : positive vt d t = true -> do_mass D_med (table_of vt ts_med) d t <> 0%Qc.
Proof. unfold positive. intros B E. rewrite E in B. vm_compute in B. discriminate. Qed.
Definition all_positive (D : domain) (F : var -> mfactor) (Z : list var) (d : obs) : bool :=
  wf_domb D && (if eqd (keys (pick Z D)) Z then true else false) &&
  forallb (fun z => negb (qeqb (mass D F (z ++ d)) 0)) (all_assignments (pick Z D)).
Lemma all_positive_sound D F Z d : all_positive D F Z d = true -> forall z, assigns D Z z -> mass D F (z ++ d) <> 0%Qc.
Proof.
  unfold all_positive. rewrite !andb_true_iff. intros [[W A] B] z [Kz Fz] E. apply wf_domb_sound in W.
  destruct (eqd (keys (pick Z D)) Z) as [Q|]; [|discriminate].
  rewrite forallb_forall in B. specialize (B z). rewrite E in B. assert (J : In z (all_assignments (pick Z D))).
  { apply all_assignments_In_full; [apply wf_pick', W|]. split; [congruence|exact Fz]. }
  specialize (B J). discriminate.
Qed.
Definition all_positive2 (D : domain) (F : var -> mfactor) (X Z : list var) : bool :=
  wf_domb D && (if eqd (keys (pick Z D)) Z then true else false) && forallb (fun z => all_positive D F X z) (all_assignments (pick Z D)).
Lemma all_positive2_sound D F X Z : all_positive2 D F X Z = true -> forall x z, assigns D X x -> assigns D Z z -> mass D F (x ++ z) <> 0%Qc.
Proof.
  unfold all_positive2. rewrite !andb_true_iff. intros [[W A] B] x z Ax [Kz Fz]. apply wf_domb_sound in W.
  destruct (eqd (keys (pick Z D)) Z) as [Q|]; [|discriminate].
  rewrite forallb_forall in B. apply (all_positive_sound D F X z); [|auto]. apply B.
  apply all_assignments_In_full; [apply wf_pick', W|]. split; [congruence|exact Fz].
Qed.
