(** The separations behind the Q-factorisation. *)

From Coq Require Import String Bool Arith Lia List.
From Verif Require Import PyBase PyFacts DomainModel GraphModel GraphSpec GraphFacts GraphFacts2 LearnModel EmSpec EmFacts1 SepFacts1.
From Coq Require Import List.
Import ListNotations.
Local Open Scope nat_scope.
Local Arguments eqd : simpl never.

Section Separation.
  Variables (g : digraph) (endo order : list var) (q : digraph).
  Hypothesis WG : wf_graph g.
  Hypothesis AC : acyclic g.
  Hypothesis Ho : topological (endo_graph g endo) order.
  Hypothesis Hroot : forall x y, arc g x y -> In y endo.
  Hypothesis Wq : wf_graph q.
  Hypothesis Nq : forall v, In v (nodes q) <-> In v (nodes g) /\ In v endo.
  Hypothesis Aq : forall p x, arc q p x <->
       (arc g p x /\ In p endo /\ In x endo) \/
       (In p (nodes g) /\ In x (nodes g) /\ In p endo /\ In x endo /\ touches_exo g endo x /\
        ~ walk (endo_graph g endo) x p /\
        ((before order p x /\ linked (exo_arc g endo) x p) \/
         (~ linked (exo_arc g endo) x p /\ exists x', In x' endo /\ linked (exo_arc g endo) x x' /\ arc g p x'))).
  Variables (tau P R : list var) (x : var).
  Hypothesis Ht : topological q tau.
  Hypothesis Et : tau = P ++ x :: R.
  Notation Z := (preds q x).
  Notation exo := (exo_arc g endo).

  Lemma endo_in v : In v tau <-> In v (nodes g) /\ In v endo.
  Proof. destruct Ht as (_ & A & _). now rewrite A, Nq. Qed.
  Lemma x_in : In x (nodes g) /\ In x endo.
  Proof. apply endo_in. rewrite Et. apply in_or_app. right. now left. Qed.
  Lemma P_in v : In v P -> In v (nodes g) /\ In v endo /\ v <> x.
  Proof.
    intros J. assert (A : In v tau) by (rewrite Et; apply in_or_app; auto). apply endo_in in A. split; [tauto|]. split; [tauto|].
    intros ->. destruct Ht as (N & _ & _). rewrite Et in N. apply NoDup_remove_2 in N. apply N, in_or_app. auto.
  Qed.
  Lemma Z_In p : In p Z <-> arc q p x.
  Proof. apply in_preds. Qed.
  Lemma Z_P p : In p Z -> In p P.
  Proof. intros J. apply Z_In in J. destruct Ht as (_ & _ & T). now apply (T p x P R). Qed.
  Lemma q_endo_arc p v : arc g p v -> In p endo -> arc q p v.
  Proof. intros A J. apply Aq. left. split; [auto|]. split; [auto|]. eapply Hroot; eauto. Qed.
  (** arcs into the part up to [x] come from [P] *)
  Lemma part_down p v : arc q p v -> v = x \/ In v P -> In p P.
  Proof.
    intros A [-> | J].
    - destruct Ht as (_ & _ & T). now apply (T p x P R).
    - apply in_split in J as (l1 & l2 & ->). assert (In p l1).
      { destruct Ht as (_ & _ & T). apply (T p v l1 (l2 ++ x :: R)); [|auto]. now rewrite Et, <- app_assoc. }
      apply in_or_app. auto.
  Qed.
  Lemma walk_part a b : walk g a b -> In a endo -> b = x \/ In b P -> In a P.
  Proof.
    induction 1 as [a b A|a b c A W IH]; intros J Hb.
    - apply (part_down a b); [now apply q_endo_arc|auto].
    - apply (part_down a b); [now apply q_endo_arc|]. right. apply IH; [|auto]. eapply Hroot; eauto.
  Qed.
  Lemma anc_part S d : (forall s, In s S -> s = x \/ In s P) -> In d endo -> ancestral g S d -> d = x \/ In d P.
  Proof.
    intros HS J (s & Js & [-> | W]); [auto|]. right. apply (walk_part d s); auto.
  Qed.
  Lemma endo_walk a b : walk (endo_graph g endo) a b -> walk g a b.
  Proof.
    induction 1 as [a b A|a b c A W IH]; apply subgraph_arc in A as (A & _); [now constructor|econstructor 2; eauto].
  Qed.
  Lemma not_back d : In d P -> ~ walk (endo_graph g endo) x d.
  Proof.
    intros J W. apply endo_walk in W. destruct (P_in x) as (_ & _ & N); [|congruence]. apply (walk_part x d); auto. apply x_in.
  Qed.

  Lemma linked_touches d : linked exo x d -> d <> x -> touches_exo g endo x.
  Proof.
    intros L N. inversion L; subst; [congruence| |]; unfold touches_exo.
    - exists x, y. auto.
    - exists y, x. auto.
  Qed.

  (** the variables of the component that come before *)
  Lemma comp_Z d : In d P -> linked exo x d -> In d Z.
  Proof.
    intros J L. destruct (P_in d J) as (Nd & Ed & N). destruct x_in as (Nx & Ex).
    assert (To := linked_touches d L N). apply Z_In.
    assert (Od : In d order) by (apply Ho; apply subgraph_nodes; auto). assert (Ox : In x order) by (apply Ho; apply subgraph_nodes; auto).
    apply in_split in Ox as (l1 & l2 & El). rewrite El in Od. apply in_app_or in Od as [Od|[Od|Od]]; [|congruence|].
    - apply Aq. right. do 5 (split; [auto|]). split; [now apply not_back|]. left. split; [exists l1, l2; auto|auto].
    - exfalso. assert (A : arc q x d).
      { apply Aq. right. do 4 (split; [auto|]). split.
        { destruct (linked_sym exo x d L) as [z|z1 z2 z3 E _|z1 z2 z3 E _]; [congruence|exists z1, z2; auto|exists z2, z1; auto]. }
        split.
        { intros W. assert (K : In d l1) by (apply (topological_walk _ _ Ho (subgraph_wf _ _ WG) _ _ W l1 l2 El)).
          destruct Ho as (NO & _). rewrite El in NO. apply NoDup_app_iff in NO as (_ & _ & NO). apply (NO d K). now right. }
        left. split; [|now apply linked_sym].
        apply in_split in Od as (m1 & m2 & ->). exists (l1 ++ x :: m1), m2. split; [now rewrite El, <- app_assoc|].
        apply in_or_app. right. now left. }
      apply part_down in A; [|auto]. now apply P_in in A.
  Qed.

  Variable Y : list var.
  Hypothesis HY : forall y, In y Y -> In y P /\ ~ In y Z.
  Notation S := ([x] ++ Y ++ Z).
  Notation open := (open_arc g Z S).

  Lemma S_part s : In s S -> s = x \/ In s P.
  Proof.
    intros [<- | J]; [auto|]. cbn in J. apply in_app_or in J as [J|J]; [right; now apply HY|right; now apply Z_P].
  Qed.

  Definition K (c : var) : Prop := linked exo x c /\ (In c endo -> c = x \/ In c Z).
  Lemma K_fwd c d : K c -> open c d -> K d.
  Proof.
    intros (L & Hc) (A & N & An). assert (Ed : In d endo) by (eapply Hroot; eauto).
    assert (Pd := anc_part S d S_part Ed An).
    destruct (in_dec string_dec c endo) as [Ec|Ec].
    - exfalso. destruct (Hc Ec) as [-> | J]; [|auto].
      assert (B : In x P) by (apply (part_down x d); [now apply q_endo_arc|auto]). now apply P_in in B.
    - assert (L' : linked exo x d) by (eapply linked_snoc_fwd; [exact L|split; auto]). split; [auto|].
      intros _. destruct Pd as [-> | Pd]; [auto|right; now apply comp_Z].
  Qed.
  Lemma K_bwd c d : K c -> open d c -> K d.
  Proof.
    intros (L & Hc) (A & N & An). assert (Ec : In c endo) by (eapply Hroot; eauto).
    destruct (in_dec string_dec d endo) as [Ed|Ed].
    - exfalso. apply N. assert (Pc : c = x \/ In c P) by (destruct (Hc Ec); [auto|right; now apply Z_P]).
      assert (B := q_endo_arc d c A Ed). assert (Pd := part_down d c B Pc).
      destruct Pc as [-> | Pc]; [now apply Z_In|]. destruct (P_in d Pd) as (Nd & _ & Ndx). destruct x_in as (Nx & Ex). destruct (P_in c Pc) as (_ & _ & Ncx).
      assert (To := linked_touches c L Ncx). apply Z_In, Aq. right. do 5 (split; [auto|]).
      split; [now apply not_back|]. 
      destruct (component_ok (exo_graph g endo) x) as (cc & _ & _ & _ & Hcc); [apply graph_of_wf|now apply exo_graph_nodes|].
      assert (Hl : In d cc <-> linked exo x d) by (rewrite Hcc; now apply linked_exo).
      destruct (in_dec string_dec d cc) as [I|I].
      + exfalso. apply N. apply comp_Z; [auto|now apply Hl].
      + right. split; [now rewrite <- Hl|]. exists c. auto.
    - split; [eapply linked_snoc_bwd; [exact L|split; auto]|]. tauto.
  Qed.
  Lemma K_linked a b : linked open a b -> K a -> K b.
  Proof.
    induction 1 as [a|a b c O _ IH|a b c O _ IH]; intros Ka; [auto| |]; apply IH; [eapply K_fwd|eapply K_bwd]; eauto.
  Qed.
  Lemma q_separated y : In y Y -> ~ linked open x y.
  Proof.
    intros J L. destruct (HY y J) as (Py & Zy). destruct (P_in y Py) as (_ & Ey & N).
    destruct (K_linked x y L) as (_ & C); [split; [constructor|auto]|]. destruct (C Ey); auto.
  Qed.
End Separation.
