(** Lemmas about the accessors of causal models. *)

From Coq Require Import String Bool List.
From Verif Require Import PyBase PyFacts GraphModel LearnModel QModel GradModel AccessModel GraphSpec GraphFacts GraphFacts2 GraphFacts3 PropFacts3.
Import ListNotations.

Lemma linked_nodes g endo v x : wf_graph g -> linked (exo_arc g endo) v x -> touches_exo g endo v -> touches_exo g endo x.
Proof.
  intros W H. induction H as [x|x y z R _ IH|x y z R _ IH]; auto; intros _; apply IH.
  - exists x, y. auto.
  - exists y, x. auto.
Qed.
Lemma touches_node g endo v : wf_graph g -> touches_exo g endo v -> In v (nodes g).
Proof.
  intros W (x & y & (A & _) & [->| ->]); destruct (proj2 (proj2 W) x y A); assumption.
Qed.

Lemma sides_ok g endo v : wf_graph g ->
  (touches_exo g endo v -> exists c d, get_endo_ccomponent g endo v = Ok c /\ get_exo_ccomponent g endo v = Ok d /\ NoDup c /\ NoDup d /\
     (forall x, In x c <-> linked (exo_arc g endo) v x /\ In x endo) /\ (forall x, In x d <-> linked (exo_arc g endo) v x /\ ~ In x endo)) /\
  (~ touches_exo g endo v -> get_endo_ccomponent g endo v = Raise KeyError /\ get_exo_ccomponent g endo v = Raise KeyError).
Proof.
  intros W. destruct (get_ccomponent_both g endo v W) as (H1 & H2). split.
  - intros T. destruct (H1 T) as (c & E & N & Hc). unfold get_endo_ccomponent, get_exo_ccomponent. rewrite E. cbn [bind].
    exists (filter (fun x => mem x endo) c), (filter (fun x => mem x (exogenous g endo)) c). split; [reflexivity|]. split; [reflexivity|].
    split; [now apply NoDup_filter|]. split; [now apply NoDup_filter|]. split; intros x; rewrite filter_In, mem_In, Hc; [reflexivity|].
    unfold exogenous. rewrite filter_In, negb_true_iff, mem_nIn. split; [tauto|]. intros (L & Nx). split; [exact L|]. split; [|exact Nx].
    apply (touches_node g endo x W). exact (linked_nodes g endo v x W L T).
  - intros T. unfold get_endo_ccomponent, get_exo_ccomponent. rewrite (H2 T). auto.
Qed.

Lemma component_sides g endo : wf_graph g -> exists cs ds es, ccomponents g endo = Some cs /\ endo_ccomponents g endo = Some ds /\ exo_ccomponents g endo = Some es /\
  Forall2 (fun c d => NoDup d /\ forall x, In x d <-> In x c /\ In x endo) cs ds /\
  Forall2 (fun c e => NoDup e /\ forall x, In x e <-> In x c /\ ~ In x endo) cs es.
Proof.
  intros W. destruct (ccomponents_ok g endo W) as (cs & E & Hc & _ & Hv & _). unfold endo_ccomponents, exo_ccomponents. rewrite E.
  eexists cs, _, _. split; [reflexivity|]. split; [reflexivity|]. split; [reflexivity|].
  assert (Hn : forall c x, In c cs -> In x c -> In x (nodes g)).
  { intros c x Ic Ix. apply (touches_node g endo x W). apply Hv. eauto. }
  clear E Hv. split; induction cs as [|c cs IH]; cbn [map]; constructor.
  - destruct (Hc c (or_introl eq_refl)) as (_ & N). split; [now apply NoDup_filter|]. intros x. rewrite filter_In, mem_In. reflexivity.
  - apply IH; [intros d I; apply Hc; now right|intros d x I; apply Hn; now right].
  - destruct (Hc c (or_introl eq_refl)) as (_ & N). split; [now apply NoDup_filter|]. intros x. rewrite filter_In, mem_In. unfold exogenous.
    rewrite filter_In, negb_true_iff, mem_nIn. split; [tauto|]. intros (L & Nx). split; [exact L|]. split; [|exact Nx]. exact (Hn c x (or_introl eq_refl) L).
  - apply IH; [intros d I; apply Hc; now right|intros d x I; apply Hn; now right].
Qed.

Lemma relatives_ok g endo v : (In v (nodes g) -> exists p q c d,
    endo_parents g endo v = Ok p /\ exo_parents g endo v = Ok q /\ GradModel.endo_children g endo v = Ok c /\ exo_children g endo v = Ok d /\
    NoDup p /\ NoDup q /\ NoDup c /\ NoDup d /\
    (forall x, In x p <-> arc g x v /\ In x endo) /\ (forall x, In x q <-> arc g x v /\ ~ In x endo) /\
    (forall x, In x c <-> arc g v x /\ In x endo) /\ (forall x, In x d <-> arc g v x /\ ~ In x endo)) /\
  (~ In v (nodes g) -> endo_parents g endo v = Raise NetworkXError /\ exo_parents g endo v = Raise NetworkXError /\
     GradModel.endo_children g endo v = Raise NetworkXError /\ exo_children g endo v = Raise NetworkXError).
Proof.
  destruct (get_parents_both g [v]) as (P1 & P2), (get_children_both g [v]) as (C1 & C2).
  unfold endo_parents, exo_parents, GradModel.endo_children, exo_children. split.
  - intros I. assert (J : incl [v] (nodes g)) by (intros x [<-|[]]; exact I).
    destruct (P1 J) as (p & -> & Np & Hp), (C1 J) as (c & -> & Nc & Hc). cbn [bind].
    eexists _, _, _, _. split; [reflexivity|]. split; [reflexivity|]. split; [reflexivity|]. split; [reflexivity|].
    split; [now apply NoDup_filter|]. split; [now apply NoDup_filter|]. split; [now apply NoDup_filter|]. split; [now apply NoDup_filter|].
    assert (Hp' : forall x, In x p <-> arc g x v) by (intros x; rewrite Hp; split; [intros (w & [<-|[]] & A); exact A|intros A; exists v; split; [now left|exact A]]).
    assert (Hc' : forall x, In x c <-> arc g v x) by (intros x; rewrite Hc; split; [intros (w & [<-|[]] & A); exact A|intros A; exists v; split; [now left|exact A]]).
    unfold is_endogenous, is_exogenous. repeat split; intros; rewrite filter_In, ?negb_true_iff, ?mem_nIn, ?mem_In, ?Hp', ?Hc' in *; tauto.
  - intros N. rewrite (P2 v (or_introl eq_refl) N), (C2 v (or_introl eq_refl) N). auto.
Qed.
