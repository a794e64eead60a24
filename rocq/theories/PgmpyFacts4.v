(** What toPgmpyBNet does with a model that does not hold a table for every
    variable. *)

From Coq Require Import String Bool Arith ZArith QArith Qcanon List Lia.
From Verif Require Import PyBase Num DomainModel NdArray StoreModel FactorModel GraphModel ModelModel PgmpyModel
  Spec FactorSpec GraphSpec ModelSpec PyFacts StoreFacts FactorFacts2 FactorFacts GraphFacts PgmpyFacts PgmpyFacts3.
Import ListNotations.
Local Open Scope nat_scope.
Local Open Scope list_scope.

Lemma copied_acyclic g : wf_graph g -> acyclic g -> simple_cycles (g_copy g) = [].
Proof.
  intros W A. assert (CA : forall x y, arc (g_copy g) x y <-> arc g x y).
  { intros x y. unfold g_copy, arc. cbn [edges]. apply (in_g_edges g x y W). }
  assert (CW : wf_graph (g_copy g)).
  { destruct W as (N1 & N2 & H). split; [exact N1|]. split.
    - unfold g_copy. cbn [edges]. apply g_edges_NoDup. now split.
    - intros x y B. cbn [nodes g_copy]. apply CA in B. now apply H. }
  apply (simple_cycles_iff _ CW). apply (acyclic_mono g); [intros x y; apply CA|assumption].
Qed.

Lemma first_table_raises {A B} (h : A -> res B) l1 x l2 e : (forall y, In y l1 -> exists t, h y = Ok t) -> h x = Raise e ->
  mapM h (l1 ++ x :: l2) = Raise e.
Proof.
  intros H E. induction l1 as [|y l1 IH]; cbn; [now rewrite E|].
  destruct (H y (or_introl eq_refl)) as (t & ->). cbn. rewrite IH; [reflexivity|]. intros z J. apply H. now right.
Qed.

Lemma missing_table : forall m before v after, wf_graph (m_graph m) -> acyclic (m_graph m) ->
  m_factors m = before ++ (v, None) :: after ->
  (forall w f, In (w, f) before -> exists g t, f = Some (FM g) /\ to_tabular g = Ok t) -> to_pgmpy m = Raise AttributeError.
Proof.
  intros m b v a W A E H. unfold to_pgmpy. rewrite copied_acyclic by assumption. cbn [length Nat.ltb Nat.leb]. rewrite E.
  rewrite (first_table_raises _ _ _ _ AttributeError); [reflexivity| |reflexivity].
  intros (w, f) J. destruct (H w f J) as (g & t & -> & Et). exists t. exact Et.
Qed.

Lemma as_matrix_small {V} (a : nd V) : length (shape a) <= 2 -> exists b, as_matrix a = Ok b.
Proof.
  intros H. unfold as_matrix. destruct (length (shape a) <? 2) eqn:E.
  - cbn [shape length]. apply Nat.ltb_lt in E. replace (2 <? S (length (shape a))) with false by (symmetry; apply Nat.ltb_ge; lia). eauto.
  - replace (2 <? length (shape a)) with false by (symmetry; apply Nat.ltb_ge; lia). eauto.
Qed.

Lemma df_left_keys d x l : wf_df d x l -> keys (df_left_domain d) = [x].
Proof.
  intros (_ & L & _). unfold df_left_domain. rewrite keys_dfilter. fold (df_vars d).
  transitivity (df_left d); [|assumption]. unfold df_left at 2. apply filter_ext_in. intros w Iw. unfold df_left.
  destruct (negb (mem w (df_right d))) eqn:M.
  - apply mem_In. apply filter_In. now split.
  - destruct (mem w (filter _ _)) eqn:Q; [|reflexivity]. apply mem_In, filter_In in Q. destruct Q. congruence.
Qed.

Lemma df_right_set d x l : wf_df d x l -> incl (keys (drop [x] (df_domain d))) (df_right d).
Proof.
  intros (_ & L & _) w I. apply In_keys_drop in I. destruct I as (I & H). destruct (mem w (df_right d)) eqn:M; [now apply mem_In|].
  exfalso. apply H. rewrite <- L. unfold df_left. apply filter_In. split; [assumption|]. now rewrite M.
Qed.

Lemma equation_table : forall d x l, wf_df d x l -> 1 <= length (df_right d) <= 2 -> fo_tabular (Some (FD d)) = Raise KeyError.
Proof.
  intros d x l Wd (H1 & H2). cbn [fo_tabular]. rewrite (df_left_keys _ _ _ Wd). unfold py_nth. cbn [nth_error bind].
  assert (R := df_right_set _ _ _ Wd). destruct Wd as (WD & L & I & N & J & Ws & Ds).
  destruct (values_array_gen (df_domain d) (df_store d) (df_right d)) as (a & Ea & _ & Sa & _); auto.
  { apply WD. } { apply WD. }
  { intros w k Iw. rewrite Ds in Iw. unfold drop in Iw. now apply filter_In in Iw. }
  { now rewrite Ds. } { intros E. rewrite E in H1. cbn in H1. lia. }
  assert (EA : df_values_array d [] = Ok a) by exact Ea. rewrite EA. cbn [bind].
  assert (La : length (df_right d) = length (shape a)) by (clear - Sa; induction Sa; cbn; congruence). destruct (as_matrix_small a) as (b & ->); [lia|]. reflexivity.
Qed.

Lemma equation_raises : forall m before v d x l after, wf_graph (m_graph m) -> acyclic (m_graph m) ->
  m_factors m = before ++ (v, Some (FD d)) :: after ->
  (forall w f, In (w, f) before -> exists g t, f = Some (FM g) /\ to_tabular g = Ok t) ->
  wf_df d x l -> 1 <= length (df_right d) <= 2 -> to_pgmpy m = Raise KeyError.
Proof.
  intros m b v d x l a W A E H Wd R. unfold to_pgmpy. rewrite copied_acyclic by assumption. cbn [length Nat.ltb Nat.leb]. rewrite E.
  rewrite (first_table_raises _ _ _ _ KeyError); [reflexivity| |exact (equation_table _ _ _ Wd R)].
  intros (w, f) J. destruct (H w f J) as (g & t & -> & Et). exists t. exact Et.
Qed.
