(** An optimiser that raises. *)

From Coq Require Import String Bool Arith ZArith QArith Qcanon Lia Permutation List.
From Verif Require Import PyBase PyFacts Num DomainModel NdArray StoreModel NumStore FactorModel GenModel GenSpec Spec StoreSpec DomainFacts StoreFacts
  NumFacts PropFacts1 FactorSpec FactorFacts FactorFacts2 FactorFacts3 GenFacts2 GraphModel GraphSpec GraphFacts
  ModelModel ModelSpec ModelFacts NetSpec NetSem FactorSem NetFacts VeFacts4 BuildFacts InferModel InferChecks CausalModel CausalSpec
  CausalFacts BigSum UaiModel LearnModel LearnSpec LearnFacts EmSpec EmMath EmFacts1 EmFacts3 EmFacts6 EmFacts7 EmFacts8 AggModel AggFacts2 ConvModel ConvSpec ConvFacts
  ConvFacts2 ConvFacts3 GradModel QSpec QFacts5 GradSpec QFacts6 GradFacts1 GradFacts2 GradFacts3 GradFacts4 PipeModel PipeSpec PipeFacts.
From Coq Require Import List.
Import ListNotations.
Local Open Scope nat_scope.
Local Arguments eqd : simpl never.

Lemma train_first {S} parallel (n : Z) (make : nat -> res (learner S * pgm)) schedule e : (1 <= n)%Z -> make 0 = Raise e ->
  train_models parallel n make schedule = Raise e.
Proof.
  intros Hn E. unfold train_models, train_agg, a_run, a_generate. cbn [t_number t_make].
  assert (Q : (n <? 1)%Z = false) by (apply Z.ltb_ge; lia). rewrite Q.
  assert (X : exists k, Z.to_nat n = Datatypes.S k) by (exists (Z.to_nat n - 1); lia). destruct X as (k & ->). cbn [seq].
  unfold in_threads. cbn [mapM one_by_one t_make]. rewrite E. cbn [bind]. destruct (a_parallel (a_new parallel)); reflexivity.
Qed.

Section Raises.
  Variables (m : pgm) (D : domain) (F : var -> mfactor) (vt : vtype) (endo : list var).
  Hypothesis HS : structural m D F vt endo.
  Variables (data : frame) (E : list var).
  Hypothesis HA : about m D endo data E.
  Hypothesis HU : exists u, exogenous m endo u.
  Variable num_runs : Z.
  Hypothesis Hn : (1 <= num_runs)%Z.
  Variables (parallel : bool) (draw : nat -> nat -> var -> list num) (schedule : nat -> list nat).
  Hypothesis HD : forall k, drawn_exogenous m D endo (draw k).
  Context {L : Type} (l0 : L) (ladd : L -> L -> L) (lopp : L -> L) (lg : Qc -> L) (lnan : L).
  Hypothesis LG : logarithm l0 ladd lg.
  Variable minimize : option Z -> (list Qc -> res (option L)) -> list num -> res (list Qc).
  Variable e : err.
  Hypothesis Hm : forall k f x, minimize k f x = Raise e.
  Hypothesis Hc : forall u, exogenous m endo u -> sole_cause (m_graph m) F endo u /\ distinct_name (m_graph m) u.
  Notation exo := (agg_trainable m None).

  Theorem gdcc_raises max_iter k : gdcc_trainer L l0 ladd lopp lg lnan minimize vt m data max_iter num_runs parallel draw schedule k = Raise e.
  Proof.
    unfold gdcc_trainer. apply train_first; [exact Hn|].
    destruct (start_ok m D F vt endo HS (draw k) (HD k) 0) as (prior & F0 & Er & KE & Dp & Kd & Pos). destruct KE as (G0 & K0 & (C0 & Z0) & E0).
    assert (HC : causal_tables m D F vt endo) by apply HS.
    assert (EI := exo_In m D F vt endo HS).
    unfold gd_generate. rewrite Er. cbn [bind].
    destruct (copy_ok prior D F0 vt endo C0 Z0) as (m0 & Ec & Gc & Nc & Bk).
    assert (NC : NoDup (f_cols data)) by apply HA.
    assert (WG : wf_graph (m_graph prior)) by (apply C0).
    assert (OD' := observes_added prior data WG NC D E (proj1 HA)).
    assert (XE : exists u r, exo = u :: r).
    { destruct HU as (u & J). apply EI in J. destruct exo as [|x r]; [destruct J|eauto]. }
    destruct XE as (u & r & Q). 
    assert (Ju : exogenous m endo u) by (apply EI; rewrite Q; now left).
    assert (Sole : forall v, In v exo -> sole_cause (m_graph prior) F0 endo v /\ ~ In v E /\ name_apart prior v).
    { intros v J. apply EI in J. destruct (Hc v J) as ((S1 & S2 & S3 & S4) & Nm). rewrite G0. split; [|split; [now apply HA|]].
      - split; [exact S1|]. split; [exact S2|]. split; [exact S3|]. intros w A. rewrite (E0 w (ct_root m D F vt endo HC v w A)). now apply S4.
      - intros w a b Jw. rewrite Kd in Jw. now apply Nm. }
    unfold gr_run, initialize. cbv zeta. cbn [gr_init with_sub l_prior l_model l_evo l_sub gr_trainable gr_data]. rewrite Ec. cbv zeta.
    assert (P := processed D F0 vt endo E (gr_init prior (Some exo)) data C0 (proj1 HA)).
    cbn [gr_init l_prior l_sub gr_trainable] in P.
    rewrite (P ltac:(intros v J; apply Sole; unfold to_train in J; rewrite Q in *; exact J)
      (MkL prior (Some m0) None (MkG (Some exo) (Some max_iter) None))); [|reflexivity|reflexivity].
    cbn [with_sub l_prior l_model l_evo l_sub gr_max_iter]. rewrite Q.
    unfold gr_step, step, gr_calculate. cbn [l_sub gr_trainable l_prior with_sub mapM].
    assert (Ru : updated_factor L l0 ladd lopp lg lnan minimize vt prior (MkG (Some (u :: r)) (Some max_iter) (Some (add_missing prior data))) u = Raise e).
    { destruct (Sole u ltac:(rewrite Q; now left)) as (Su & _).
      unfold updated_factor. cbn [gr_data]. rewrite (stored_table prior D F0 vt endo C0 u (U_key prior D F0 vt endo C0 u Su)). cbn [bind].
      rewrite (values_params prior D F0 vt endo C0 u Su F0 (root_cpt prior D F0 vt endo C0 u Su)). cbn [bind].
      destruct (objective_distribution l0 ladd lopp lg lnan LG prior D F0 vt endo C0 Dp u Su (add_missing prior data) E OD' (proj1 (proj2 HA))) as (st & Es & _).
      { intros v J. apply (data_cols (gr_init prior (Some exo)) data), (ct_endo prior D F0 vt endo C0), J. }
      rewrite Es. cbn [bind]. unfold fitPMF. cbn [gr_max_iter]. rewrite Hm. reflexivity. }
    rewrite Ru. reflexivity.
  Qed.
End Raises.
