(** Arithmetic with the states of a deterministic factor whose states are booleans. *)

From Coq Require Import String Bool Arith ZArith QArith Qcanon Lia Permutation List.
From Verif Require Import PyBase Num DomainModel NdArray StoreModel NumStore FactorModel GenModel GenSpec PyFacts Spec
  DomainFacts StoreSpec StoreFacts TreeFacts TreeFacts2 NumFacts FactorSpec FactorFacts FactorFacts2 PropFacts1 PropFacts2 OpModel OpSpec OpFacts4.
Import ListNotations.
Local Open Scope nat_scope.
Local Arguments eqd : simpl never.

Lemma logical_arith op nop f g v l z : In (op, nop) [(OpMul, nmul); (OpAdd, nadd); (OpSub, nsub)] -> wf_mf f -> wf_df g v l -> mf_vtype f = df_vtype g ->
  usable (drop [v] (df_domain g)) -> compatible (mf_domain f) (drop [v] (df_domain g)) ->
  (forall o, full (drop [v] (df_domain g)) o -> get_value (df_store g) o = Ok (SBool (z o))) ->
  exists h, py_binop op (PFac f) (PDet g) = Ok (PFac h) /\ wf_mf h /\ mf_vtype h = mf_vtype f /\
    mf_domain h = join (mf_domain f) (drop [v] (df_domain g)) /\
    (forall w, In w (mf_left h) <-> In w (mf_left f) \/ w = v /\ In v (mf_vars f)) /\
    forall o, full (mf_domain h) o -> exists x, mf_get_value f o = Ok x /\ mf_get_value h o = Ok (nop x (Fin (Q2Qc (if z o then 1 else 0)%Q))).
Proof.
  intros Op Wf Wg Ty Us Co Hz.
  destruct (function_op f g v l (fun o => Q2Qc (if z o then 1 else 0)%Q) Wf Wg Ty Us Co) with (nop := nop) (division := false) as (h & E & Wh & Th & Dh & Rh & Vh).
  { intros o Fo. eexists. split; [exact (Hz o Fo)|]. cbn [state_num]. destruct (z o); reflexivity. }
  exists h. split; [|split; [assumption|split; [assumption|split; [assumption|split; [|assumption]]]]].
  - destruct Op as [[= <- <-] | [[= <- <-] | [[= <- <-] | []]]]; cbn [py_binop fac_arith store_op];
      [change st_multiply with (st_combine n0 nmul)|change st_addition with (st_combine n0 nadd)|change st_subtract with (st_combine n0 nsub)]; rewrite E; reflexivity.
  - intros w. rewrite mf_left_In, Rh. assert (A : In w (mf_vars h) <-> In w (mf_vars f) \/ In w (keys (drop [v] (df_domain g)))).
    { unfold mf_vars at 1. rewrite Dh. apply join_keys. }
    assert (B : In w (keys (drop [v] (df_domain g))) -> w <> v) by (rewrite In_keys_drop; cbn [In]; intuition congruence).
    assert (C : In w (mf_left f) -> In w (mf_vars f)) by (rewrite mf_left_In; tauto).
    destruct (in_dec eqd w (mf_left f)); destruct (eqd w v) as [-> | N]; intuition congruence.
Qed.

