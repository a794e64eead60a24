(** Relative frequencies maximise the likelihood. *)

From Coq Require Import String Bool Arith ZArith QArith Qcanon Lia Permutation List.
From Verif Require Import PyBase PyFacts NumFacts BigSum NetSem EmMath EmFacts2.
From Coq Require Import List.
Import ListNotations.
Local Open Scope nat_scope.

Lemma nn_mul a b : (0 <= a)%Qc -> (0 <= b)%Qc -> (0 <= a * b)%Qc.
Proof. intros A B. replace 0%Qc with (0 * b)%Qc by ring. now apply Qcmult_le_compat_r. Qed.

Section Frequencies.
  Variables (R S : Type) (rows : list R) (C : list S).
  Variable sdec : forall s t : S, {s = t} + {s <> t}.
  (** the state of the variable, and rows that agree on its parents *)
  Variables (st : R -> S) (same : R -> R -> bool).
  Hypothesis NC : NoDup C.
  Hypothesis Hst : forall r, In r rows -> In (st r) C.
  Hypothesis refl : forall r, In r rows -> same r r = true.
  Hypothesis sym : forall r r', In r rows -> In r' rows -> same r r' = true -> same r' r = true.
  Hypothesis trans : forall r r' r'', In r rows -> In r' rows -> In r'' rows -> same r r' = true -> same r' r'' = true -> same r r'' = true.
  (** the probabilities of the states given the parents in a row *)
  Variable th : R -> S -> Qc.
  Hypothesis th_nn : forall r s, In r rows -> In s C -> (0 <= th r s)%Qc.
  Hypothesis th_same : forall r r' s, In r rows -> In r' rows -> In s C -> same r r' = true -> th r s = th r' s.
  Hypothesis th_one : forall r, In r rows -> (qsum (map (th r) C) <= 1)%Qc.

  Definition eqs (s t : S) : bool := if sdec s t then true else false.
  Definition total_n (r : R) : nat := length (filter (same r) rows).
  Definition state_n (r : R) (s : S) : nat := length (filter (fun r' => same r r' && eqs (st r') s) rows).

  Lemma state_n_pos r : In r rows -> 0 < state_n r (st r).
  Proof.
    intros J. unfold state_n. assert (K : In r (filter (fun r' => same r r' && eqs (st r') (st r)) rows)).
    { apply filter_In. split; [auto|]. rewrite refl by auto. unfold eqs. destruct (sdec (st r) (st r)); [reflexivity|congruence]. }
    destruct (filter _ rows); [destruct K|cbn; lia].
  Qed.
  Lemma total_n_pos r : In r rows -> 0 < total_n r.
  Proof.
    intros J. unfold total_n. assert (K : In r (filter (same r) rows)) by (apply filter_In; auto). destruct (filter _ rows); [destruct K|cbn; lia].
  Qed.
  Lemma same_filter r r' : In r rows -> In r' rows -> same r r' = true -> forall x, In x rows -> same r x = same r' x.
  Proof.
    intros J J' E x Jx. apply Bool.eq_iff_eq_true. split; intros K.
    - apply trans with r; auto.
    - apply trans with r'; auto.
  Qed.
  Lemma state_n_same r r' s : In r rows -> In r' rows -> same r r' = true -> state_n r s = state_n r' s.
  Proof.
    intros J J' E. unfold state_n. f_equal. apply filter_ext_in. intros x K. now rewrite (same_filter r r' J J' E x K).
  Qed.

  (** within the rows that agree with [r'] *)
  Lemma inner r' : In r' rows ->
    (qsum (map (fun r => if same r' r then th r' (st r) / qn (state_n r' (st r)) else 0) rows) <= 1)%Qc.
  Proof.
    intros J'. eapply Qcle_trans; [|apply (th_one r' J')].
    rewrite (map_ext_in _ (fun r => qsum (map (fun s => if same r' r && eqs (st r) s then th r' s / qn (state_n r' s) else 0)%Qc C))).
    - rewrite qsum_swap. apply qsum_le. intros s Js.
      rewrite (map_ext _ (fun r => (th r' s / qn (state_n r' s) * (if same r' r && eqs (st r) s then 1 else 0))%Qc)).
      + rewrite qsum_scale, <- count_qsum. fold (state_n r' s). destruct (Qc_eq_dec (qn (state_n r' s)) 0) as [Z|Z].
        * rewrite Z, Qcmult_0_r. now apply th_nn.
        * replace (th r' s / qn (state_n r' s) * qn (state_n r' s))%Qc with (th r' s) by (field; auto). apply Qcle_refl.
      + intros r. destruct (same r' r && eqs (st r) s); ring.
    - intros r Jr. destruct (same r' r); cbn [andb].
      + rewrite <- (qsum_pick (st r) (fun s => th r' s / qn (state_n r' s))%Qc C sdec NC (Hst r Jr)).
        f_equal. apply map_ext. intros s. unfold eqs. now destruct (sdec (st r) s).
      + symmetry. now apply qsum_zeros.
  Qed.

  Theorem frequencies_maximise :
    (qprod (map (fun r => th r (st r)) rows) <= qprod (map (fun r => qn (state_n r (st r)) / qn (total_n r)) rows))%Qc.
  Proof.
    set (x := fun r => (th r (st r) * qn (total_n r) / qn (state_n r (st r)))%Qc).
    assert (Pn : forall r, In r rows -> (0 < qn (state_n r (st r)))%Qc) by (intros; now apply qn_pos, state_n_pos).
    assert (Pt : forall r, In r rows -> (0 < qn (total_n r))%Qc) by (intros; now apply qn_pos, total_n_pos).
    assert (NZ : forall a, (0 < a)%Qc -> a <> 0%Qc) by (intros a P E; rewrite E in P; discriminate P).
    assert (A : (qprod (map (fun r => pw (x r) 1) rows) <= 1)%Qc).
    { apply (amgm_one (fun _ => 1) x rows).
      - intros r J. unfold x. assert (T := th_nn r (st r) J (Hst r J)). unfold Qcdiv.
        assert (I := inv_nn (qn (state_n r (st r))) (Qclt_le_weak _ _ (Pn r J))).
        apply nn_mul; [apply nn_mul; [exact T|]|exact I]. apply qn_nonneg.
      - rewrite (map_ext_in (fun r => (qn 1 * x r)%Qc) (fun r => qsum (map (fun r' => if same r' r then th r' (st r) / qn (state_n r' (st r)) else 0)%Qc rows))).
        + rewrite qsum_swap. apply qsum_le. intros r' J'. rewrite qn_1. now apply inner.
        + intros r J. rewrite qn_1, Qcmult_1_l. unfold x, total_n. rewrite count_qsum.
          rewrite (map_ext_in (fun r' => if same r' r then th r' (st r) / qn (state_n r' (st r)) else 0)%Qc (fun r' => (th r (st r) / qn (state_n r (st r)) * (if same r r' then 1 else 0))%Qc)).
          * rewrite qsum_scale. field. auto.
          * intros r' J'. assert (E : same r' r = same r r') by (apply Bool.eq_iff_eq_true; split; apply sym; auto). rewrite E.
            destruct (same r r') eqn:E2; [|ring]. rewrite (th_same r r' (st r) J J' (Hst r J) E2), (state_n_same r r' (st r) J J' E2). ring. }
    assert (Q : qprod (map (fun r => th r (st r)) rows) = (qprod (map (fun r => pw (x r) 1) rows) * qprod (map (fun r => qn (state_n r (st r)) / qn (total_n r)) rows))%Qc).
    { rewrite <- qprod_mul. f_equal. apply map_ext_in. intros r J. unfold x. cbn. field. split; auto. }
    rewrite Q. eapply Qcle_trans; [apply Qcmult_le_compat_r; [exact A|]|rewrite Qcmult_1_l; apply Qcle_refl].
    apply qprod_nonneg. intros y J. apply in_map_iff in J as (r & <- & J). unfold Qcdiv.
    apply nn_mul; [apply qn_nonneg|]. apply inv_nn, qn_nonneg.
  Qed.
End Frequencies.
