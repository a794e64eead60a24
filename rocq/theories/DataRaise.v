(** Which calls of the sampling functions raise. *)

From Coq Require Import String Bool Arith ZArith QArith Qcanon Lia List.
From Verif Require Import PyBase Num DomainModel NdArray StoreModel NumStore FactorModel GraphModel ModelModel InferModel LearnModel DataModel
  PyFacts Spec StoreSpec FactorSpec GraphSpec ModelSpec NetSpec CausalSpec DataSpec DataFacts2 NumFacts PropFacts1 FactorFacts.
Import ListNotations.
Local Open Scope nat_scope.

Lemma fins_finite l ps : fins ps = Some l <-> ps = map Fin l.
Proof.
  revert l. induction ps as [|x ps IH]; intros l.
  - cbn. split; [intros [= <-]; reflexivity|]. destruct l; [reflexivity|discriminate].
  - change (fins (x :: ps)) with (match x, fins ps with Fin q, Some l => Some (q :: l) | _, _ => None end). split.
    + destruct x; try discriminate. destruct (fins ps) as [l'|] eqn:E; [|discriminate]. intros [= <-]. cbn [map]. f_equal. now apply IH.
    + destruct l as [|q l]; cbn [map]; [discriminate|]. intros [= -> E]. apply IH in E. now rewrite E.
Qed.

Lemma choice_accepts ps u :
  ((exists i, choice ps u = Ok i) <->
   exists l, ps = map Fin l /\ l <> [] /\ (forall p, In p l -> (0 <= p)%Qc) /\ fold_right Qcplus 0%Qc l = 1%Qc) /\
  (forall e, choice ps u = Raise e -> e = ValueError).
Proof.
  unfold choice. split.
  - split.
    + intros (i & E). destruct (fins ps) as [l|] eqn:F; [|discriminate]. apply fins_finite in F. exists l. split; [exact F|].
      destruct l as [|p l]; [discriminate|]. split; [discriminate|].
      destruct (existsb _ (p :: l)) eqn:X; [discriminate|]. destruct (Qc_eq_dec _ 1) as [S|]; [|discriminate]. split; [|exact S].
      intros y J. destruct (Qclt_le_dec y 0) as [N|N]; [|exact N]. exfalso.
      assert (C : existsb (fun p => if Qclt_le_dec p 0 then true else false) (p :: l) = true).
      { apply existsb_exists. exists y. split; [exact J|]. destruct (Qclt_le_dec y 0) as [_|M]; [reflexivity|]. exfalso. exact (Qclt_not_le _ _ N M). }
      congruence.
    + intros (l & -> & NE & NN & S). assert (F : fins (map Fin l) = Some l) by now apply fins_finite. rewrite F.
      destruct l as [|p l]; [now destruct NE|].
      assert (X : existsb (fun p => if Qclt_le_dec p 0 then true else false) (p :: l) = false).
      { destruct (existsb _ (p :: l)) eqn:X; [|reflexivity]. apply existsb_exists in X as (y & J & Y). destruct (Qclt_le_dec y 0) as [N|]; [|discriminate].
        exfalso. exact (Qclt_not_le _ _ N (NN y J)). }
      rewrite X. destruct (Qc_eq_dec _ 1) as [_|N]; [eauto|]. now destruct N.
  - intros e. destruct (fins ps) as [[|p l]|]; try (intros [= <-]; reflexivity). destruct (existsb _ _); [intros [= <-]; reflexivity|].
    destruct (Qc_eq_dec _ 1); [discriminate|intros [= <-]; reflexivity].
Qed.

Lemma sample_raises f n u : (1 <= n)%Z -> mf_right f <> [] -> mf_sample f n u = Raise NotImplementedError.
Proof.
  intros N R. unfold mf_sample. assert (E : (n <? 1)%Z = false) by (apply Z.ltb_ge; lia). rewrite E.
  destruct (Z.to_nat n) as [|k] eqn:K; [lia|]. cbn [seq mapM]. unfold sample_once at 1. destruct (mf_right f); [now destruct R|reflexivity].
Qed.

Lemma missing_factor order m n u v : dget v (m_factors m) = Some None -> forward_sampling (v :: order) m n u = Raise AttributeError.
Proof. intros E. unfold forward_sampling. cbn [foldM]. unfold forward_step at 1. rewrite E. reflexivity. Qed.

Lemma endogenous_list m D F vt endo cast order n u : causal m D F vt endo cast -> (forall v f, stored m v f -> exists g, f = FM g) -> nonnegative D F ->
  topological (m_graph m) order -> nodes (m_graph m) <> [] -> incl endo (nodes (m_graph m)) -> (1 <= n)%Z -> uniform u ->
  sample_endogenous order m n u false = Raise TypeError.
Proof.
  intros C Pl NN To Ne Ie Hn Hu. destruct (endogenous m D F vt endo cast order n u C Pl NN To Ne Ie Hn Hu) as (r & fr & E & _ & _).
  unfold sample_endogenous. rewrite (proj1 C), E. reflexivity.
Qed.

Lemma nsum_zeros k : nsum (repeat n0 k) = n0.
Proof.
  induction k as [|k IH]; [reflexivity|]. cbn [repeat]. rewrite nsum_cons, IH. unfold n0, nadd. f_equal.
Qed.

Lemma zero_table f n u : (1 <= n)%Z -> wf_mf f -> mf_right f = [] -> (forall o, full (mf_domain f) o -> mf_get_value f o = Ok n0) ->
  mf_sample f n u = Raise ValueError.
Proof.
  intros N W R Z. unfold mf_sample. assert (E : (n <? 1)%Z = false) by (apply Z.ltb_ge; lia). rewrite E.
  destruct (Z.to_nat n) as [|k] eqn:K; [lia|]. cbn [seq mapM].
  assert (S : sample_once f (u 0) = Raise ValueError); [|now rewrite S].
  unfold sample_once. rewrite R.
  assert (D : mf_left_domain f = mf_domain f).
  { unfold mf_left_domain, mf_left. rewrite R. apply dfilter_true. intros v J. apply mem_In. apply filter_In. split; [exact J|reflexivity]. }
  rewrite D. assert (ND : NoDup (keys (mf_domain f))) by apply W.
  assert (M : mapM (mf_get_value f) (assignment_space (mf_domain f)) = Ok (repeat n0 (length (assignment_space (mf_domain f))))).
  { assert (X : forall o, In o (assignment_space (mf_domain f)) -> mf_get_value f o = Ok n0).
    { intros o J. apply Z. now apply (proj1 (proj2 (enumeration_ok _ ND))) in J. }
    revert X. generalize (assignment_space (mf_domain f)). intros l X. induction l as [|o l IH]; [reflexivity|].
    cbn [mapM length repeat]. rewrite X by now left. cbn [bind]. rewrite IH by (intros; apply X; now right). reflexivity. }
  rewrite M. cbn [bind]. rewrite nsum_zeros. destruct (length (assignment_space (mf_domain f))) as [|j]; [reflexivity|].
  cbn [repeat map]. replace (ndiv n0 n0) with NaN by (vm_compute; reflexivity). reflexivity.
Qed.
