(** Logarithms of the probabilities of a network. *)

From Coq Require Import String Bool Arith ZArith QArith Qcanon Lia Permutation List.
From Verif Require Import PyBase PyFacts Num DomainModel NdArray StoreModel NumStore FactorModel GraphModel ModelModel InferModel DataModel
  Spec DomainFacts StoreSpec StoreFacts FactorSpec FactorFacts BigSum GraphSpec GraphFacts GraphFacts2 ModelSpec ModelFacts
  NetSpec NetSem FactorSem NetFacts VeFacts3 CfFacts3 BuildFacts LearnModel DataSpec DataFacts3 EmSpec EmMath EmFacts2
  QModel QSpec QFacts2 QFacts3 QFacts4.
From Coq Require Import List.
Import ListNotations.
Local Open Scope nat_scope.
Local Arguments eqd : simpl never.

Lemma pos_mul a c : (0 < a)%Qc -> (0 < c)%Qc -> (0 < a * c)%Qc.
Proof. intros A C. replace 0%Qc with (0 * c)%Qc by ring. now apply Qcmult_lt_compat_r. Qed.
Lemma pos_prod l : (forall x, In x l -> (0 < x)%Qc) -> (0 < product_of l)%Qc.
Proof.
  induction l as [|x l IH]; intros P; [reflexivity|]. unfold product_of. cbn [fold_right]. apply pos_mul; [apply P; now left|].
  apply IH. intros y J. apply P. now right.
Qed.

Section Log.
  Variables (L : Type) (l0 : L) (ladd : L -> L -> L) (lg : Qc -> L) (lnan linf : L).
  Notation math_log := (math_log L lg lnan linf).
  Notation m_log_prob := (m_log_prob L ladd lg lnan linf).
  Variables (D : domain) (q : digraph) (T : var -> mfactor) (b : pgm).
  Hypothesis B : built D q T b.

  (** all nodes if no variables are given *)
  Definition asked (variables : option (list var)) : list var := match variables with None | Some [] => nodes q | Some vs => vs end.

  Lemma built_factor v : In v (nodes q) -> dlook v (m_factors b) = Ok (Some (FM (T v))).
  Proof. intros J. destruct B as (B1 & B2 & B3 & B4 & B5). unfold dlook. now rewrite (B4 v J). Qed.
  Lemma built_unknown v : ~ In v (nodes q) -> dlook v (m_factors b) = Raise KeyError.
  Proof.
    intros J. destruct B as (B1 & B2 & B3 & B4 & B5). unfold dlook. destruct (dget v (m_factors b)) eqn:E; [|reflexivity].
    exfalso. apply J. rewrite <- B2. apply dget_In in E. apply keys_In. eauto.
  Qed.
  Lemma log_unknown os vs v : In v vs -> ~ In v (nodes q) -> m_log_prob b os (Some vs) = Raise KeyError.
  Proof.
    intros J N. unfold QModel.m_log_prob. destruct vs as [|w r]; [destruct J|].
    assert (E : get_factors b (w :: r) = Raise KeyError).
    { unfold get_factors. apply mapM_raise; [|exists v; split; [exact J|now apply built_unknown]].
      intros x K. destruct (in_dec string_dec x (nodes q)) as [I|I]; [left; eexists; now apply built_factor|right; now apply built_unknown]. }
    now rewrite E.
  Qed.
  Lemma log_unfold os variables : incl (asked variables) (nodes q) ->
    m_log_prob b os variables = (let* rows := mapM (fun v => mf_log_prob L lg lnan linf (T v) os) (asked variables) in np_sum_rows L ladd rows).
  Proof.
    intros I. unfold QModel.m_log_prob.
    assert (Eg : nodes (m_graph b) = nodes q) by (destruct B as (B1 & _); now rewrite B1). rewrite Eg. fold (asked variables).
    unfold get_factors. rewrite (mapM_det _ (fun v => Some (FM (T v)))) by (intros x J; apply built_factor; auto). cbn [bind].
    now rewrite mapM_map.
  Qed.

  Section Positive.
    Variables (os : list obs) (variables : option (list var)) (c : var -> obs -> Qc).
    Hypothesis I : incl (asked variables) (nodes q).
    Hypothesis X : forall v o, In v (asked variables) -> In o os -> mf_get_value (T v) o = Ok (Fin (c v o)) /\ (0 < c v o)%Qc.
    Hypothesis HL : logarithm l0 ladd lg.
    Lemma lg_fold l a : (0 < a)%Qc -> (forall x, In x l -> (0 < x)%Qc) -> fold_left ladd (map lg l) (lg a) = lg (a * product_of l)%Qc.
    Proof.
      destruct HL as (_ & _ & _ & _ & Hm). revert a. induction l as [|x l IH]; intros a Pa Pl; cbn [map fold_left].
      - unfold product_of. cbn. now rewrite Qcmult_1_r.
      - rewrite <- Hm by (auto; apply Pl; now left). rewrite IH.
        + f_equal. unfold product_of. cbn [fold_right]. ring.
        + apply pos_mul; [auto|apply Pl; now left].
        + intros y J. apply Pl. now right.
    Qed.
    Lemma log_prob_ok : asked variables <> [] ->
      exists ls, m_log_prob b os variables = Ok ls /\
        np_sum L l0 ladd ls = lg (product_of (map (fun o => product_of (map (fun v => c v o) (asked variables))) os)).
    Proof.
      intros N0. rewrite log_unfold by exact I. set (vs := asked variables) in *.
      rewrite (mapM_det _ (fun v => map (fun o => lg (c v o)) os)).
      2:{ intros v J. unfold mf_log_prob. apply mapM_det. intros o K. destruct (X v o J K) as [E P]. rewrite E. cbn [bind QModel.math_log].
          destruct (Qclt_le_dec 0 (c v o)) as [_|C]; [reflexivity|]. exfalso. now apply (Qcle_not_lt _ _ C). }
      cbn [bind]. destruct vs as [|v vs'] eqn:Ev; [congruence|]. cbn [map np_sum_rows].
      rewrite <- (map_map (fun w o => lg (c w o)) (fun r => map r os) vs'), (fold_rows ladd os).
      eexists. split; [reflexivity|].
      assert (E : map (fun o => fold_left ladd (map (fun r => r o) (map (fun w o => lg (c w o)) vs')) (lg (c v o))) os =
                  map lg (map (fun o => product_of (map (fun w => c w o) (v :: vs'))) os)).
      { rewrite map_map. apply map_ext_in. intros o J. rewrite map_map, <- (map_map (fun w => c w o) lg), lg_fold; [reflexivity| |].
        - apply X; [now left|auto].
        - intros x K. apply in_map_iff in K as (w & <- & K). apply X; [now right|auto]. }
      rewrite E. unfold np_sum. destruct HL as (_ & _ & _ & H1 & _). rewrite <- H1, lg_fold.
      - f_equal. apply Qcmult_1_l.
      - reflexivity.
      - intros x K. apply in_map_iff in K as (o & <- & K). apply pos_prod. intros x J.
        apply in_map_iff in J as (w & <- & J). apply X; auto.
    Qed.
  End Positive.

  (** a number that is not positive is rejected *)
  Lemma log_prob_zero os variables (h : var -> obs -> num) : incl (asked variables) (nodes q) ->
    (forall v o, In v (asked variables) -> In o os -> mf_get_value (T v) o = Ok (h v o) /\ h v o <> NInf) ->
    (exists v o, In v (asked variables) /\ In o os /\ h v o = Fin 0%Qc) -> m_log_prob b os variables = Raise ValueError.
  Proof.
    intros I X (v & o & Jv & Jo & Z). rewrite log_unfold by exact I.
    assert (E : forall w p, In w (asked variables) -> In p os -> (exists y, (let* x := mf_get_value (T w) p in math_log x) = Ok y) \/
                  (let* x := mf_get_value (T w) p in math_log x) = Raise ValueError).
    { intros w p J K. destruct (X w p J K) as [E N]. rewrite E. cbn [bind]. unfold QModel.math_log. destruct (h w p) as [r| | |]; eauto.
      destruct (Qclt_le_dec 0 r); eauto. }
    rewrite (mapM_raise _ _ _ ValueError); [reflexivity| |].
    - intros w J. unfold mf_log_prob. destruct (mapM_raise_or (fun p => let* x := mf_get_value (T w) p in math_log x) os) as [(ys & Y)|(p & e & K & Y1 & Y2)]; [eauto|].
      right. rewrite Y2. destruct (E w p J K) as [(y & Y)|Y]; congruence.
    - exists v. split; [exact Jv|]. unfold mf_log_prob. apply mapM_raise; [intros p K; now apply E|]. exists o. split; [exact Jo|].
      destruct (X v o Jv Jo) as [Y _]. rewrite Y. cbn [bind]. rewrite Z. reflexivity.
  Qed.
End Log.

(** The rows as observations. *)
Lemma records_ok D data vs : full_data D data vs -> records data = Ok (map (row_obs data) (f_rows data)).
Proof.
  intros (W & _ & C). unfold records. apply mapM_det. intros r J. unfold row_obs, LearnModel.known. rewrite (row_dict_id data r W J).
  assert (Q : forall l : dict var (option state), (forall v c, In (v, c) l -> exists s, c = Some s) ->
    mapM (fun vc => match snd vc with Some s => Ok (fst vc, s) | None => Raise Unmodelled end) l =
    Ok (flat_map (fun vc => match snd vc with Some s => [(fst vc, s)] | None => [] end) l)).
  { induction l as [|[v c] l IH]; intros X; [reflexivity|]. destruct (X v c (or_introl eq_refl)) as (s & ->). cbn [mapM flat_map fst snd bind].
    rewrite IH by (intros; eapply X; right; eauto). reflexivity. }
  apply Q. intros v c K. destruct (C r v c J) as (l & s & _ & _ & E); [now apply in_combine_l in K|exact K|eauto].
Qed.
Lemma row_full D data vs r : full_data D data vs -> In r (f_rows data) -> NoDup (keys D) -> full (pick vs D) (row_obs data r).
Proof.
  intros (W & I & C) J N v l K. apply filter_In in K as [K M]. cbn [fst] in M. apply mem_In in M. apply I in M.
  assert (Kc := cell_some data r v W J M). rewrite (row_dict_id data r W J) in Kc. assert (K2 := Kc). apply dget_In in K2.
  destruct (C r v _ J M K2) as (l' & s & K3 & Js & E). assert (l' = l) as -> by (apply (In_dget v l D N) in K; apply (In_dget v l' D N) in K3; congruence).
  exists s. split; [|exact Js]. rewrite E in *. unfold row_obs. apply known_get; [apply row_dict_NoDup|]. now rewrite (row_dict_id data r W J).
Qed.

