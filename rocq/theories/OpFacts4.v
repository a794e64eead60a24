(** Arithmetic between a multinomial factor and the states of a deterministic one. *)

From Coq Require Import String Bool Arith ZArith QArith Qcanon Lia Permutation List.
From Verif Require Import PyBase Num DomainModel NdArray StoreModel NumStore FactorModel GenModel GenSpec PyFacts Spec
  DomainFacts StoreSpec StoreFacts TreeFacts TreeFacts2 NumFacts FactorSpec FactorFacts FactorFacts2 PropFacts1 PropFacts2 OpModel OpSpec.
Import ListNotations.
Local Open Scope nat_scope.
Local Arguments eqd : simpl never.

Lemma tree_nums_node v ch : tree_nums (Node v ch) =
  let* ch' := mapM (fun sc => let* c' := tree_nums (snd sc) in Ok (fst sc, c')) ch in Ok (Node v ch').
Proof.
  cbn [tree_nums]. f_equal. induction ch as [|[s c] ch IH]; auto. cbn [mapM fst snd].
  destruct (tree_nums c); auto. cbn [bind]. rewrite IH. auto.
Qed.

Lemma tree_nums_ok d t : tcomp d t -> wf_dom d ->
  (forall a, valid d a -> exists x y, teval t a = Some x /\ state_num x = Ok y) ->
  exists t', tree_nums t = Ok t' /\ tcomp d t' /\
    forall a, valid d a -> exists x y, teval t a = Some x /\ state_num x = Ok y /\ teval t' a = Some y.
Proof.
  induction 1 as [x | d v l ch I ND Hs TC IH]; intros W Hn.
  - destruct (Hn (fun _ => SInt 0)) as (x' & y & [= <-] & E); [intros ? ? []|].
    cbn [tree_nums]. rewrite E. exists (Leaf y). split; [reflexivity|]. split; [constructor|]. intros a _. exists x, y. auto.
  - assert (Wr : wf_dom (dremove v d)) by (apply wf_dom_filter; exact W).
    assert (Hc : forall s c, In (s, c) ch -> exists c', tree_nums c = Ok c' /\ tcomp (dremove v d) c' /\
      forall a, valid (dremove v d) a -> exists x y, teval c a = Some x /\ state_num x = Ok y /\ teval c' a = Some y).
    { intros s c J. apply (IH s c J Wr). intros a Va.
      assert (Vu : valid d (upd a v s)).
      { intros w k K. unfold upd. destruct (eqd w v) as [-> | N].
        - assert (k = l) as -> by (pose proof (In_dget v k d (proj1 W) K); pose proof (In_dget v l d (proj1 W) I); congruence). apply Hs. apply (in_map fst) in J. exact J.
        - apply (Va w k). apply filter_In. split; [assumption|]. cbn [fst]. rewrite eqd_neq by congruence. reflexivity. }
      destruct (Hn _ Vu) as (x & y & E1 & E2). exists x, y. split; [|assumption].
      rewrite teval_node in E1. unfold upd in E1 at 1. rewrite eqd_refl in E1.
      rewrite (In_dget s c ch ND J) in E1. rewrite <- E1. eapply teval_ext; [apply (TC s c J)|].
      intros w Jw. apply keys_dremove in Jw as [_ Jw]. unfold upd. now rewrite eqd_neq. }
    assert (Q : exists ch', mapM (fun sc => let* c' := tree_nums (snd sc) in Ok (fst sc, c')) ch = Ok ch' /\ map fst ch' = map fst ch /\
      (forall s c', In (s, c') ch' -> exists c, In (s, c) ch /\ tree_nums c = Ok c') /\
      forall s c, dget s ch = Some c -> exists c', dget s ch' = Some c' /\ tree_nums c = Ok c').
    { clear - Hc. induction ch as [|[s c] ch IHc].
      - exists []. repeat split; [intros s c' []|discriminate].
      - destruct (Hc s c) as (c' & E & _); [now left|]. destruct IHc as (ch' & E1 & E2 & E3 & E4); [intros s' k J; apply (Hc s' k); now right|].
        exists ((s, c') :: ch'). cbn [mapM fst snd]. rewrite E. cbn [bind]. rewrite E1. cbn [bind map fst]. rewrite E2.
        split; [reflexivity|]. split; [reflexivity|]. split.
        + intros s' k [[= <- <-] | J]; [exists c; split; [now left|assumption]|]. destruct (E3 s' k J) as (k' & J' & Ek). exists k'. split; [now right|assumption].
        + intros s' k. cbn [dget]. destruct (eqd s' s) as [-> | N]; [intros [= <-]; eauto|apply E4]. }
    destruct Q as (ch' & E1 & E2 & E3 & E4). exists (Node v ch'). rewrite tree_nums_node, E1. split; [reflexivity|]. split.
    + apply (tc_node d v l ch'); [assumption|now rewrite E2|now rewrite E2|]. intros s c' J. destruct (E3 s c' J) as (c & Jc & Ec).
      destruct (Hc s c Jc) as (c0 & E0 & T0 & _). congruence.
    + intros a Va. assert (In (a v) (map fst ch)) as Ja by (apply Hs; now apply Va).
      destruct (dget (a v) ch) as [c|] eqn:Ed; [|exfalso; apply dget_None in Ed; auto].
      destruct (E4 _ _ Ed) as (c' & Ed' & Ec). rewrite !teval_node, Ed, Ed'. apply dget_In in Ed.
      destruct (Hc _ _ Ed) as (c0 & E0 & _ & V0). assert (c0 = c') as -> by congruence. apply V0. now apply valid_dremove.
Qed.

Lemma mapM_nums d (l : list state) : wf_dom d -> length l = prodl (card d) ->
  (forall a, valid d a -> exists x y, nth_error l (ravel (card d) (coords d a)) = Some x /\ state_num x = Ok y) ->
  exists l', mapM state_num l = Ok l' /\ length l' = prodl (card d) /\
    forall a, valid d a -> exists x y, nth_error l (ravel (card d) (coords d a)) = Some x /\ state_num x = Ok y /\
      nth_error l' (ravel (card d) (coords d a)) = Some y.
Proof.
  intros W L Hn. destruct (mapM_total state_num l) as (l' & E).
  - intros x J. apply In_nth_error in J as (i & Ei). assert (B : i < prodl (card d)) by (rewrite <- L; apply nth_error_Some; congruence).
    destruct (unravel _ _ B) as (idx & Bi & <-). destruct (coords_surj d idx (fun _ => SInt 0%Z) W Bi) as (a & Va & <- & _).
    destruct (Hn a Va) as (x' & y & E1 & E2). exists y. congruence.
  - exists l'. split; [assumption|]. split; [rewrite (mapM_length _ _ _ E); assumption|]. intros a Va.
    destruct (Hn a Va) as (x & y & E1 & E2). exists x, y. split; [assumption|]. split; [assumption|].
    destruct (mapM_nth _ _ _ _ _ E E1) as (y' & E3 & E4). congruence.
Qed.

Lemma store_nums_ok (s : store state) : wf_store s -> (forall a, valid (st_domain s) a -> exists x y, look s a = Some x /\ state_num x = Ok y) ->
  exists t, store_nums s = Ok t /\ wf_store t /\ st_domain t = st_domain s /\ st_type t = st_type s /\
    forall a, valid (st_domain s) a -> exists x y, look s a = Some x /\ state_num x = Ok y /\ look t a = Some y.
Proof.
  destruct s as [d [sh fl]|d l|d l|d t]; cbn [st_domain look]; intros [W S] Hn; cbn [store_nums shape flat] in *.
  - destruct S as [-> L]. cbn [flat] in L. destruct (mapM_nums d fl W L Hn) as (l' & E & L' & V). rewrite E. cbn [bind].
    eexists. split; [reflexivity|]. cbn [st_domain look shape flat].
    split; [split; [exact W|]; split; [reflexivity|assumption]|]. auto.
  - destruct (mapM_nums d l W S Hn) as (l' & E & L' & V). rewrite E. cbn [bind]. eexists. split; [reflexivity|]. cbn [st_domain look].
    split; [split; assumption|]. auto.
  - destruct (mapM_nums d l W S Hn) as (l' & E & L' & V). rewrite E. cbn [bind]. eexists. split; [reflexivity|]. cbn [st_domain look].
    split; [split; assumption|]. auto.
  - destruct (tree_nums_ok d t S W Hn) as (t' & E & T' & V). rewrite E. cbn [bind]. eexists. split; [reflexivity|]. cbn [st_domain look].
    split; [split; assumption|]. auto.
Qed.

(** The values of the function [g] are numbers. *)
Lemma function_nums (g : dfactor) v l z : wf_df g v l -> (forall o, full (drop [v] (df_domain g)) o -> exists s, get_value (df_store g) o = Ok s /\ state_num s = Ok (Fin (z o))) ->
  exists t, store_nums (df_store g) = Ok t /\ wf_store t /\ st_domain t = drop [v] (df_domain g) /\ st_type t = st_type (df_store g) /\
    forall o, full (drop [v] (df_domain g)) o -> get_value t o = Ok (Fin (z o)).
Proof.
  intros (_ & _ & _ & _ & _ & W & D) Hz.
  assert (Hn : forall a, valid (st_domain (df_store g)) a -> exists x y, look (df_store g) a = Some x /\ state_num x = Ok y).
  { intros a Va. assert (Fo : full (drop [v] (df_domain g)) (obs_of (keys (st_domain (df_store g))) a)).
    { rewrite <- D. intros w k J. exists (a w). split; [|now apply Va]. apply obs_of_get. apply keys_In. eauto. }
    destruct (Hz _ Fo) as (s & E1 & E2). destruct (get_value_look (df_store g) _ a W Va (agrees_obs_of _ _)) as (x & Lx & Gx).
    exists x. assert (x = s) as -> by congruence. eauto. }
  destruct (store_nums_ok _ W Hn) as (t & E & Wt & Dt & Tt & Lt). exists t. split; [assumption|]. split; [assumption|].
  split; [congruence|]. split; [assumption|]. intros o Fo. assert (Fs : full (st_domain (df_store g)) o) by now rewrite D.
  destruct (get_full (df_store g) o W Fs) as (x & Lx & Gx). destruct (Hz o Fo) as (s & E1 & E2). assert (x = s) as -> by congruence.
  destruct (Lt (asg_of o) (full_valid _ _ Fs)) as (x' & y & L1 & L2 & L3). assert (x' = s) as -> by congruence.
  assert (Ft : full (st_domain t) o) by now rewrite Dt. destruct (get_full t o Wt Ft) as (y' & L4 & L5). congruence.
Qed.

Section Function.
  Variables (f : mfactor) (g : dfactor) (v : var) (l : list state) (z : obs -> Qc).
  Hypothesis Wf : wf_mf f.
  Hypothesis Wg : wf_df g v l.
  Hypothesis Ty : mf_vtype f = df_vtype g.
  Hypothesis Us : usable (drop [v] (df_domain g)).
  Hypothesis Co : compatible (mf_domain f) (drop [v] (df_domain g)).
  Hypothesis Hz : forall o, full (drop [v] (df_domain g)) o -> exists s, get_value (df_store g) o = Ok s /\ state_num s = Ok (Fin (z o)).

  Lemma function_op (nop : num -> num -> num) (division : bool) : exists h, with_function (st_combine n0 nop) division f g = Ok h /\ wf_mf h /\ mf_vtype h = mf_vtype f /\
    mf_domain h = join (mf_domain f) (drop [v] (df_domain g)) /\
    (forall w, In w (mf_right h) <-> In w (mf_vars h) /\ if division then In w (mf_right f) \/ In w (df_vars g) else ~ In w (mf_left f) /\ w <> v) /\
    forall o, full (mf_domain h) o -> exists x, mf_get_value f o = Ok x /\ mf_get_value h o = Ok (nop x (Fin (z o))).
  Proof.
    destruct (function_nums g v l z Wg Hz) as (t & E & Wt & Dt & Tt & Vt). unfold with_function.
    assert (Q : mf_vtype f = st_type (df_store g)) by exact Ty. rewrite Q, eqd_refl, E. cbn [bind].
    destruct Wf as (W1 & U1 & N1 & I1).
    destruct (combine_obs n0 nop (mf_store f) t W1 Wt) as (s & Es & Ws & Ts & Ds & Vs); [unfold mf_vtype in Q; congruence|rewrite Dt; exact Co|].
    rewrite Es. cbn [bind]. rewrite Dt in Ds.
    assert (U : usable (st_domain s)) by (rewrite Ds; apply usable_join; auto).
    rewrite builder_id by auto. eexists. split; [reflexivity|].
    match goal with |- wf_mf (MkM s ?x) /\ _ => set (R := x) end.
    assert (WF : wf_mf (MkM s R)).
    { split; [auto|]. split; [auto|]. cbn [mf_right]. split; [apply NoDup_filter; apply (usable_wf _ U)|].
      intros w J. apply filter_In in J. apply J. }
    split; [assumption|]. split; [rewrite <- Q; exact Ts|]. split; [exact Ds|]. split.
    - intros w. cbn [mf_right]. unfold R. rewrite filter_In. change (mf_vars (MkM s R)) with (st_variables s).
      destruct division.
      + rewrite orb_true_iff, !mem_In. tauto.
      + rewrite andb_true_iff, !negb_true_iff, !mem_nIn. assert (Lg : df_left g = [v]) by apply Wg. rewrite Lg. cbn [In].
        split; intros (A & B & C); (split; [assumption|]; split; [assumption|]); intuition congruence.
    - intros o Fo. cbn [mf_domain mf_store] in Fo. unfold mf_domain in Fo. cbn [mf_store] in Fo. rewrite Ds in Fo.
      destruct (Vs o) as (x & y & G1 & G2 & G3); [rewrite Dt; exact Fo|]. exists x. split; [exact G1|].
      assert (y = Fin (z o)) as -> by (rewrite Vt in G2 by (eapply full_join_r; [|exact Fo]; exact Co); congruence). exact G3.
  Qed.
End Function.

Lemma function_arith op nop f g v l z : In (op, nop) [(OpMul, nmul); (OpAdd, nadd); (OpSub, nsub)] -> wf_mf f -> wf_df g v l -> mf_vtype f = df_vtype g ->
  usable (drop [v] (df_domain g)) -> compatible (mf_domain f) (drop [v] (df_domain g)) ->
  (forall o, full (drop [v] (df_domain g)) o -> get_value (df_store g) o = Ok (SInt (z o))) ->
  exists h, py_binop op (PFac f) (PDet g) = Ok (PFac h) /\ wf_mf h /\ mf_vtype h = mf_vtype f /\
    mf_domain h = join (mf_domain f) (drop [v] (df_domain g)) /\
    (forall w, In w (mf_left h) <-> In w (mf_left f) \/ w = v /\ In v (mf_vars f)) /\
    forall o, full (mf_domain h) o -> exists x, mf_get_value f o = Ok x /\ mf_get_value h o = Ok (nop x (Fin (Q2Qc (inject_Z (z o))))).
Proof.
  intros Op Wf Wg Ty Us Co Hz.
  destruct (function_op f g v l (fun o => Q2Qc (inject_Z (z o))) Wf Wg Ty Us Co) with (nop := nop) (division := false) as (h & E & Wh & Th & Dh & Rh & Vh).
  { intros o Fo. eexists. split; [exact (Hz o Fo)|reflexivity]. }
  exists h. split; [|split; [assumption|split; [assumption|split; [assumption|split; [|assumption]]]]].
  - destruct Op as [[= <- <-] | [[= <- <-] | [[= <- <-] | []]]]; cbn [py_binop fac_arith store_op];
      [change st_multiply with (st_combine n0 nmul)|change st_addition with (st_combine n0 nadd)|change st_subtract with (st_combine n0 nsub)]; rewrite E; reflexivity.
  - intros w. rewrite mf_left_In, Rh. assert (A : In w (mf_vars h) <-> In w (mf_vars f) \/ In w (keys (drop [v] (df_domain g)))).
    { unfold mf_vars at 1. rewrite Dh. apply join_keys. }
    assert (B : In w (keys (drop [v] (df_domain g))) -> w <> v) by (rewrite In_keys_drop; cbn [In]; intuition congruence).
    assert (C : In w (mf_left f) -> In w (mf_vars f)) by (rewrite mf_left_In; tauto).
    destruct (in_dec eqd w (mf_left f)); destruct (eqd w v) as [-> | N]; intuition congruence.
Qed.

Lemma function_divide f g v l z : wf_mf f -> wf_df g v l -> mf_vtype f = df_vtype g ->
  usable (drop [v] (df_domain g)) -> compatible (mf_domain f) (drop [v] (df_domain g)) ->
  (forall o, full (drop [v] (df_domain g)) o -> get_value (df_store g) o = Ok (SInt (z o))) ->
  exists h, py_binop OpDiv (PFac f) (PDet g) = Ok (PFac h) /\ wf_mf h /\ mf_vtype h = mf_vtype f /\
    mf_domain h = join (mf_domain f) (drop [v] (df_domain g)) /\
    (forall w, In w (mf_left h) <-> In w (mf_left f) /\ ~ In w (df_vars g)) /\
    forall o, full (mf_domain h) o -> exists x, mf_get_value f o = Ok x /\ mf_get_value h o = Ok (div_op (mf_vtype f) x (Fin (Q2Qc (inject_Z (z o))))).
Proof.
  intros Wf Wg Ty Us Co Hz.
  destruct (function_op f g v l (fun o => Q2Qc (inject_Z (z o))) Wf Wg Ty Us Co) with (nop := div_op (mf_vtype f)) (division := true) as (h & E & Wh & Th & Dh & Rh & Vh).
  { intros o Fo. eexists. split; [exact (Hz o Fo)|reflexivity]. }
  exists h. split; [|split; [assumption|split; [assumption|split; [assumption|split; [|assumption]]]]].
  - cbn [py_binop fac_arith store_op]. unfold with_function in *. unfold st_divide. fold (mf_vtype f). rewrite E. reflexivity.
  - intros w. rewrite mf_left_In, Rh. assert (A : In w (mf_vars h) <-> In w (mf_vars f) \/ In w (keys (drop [v] (df_domain g)))).
    { unfold mf_vars at 1. rewrite Dh. apply join_keys. }
    assert (B : In w (keys (drop [v] (df_domain g))) -> In w (df_vars g)) by (unfold df_vars; rewrite In_keys_drop; tauto).
    rewrite mf_left_In. destruct (in_dec eqd w (mf_right f)); destruct (in_dec eqd w (df_vars g)); tauto.
Qed.

Lemma function_class_raises op f g : In op [OpMul; OpAdd; OpSub; OpDiv] -> mf_vtype f <> df_vtype g -> py_binop op (PFac f) (PDet g) = Raise ValueError.
Proof.
  intros J N. assert (Q : forall o d, with_function o d f g = Raise ValueError).
  { intros o d. unfold with_function. destruct (eqd (mf_vtype f) (st_type (df_store g))) as [E | _]; [contradiction|reflexivity]. }
  destruct J as [<- | [<- | [<- | [<- | []]]]]; cbn [py_binop fac_arith]; rewrite Q; reflexivity.
Qed.

Lemma interval_prob (g : ifactor) d o lo hi : wf_store (if_store g) -> st_domain (if_store g) = (bound_var, [low; up]) :: d -> full d o -> interval g o lo hi ->
  if_prob g [(bound_var, low) :: o; (bound_var, up) :: o] = Ok [Fin lo; Fin hi].
Proof.
  intros W D F (sl & su & E1 & E2 & V1 & V2). unfold store_low, store_up in *.
  assert (Dr : drop [bound_var] ((bound_var, [low; up]) :: d) = d).
  { assert (N : ~ In bound_var (keys d)) by (destruct W as [[N _] _]; rewrite D in N; cbn [keys map fst] in N; now inversion N).
    change (drop [bound_var] ((bound_var, [low; up]) :: d)) with (dfilter (fun v => negb (mem v [bound_var])) d).
    apply dfilter_true. intros v J. apply negb_true_iff, mem_nIn. intros [<- | []]. auto. }
  assert (G : forall b s x, In b [low; up] -> st_restrict (if_store g) [(bound_var, b)] = Ok s -> get_value s o = Ok x ->
    get_value (if_store g) ((bound_var, b) :: o) = Ok x).
  { intros b s x J E V. destruct (restrict_obs (if_store g) [(bound_var, b)] W) as (s' & E' & _ & _ & _ & V').
    - intros v l y Jv. cbn [dget]. destruct (eqd v bound_var) as [-> | _]; [|discriminate]. intros [= <-].
      assert (l = [low; up]) as ->; [|exact J]. destruct W as [[N _] _]. pose proof (In_dget bound_var l _ N Jv) as Q. rewrite D in Q. cbn [dget] in Q.
      rewrite eqd_refl in Q. congruence.
    - rewrite E in E'. injection E' as <-. destruct (V' o) as (y & Y1 & Y2); [rewrite D; cbn [keys map fst]; rewrite Dr; exact F|].
      cbn [app] in Y2. congruence. }
  unfold if_prob. cbn [mapM]. rewrite (G low sl (Fin lo)), (G up su (Fin hi)); auto; cbn; auto.
Qed.
