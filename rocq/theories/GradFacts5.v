(** When the gradient learner raises. *)

From Coq Require Import String Bool Arith ZArith QArith Qcanon Lia Permutation List.
From Verif Require Import PyBase PyFacts Num DomainModel NdArray StoreModel NumStore FactorModel GraphModel ModelModel InferModel
  LearnModel GradModel Spec GraphSpec ModelSpec NetSpec EmSpec GradSpec EmFacts2 EmFacts7.
From Coq Require Import List.
Import ListNotations.
Local Open Scope nat_scope.
Local Arguments eqd : simpl never.

Lemma mapM_raises {A} (f : A -> res unit) e l : (forall x, In x l -> f x = Ok tt \/ f x = Raise e) ->
  (exists x, In x l /\ f x = Raise e) -> mapM f l = Raise e.
Proof.
  induction l as [|x l IH]; intros Ha (y & J & Q); [destruct J|]. cbn [mapM].
  destruct (f x) as [[]|e'] eqn:Qx.
  - cbn [bind]. rewrite IH; [reflexivity|intros; apply Ha; now right|]. destruct J as [<- | J]; [congruence|eauto].
  - destruct (Ha x (or_introl eq_refl)) as [X | X]; [congruence|]. cbn [bind]. congruence.
Qed.

Section Errors.
  Variables (L : Type) (l0 : L) (ladd : L -> L -> L) (lopp : L -> L) (lg : Qc -> L) (lnan : L).
  Variable minimize : option Z -> (list Qc -> res (option L)) -> list num -> res (list Qc).
  Variable dflt : vtype.
  Notation run := (gr_run L l0 ladd lopp lg lnan minimize dflt).
  Notation stp := (gr_step L l0 ladd lopp lg lnan minimize dflt).

  (** A variable that must not be trained. *)
  Lemma run_refused l m0 data k endo cast tr : m_copy (l_prior l) = Ok m0 -> m_kind (l_prior l) = KScm endo cast ->
    wf_graph (m_graph (l_prior l)) -> NoDup (f_cols data) -> (forall r, In r (f_rows data) -> length r = length (f_cols data)) ->
    gr_trainable (l_sub l) = Some tr -> incl tr (nodes (m_graph (l_prior l))) ->
    (exists v, In v tr /\ (In v endo \/ exists r, In r (f_rows data) /\ In v (keys (row_obs data r)))) ->
    exists l', run l data k = (l', Some ValueError) /\ l_prior l' = l_prior l /\ l_model l' = Some m0 /\ l_evo l' = l_evo l.
  Proof.
    intros Ec Ek WG NC Lr Et It (v & Jv & Bad). unfold gr_run, initialize. cbv zeta. cbn [with_sub l_prior l_model l_evo l_sub]. rewrite Ec. cbv zeta.
    unfold gr_process_data. cbn [l_prior l_sub gr_trainable gr_max_iter gr_data]. rewrite Et. destruct tr as [|t tr]; [destruct Jv|].
    cbv iota. rewrite (mapM_raises _ ValueError).
    - cbn [with_sub]. eexists. split; [reflexivity|]. auto.
    - intros x J. unfold check_trainable, endogenous_of. rewrite Ek. cbn [bind]. destruct (mem x endo); [now right|].
      assert (K : In x (f_cols (add_missing (l_prior l) data))).
      { cbn [add_missing f_cols]. apply in_or_app. destruct (in_dec eqd x (f_cols data)) as [I | N]; [now left|]. right.
        apply filter_In. split; [now apply It|]. apply negb_true_iff. now apply mem_nIn. }
      apply mem_In in K. rewrite K. cbn [negb]. destruct (existsb _ _); auto.
    - exists v. split; [exact Jv|]. unfold check_trainable, endogenous_of. rewrite Ek. cbn [bind].
      destruct (mem v endo) eqn:Q; [reflexivity|]. apply mem_nIn in Q. destruct Bad as [Bad | (r & Jr & Bad)]; [contradiction|].
      destruct (negb (mem v (f_cols (add_missing (l_prior l) data)))) eqn:Qc.
      + exfalso. apply negb_true_iff, mem_nIn in Qc. apply Qc. cbn [add_missing f_cols]. apply in_or_app.
        destruct (in_dec eqd v (f_cols data)) as [I | N]; [now left|]. right. apply filter_In. split; [now apply It|]. apply negb_true_iff. now apply mem_nIn.
      + rewrite (proj2 (existsb_exists _ _)); [reflexivity|].
        exists (r ++ map (fun _ => None) (filter (fun v => negb (mem v (f_cols data))) (nodes (m_graph (l_prior l))))). split.
        * apply (rows_added (l_prior l) data). eauto.
        * rewrite <- (row_obs_added (l_prior l) data WG NC r (Lr r Jr)) in Bad. apply dget_keys in Bad as (s & Bad). unfold row_obs in Bad.
          apply known_get in Bad; [|apply row_dict_NoDup]. now rewrite Bad.
  Qed.

  (** A Bayesian network has no endogenous variables. *)
  Lemma run_network_raises l m0 data k v tr : m_copy (l_prior l) = Ok m0 -> m_kind (l_prior l) = KBn ->
    gr_trainable (l_sub l) = Some (v :: tr) ->
    exists l', run l data k = (l', Some AttributeError) /\ l_prior l' = l_prior l /\ l_model l' = Some m0 /\ l_evo l' = l_evo l.
  Proof.
    intros Ec Ek Et. unfold gr_run, initialize. cbv zeta. cbn [with_sub l_prior l_model l_evo l_sub]. rewrite Ec. cbv zeta.
    unfold gr_process_data. cbn [l_prior l_sub gr_trainable gr_max_iter gr_data]. rewrite Et. cbv iota. cbn [mapM].
    unfold check_trainable, endogenous_of. rewrite Ek. cbn [bind with_sub]. eexists. split; [reflexivity|]. auto.
  Qed.
  (** An unknown variable in front. *)
  Lemma run_unknown_raises l m0 data k v tr endo cast : m_copy (l_prior l) = Ok m0 -> m_kind (l_prior l) = KScm endo cast ->
    gr_trainable (l_sub l) = Some (v :: tr) -> ~ In v endo -> ~ In v (nodes (m_graph (l_prior l))) -> ~ In v (f_cols data) ->
    exists l', run l data k = (l', Some KeyError) /\ l_prior l' = l_prior l /\ l_model l' = Some m0 /\ l_evo l' = l_evo l.
  Proof.
    intros Ec Ek Et Ne Nn Nc. unfold gr_run, initialize. cbv zeta. cbn [with_sub l_prior l_model l_evo l_sub]. rewrite Ec. cbv zeta.
    unfold gr_process_data. cbn [l_prior l_sub gr_trainable gr_max_iter gr_data]. rewrite Et. cbv iota. cbn [mapM].
    unfold check_trainable, endogenous_of. rewrite Ek. cbn [bind]. apply mem_nIn in Ne. rewrite Ne.
    assert (N : mem v (f_cols (add_missing (l_prior l) data)) = false).
    { apply mem_nIn. cbn [add_missing f_cols]. rewrite in_app_iff, filter_In. tauto. }
    rewrite N. cbn [negb bind with_sub]. eexists. split; [reflexivity|]. auto.
  Qed.

  (** The model must be one that can be copied. *)
  Lemma run_copy_raises l data k e : m_copy (l_prior l) = Raise e -> exists l', run l data k = (l', Some e) /\ l_model l' = l_model l /\ l_evo l' = l_evo l.
  Proof.
    intros Ec. unfold gr_run, initialize. cbv zeta. cbn [with_sub l_prior l_model l_evo l_sub]. rewrite Ec. eexists. split; [reflexivity|auto].
  Qed.

  (** Before the first run no step can be taken. *)
  Lemma step_before_run l data : l_model l = None -> gr_max_iter (l_sub l) = None ->
    exists l' e, stp l data = (l', Some e) /\ l_model l' = None /\ l_evo l' = l_evo l.
  Proof.
    intros Em Ek.
    assert (G : forall s, gr_max_iter s = None -> exists e, forall l1, l1 = MkL (l_prior l) None (l_evo l) s ->
      exists l', (let (s', r) := gr_calculate L l0 ladd lopp lg lnan minimize dflt l1 in
       match r with Raise e => (with_sub l1 s', Some e) | Ok new_probs => update_model (with_sub l1 s') new_probs end) = (l', Some e) /\
         l_model l' = None /\ l_evo l' = l_evo l).
    { intros s Es. unfold gr_calculate. cbn [l_sub].
      assert (Fail : forall U, exists e, updated_factor L l0 ladd lopp lg lnan minimize dflt (l_prior l) s U = Raise e).
      { intros U. unfold updated_factor. destruct (gr_data s) as [d|]; [|eauto]. destruct (dlook U _) as [f|e]; cbn [bind]; [|eauto].
        destruct (match f with Some (FM f) => mf_values f | Some (FD _) => Raise Unmodelled | _ => Raise AttributeError end); cbn [bind]; [|eauto].
        destruct (statistics _ _ _); cbn [bind]; [|eauto]. unfold fitPMF. rewrite Es. cbn [bind]. eauto. }
      destruct (gr_trainable s) as [[|U tr]|] eqn:Et.
      - exists AttributeError. intros l1 ->. cbn [l_sub l_prior]. rewrite Et. cbn [mapM bind]. unfold update_model. cbn [with_sub l_model].
        eexists. split; [reflexivity|auto].
      - destruct (Fail U) as (e & Q). exists e. intros l1 ->. cbn [l_sub l_prior]. rewrite Et. cbn [mapM]. rewrite Q. cbn [bind].
        eexists. split; [reflexivity|auto].
      - exists TypeError. intros l1 ->. cbn [l_sub]. rewrite Et. eexists. split; [reflexivity|auto]. }
    unfold gr_step, step. destruct data as [d|].
    - assert (Ep : exists s o, gr_process_data l d = (s, o) /\ gr_max_iter s = None).
      { unfold gr_process_data. cbv zeta. destruct (mapM _ _); eexists _, _; (split; [reflexivity|exact Ek]). }
      destruct Ep as (s & o & -> & Es). destruct o as [e|].
      + exists (with_sub l s), e. split; [reflexivity|]. auto.
      + destruct (G s Es) as (e & He). destruct (He (with_sub l s)) as (l' & Q & Q1 & Q2).
        { unfold with_sub. now rewrite Em. }
        exists l', e. split; [|auto]. exact Q.
    - destruct (G (l_sub l) Ek) as (e & He). destruct (He l) as (l' & Q & Q1 & Q2).
      { destruct l; cbn in *. now subst. }
      exists l', e. split; [|auto]. exact Q.
  Qed.

  (** A new learner has not been run. *)
  Lemma step_of_new prior tr data : exists l' e, stp (gr_init prior tr) data = (l', Some e) /\ l_model l' = None /\ l_evo l' = None.
  Proof. apply (step_before_run (gr_init prior tr) data); reflexivity. Qed.
End Errors.
