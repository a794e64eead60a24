(** Runs of the EM learner that cannot fail. *)

From Coq Require Import String Bool Arith ZArith QArith Qcanon Lia Permutation List.
From Verif Require Import PyBase PyFacts Num DomainModel NdArray StoreModel NumStore FactorModel GraphModel ModelModel InferModel
  Spec DomainFacts StoreSpec StoreFacts NumFacts PropFacts1 FactorSpec FactorFacts FactorFacts2 FactorFacts3 BigSum
  GraphSpec GraphFacts ModelSpec ModelFacts
  NetSpec NetSem FactorSem NetFacts BuildFacts VeFacts4 LearnModel LearnSpec LearnFacts LearnFacts2
  EmSpec EmFacts2 EmFacts3 EmFacts6 EmFacts7.
From Coq Require Import List.
Import ListNotations.
Local Open Scope nat_scope.
Local Arguments eqd : simpl never.

(** ** The values of two tables of one variable *)

Lemma prodl_perm l l' : Permutation l l' -> prodl l = prodl l'.
Proof.
  unfold prodl. intros P. assert (G : forall l k, fold_left Nat.mul l k = k * fold_right Nat.mul 1 l).
  { induction l0 as [|x l0 IH]; intros k; cbn [fold_left fold_right]; [lia|]. rewrite IH. lia. }
  rewrite !G. f_equal. induction P; cbn [fold_right]; lia.
Qed.

Lemma values_length D vt v ps f : cpt D vt v ps f -> exists P, mf_values f = Ok P /\ length P = prodl (card (mf_domain f)).
Proof.
  intros (W & _ & _ & _ & _ & Fi & _). unfold mf_values, values_list.
  change (st_domain (mf_store f)) with (mf_domain f). rewrite assignment_space_all.
  destruct (mapM_total (get_value (mf_store f)) (all_assignments (mf_domain f))) as (P & E).
  { intros o J. destruct (Fi o) as (q & Q); [|exists (Fin q); exact Q].
    apply (all_assignments_In_full (mf_domain f) o (proj1 (usable_wf _ (proj1 (proj2 W))))) in J. apply J. }
  exists P. split; [exact E|]. apply mapM_length in E. rewrite E. apply all_assignments_length.
Qed.

Lemma same_length D vt v ps f f' : wf_dom D -> cpt D vt v ps f -> cpt D vt v ps f' -> prodl (card (mf_domain f)) = prodl (card (mf_domain f')).
Proof.
  intros WD C C'. apply prodl_perm. unfold card, vals. do 2 apply Permutation_map.
  assert (N : NoDup (keys (mf_domain f))) by apply C. assert (N' : NoDup (keys (mf_domain f'))) by apply C'.
  apply NoDup_Permutation; [now apply NoDup_map_inv in N|now apply NoDup_map_inv in N'|].
  assert (G : forall f f', cpt D vt v ps f -> cpt D vt v ps f' -> forall x, In x (mf_domain f) -> In x (mf_domain f')).
  { clear - WD. intros f f' C C' (w & l) J.
    assert (K : In w (mf_vars f')) by (apply (cpt_vars D vt v ps f' w C'), (cpt_vars D vt v ps f w C); apply keys_In; eauto).
    apply keys_In in K as (l' & K). assert (Q : l' = l); [|now subst].
    apply C' in K. apply C in J. apply (In_dget _ _ _ (proj1 WD)) in K, J. congruence. }
  intros x. split; eapply G; eauto.
Qed.

(** ** The end of a run *)

Section Runs.
  Variables (query : pgm -> list var -> obs -> res mfactor) (set_iter : list var -> list var) (no_divergence : list num -> list num -> res bool) (vt : vtype).
  Hypothesis Hq : exact_query query.
  Hypothesis Hs : iterates set_iter.
  (** the rule compares any two lists of one length *)
  Hypothesis Hd : forall P Q : list num, length P = length Q -> exists b, no_divergence P Q = Ok b.
  Variables (D : domain) (E : list var).

  Lemma checked_ok p q g Fp Fq evo vs : network p D Fp vt -> network q D Fq vt -> m_graph p = g -> m_graph q = g -> incl vs (nodes g) ->
    forall conv, exists conv', check_converged no_divergence (evo ++ [p; q]) vs conv = (conv', Ok tt).
  Proof.
    intros Np Nq Gp Gq. induction vs as [|v vs IH]; intros Iv conv; cbn [check_converged]; [eauto|].
    assert (Iv' : incl vs (nodes g)) by (intros x J; apply Iv; now right).
    destruct (mem v conv); [now apply IH|].
    assert (Jv : In v (nodes g)) by (apply Iv; now left).
    unfold last_two. rewrite rev_app_distr. cbn [rev app bind].
    assert (Sp := proj2 (proj2 (proj2 (proj2 (proj2 (proj2 Np))))) v ltac:(now rewrite Gp)).
    assert (Sq := proj2 (proj2 (proj2 (proj2 (proj2 (proj2 Nq))))) v ltac:(now rewrite Gq)).
    destruct Sp as [Sp Cp], Sq as [Sq Cq]. unfold stored in Sp, Sq. unfold dlook. cbn [fst snd]. rewrite Sp, Sq. cbn [bind fo_values].
    rewrite Gp in Cp. rewrite Gq in Cq.
    destruct (values_length D vt v _ _ Cp) as (P & EP & LP). destruct (values_length D vt v _ _ Cq) as (Q & EQ & LQ).
    rewrite EP, EQ. cbn [bind]. destruct (Hd P Q) as (b & Eb).
    { rewrite LP, LQ. apply (same_length D vt v (preds g v)); auto. apply (net_wd p D Fp vt Np). }
    rewrite Eb. destruct b; now apply IH.
  Qed.

  (** The loop does not raise, and the last model has the kind and the tables
      that are not trained of the first. *)
  Lemma loop_done data : observes D data E -> forall fuel max i l m F l' o, ready D vt E data l m F ->
    (exists evo p Fp, model_evolution l = evo ++ [p] /\ network p D Fp vt /\ m_graph p = m_graph m) ->
    (forall v, trains l v -> informed (m_graph m) E v) -> built_kind m = m_kind (l_prior l) -> m_kind m = m_kind (l_prior l) ->
    run_loop em_process_data (em_calculate query set_iter vt) (em_stop no_divergence) fuel max i l = (l', o) ->
    (forall e, o <> Raised e) /\
    exists m' F', l_model l' = Some m' /\ l_prior l' = l_prior l /\ m_graph m' = m_graph m /\ m_kind m' = m_kind (l_prior l) /\
      network m' D F' vt /\ nonnegative D F' /\ (likelihood D F data <= likelihood D F' data)%Qc /\
      (forall v, ~ trains l v -> F' v = F v).
  Proof.
    intros OD. induction fuel as [|fuel IH]; intros max i l m F l' o Rd Le Inf Kd Kd' Er; cbn [run_loop] in Er.
    - assert (Q : l' = l /\ forall e, o <> Raised e).
      { destruct (match max with Some k => _ | None => _ end); injection Er as <- <-; split; auto; discriminate. }
      destruct Q as [-> No]. split; [exact No|]. destruct Rd as ((El & Net & NN & _) & _). exists m, F. split; [exact El|].
      split; [auto|]. split; [auto|]. split; [exact Kd'|]. split; [auto|]. split; [auto|]. split; [apply Qcle_refl|auto].
    - destruct (match max with Some k => _ | None => _ end).
      2:{ injection Er as <- <-. split; [discriminate|]. destruct Rd as ((El & Net & NN & _) & _). exists m, F. split; [exact El|].
          split; [auto|]. split; [auto|]. split; [exact Kd'|]. split; [auto|]. split; [auto|]. split; [apply Qcle_refl|auto]. }
      destruct (step_more query set_iter vt Hq Hs D E data OD l m F Rd) as [S1 _].
      destruct S1 as (m' & F' & l1 & Es & P1 & P2 & P3 & P4 & Rd' & L & Un & Km). { intros v Tv _. now apply Inf. }
      unfold em_step in Es. rewrite Es in Er.
      assert (Rd'' := Rd'). destruct Rd'' as ((El & Net & NN & Gp & Dp & Ed & Mr & (tr & Et & It)) & Lr).
      destruct Le as (evo & p & Fp & Ev & Np & Gpp).
      assert (E1 : model_evolution l1 = evo ++ [p; m']) by (rewrite P3, Ev, <- app_assoc; reflexivity).
      destruct (em_stop no_divergence l1) as (s1 & r1) eqn:Est.
      assert (Est' := Est). unfold em_stop in Est. unfold trainable_list in Est. rewrite Et in Est.
      destruct (checked_ok p m' (m_graph m) Fp F' evo tr Np Net Gpp P4 ltac:(now rewrite <- P4) (em_converged (l_sub l1))) as (conv & Ecc).
      rewrite E1, Ecc in Est. cbn [bind] in Est. injection Est as <- <-.
      assert (K' : built_kind m' = m_kind (l_prior l)).
      { unfold built_kind. rewrite Km, P4. unfold built_kind in *. destruct (m_kind m) as [|en ca]; [exact Kd|].
        rewrite <- Kd. f_equal. destruct en as [|e en]; [|reflexivity]. cbn [scm_endo].
        destruct (filter _ (nodes (m_graph m))); reflexivity. }
      set (s1 := MkE (Some tr) conv (em_data (l_sub l1))) in *.
      destruct (set_eqb tr conv).
      { injection Er as <- <-. split; [discriminate|]. exists m', F'. cbn [with_sub l_model l_prior]. split; [exact El|]. split; [exact P1|].
        split; [exact P4|]. split; [congruence|]. split; [auto|]. split; [auto|]. split; [auto|]. exact Un. }
      assert (Rd2 : ready D vt E data (with_sub l1 s1) m' F').
      { apply check_converged_grows in Ecc as [Gr _].
        split; [|intros v (tr2 & Q & J) Cv; cbn in Q; apply Lr; [exists tr; split; [exact Et|congruence]|]; intros C; apply Cv; apply Gr; exact C].
        split; [exact El|]. split; [auto|]. split; [auto|]. split; [exact Gp|]. split; [exact Dp|]. split; [exact Ed|]. split; [auto|].
        exists tr. split; [reflexivity|auto]. }
      assert (Tt : forall v, trains (with_sub l1 s1) v <-> trains l v).
      { intros v. unfold trains. cbn [with_sub l_sub s1 em_trainable]. now rewrite <- P2, Et. }
      destruct (IH max (i + 1)%Z (with_sub l1 s1) m' F' l' o Rd2) as (No & m2 & F2 & X1 & X2 & X3 & X4 & X5 & X6 & X7 & X8); auto.
      + exists (evo ++ [p]), m', F'. split; [cbn; rewrite <- app_assoc; exact E1|]. split; [exact Net|reflexivity].
      + intros v Tv. rewrite P4. apply Inf, Tt, Tv.
      + cbn [with_sub l_prior]. rewrite P1. exact K'.
      + cbn [with_sub l_prior]. congruence.
      + split; [exact No|]. exists m2, F2. cbn [with_sub l_prior] in X2, X4. split; [exact X1|]. split; [congruence|]. split; [congruence|].
        split; [congruence|]. split; [auto|]. split; [auto|]. split; [eapply Qcle_trans; eauto|].
        intros v Nv. rewrite X8 by (rewrite Tt; exact Nv). now apply Un.
  Qed.

  (** A run with given variables to train. *)
  Lemma run_done data prior tr F fuel max l' o : network prior D F vt -> nonnegative D F -> describes D prior -> observes D data E ->
    (forall r, In r (f_rows data) -> mass D F (row_obs data r) <> 0%Qc) -> tr <> [] ->
    (forall v, In v tr -> learnable D F (m_graph prior) data E v /\ informed (m_graph prior) E v) ->
    (exists m0, m_copy prior = Ok m0 /\ built_kind m0 = m_kind prior /\ m_kind m0 = m_kind prior) ->
    em_run query set_iter no_divergence vt fuel (em_init prior (Some tr)) data max = (l', o) ->
    (forall e, o <> Raised e) /\
    exists m' F', l_model l' = Some m' /\ l_prior l' = prior /\ m_graph m' = m_graph prior /\ m_kind m' = m_kind prior /\
      network m' D F' vt /\ nonnegative D F' /\ (likelihood D F data <= likelihood D F' data)%Qc /\
      (forall v, ~ In v tr -> F' v = F v).
  Proof.
    intros Net NN Dp OD Mr Nt Ht (m0 & Ec & Kd & Kd') Er. assert (WG := net_wg _ D F vt Net). assert (NC := proj1 OD).
    destruct tr as [|t0 tr]; [congruence|]. clear Nt.
    unfold em_run, run, initialize in Er. cbn [l_prior em_init] in Er. rewrite Ec in Er.
    destruct (copy_network _ _ _ _ _ Net Ec) as [G0 Net0].
    unfold em_process_data in Er. cbn [l_model l_prior l_sub l_evo em_trainable em_converged em_data em_init with_sub] in Er.
    set (data' := add_missing prior data) in *. set (tr' := t0 :: tr) in *.
    assert (OD' := observes_added prior data WG NC D E OD). fold data' in OD'.
    set (l0 := MkL prior (Some m0) None (MkE (Some tr') [] (Some (m_graph m0, data')))) in *.
    assert (Rd : ready D vt E data' l0 m0 F).
    { split; [split; [reflexivity|]; split; [auto|]; split; [auto|]; split; [symmetry; exact G0|]; split; [exact Dp|]; split; [reflexivity|]; split|].
      - intros r' J. apply rows_added in J as (r & J & ->). unfold data'. rewrite row_obs_added; auto. apply OD, J.
      - exists tr'. split; [reflexivity|]. rewrite G0. intros v J. apply Ht, J.
      - intros v (tr2 & Q & J) _. cbn in Q. injection Q as <-. rewrite G0. apply (learnable_added _ _ WG NC D E OD). now apply Ht. }
    destruct (loop_done data' OD' fuel max 0%Z l0 m0 F l' o Rd) as (No & m' & F' & X1 & X2 & X3 & X4 & X5 & X6 & X7 & X8); auto.
    - exists [], prior, F. split; [reflexivity|]. split; [exact Net|congruence].
    - intros v (tr2 & Q & J). cbn in Q. injection Q as <-. rewrite G0. now apply Ht.
    - split; [exact No|]. exists m', F'. cbn [l0 l_prior] in X2, X4. split; [exact X1|]. split; [exact X2|]. split; [congruence|]. split; [exact X4|].
      split; [auto|]. split; [auto|]. split.
      + unfold data' in X7. now rewrite !(likelihood_added prior data WG NC D E OD) in X7.
      + intros v Nv. apply X8. intros (tr2 & Q & J). cbn in Q. injection Q as <-. contradiction.
  Qed.
End Runs.
