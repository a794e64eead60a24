(** The number a finite factor gives to an assignment, and how the operations
    act on it. *)

From Coq Require Import String Bool Arith ZArith QArith Qcanon Lia Permutation List.
From Verif Require Import PyBase PyFacts Num DomainModel NdArray StoreModel NumStore FactorModel Spec StoreSpec DomainFacts StoreFacts
  NumFacts PropFacts1 StoreMarg2 FactorSpec FactorFacts FactorFacts2 FactorFacts3 BigSum NetSem.
From Coq Require Import List.
Import ListNotations.
Local Open Scope nat_scope.
Local Arguments eqd : simpl never.

Definition fv (f : mfactor) (a : asg) : Qc :=
  match look (mf_store f) a with Some (Fin q) => q | _ => 0%Qc end.

(** A well-formed factor with finite values whose states are those of [D]. *)
Definition good (D : domain) (vt : vtype) (f : mfactor) : Prop :=
  wf_mf f /\ mf_vtype f = vt /\
  (forall v l, In (v, l) (mf_domain f) -> In (v, l) D) /\
  (forall o, full (mf_domain f) o -> exists q, mf_get_value f o = Ok (Fin q)).

Section Good.
  Variable D : domain.
  Hypothesis WD : wf_dom D.
  Variable vt : vtype.
  Notation good := (good D vt).
  Notation sm := (sm D).

  Lemma good_vars f : good f -> incl (mf_vars f) (keys D).
  Proof.
    intros (W & _ & I & _) v J. unfold mf_vars, keys in *. apply in_map_iff in J as ([w l] & <- & J). apply I in J.
    apply (in_map fst) in J. auto.
  Qed.
  Lemma good_valid f a : good f -> valid D a -> valid (mf_domain f) a.
  Proof. intros (_ & _ & I & _) V v l J. apply V. auto. Qed.
  Lemma good_full f o : good f -> full D o -> full (mf_domain f) o.
  Proof. intros (_ & _ & I & _) V v l J. apply V. auto. Qed.

  Lemma fv_dep f : good f -> dep (mf_vars f) (fv f).
  Proof.
    intros (W & _) a b E. unfold fv. destruct W as (Ws & _).
    pose proof (val_ext (mf_store f) Ws a b E) as H. unfold val in H.
    destruct (look (mf_store f) a) as [[]|], (look (mf_store f) b) as [[]|]; try congruence;
      try (unfold n0 in H; congruence).
  Qed.

  Lemma fv_get f a o : good f -> valid D a -> agrees o a (mf_vars f) -> mf_get_value f o = Ok (Fin (fv f a)).
  Proof.
    intros G V A. assert (Va := good_valid f a G V). destruct G as ((Ws & _) & _ & _ & F).
    destruct (get_value_look (mf_store f) o a Ws Va A) as (x & L & E).
    assert (Fo : full (mf_domain f) o) by (eapply valid_full; eauto).
    destruct (F o Fo) as (q & Q). unfold mf_get_value in *. unfold fv. rewrite L. rewrite E in Q. injection Q as ->. auto.
  Qed.
  Lemma fv_get_obs f o : good f -> full D o -> mf_get_value f o = Ok (Fin (fv f (asg_of o))).
  Proof.
    intros G F. apply fv_get; auto.
    - now apply full_valid.
    - assert (Ff := good_full f o G F). now apply full_agrees.
  Qed.

  Lemma agrees_sub o a vs ws : incl vs ws -> agrees o a ws -> agrees o a vs.
  Proof. intros I A v J. auto. Qed.

  Lemma obs_agrees a : agrees (obs_of (keys D) a) a (keys D).
  Proof. apply agrees_obs_of. Qed.

  (** Building goodness of a result from a formula for its values. *)
  Lemma good_intro f (g : asg -> Qc) : wf_mf f -> mf_vtype f = vt -> (forall v l, In (v, l) (mf_domain f) -> In (v, l) D) ->
    (forall o, full (mf_domain f) o -> exists q, mf_get_value f o = Ok (Fin q)) ->
    (forall a, valid D a -> mf_get_value f (obs_of (keys D) a) = Ok (Fin (g a))) ->
    good f /\ forall a, valid D a -> fv f a = g a.
  Proof.
    intros W T I F E. assert (G : good f) by (split; [auto|]; split; auto). split; [auto|].
    intros a V. assert (A : agrees (obs_of (keys D) a) a (mf_vars f)).
    { eapply agrees_sub; [|apply obs_agrees]. now apply good_vars. }
    pose proof (fv_get f a _ G V A) as H. rewrite (E a V) in H. congruence.
  Qed.

  Lemma compat_good f g : good f -> good g -> compatible (mf_domain f) (mf_domain g).
  Proof.
    intros (_ & _ & I & _) (_ & _ & J & _) v l1 l2 A B. apply I in A. apply J in B.
    apply (In_dget v l1 D (proj1 WD)) in A. apply (In_dget v l2 D (proj1 WD)) in B. congruence.
  Qed.

  Lemma get_combine f g (h : mfactor) o : good f -> good g -> full (join (mf_domain f) (mf_domain g)) o ->
    exists p q, mf_get_value f o = Ok (Fin p) /\ mf_get_value g o = Ok (Fin q).
  Proof.
    intros G1 G2 F. destruct (proj2 (proj2 (proj2 G1)) o) as (p & E1); [eapply full_join_l; eauto|].
    destruct (proj2 (proj2 (proj2 G2)) o) as (q & E2); [eapply full_join_r; eauto; now apply compat_good|]. eauto.
  Qed.

  Lemma full_obs_D a : valid D a -> full D (obs_of (keys D) a).
  Proof. intros V. eapply valid_full; [exact V|apply agrees_obs_of]. Qed.
  Lemma get_obs_D f a : good f -> valid D a -> mf_get_value f (obs_of (keys D) a) = Ok (Fin (fv f a)).
  Proof. intros G V. apply fv_get; auto. eapply agrees_sub; [now apply good_vars|apply obs_agrees]. Qed.
  Lemma full_join_D f g o : good f -> good g -> full D o -> full (join (mf_domain f) (mf_domain g)) o.
  Proof.
    intros G1 G2 F v l I. apply join_In in I. destruct I as [I|I]; apply F; [apply G1|apply G2]; auto.
  Qed.

  Lemma good_mul f g : good f -> good g ->
    exists h, mf_multiply f (OFac g) = Ok h /\ good h /\
      (forall v, In v (mf_vars h) <-> In v (mf_vars f) \/ In v (mf_vars g)) /\
      (forall v, In v (mf_left h) <-> In v (mf_left f) \/ In v (mf_left g)) /\
      forall a, valid D a -> fv h a = (fv f a * fv g a)%Qc.
  Proof.
    intros G1 G2. assert (C := compat_good f g G1 G2).
    destruct (mf_arith_ok nmul f g) as (h & E & W & T & Dh & L & R & V); auto.
    { apply G1. } { apply G2. } { destruct G1 as (_ & -> & _), G2 as (_ & -> & _). auto. }
    exists h. split; [exact E|].
    assert (Gh : good h /\ forall a, valid D a -> fv h a = (fv f a * fv g a)%Qc).
    { apply (good_intro h (fun a => fv f a * fv g a)%Qc).
      - auto.
      - destruct G1 as (_ & <- & _). auto.
      - intros v l I. rewrite Dh in I. apply join_In in I. destruct I as [I|I]; [apply G1|apply G2]; auto.
      - intros o F. rewrite Dh in F. destruct (get_combine f g h o G1 G2 F) as (p & q & E1 & E2).
        destruct (V o F) as (x & y & X & Y & Z). rewrite E1 in X. rewrite E2 in Y. injection X as <-. injection Y as <-. eauto.
      - intros a Va. destruct (V (obs_of (keys D) a)) as (x & y & X & Y & Z).
        { apply full_join_D; auto. now apply full_obs_D. }
        rewrite get_obs_D in X, Y by auto. injection X as <-. injection Y as <-. exact Z. }
    destruct Gh as [Gh V']. split; [auto|]. split; [|split; auto].
    intros v. unfold mf_vars. rewrite Dh. apply join_keys.
  Qed.

  Lemma div_fin p q : q <> 0%Qc -> div_op vt (Fin p) (Fin q) = Fin (p / q)%Qc.
  Proof.
    intros N. apply qzero_false in N. unfold div_op. destruct vt; unfold np_div, ndiv; rewrite N; reflexivity.
  Qed.

  Lemma good_marg f vs : good f -> NoDup vs -> incl vs (mf_vars f) ->
    exists h, mf_marginalize f vs = Ok h /\ good h /\ mf_domain h = drop vs (mf_domain f) /\
      (forall v, In v (mf_vars h) <-> In v (mf_vars f) /\ ~ In v vs) /\
      (forall v, In v (mf_left h) <-> In v (mf_left f) /\ ~ In v vs) /\
      forall a, valid D a -> fv h a = sm vs (fv f) a.
  Proof.
    intros G N I. destruct (mf_marginalize_ok f vs) as (h & E & W & T & Dh & R & L & V); auto. { apply G. }
    exists h. split; [exact E|].
    assert (Fin_all : forall o, full (mf_domain h) o -> exists q, mf_get_value h o = Ok (Fin q)).
    { intros o F. rewrite Dh in F. destruct (V o F) as (xs & X & Y). rewrite Y.
      assert (Z : exists qs, xs = map Fin qs).
      { assert (K : forall p x, In p (all_assignments (pick vs (mf_domain f))) -> mf_get_value f (p ++ o) = Ok x -> exists q, x = Fin q).
        { intros p x J H. destruct (proj2 (proj2 (proj2 G)) (p ++ o)) as (q & Q).
          - apply (full_app_within vs); auto. apply G.
          - rewrite Q in H. injection H as <-. eauto. }
        clear - X K. induction X as [|p x ps xs H X IH]; [exists []; auto|].
        destruct (K p x) as (q & ->); [now left|auto|]. destruct IH as (qs & ->); [intros; eapply K; eauto; now right|].
        exists (q :: qs). auto. }
      destruct Z as (qs & ->). rewrite nsum_Fin. eauto. }
    assert (Gh : good h /\ forall a, valid D a -> fv h a = sm vs (fv f) a).
    { apply good_intro; auto.
      - destruct G as (_ & <- & _). auto.
      - intros v l J. rewrite Dh in J. apply filter_In in J as [J _]. now apply G.
      - intros a Va. destruct (V (obs_of (keys D) a)) as (xs & X & Y).
        { apply full_drop. apply good_full; auto. now apply full_obs_D. }
        rewrite Y. f_equal.
        assert (Q : xs = map (fun o => Fin (fv f (over o a))) (all_assignments (pick vs (mf_domain f)))).
        { assert (K : forall p, In p (all_assignments (pick vs (mf_domain f))) ->
             mf_get_value f (p ++ obs_of (keys D) a) = Ok (Fin (fv f (over p a)))).
          { intros p J.
            assert (PP : In p (all_assignments (pick vs (mf_domain f)))) by auto.
            assert (Wf : wf_dom (mf_domain f)) by apply G.
            apply (all_assignments_In_full _ _ (proj1 (wf_pick vs _ Wf))) in J as [Kp Fp].
            apply fv_get; [auto| |].
            - intros v l J. unfold over. destruct (dget v p) as [s|] eqn:Es; [|now apply Va].
              assert (Ip : In v (keys (pick vs (mf_domain f)))) by (rewrite <- Kp; apply dget_keys; eauto).
              unfold keys in Ip. apply in_map_iff in Ip as ([w l'] & Ew & Ip). cbn in Ew. subst w.
              destruct (Fp v l' Ip) as (s' & Es' & Is). rewrite Es in Es'. injection Es' as <-.
              apply filter_In in Ip as [Ip _]. apply G in Ip.
              apply (In_dget v l D (proj1 WD)) in J. apply (In_dget v l' D (proj1 WD)) in Ip. congruence.
            - intros v J. unfold over. rewrite dget_app. destruct (dget v p); [auto|]. apply obs_agrees.
              now apply (good_vars f G). }
          clear - X K. induction X as [|p x ps xs H X IH]; [auto|]. cbn.
          rewrite (K p) in H by (now left). injection H as <-. f_equal. apply IH. intros. apply K. now right. }
        rewrite Q.
        rewrite <- (map_map (fun o => fv f (over o a)) Fin), nsum_Fin. unfold NetSem.sm. f_equal.
        rewrite <- bsum_qsum. change (sumdom 0%Qc Qcplus (pick vs (mf_domain f)) (fv f) a = sumdom 0%Qc Qcplus (pick vs D) (fv f) a).
        apply sumdom_perm; auto using Qcplus_comm, Qcplus_assoc, Qcplus_0_l.
        + eapply dep_ext. now apply fv_dep.
        + apply wf_pick. apply G.
        + apply NoDup_Permutation.
          * assert (Wp : wf_dom (pick vs (mf_domain f))) by (apply wf_pick; apply G). destruct Wp as [Np _].
            unfold keys in Np. now apply NoDup_map_inv in Np.
          * destruct (wf_pick vs D WD) as [Np _]. unfold keys in Np. now apply NoDup_map_inv in Np.
          * intros [v l]. unfold pick. rewrite !filter_In. cbn. split.
            -- intros [J M]. split; [now apply G|auto].
            -- intros [J M]. split; [|auto]. apply mem_In in M. apply I in M. unfold mf_vars, keys in M.
               apply in_map_iff in M as ([w l'] & Ew & M). cbn in Ew. subst w. assert (M' := M). apply G in M'.
               apply (In_dget v l D (proj1 WD)) in J. apply (In_dget v l' D (proj1 WD)) in M'. congruence. }
    destruct Gh as [Gh V']. split; [auto|]. split; [auto|]. split; [|split; auto].
    intros v. unfold mf_vars. rewrite Dh. apply In_keys_drop.
  Qed.

  Lemma good_restrict f e : good f -> known D e ->
    exists h, mf_restrict f e = Ok h /\ good h /\ mf_domain h = drop (keys e) (mf_domain f) /\
      (forall v, In v (mf_vars h) <-> In v (mf_vars f) /\ ~ In v (keys e)) /\
      (forall v, In v (mf_left h) <-> In v (mf_left f) /\ ~ In v (keys e)) /\
      forall a, valid D a -> fv h a = fv f (over e a).
  Proof.
    intros G K. destruct (mf_restrict_ok f e) as (h & E & W & T & Dh & R & L & V). { apply G. }
    { intros v l x J Q. eapply K; eauto. now apply G. }
    exists h. split; [exact E|].
    assert (Gh : good h /\ forall a, valid D a -> fv h a = fv f (over e a)).
    { apply good_intro; auto.
      - destruct G as (_ & <- & _). auto.
      - intros v l J. rewrite Dh in J. apply filter_In in J as [J _]. now apply G.
      - intros o F. rewrite Dh in F. destruct (V o F) as (x & X & Y). rewrite X.
        destruct (proj2 (proj2 (proj2 G)) (e ++ o)) as (q & Q); [|rewrite Q in Y; injection Y as <-; eauto].
        intros v l J. rewrite dget_app. destruct (dget v e) as [s|] eqn:Es.
        + exists s. split; [auto|]. eapply K; eauto. now apply G.
        + apply F. unfold drop. apply filter_In. split; [auto|]. cbn. apply negb_true_iff. apply mem_nIn. now apply dget_None.
      - intros a Va. destruct (V (obs_of (keys D) a)) as (x & X & Y).
        { apply full_drop. apply good_full; auto. now apply full_obs_D. }
        rewrite X. rewrite <- Y. apply fv_get; auto.
        + intros v l J. unfold over. destruct (dget v e) as [s|] eqn:Es; [eapply K; eauto|now apply Va].
        + intros v J. unfold over. rewrite dget_app. destruct (dget v e); [auto|]. apply obs_agrees. now apply (good_vars f G). }
    destruct Gh as [Gh V']. split; [auto|]. split; [auto|]. split; [|split; auto].
    intros v. unfold mf_vars. rewrite Dh. apply In_keys_drop.
  Qed.

  Lemma good_div f g : good f -> good g ->
    exists h, mf_divide f (OFac g) = Ok h /\ wf_mf h /\ mf_vtype h = vt /\
      mf_domain h = join (mf_domain f) (mf_domain g) /\
      (forall v, In v (mf_left h) <-> In v (mf_left f) /\ ~ In v (mf_vars g)) /\
      (forall v, In v (mf_right h) <-> In v (mf_right f) \/ In v (mf_vars g)) /\
      forall o, full (join (mf_domain f) (mf_domain g)) o ->
        exists x y, mf_get_value f o = Ok (Fin x) /\ mf_get_value g o = Ok (Fin y) /\
          mf_get_value h o = Ok (div_op vt (Fin x) (Fin y)).
  Proof.
    intros G1 G2. assert (C := compat_good f g G1 G2).
    destruct (mf_divide_ok f g) as (h & E & W & T & Dh & L & R & V); auto.
    { apply G1. } { apply G2. } { destruct G1 as (_ & -> & _), G2 as (_ & -> & _). auto. }
    exists h. split; [exact E|]. split; [auto|]. split; [destruct G1 as (_ & <- & _); auto|]. split; [auto|]. split; [auto|]. split; [auto|].
    intros o F. destruct (V o F) as (x & y & X & Y & Z). destruct (get_combine f g h o G1 G2 F) as (p & q & E1 & E2).
    rewrite E1 in X. rewrite E2 in Y. injection X as <-. injection Y as <-. exists p, q.
    destruct G1 as (_ & <- & _). auto.
  Qed.
End Good.
