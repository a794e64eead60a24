(** The answers to different queries fit together. *)

From Coq Require Import String Bool Arith Lia ZArith QArith Qcanon Permutation List.
From Verif Require Import PyBase PyFacts Num DomainModel NdArray StoreModel NumStore FactorModel Spec StoreSpec DomainFacts StoreFacts
  NumFacts PropFacts1 PropFacts2 StoreMarg2 FactorSpec FactorFacts FactorFacts2 FactorFacts3 BigSum GraphModel GraphSpec GraphFacts GraphFacts2
  ModelModel ModelSpec ModelFacts BuildFacts InferModel CausalModel CausalSpec CausalFacts CausalFacts2 NetSpec NetSem FactorSem NetFacts VeFacts VeFacts2 VeFacts3 VeFacts4 VeFacts5
  OrderSpec OrderFacts PropFacts4 SepSpec SepFacts1 SepFacts2 SepFacts3 CalcFacts1 CalcFacts2 CalcFacts3 CoherSpec.
From Coq Require Import List.
Import ListNotations.
Local Open Scope nat_scope.
Local Arguments eqd : simpl never.

Lemma dget_obs_of_out T a v : ~ In v T -> dget v (obs_of T a) = None.
Proof. intros N. apply dget_None. unfold obs_of, keys. now rewrite map_map, map_id. Qed.
Lemma NoDup_app_parts {A} (l1 l2 : list A) : NoDup (l1 ++ l2) -> NoDup l1 /\ NoDup l2 /\ forall x, In x l1 -> ~ In x l2.
Proof.
  intros N. split; [eapply NetFacts.NoDup_app_l; eauto|]. split; [eapply NetFacts.NoDup_app_r; eauto|].
  intros x J K. eapply NetFacts.NoDup_app_disj; eauto.
Qed.
Lemma keys_obs T a : keys (obs_of T a) = T.
Proof. unfold obs_of, keys. rewrite map_map. apply map_id. Qed.

(** Any engine [Q] that answers with the probabilities of some network, about
    the variables [A]. *)
Section Answers.
  Variables (m : pgm) (D : domain) (F : var -> mfactor) (vt : vtype).
  Hypothesis H : network m D F vt.
  Let WD : wf_dom D := net_wd m D F vt H.
  Notation good := (good D vt).
  Variables (A : list var) (Q : list var -> obs -> res mfactor).
  Hypothesis HQ : forall e T, NoDup T -> T <> [] -> incl T A -> incl (keys e) A -> (forall v, In v T -> ~ In v (keys e)) -> mass D F e <> 0%Qc ->
    exists r, Q T e = Ok r /\ wf_mf r /\ mf_vtype r = vt /\ same_set (mf_vars r) T /\ (forall v l, In (v, l) (mf_domain r) -> In (v, l) D) /\
      (forall t, assigns D T t -> mf_get_value r t = Ok (Fin (mass D F (t ++ e) / mass D F e)%Qc)).

  Lemma agrees_over T t a f : assigns D T t -> (forall v, In v (mf_vars f) -> In v T) -> agrees t (over t a) (mf_vars f).
  Proof.
    intros [Kt _] I v J. unfold over. destruct (dget v t) eqn:E; [reflexivity|]. exfalso. apply dget_None in E. apply E.
    rewrite Kt. auto.
  Qed.

  Lemma same_fv T f r : good f -> good r -> (forall v, In v (mf_vars f) -> In v T) -> (forall v, In v (mf_vars r) -> In v T) ->
    (forall a, valid D a -> fv f a = fv r a) -> same_table D T f r.
  Proof.
    intros Gf Gr If Ir E t At. destruct (some_valid D WD) as (a & Va). assert (V := assigns_valid D T t a At Va).
    exists (fv f (over t a)). split.
    - eapply fv_get; eauto. eapply agrees_over; eauto.
    - rewrite (E _ V). eapply fv_get; eauto. eapply agrees_over; eauto.
  Qed.

  (** an answer is a finite table of the conditional probabilities *)
  Lemma answer e T : NoDup T -> T <> [] -> incl T A -> incl (keys e) A -> (forall v, In v T -> ~ In v (keys e)) -> mass D F e <> 0%Qc ->
    exists r, Q T e = Ok r /\ good r /\ (forall v, In v (mf_vars r) <-> In v T) /\
      forall a, valid D a -> fv r a = (mass D F (obs_of T a ++ e) / mass D F e)%Qc.
  Proof.
    intros N T0 IT Ie Dj M. destruct (HQ e T N T0 IT Ie Dj M) as (r & E & W & Tv & V & Rd & X).
    exists r. split; [exact E|]. 
    assert (G : good r).
    { split; [exact W|]. split; [exact Tv|]. split; [exact Rd|]. intros o Fo. destruct (some_valid D WD) as (a0 & Va).
      set (a := fun v => if mem v (mf_vars r) then over o a0 v else a0 v).
      assert (Vd : valid D a).
      { intros v l J. unfold a. destruct (mem v (mf_vars r)) eqn:Em; [|now apply Va]. apply mem_In, keys_In in Em as (l' & J').
        assert (l' = l) as ->. { apply Rd in J'. apply (In_dget v l' D (proj1 WD)) in J'. apply (In_dget v l D (proj1 WD)) in J. congruence. }
        destruct (Fo v l J') as (s & Es & Js). unfold over. now rewrite Es. }
      eexists. rewrite <- (X (obs_of T a) (assigns_obs D T a Vd)). unfold mf_get_value. symmetry. apply get_value_agree; [apply W|exact Fo|].
      intros v J. rewrite obs_of_get by (apply V; exact J). unfold a. assert (Em : mem v (mf_vars r) = true) by now apply mem_In. rewrite Em.
      apply keys_In in J as (l & J). destruct (Fo v l J) as (s & Es & _). unfold over. now rewrite Es. }
    split; [exact G|]. split; [exact V|]. intros a Va.
    assert (E1 : mf_get_value r (obs_of T a) = Ok (Fin (fv r a))).
    { eapply fv_get; eauto. intros v J. apply obs_of_get. now apply V. }
    rewrite (X _ (assigns_obs D T a Va)) in E1. now injection E1 as <-.
  Qed.

  Lemma mass_more T S e a : known D e -> valid D a -> (forall v, In v S -> ~ In v T /\ ~ In v (keys e)) ->
    sm D S (fun b => mass D F (obs_of (T ++ S) b ++ e)) a = mass D F (obs_of T a ++ e).
  Proof.
    intros Ke Va Dj. rewrite <- (mass_total m D F vt H S (obs_of T a ++ e) a).
    - apply (sm_ext D WD); auto. intros b Vb Eb. apply mass_same. intros x. rewrite !dget_app.
      destruct (in_dec eqd x S) as [J|J].
      + rewrite (obs_of_get (T ++ S) b x) by (apply in_or_app; auto). now rewrite (obs_of_get S b x).
      + rewrite (dget_obs_of_out S b x) by auto. destruct (in_dec eqd x T) as [J'|J'].
        * rewrite (obs_of_get (T ++ S) b x) by (apply in_or_app; auto). rewrite (obs_of_get T a x) by auto. now rewrite Eb.
        * rewrite !dget_obs_of_out; auto. rewrite in_app_iff. tauto.
    - apply known_app; auto. eapply assigns_known, assigns_obs; eauto.
    - auto.
    - intros v J K. rewrite keys_app, keys_obs in K. destruct (Dj v J). apply in_app_or in K. tauto.
  Qed.

  Lemma sm_div S (g : asg -> Qc) c a : sm D S (fun b => g b / c)%Qc a = (sm D S g a / c)%Qc.
  Proof.
    unfold sm, sumdom. rewrite !bsum_qsum. unfold Qcdiv. rewrite Qcmult_comm. rewrite <- qsum_scale. apply (f_equal qsum).
    apply map_ext. intros z. apply Qcmult_comm.
  Qed.

  Lemma app_nonempty (T S : list var) : T <> [] -> T ++ S <> [].
  Proof. destruct T; [congruence|discriminate]. Qed.

  (** summing variables out of an answer answers the smaller query *)
  Lemma marginalized e T S : NoDup (T ++ S) -> T <> [] -> incl (T ++ S) A -> incl (keys e) A -> (forall v, In v (T ++ S) -> ~ In v (keys e)) ->
    mass D F e <> 0%Qc ->
    exists r f r', Q (T ++ S) e = Ok r /\ mf_marginalize r S = Ok f /\ Q T e = Ok r' /\ same_table D T f r'.
  Proof.
    intros N T0 I Ie Dj M. destruct (NoDup_app_parts T S N) as (NT & NS & NTS).
    destruct (answer e (T ++ S)) as (r & Er & Gr & Vr & Xr); auto using app_nonempty.
    destruct (answer e T) as (r' & Er' & Gr' & Vr' & Xr'); auto.
    { intros v J. apply I, in_or_app. auto. } { intros v J. apply Dj, in_or_app. auto. }
    destruct (good_marg D WD vt r S Gr NS) as (f & Ef & Gf & _ & Vf & _ & Xf). { intros v J. apply Vr, in_or_app. auto. }
    exists r, f, r'. do 3 (split; [assumption|]). apply same_fv; auto.
    - intros v J. apply Vf in J as [J K]. apply Vr, in_app_or in J as [J|J]; [auto|contradiction].
    - intros v J. now apply Vr'.
    - intros a Va. rewrite (Xf a Va), (Xr' a Va). rewrite <- (mass_more T S e a).
      + rewrite <- sm_div. apply (sm_ext D WD); auto.
      + eapply mass_known; eauto.
      + auto.
      + intros v J. split; [intros K; now apply (NTS v)|apply Dj, in_or_app; auto].
  Qed.

  (** fixing variables of an answer and normalising answers the query with more evidence *)
  Lemma observed e T S s : NoDup (T ++ S) -> T <> [] -> incl (T ++ S) A -> incl (keys e) A -> (forall v, In v (T ++ S) -> ~ In v (keys e)) ->
    assigns D S s -> mass D F (s ++ e) <> 0%Qc -> mass D F e <> 0%Qc ->
    exists r f g h r', Q (T ++ S) e = Ok r /\ mf_restrict r s = Ok f /\ mf_marginalize f T = Ok g /\
      mf_divide f (OFac g) = Ok h /\ Q T (s ++ e) = Ok r' /\ same_table D T h r'.
  Proof.
    intros N T0 I Ie Dj As Ms M. destruct (NoDup_app_parts T S N) as (NT & NS & NTS). assert (Ks := proj1 As).
    assert (Kn : known D (s ++ e)) by (eapply mass_known; eauto).
    destruct (answer e (T ++ S)) as (r & Er & Gr & Vr & Xr); auto using app_nonempty.
    destruct (answer (s ++ e) T) as (r' & Er' & Gr' & Vr' & Xr'); auto.
    { intros v J. apply I, in_or_app. auto. }
    { intros v J. rewrite keys_app, Ks in J. apply in_app_or in J as [J|J]; [apply I, in_or_app; auto|auto]. }
    { intros v J K. rewrite keys_app, Ks in K. apply in_app_or in K as [K|K]; [now apply (NTS v)|]. apply (Dj v); auto. apply in_or_app. auto. }
    destruct (good_restrict D vt r s Gr (assigns_known D S s As)) as (f & Ef & Gf & Df & Vf & _ & Xf).
    assert (Vf' : forall v, In v (mf_vars f) <-> In v T).
    { intros v. rewrite Vf, Vr, Ks, in_app_iff. split; [tauto|]. intros J. split; [auto|]. now apply NTS. }
    destruct (good_marg D WD vt f T Gf NT) as (g & Eg & Gg & _ & Vg & _ & Xg). { intros v J. now apply Vf'. }
    destruct (good_div D WD vt f g Gf Gg) as (h & Eh & _ & _ & _ & _ & _ & Xh).
    exists r, f, g, h, r'. do 5 (split; [assumption|]).
    assert (Yf : forall a, valid D a -> fv f a = (mass D F (obs_of T a ++ s ++ e) / mass D F e)%Qc).
    { intros a Va. rewrite (Xf a Va), (Xr (over s a)) by (apply over_valid; auto; eapply assigns_known; eauto).
      unfold Qcdiv. f_equal. apply mass_same. intros x. rewrite !dget_app. destruct (in_dec eqd x T) as [J|J].
      - rewrite (obs_of_get (T ++ S)) by (apply in_or_app; auto). rewrite (obs_of_get T) by auto. unfold over.
        rewrite (proj2 (dget_None x s)); [reflexivity|]. rewrite Ks. now apply NTS.
      - rewrite (dget_obs_of_out T) by auto. destruct (in_dec eqd x S) as [J'|J'].
        + rewrite (obs_of_get (T ++ S)) by (apply in_or_app; auto). unfold over. destruct (dget x s) eqn:E; [reflexivity|].
          exfalso. apply dget_None in E. apply E. now rewrite Ks.
        + rewrite dget_obs_of_out by (rewrite in_app_iff; tauto). rewrite (proj2 (dget_None x s)); [reflexivity|]. now rewrite Ks. }
    intros t At. destruct (some_valid D WD) as (a0 & Va0). assert (Va := assigns_valid D T t a0 At Va0). set (a := over t a0) in *.
    assert (Ff : full (mf_domain f) t).
    { eapply valid_full; [eapply good_valid; eauto|]. eapply (agrees_over T t a0 f); eauto. intros v J. now apply Vf'. }
    destruct (Xh t) as (x & y & E1 & E2 & E3).
    { apply PropFacts2.full_join; auto. intros v l J. exfalso. assert (K : In v (mf_vars g)) by (apply keys_In; eauto). apply Vg in K as [K1 K2]. now apply Vf' in K1. }
    assert (E1' : mf_get_value f t = Ok (Fin (fv f a))).
    { eapply fv_get; eauto. apply agrees_over with T; auto. intros v J. now apply Vf'. }
    assert (E2' : mf_get_value g t = Ok (Fin (fv g a))).
    { eapply fv_get; eauto. intros v J. exfalso. apply Vg in J as [K1 K2]. now apply Vf' in K1. }
    rewrite E1' in E1. rewrite E2' in E2. injection E1 as <-. injection E2 as <-.
    assert (Y : fv g a = (mass D F (s ++ e) / mass D F e)%Qc).
    { rewrite (Xg a Va). rewrite <- (mass_total m D F vt H T (s ++ e) a); auto.
      - rewrite <- sm_div. apply (sm_ext D WD); auto.
      - intros v J K. rewrite keys_app, Ks in K. apply in_app_or in K as [K|K]; [now apply (NTS v)|]. apply (Dj v); auto. apply in_or_app. auto. }
    assert (Y0 : fv g a <> 0%Qc).
    { rewrite Y. intros Z. apply Ms. replace (mass D F (s ++ e)) with (mass D F (s ++ e) / mass D F e * mass D F e)%Qc by (field; auto). rewrite Z. ring. }
    rewrite (div_fin vt _ _ Y0) in E3. exists (fv f a / fv g a)%Qc. split; [exact E3|].
    assert (E4 : mf_get_value r' t = Ok (Fin (fv r' a))).
    { eapply fv_get; eauto. apply agrees_over with T; auto. intros v J. now apply Vr'. }
    rewrite E4, (Xr' a Va), Y, (Yf a Va). do 2 f_equal. field. auto.
  Qed.

End Answers.

Section Coherent.
  Variables (m : pgm) (D : domain) (F : var -> mfactor) (vt : vtype).
  Hypothesis H : network m D F vt.
  Let WD : wf_dom D := net_wd m D F vt H.
  Notation ns := (nodes (m_graph m)).
  Variables (heur : digraph -> list var -> dict var nat -> res (list var)) (so : list (list var) -> list var).
  Hypothesis Hh : is_heuristic heur.
  Hypothesis Hs : is_set_order so.

  Lemma asks e T : NoDup T -> T <> [] -> incl T ns -> incl (keys e) ns -> (forall v, In v T -> ~ In v (keys e)) -> mass D F e <> 0%Qc ->
    exists r, ve_query heur so m T None e = Ok r /\ wf_mf r /\ mf_vtype r = vt /\ same_set (mf_vars r) T /\ (forall v l, In (v, l) (mf_domain r) -> In (v, l) D) /\
      (forall t, assigns D T t -> mf_get_value r t = Ok (Fin (mass D F (t ++ e) / mass D F e)%Qc)).
  Proof.
    intros N T0 IT Ie Dj M. destruct (posterior m D F vt H e T heur so Hh Hs N T0 IT Ie Dj M) as (r & E & W & Tv & V & _ & _ & Rd & X & _).
    exists r. do 5 (split; [assumption|]). exact X.
  Qed.

  Lemma ve_marginalized e T S : NoDup (T ++ S) -> T <> [] -> incl (T ++ S) ns -> incl (keys e) ns -> (forall v, In v (T ++ S) -> ~ In v (keys e)) ->
    mass D F e <> 0%Qc ->
    exists r f r', ve_query heur so m (T ++ S) None e = Ok r /\ mf_marginalize r S = Ok f /\ ve_query heur so m T None e = Ok r' /\ same_table D T f r'.
  Proof. exact (marginalized m D F vt H ns (fun T e => ve_query heur so m T None e) asks e T S). Qed.
  Lemma ve_observed e T S s : NoDup (T ++ S) -> T <> [] -> incl (T ++ S) ns -> incl (keys e) ns -> (forall v, In v (T ++ S) -> ~ In v (keys e)) ->
    assigns D S s -> mass D F (s ++ e) <> 0%Qc -> mass D F e <> 0%Qc ->
    exists r f g h r', ve_query heur so m (T ++ S) None e = Ok r /\ mf_restrict r s = Ok f /\ mf_marginalize f T = Ok g /\
      mf_divide f (OFac g) = Ok h /\ ve_query heur so m T None (s ++ e) = Ok r' /\ same_table D T h r'.
  Proof. exact (observed m D F vt H ns (fun T e => ve_query heur so m T None e) asks e T S s). Qed.

  (** the table given [C], at [c], is the answer with the evidence [c] *)
  Lemma given e T C c : NoDup T -> NoDup C -> T <> [] -> incl T ns -> incl C ns -> incl (keys e) ns -> (forall v, In v (T ++ C) -> ~ In v (keys e)) ->
    (forall v, In v T -> ~ In v C) -> assigns D C c -> mass D F (c ++ e) <> 0%Qc -> mass D F e <> 0%Qc ->
    exists r f r', ve_query heur so m T (Some C) e = Ok r /\ mf_restrict r c = Ok f /\ ve_query heur so m T None (c ++ e) = Ok r' /\ same_table D T f r'.
  Proof.
    intros NT NC T0 IT IC Ie Dj TC Ac Mc M. assert (Kc := proj1 Ac).
    destruct (conditional m D F vt H e T C heur so Hh Hs NT NC T0 IT IC Ie Dj TC M) as (r & Er & W & Tv & V & _ & _ & Rd & X & _).
    destruct (asks (c ++ e) T) as (r' & Er' & _ & _ & _ & _ & X2); auto.
    { intros v J. rewrite keys_app, Kc in J. apply in_app_or in J as [J|J]; auto. }
    { intros v J K. rewrite keys_app, Kc in K. apply in_app_or in K as [K|K]; [now apply (TC v)|]. apply (Dj v); auto. apply in_or_app. auto. }
    destruct (mf_restrict_ok r c W) as (f & Ef & Wf & _ & Df & _ & _ & Xf).
    { intros v l x J E. apply Rd in J. eapply (assigns_known D C c Ac); eauto. }
    exists r, f, r'. do 3 (split; [assumption|]). intros t At.
    assert (Ft : full (drop (keys c) (mf_domain r)) t).
    { intros v l J. apply filter_In in J as [J K]. cbn in K. rewrite Kc in K. assert (Jv : In v (mf_vars r)) by (apply keys_In; eauto).
      apply V, in_app_or in Jv as [Jv|Jv].
      - apply (proj2 At). apply filter_In. split; [now apply Rd|]. now apply mem_In.
      - exfalso. apply mem_In in Jv. now rewrite Jv in K. }
    destruct (Xf t Ft) as (x & E1 & E2).
    assert (E3 : mf_get_value r (t ++ c) = Ok x).
    { rewrite <- E2. unfold mf_get_value. apply get_value_agree; [apply W| |].
      - intros v l J. assert (Jv : In v (mf_vars r)) by (apply keys_In; eauto). rewrite dget_app.
        destruct (dget v c) as [y|] eqn:Ey; [exists y; split; auto; eapply (assigns_known D C c Ac); eauto|].
        apply Ft. apply filter_In. split; [auto|]. cbn. apply dget_None in Ey. apply negb_true_iff, not_true_is_false. intros Z. apply mem_In in Z. contradiction.
      - intros v J. rewrite !dget_app. destruct (dget v t) eqn:Et, (dget v c) eqn:Ec; auto. exfalso. apply (TC v).
        + rewrite <- (proj1 At). apply dget_keys. eauto.
        + rewrite <- Kc. apply dget_keys. eauto. }
    rewrite (X t c At Ac Mc) in E3. injection E3 as <-. eexists. split; [exact E1|].
    exact (X2 t At).
  Qed.

  (** the chain rule *)
  Lemma chained e T C : NoDup (T ++ C) -> T <> [] -> C <> [] -> incl (T ++ C) ns -> incl (keys e) ns -> (forall v, In v (T ++ C) -> ~ In v (keys e)) ->
    mass D F e <> 0%Qc ->
    exists r p h j, ve_query heur so m T (Some C) e = Ok r /\ ve_query heur so m C None e = Ok p /\ mf_multiply r (OFac p) = Ok h /\
      ve_query heur so m (T ++ C) None e = Ok j /\
      (forall t c, assigns D T t -> assigns D C c -> mass D F (c ++ e) <> 0%Qc \/ (nonnegative D F /\ vt = VNumpy) ->
         exists q, mf_get_value h (t ++ c) = Ok (Fin q) /\ mf_get_value j (t ++ c) = Ok (Fin q)) /\
      (forall t c, assigns D T t -> assigns D C c -> mass D F (c ++ e) = 0%Qc -> nonnegative D F -> vt <> VNumpy ->
         mf_get_value h (t ++ c) = Ok NaN /\ mf_get_value j (t ++ c) = Ok (Fin 0%Qc)).
  Proof.
    intros N T0 C0 I Ie Dj M. destruct (NoDup_app_parts T C N) as (NT & NC & TC).
    assert (IT : incl T ns) by (intros v J; apply I, in_or_app; auto). assert (IC : incl C ns) by (intros v J; apply I, in_or_app; auto).
    destruct (conditional m D F vt H e T C heur so Hh Hs NT NC T0 IT IC Ie Dj TC M) as (r & Er & W & Tv & V & _ & _ & Rd & X & X0).
    destruct (posterior m D F vt H e C heur so Hh Hs NC C0 IC Ie) as (p & Ep & Wp & Tp & Vp & _ & _ & Rp & Xp & _); auto.
    { intros v J. apply Dj, in_or_app. auto. }
    destruct (posterior m D F vt H e (T ++ C) heur so Hh Hs N (app_nonempty T C T0) I Ie) as (j & Ej & _ & _ & _ & _ & _ & _ & Xj & _); auto.
    assert (Cp : compatible (mf_domain r) (mf_domain p)).
    { intros v l1 l2 J1 J2. apply Rd in J1. apply Rp in J2. apply (In_dget v l1 D (proj1 WD)) in J1. apply (In_dget v l2 D (proj1 WD)) in J2. congruence. }
    destruct (mf_arith_ok nmul r p W Wp (eq_trans Tv (eq_sym Tp)) Cp) as (h & Eh & _ & _ & Dh & _ & _ & Xh).
    exists r, p, h, j. do 4 (split; [assumption|]).
    assert (Y : forall t c, assigns D T t -> assigns D C c -> exists x, mf_get_value r (t ++ c) = Ok x /\
              mf_get_value h (t ++ c) = Ok (nmul x (Fin (mass D F (c ++ e) / mass D F e)%Qc)) /\
              mf_get_value j (t ++ c) = Ok (Fin (mass D F (t ++ c ++ e) / mass D F e)%Qc)).
    { intros t c At Ac. 
      assert (Fr : full (mf_domain r) (t ++ c)).
      { intros v l J. assert (Jv : In v (mf_vars r)) by (apply keys_In; eauto). apply Rd in J. rewrite dget_app. apply V, in_app_or in Jv.
        destruct (dget v t) as [y|] eqn:Ey; [exists y; split; auto; eapply (assigns_known D T t At); eauto|].
        destruct Jv as [Jv|Jv]; [exfalso; apply dget_None in Ey; apply Ey; rewrite (proj1 At); auto|].
        apply (proj2 Ac). apply filter_In. split; [auto|]. now apply mem_In. }
      assert (Fp : full (mf_domain p) c).
      { intros v l J. assert (Jv : In v (mf_vars p)) by (apply keys_In; eauto). apply (proj2 Ac). apply filter_In. split; [now apply Rp|]. apply mem_In. now apply Vp. }
      assert (Ag : forall v, In v (mf_vars p) -> dget v (t ++ c) = dget v c).
      { intros v J. rewrite dget_app. rewrite (proj2 (dget_None v t)); [reflexivity|]. rewrite (proj1 At). intros K. apply (TC v K). now apply Vp. }
      assert (Fp' : full (mf_domain p) (t ++ c)).
      { intros v l J. rewrite Ag by (apply keys_In; eauto). auto. }
      destruct (Xh (t ++ c) (PropFacts2.full_join _ _ _ Fr Fp')) as (x & y & E1 & E2 & E3). exists x. split; [exact E1|].
      assert (E2' : mf_get_value p (t ++ c) = mf_get_value p c) by (unfold mf_get_value; apply get_value_agree; [apply Wp|exact Fp|exact Ag]).
      rewrite E2', (Xp c Ac) in E2. injection E2 as <-. split; [exact E3|]. rewrite app_assoc. apply Xj. now apply CalcFacts3.assigns_app. }
    assert (Z : forall t c, assigns D T t -> assigns D C c -> nonnegative D F -> mass D F (c ++ e) = 0%Qc -> mass D F (t ++ c ++ e) = 0%Qc).
    { intros t c At Ac NN Z. apply (mass_zero m D F vt H T (c ++ e) t); auto.
      - apply known_app; [eapply assigns_known; eauto|eapply mass_known; eauto].
      - eapply nodes_keys; eauto.
      - intros v J K. rewrite keys_app, (proj1 Ac) in K. apply in_app_or in K as [K|K]; [now apply (TC v)|]. apply (Dj v); auto. apply in_or_app. auto. }
    split.
    - intros t c At Ac Hz. destruct (Y t c At Ac) as (x & E1 & E2 & E3). destruct (Qc_eq_dec (mass D F (c ++ e)) 0%Qc) as [Ez|Nz].
      + destruct Hz as [Hz|[NN Ev]]; [contradiction|]. rewrite (X0 t c At Ac NN Ez), Ev in E1. injection E1 as <-.
        rewrite E2, E3, (Z t c At Ac NN Ez). exists 0%Qc. rewrite Ez. split; [|do 2 f_equal; unfold Qcdiv; ring].
        cbn [nmul]. do 2 f_equal.
      + rewrite (X t c At Ac Nz) in E1. injection E1 as <-. rewrite E2, E3. eexists. split; [|reflexivity]. cbn [nmul]. do 2 f_equal. field. auto.
    - intros t c At Ac Ez NN Nv. destruct (Y t c At Ac) as (x & E1 & E2 & E3). rewrite (X0 t c At Ac NN Ez) in E1.
      rewrite E2, E3, (Z t c At Ac NN Ez). split; [|do 2 f_equal; unfold Qcdiv; ring].
      destruct vt; try congruence; injection E1 as <-; reflexivity.
  Qed.
End Coherent.

Section Causal.
  Variables (m : pgm) (D : domain) (F : var -> mfactor) (vt : vtype) (endo : list var) (cast : bool).
  Hypothesis H : causal m D F vt endo cast.
  Hypothesis PR : plain_roots m.
  Notation g := (m_graph m).
  Variables (heur : digraph -> list var -> dict var nat -> res (list var)) (so : list (list var) -> list var).
  Hypothesis Hh : is_heuristic heur.
  Hypothesis Hs : is_set_order so.
  Variable d : obs.
  Hypothesis Nd : NoDup (keys d).
  Hypothesis Id : incl (keys d) (nodes g).
  Hypothesis Kd : known D d.

  Definition askable : list var := filter (fun v => negb (mem v (keys d))) (nodes g).
  Lemma askable_In vs : incl vs (nodes g) -> (forall v, In v vs -> ~ In v (keys d)) -> incl vs askable.
  Proof. intros I N v J. apply filter_In. split; [auto|]. apply negb_true_iff, not_true_is_false. intros K. apply mem_In in K. now apply (N v). Qed.
  Lemma askable_out vs : incl vs askable -> incl vs (nodes g) /\ forall v, In v vs -> ~ In v (keys d).
  Proof.
    intros I. split; intros v J; apply I, filter_In in J as [J K]; [auto|]. intros Z. apply mem_In in Z. rewrite Z in K. discriminate.
  Qed.
  Lemma outside_self e : (forall v, In v (keys e) -> ~ In v (keys d)) -> outside d e = e.
  Proof.
    unfold outside. induction e as [|[v x] e IH]; intros N; [reflexivity|]. cbn [filter fst]. destruct (mem v (keys d)) eqn:Em.
    - exfalso. apply mem_In in Em. apply (N v); [now left|auto].
    - cbn [negb]. f_equal. apply IH. intros w J. apply N. now right.
  Qed.

  Lemma causal_network_asks : exists m1 mw Fw, cve_init m = Ok m1 /\ network mw D Fw vt /\ (forall t, mass D Fw t = do_mass D F d t) /\
    forall e T, NoDup T -> T <> [] -> incl T askable -> incl (keys e) askable -> (forall v, In v T -> ~ In v (keys e)) -> mass D Fw e <> 0%Qc ->
    exists r, causal_query heur so m1 T (DoDict d) e = Ok r /\ wf_mf r /\ mf_vtype r = vt /\ same_set (mf_vars r) T /\ (forall v l, In (v, l) (mf_domain r) -> In (v, l) D) /\
      (forall t, assigns D T t -> mf_get_value r t = Ok (Fin (mass D Fw (t ++ e) / mass D Fw e)%Qc)).
  Proof.
    destruct (base m D F vt endo cast H PR d Kd) as (mw & Fw & Net & _ & Mw & _).
    destruct (convert_ok m D F vt endo cast H PR) as (m1 & endo1 & E1 & _). exists m1, mw, Fw. do 3 (split; [assumption|]).
    intros e T N T0 IT Ie Dj M. apply askable_out in IT as [IT DT]. apply askable_out in Ie as [Ie De]. rewrite Mw in M.
    destruct (causal_query_ok m D F vt endo cast H PR heur so Hh Hs d Nd Id e T Kd N T0 IT Ie) as (m1' & r & E1' & Er & W & Tv & V & _ & _ & Rd & X & _); auto.
    { now rewrite outside_self. }
    rewrite E1 in E1'. injection E1' as <-. exists r. do 5 (split; [assumption|]). intros t At. rewrite (X t At), !outside_self, !Mw by auto. reflexivity.
  Qed.

  Lemma causal_marginalized e T S : NoDup (T ++ S) -> T <> [] -> incl (T ++ S) (nodes g) -> incl (keys e) (nodes g) ->
    (forall v, In v (T ++ S) -> ~ In v (keys e) /\ ~ In v (keys d)) -> (forall v, In v (keys e) -> ~ In v (keys d)) -> do_mass D F d e <> 0%Qc ->
    exists m1 r f r', cve_init m = Ok m1 /\ causal_query heur so m1 (T ++ S) (DoDict d) e = Ok r /\ mf_marginalize r S = Ok f /\
      causal_query heur so m1 T (DoDict d) e = Ok r' /\ same_table D T f r'.
  Proof.
    intros N T0 I Ie Dj De M. destruct causal_network_asks as (m1 & mw & Fw & E1 & Net & Mw & HQ).
    destruct (marginalized mw D Fw vt Net askable (fun T e => causal_query heur so m1 T (DoDict d) e) HQ e T S) as (r & f & r' & X); auto.
    - apply askable_In; auto. intros v J. now apply (Dj v J).
    - apply askable_In; auto.
    - intros v J. now apply (Dj v J).
    - now rewrite Mw.
    - exists m1, r, f, r'. split; [exact E1|exact X].
  Qed.
  Lemma causal_observed e T S s : NoDup (T ++ S) -> T <> [] -> incl (T ++ S) (nodes g) -> incl (keys e) (nodes g) ->
    (forall v, In v (T ++ S) -> ~ In v (keys e) /\ ~ In v (keys d)) -> (forall v, In v (keys e) -> ~ In v (keys d)) ->
    assigns D S s -> do_mass D F d (s ++ e) <> 0%Qc -> do_mass D F d e <> 0%Qc ->
    exists m1 r f h k r', cve_init m = Ok m1 /\ causal_query heur so m1 (T ++ S) (DoDict d) e = Ok r /\ mf_restrict r s = Ok f /\ mf_marginalize f T = Ok h /\
      mf_divide f (OFac h) = Ok k /\ causal_query heur so m1 T (DoDict d) (s ++ e) = Ok r' /\ same_table D T k r'.
  Proof.
    intros N T0 I Ie Dj De As Ms M. destruct causal_network_asks as (m1 & mw & Fw & E1 & Net & Mw & HQ).
    destruct (observed mw D Fw vt Net askable (fun T e => causal_query heur so m1 T (DoDict d) e) HQ e T S s) as (r & f & h & k & r' & X); auto.
    - apply askable_In; auto. intros v J. now apply (Dj v J).
    - apply askable_In; auto.
    - intros v J. now apply (Dj v J).
    - now rewrite Mw.
    - now rewrite Mw.
    - exists m1, r, f, h, k, r'. split; [exact E1|exact X].
  Qed.
End Causal.
