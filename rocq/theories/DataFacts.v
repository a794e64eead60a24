(** Facts about forward sampling. *)

From Coq Require Import String Ascii Bool Arith Lia ZArith QArith Qcanon Permutation List.
From Verif Require Import PyBase Num DomainModel NdArray StoreModel NumStore FactorModel GraphModel ModelModel InferModel LearnModel DataModel
  PyFacts Spec StoreSpec DomainFacts StoreFacts NumFacts FactorSpec FactorFacts FactorFacts2 FactorFacts3 PropFacts1 GraphSpec GraphFacts ModelSpec
  NetSpec NetFacts VeFacts4 CausalSpec CfFacts DataSpec.
Import ListNotations.
Local Open Scope nat_scope.
Local Arguments eqd : simpl never.

Lemma fins_map l : fins (map Fin l) = Some l.
Proof. induction l as [|x r IH]; [reflexivity|]. cbn [map fins fold_right]. unfold fins in IH. now rewrite IH. Qed.

Lemma searchsorted_ok ps : forall acc u, (forall p, In p ps -> (0 <= p)%Qc) -> (acc <= u)%Qc -> (u < acc + total ps)%Qc ->
  exists p, nth_error ps (searchsorted acc ps u) = Some p /\
    (acc + total (firstn (searchsorted acc ps u) ps) <= u)%Qc /\ (u < acc + total (firstn (searchsorted acc ps u) ps) + p)%Qc.
Proof.
  induction ps as [|p r IH]; intros acc u P A B.
  - exfalso. cbn in B. qclra.
  - cbn [searchsorted]. destruct (Qclt_le_dec u (acc + p)) as [L|L].
    + exists p. cbn. split; [reflexivity|]. split; qclra.
    + destruct (IH (acc + p)%Qc u) as (p' & N & X & Y).
      * intros q J. apply P. now right.
      * exact L.
      * cbn [total fold_right] in B. unfold total. qclra.
      * exists p'. cbn [nth_error firstn total fold_right]. split; [exact N|]. unfold total in X, Y.
        split; qclra.
Qed.

Lemma before_nth l : forall i s, NoDup l -> nth_error l i = Some s -> before s l = firstn i l.
Proof.
  induction l as [|x r IH]; intros i s N E; [destruct i; discriminate|]. apply NoDup_cons_iff in N as [X N]. cbn [before].
  destruct i as [|i].
  - cbn in E. injection E as ->. now destruct (eqd s s).
  - cbn [nth_error] in E. destruct (eqd x s) as [-> | Ne].
    + exfalso. apply X. eapply nth_error_In; eauto.
    + cbn [firstn]. now rewrite (IH i s N E).
Qed.
Lemma total_one l : total l = qsum l.
Proof. apply total_qsum. Qed.
Lemma ndiv_one q : ndiv (Fin q) n1 = Fin q.
Proof.
  unfold ndiv, n1. assert (E : qzero 1 = false) by (apply qzero_false; discriminate). rewrite E. apply (f_equal Fin). field. discriminate.
Qed.

Lemma sample_once_ok f v l u : wf_mf f -> mf_domain f = [(v, l)] -> mf_right f = [] ->
  (forall s, In s l -> exists q, mf_get_value f [(v, s)] = Ok (Fin q) /\ (0 <= q)%Qc) -> total (map (fun s => entry f [(v, s)]) l) = 1%Qc ->
  (0 <= u)%Qc -> (u < 1)%Qc ->
  exists s, sample_once f u = Ok [(v, s)] /\ In s l /\
    (below f v l s [] <= u)%Qc /\ (u < below f v l s [] + entry f [(v, s)])%Qc.
Proof.
  intros W Ed Er Va To U0 U1. set (ps := map (fun s => entry f [(v, s)]) l) in *.
  assert (Fv : forall s, In s l -> mf_get_value f [(v, s)] = Ok (Fin (entry f [(v, s)]))).
  { intros s J. destruct (Va s J) as (q & E & _). unfold entry. now rewrite E. }
  assert (NN : forall p, In p ps -> (0 <= p)%Qc).
  { intros p J. apply in_map_iff in J as (s & <- & J). destruct (Va s J) as (q & E & L). unfold entry. now rewrite E. }
  assert (Ld : mf_left_domain f = [(v, l)]).
  { unfold mf_left_domain, mf_left, mf_vars. rewrite Ed, Er. unfold dfilter. cbn [keys map fst filter mem existsb negb].
    unfold mem. cbn [existsb]. now rewrite eqd_refl. }
  assert (Mp : mapM (mf_get_value f) (map (fun s => [(v, s)]) l) = Ok (map Fin ps)).
  { clear - Fv. subst ps. revert Fv. induction l as [|s r IH]; intros Fv; [reflexivity|]. cbn [map mapM].
    rewrite (Fv s (or_introl eq_refl)). cbn [bind]. rewrite IH by (intros; apply Fv; now right). reflexivity. }
  assert (Nu : forall q, ndiv q (nsum (map Fin ps)) = ndiv q n1) by (intros q; rewrite nsum_Fin, <- total_qsum, To; reflexivity).
  assert (Dv : map (fun x => ndiv x (nsum (map Fin ps))) (map Fin ps) = map Fin ps).
  { rewrite map_map. apply map_ext. intros q. rewrite Nu. apply ndiv_one. }
  destruct (searchsorted_ok ps 0%Qc u NN U0) as (p & Np & X & Y); [rewrite To; qclra|].
  assert (Ch : choice (map Fin ps) u = Ok (searchsorted 0 ps u)).
  { unfold choice. rewrite fins_map. destruct ps as [|p0 ps'] eqn:Eps; [cbn in To; discriminate To|]. rewrite <- Eps in *.
    destruct (existsb _ ps) eqn:Ex.
    - exfalso. apply existsb_exists in Ex as (q & Jq & Eq). destruct (Qclt_le_dec q 0) as [L|]; [|discriminate]. specialize (NN q Jq). qclra.
    - destruct (Qc_eq_dec (fold_right Qcplus 0%Qc ps) 1) as [_|Ne]; [reflexivity|]. exfalso. now apply Ne. }
  set (i := searchsorted 0 ps u) in *.
  unfold ps in Np. rewrite nth_error_map in Np. destruct (nth_error l i) as [s|] eqn:Es; [|discriminate]. cbn in Np. injection Np as <-.
  exists s. split.
  - unfold sample_once. rewrite Er, Ld, assignment_space_all, all_one. rewrite Mp. cbn [bind]. rewrite Dv, Ch. cbn [bind].
    unfold py_nth. rewrite nth_error_map, Es. reflexivity.
  - split; [eapply nth_error_In; eauto|].
    assert (B : below f v l s [] = total (firstn i ps)).
    { unfold below. rewrite (before_nth l i s); auto; [unfold ps; now rewrite firstn_map|].
      destruct W as (_ & ((_ & Nd) & _) & _). rewrite Ed in Nd. apply (Nd v l). now left. }
    rewrite B. split; qclra.
Qed.

Lemma filter_single p (d : domain) v l : NoDup (keys d) -> In (v, l) d -> p (v, l) = true ->
  (forall w k, In (w, k) d -> w <> v -> p (w, k) = false) -> filter p d = [(v, l)].
Proof.
  induction d as [|[w k] d IH]; intros N J P Q; [destruct J|]. cbn [keys map fst] in N. apply NoDup_cons_iff in N as [X N]. cbn [filter].
  destruct J as [E|J].
  - injection E as -> ->. rewrite P. f_equal. assert (Q' : forall w k, In (w, k) d -> p (w, k) = false).
    { intros w k J. apply Q; [now right|]. intros ->. apply X. apply keys_In. eauto. }
    clear - Q'. induction d as [|[w k] d IH]; [reflexivity|]. cbn [filter]. rewrite (Q' w k (or_introl eq_refl)). apply IH. intros; apply Q'; now right.
  - rewrite (Q w k); [|now left|intros ->; apply X; apply keys_In; eauto]. apply IH; auto. intros; apply Q; auto. now right.
Qed.

Section Sampling.
  Variable m : pgm.
  Variable D : domain.
  Variable F : var -> mfactor.
  Variable vt : vtype.
  Hypothesis H : network m D F vt.
  Hypothesis NN : nonnegative D F.

  (** the row has known states *)
  Definition row_ok (r : obs) : Prop := forall w l s, In (w, l) D -> dget w r = Some s -> In s l.

  Lemma one_step v l r u : In (v, l) D -> ~ In v (keys r) -> incl (preds (m_graph m) v) (keys r) -> row_ok r ->
    (0 <= u)%Qc -> (u < 1)%Qc ->
    exists g s, mf_restrict (F v) r = Ok g /\ sample_once g u = Ok [(v, s)] /\ In s l /\
      (below (F v) v l s r <= u)%Qc /\ (u < below (F v) v l s r + entry (F v) ((v, s) :: r))%Qc.
  Proof.
    intros Jv Nv Ip Ro U0 U1. assert (Kv : In v (keys D)) by (apply keys_In; eauto).
    assert (WD := net_wd _ _ _ _ H). assert (Cp := net_cpt _ _ _ _ H v Kv).
    assert (Vs : forall w, In w (mf_vars (F v)) <-> w = v \/ In w (preds (m_graph m) v)) by (intros w; eapply cpt_vars; eauto).
    destruct Cp as (W & Tv & Lv & Rv & Dv & Fi & No).
    assert (Jf : In (v, l) (mf_domain (F v))).
    { assert (J : In v (mf_vars (F v))) by (apply Vs; auto). apply keys_In in J as (k & J). assert (J' := Dv _ _ J).
      assert (k = l) as <- by (eapply (dom_unique D); eauto; apply WD). exact J. }
    assert (Nf : NoDup (keys (mf_domain (F v)))) by apply W.
    assert (Dp : drop (keys r) (mf_domain (F v)) = [(v, l)]).
    { apply filter_single; auto; cbn [fst].
      - apply negb_true_iff. now apply mem_nIn.
      - intros w k J N. apply negb_false_iff. apply mem_In. apply Ip. destruct (proj1 (Vs w)); [apply keys_In; eauto|congruence|assumption]. }
    assert (Dr : drop (mf_right (F v)) (mf_domain (F v)) = [(v, l)]).
    { assert (Pt := wf_mf_partitioned _ W). destruct Pt as (_ & _ & _ & Pt & Dj).
      apply filter_single; auto; cbn [fst].
      - apply negb_true_iff. apply mem_nIn. intros J. apply (Dj v). split; [apply Lv; now left|exact J].
      - intros w k J N. apply negb_false_iff. apply mem_In. destruct (proj1 (Pt w)) as [J'|J']; [apply keys_In; eauto| |exact J'].
        apply Lv in J'. destruct J' as [<-|[]]. congruence. }
    assert (Fu : forall s, In s l -> full (mf_domain (F v)) ((v, s) :: r)).
    { intros s Js w k J. destruct (eqd w v) as [-> | N].
      - assert (k = l) as -> by (eapply (dom_unique (mf_domain (F v))); eauto). exists s. cbn. rewrite eqd_refl. auto.
      - cbn [dget]. rewrite eqd_neq by auto. assert (Kw : In w (keys r)).
        { apply Ip. destruct (proj1 (Vs w)); [apply keys_In; eauto|congruence|assumption]. }
        apply dget_keys in Kw as (x & Ex). exists x. split; [exact Ex|]. eapply Ro; eauto. }
    assert (Va : forall s, In s l -> mf_get_value (F v) ((v, s) :: r) = Ok (Fin (entry (F v) ((v, s) :: r)))).
    { intros s Js. destruct (Fi _ (Fu s Js)) as (q & E). unfold entry. now rewrite E. }
    destruct (mf_restrict_ok (F v) r W) as (g & Eg & Wg & _ & Dg & Rg & _ & Xg).
    { intros w k x J E. eapply Ro; eauto. }
    rewrite Dp in Dg, Xg.
    assert (Rg0 : mf_right g = []).
    { destruct (mf_right g) as [|w ws] eqn:E; [reflexivity|]. exfalso. assert (J : In w (w :: ws)) by now left. rewrite <- E in J.
      assert (J2 := J). apply (proj2 (proj2 (proj2 Wg))) in J2. unfold mf_vars in J2. rewrite Dg in J2. destruct J2 as [<-|[]]. 
      rewrite E in J. apply Rg in J as [J _]. apply Rv in J. apply Nv. now apply Ip. }
    assert (Vg : forall s, In s l -> mf_get_value g [(v, s)] = Ok (Fin (entry (F v) ((v, s) :: r)))).
    { intros s Js. destruct (Xg [(v, s)]) as (x & E1 & E2).
      { intros w k [E|[]]. injection E as <- <-. exists s. cbn. rewrite eqd_refl. auto. }
      rewrite E1. apply (f_equal Ok). assert (E3 : mf_get_value (F v) (r ++ [(v, s)]) = mf_get_value (F v) ((v, s) :: r)).
      { apply get_value_agree; [apply W|now apply Fu|]. intros w _. rewrite dget_app. cbn [dget]. destruct (eqd w v) as [-> | N].
        - now rewrite (proj2 (dget_None v r) Nv).
        - destruct (dget w r); reflexivity. }
      rewrite E3, (Va s Js) in E2. congruence. }
    assert (Eg2 : forall s, In s l -> entry g [(v, s)] = entry (F v) ((v, s) :: r)).
    { intros s Js. unfold entry at 1. now rewrite (Vg s Js). }
    destruct (sample_once_ok g v l u Wg Dg Rg0) as (s & Es & Is & X & Y); auto.
    - intros s Js. rewrite (Vg s Js). eexists. split; [reflexivity|]. apply NN; [exact Kv|now apply Fu].
    - rewrite (map_ext_in _ (fun s => entry (F v) ((v, s) :: r))) by exact Eg2.
      destruct (No r) as (xs & Fx & Sx).
      { intros w k J. unfold pick in J. apply filter_In in J as [J M]. cbn [fst] in M. apply mem_In in M. apply Rv in M.
        assert (Kw : In w (keys r)) by now apply Ip. apply dget_keys in Kw as (x & Ex). exists x. split; [exact Ex|]. eapply Ro; eauto. }
      rewrite Dr, all_one in Fx.
      assert (Ex : xs = map Fin (map (fun s => entry (F v) ((v, s) :: r)) l)).
      { clear - Fx Va. revert xs Fx Va. induction l as [|s k IH]; intros xs Fx Va; inversion Fx; subst; [reflexivity|]. cbn [map].
        f_equal; [|apply IH; [assumption|intros; apply Va; now right]]. cbn [app] in H1. rewrite (Va s (or_introl eq_refl)) in H1. congruence. }
      rewrite Ex, nsum_Fin in Sx. rewrite total_qsum. unfold n1 in Sx. now injection Sx as ->.
    - exists g, s. split; [exact Eg|]. split; [exact Es|]. split; [exact Is|].
      assert (B : below g v l s [] = below (F v) v l s r).
      { unfold below. f_equal. apply map_ext_in. intros x Jx. apply Eg2. clear - Jx. induction l as [|y k IH]; [destruct Jx|]. cbn [before] in Jx.
        destruct (eqd y s); [destruct Jx|]. destruct Jx as [<-|J]; [now left|right; auto]. }
      rewrite B, (Eg2 s Is) in *. auto.
  Qed.

  Lemma selected_row u vs r : selected D F u vs r -> row_ok r.
  Proof.
    intros (K & X) w l s J E. assert (Kw : In w vs) by (rewrite <- K; apply dget_keys; eauto).
    destruct (X w l Kw J) as (s' & E' & Js & _). congruence.
  Qed.
  (** the entries of a variable whose parents are all in the row *)
  Lemma entry_agree v o o' : In v (keys D) -> full (mf_domain (F v)) o -> (forall w, In w (mf_vars (F v)) -> dget w o' = dget w o) ->
    entry (F v) o' = entry (F v) o.
  Proof.
    intros Kv Fu A. unfold entry. unfold mf_get_value. rewrite (get_value_agree (mf_store (F v)) o o'); auto.
    apply (net_cpt _ _ _ _ H v Kv).
  Qed.
  Lemma family_full v l r x : In (v, l) D -> incl (preds (m_graph m) v) (keys r) -> row_ok r -> In x l -> full (mf_domain (F v)) ((v, x) :: r).
  Proof.
    intros Jv Ip Ro Jx w k J. assert (Kv : In v (keys D)) by (apply keys_In; eauto).
    assert (Jw : In (w, k) D) by (apply (net_cpt _ _ _ _ H v Kv); exact J). cbn [dget]. destruct (eqd w v) as [-> | N].
    - assert (k = l) as -> by (eapply (dom_unique D); eauto; apply (net_wd _ _ _ _ H)). eauto.
    - assert (Kw : In w (keys r)).
      { apply Ip. destruct (proj1 (cpt_vars D vt v _ (F v) w (net_cpt _ _ _ _ H v Kv))); [apply keys_In; eauto|congruence|assumption]. }
      apply dget_keys in Kw as (y & Ey). exists y. split; [exact Ey|]. eapply Ro; eauto.
  Qed.
  Lemma before_In s l x : In x (before s l) -> In x l.
  Proof.
    induction l as [|y k IH]; [intros []|]. cbn [before]. destruct (eqd y s); [intros []|]. intros [<-|J]; [now left|right; auto].
  Qed.

  (** the row [r] of the variables [vs], extended by a state of [v] *)
  Lemma extend_selected u vs v l r s : (forall w, In w vs -> incl (preds (m_graph m) w) vs) -> selected D F u vs r ->
    In (v, l) D -> ~ In v vs -> incl (preds (m_graph m) v) vs -> In s l ->
    (below (F v) v l s r <= u v)%Qc -> (u v < below (F v) v l s r + entry (F v) ((v, s) :: r))%Qc ->
    selected D F u (vs ++ [v]) (r ++ [(v, s)]).
  Proof.
    intros Cl S Jv Nv Ip Is X Y. assert (Ro := selected_row _ _ _ S). assert (Kr := proj1 S).
    split; [unfold keys in *; rewrite map_app, Kr; reflexivity|].
    assert (Dv : dget v r = None) by (apply dget_None; rewrite Kr; exact Nv).
    intros w k Jw Jd. apply in_app_or in Jw as [Jw|[<-|[]]].
    - destruct S as (_ & S). destruct (S w k Jw Jd) as (s' & E & Js & A & B). assert (Kw : In w (keys D)) by (apply keys_In; eauto).
      assert (Nw : w <> v) by (intros ->; contradiction).
      assert (Pw : incl (preds (m_graph m) w) (keys r)) by (rewrite Kr; now apply Cl).
      assert (Av : forall x, In x (mf_vars (F w)) -> x <> v).
      { intros x Jx ->. apply (cpt_vars D vt w _ (F w) v (net_cpt _ _ _ _ H w Kw)) in Jx as [->|Jx]; [congruence|]. apply Nv. now apply (Cl w). }
      assert (Ee : entry (F w) (r ++ [(v, s)]) = entry (F w) r).
      { transitivity (entry (F w) ((w, s') :: r)); [|symmetry]; (apply entry_agree; [exact Kw|now apply (family_full w k)|]); intros x Jx.
        - rewrite dget_app. cbn [dget]. rewrite (eqd_neq x v) by (now apply Av). destruct (eqd x w) as [-> | N]; [now rewrite E|].
          now destruct (dget x r).
        - cbn [dget]. destruct (eqd x w) as [-> | N]; auto. }
      assert (Eb : below (F w) w k s' (r ++ [(v, s)]) = below (F w) w k s' r).
      { unfold below. f_equal. apply map_ext_in. intros x Jx. apply before_In in Jx. apply entry_agree; [auto|now apply (family_full w k)|].
        intros y Jy. cbn [dget]. destruct (eqd y w); [reflexivity|]. rewrite dget_app. cbn [dget]. rewrite (eqd_neq y v) by (now apply Av). now destruct (dget y r). }
      exists s'. rewrite dget_app, E, Ee, Eb. auto.
    - assert (k = l) as -> by (eapply (dom_unique D); eauto; apply (net_wd _ _ _ _ H)). assert (Kv : In v (keys D)) by (apply keys_In; eauto).
      rewrite <- Kr in Ip.
      assert (Ee : entry (F v) (r ++ [(v, s)]) = entry (F v) ((v, s) :: r)).
      { apply entry_agree; [auto|now apply (family_full v l)|]. intros x Jx. rewrite dget_app. cbn [dget]. destruct (eqd x v) as [-> | N]; [now rewrite Dv|].
        now destruct (dget x r). }
      assert (Eb : below (F v) v l s (r ++ [(v, s)]) = below (F v) v l s r).
      { unfold below. f_equal. apply map_ext_in. intros x Jx. apply before_In in Jx. apply entry_agree; [auto|now apply (family_full v l)|].
        intros y Jy. cbn [dget]. destruct (eqd y v) as [-> | N]; [reflexivity|]. rewrite dget_app. cbn [dget]. rewrite (eqd_neq y v) by auto. now destruct (dget y r). }
      exists s. rewrite dget_app, Dv, Ee, Eb. cbn [dget]. rewrite eqd_refl. auto.
  Qed.

  Lemma mapM_all {A B} (f : A -> res B) (P : A -> B -> Prop) (l : list A) : (forall x, In x l -> exists y, f x = Ok y /\ P x y) ->
    exists ys, mapM f l = Ok ys /\ Forall2 P l ys.
  Proof.
    induction l as [|x l IH]; intros X; [exists []; split; [reflexivity|constructor]|].
    destruct (X x (or_introl eq_refl)) as (y & E & Py). destruct IH as (ys & Es & Fs); [intros; apply X; now right|].
    exists (y :: ys). cbn [mapM]. rewrite E. cbn [bind]. rewrite Es. split; [reflexivity|]. now constructor.
  Qed.
  Lemma Forall2_at {A B} (P : A -> B -> Prop) l1 l2 : Forall2 P l1 l2 -> forall i x, nth_error l1 i = Some x -> exists y, nth_error l2 i = Some y /\ P x y.
  Proof.
    induction 1 as [|a b l1 l2 Pab Fl IH]; intros i x E; [destruct i; discriminate|]. destruct i as [|i]; [injection E as <-; exists b; auto|]. apply IH. exact E.
  Qed.
  Lemma nth_combine {A B} (l1 : list A) (l2 : list B) : forall i x y, nth_error l1 i = Some x -> nth_error l2 i = Some y -> nth_error (combine l1 l2) i = Some (x, y).
  Proof.
    revert l2. induction l1 as [|a l1 IH]; intros l2 i x y E1 E2; [destruct i; discriminate|]. destruct l2 as [|b l2]; [destruct i; discriminate|].
    destruct i as [|i]; [injection E1 as ->; injection E2 as ->; reflexivity|]. cbn [combine nth_error]. now apply IH.
  Qed.
  Lemma at_lt {A} (l : list A) i x : nth_error l i = Some x -> i < length l.
  Proof. intros E. apply nth_error_Some. congruence. Qed.
  Lemma nth_seq n i : i < n -> nth_error (seq 0 n) i = Some i.
  Proof. intros L. rewrite (nth_error_nth' (seq 0 n) 0) by (rewrite seq_length; exact L). now rewrite seq_nth. Qed.

  Variable u : var -> nat -> Qc.
  Hypothesis Hu : uniform u.
  Variable n : Z.
  Hypothesis Hn : (1 <= n)%Z.
  Notation N := (Z.to_nat n).

  (** the data frame after the variables [vs] *)
  Definition filled (vs : list var) (data : list obs) : Prop :=
    (vs = [] /\ data = []) \/
    (length data = N /\ forall i r, nth_error data i = Some r -> selected D F (fun v => u v i) vs r).

  Lemma N_pos : 0 < N. Proof. lia. Qed.

  (** the columns of the new variable *)
  Lemma new_column vs v l rows (news : list obs) : (forall w, In w vs -> incl (preds (m_graph m) w) vs) -> In (v, l) D -> ~ In v vs -> incl (preds (m_graph m) v) vs ->
    length rows = N -> (forall i r, nth_error rows i = Some r -> selected D F (fun v => u v i) vs r) ->
    length news = N ->
    (forall i r, nth_error rows i = Some r -> exists s, nth_error news i = Some [(v, s)] /\ In s l /\
       (below (F v) v l s r <= u v i)%Qc /\ (u v i < below (F v) v l s r + entry (F v) ((v, s) :: r))%Qc) ->
    filled (vs ++ [v]) (map (fun rn : obs * obs => fst rn ++ snd rn) (combine rows news)).
  Proof.
    intros Cl Jv Nv Ip Lr Sr Ln Sn. right. split; [rewrite map_length, combine_length; lia|].
    intros i r E. rewrite nth_error_map in E. destruct (@nth_error (obs * obs) (combine rows news) i) as [[a b]|] eqn:Ec; cbn [option_map] in E; [|discriminate E].
    cbn [fst snd] in E. injection E as <-. assert (Li : i < N).
    { assert (X : nth_error (combine rows news) i <> None) by congruence. apply nth_error_Some in X. rewrite combine_length in X. lia. }
    destruct (nth_error rows i) as [a'|] eqn:Ea; [|apply nth_error_None in Ea; lia].
    destruct (Sn i a' Ea) as (s & Eb & Is & X & Y). rewrite (nth_combine _ _ _ _ _ Ea Eb) in Ec. injection Ec as <- <-.
    eapply extend_selected; eauto.
  Qed.

  Lemma step_ok vs v l data : (forall w, In w vs -> incl (preds (m_graph m) w) vs) -> In (v, l) D -> ~ In v vs -> incl (preds (m_graph m) v) vs ->
    filled vs data -> exists data', forward_step m n u data v = Ok data' /\ filled (vs ++ [v]) data'.
  Proof.
    intros Cl Jv Nv Ip Fd. assert (Kv : In v (keys D)) by (apply keys_In; eauto).
    assert (Sv : stored m v (FM (F v))) by (apply H; now apply (net_nodes _ _ _ _ H)). unfold stored in Sv.
    unfold forward_step. rewrite Sv. cbn [bind]. 
    destruct (preds (m_graph m) v) as [|p ps] eqn:Ep.
    - unfold fo_sample, mf_sample. assert (E1 : (n <? 1)%Z = false) by (apply Z.ltb_ge; exact Hn). rewrite E1.
      (* the table itself, whatever the row *)
      assert (Same : forall r, ~ In v (keys r) -> mf_restrict (F v) r = Ok (F v)).
      { intros r Nr. unfold mf_restrict. assert (X : existsb (fun w => mem w (mf_vars (F v))) (keys r) = false).
        { apply not_true_is_false. intros X. apply existsb_exists in X as (w & Jw & M). apply mem_In in M.
          apply (cpt_vars D vt v _ (F v) w (net_cpt _ _ _ _ H v Kv)) in M. rewrite Ep in M. destruct M as [->|[]]. contradiction. }
        now rewrite X. }
      set (rows := match data with [] => repeat [] N | _ => data end).
      assert (Rows : length rows = N /\ forall i r, nth_error rows i = Some r -> selected D F (fun v => u v i) vs r).
      { destruct Fd as [[-> ->]|[Ld Sd]].
        - cbn in rows. unfold rows. split; [apply repeat_length|]. intros i r E. apply nth_error_In, repeat_spec in E. subst r.
          split; [reflexivity|]. intros w k [].
        - unfold rows. destruct data; [cbn in Ld; pose proof N_pos; lia|auto]. }
      destruct Rows as [Lr Sr].
      destruct (mapM_all (fun i => sample_once (F v) (u v i)) (fun i y => exists s, y = [(v, s)] /\ In s l /\ forall r, nth_error rows i = Some r ->
          (below (F v) v l s r <= u v i)%Qc /\ (u v i < below (F v) v l s r + entry (F v) ((v, s) :: r))%Qc) (seq 0 N)) as (news & En & Fn).
      { intros i Ji. apply in_seq in Ji. destruct (nth_error rows i) as [r|] eqn:Er; [|apply nth_error_None in Er; lia].
        assert (Nr : ~ In v (keys r)) by (rewrite (proj1 (Sr i r Er)); exact Nv).
        destruct (one_step v l r (u v i) Jv Nr) as (g & s & Eg & Es & Is & X & Y); [rewrite Ep; intros x []|eapply selected_row; eauto|apply Hu|apply Hu|].
        rewrite (Same r Nr) in Eg. injection Eg as <-. exists [(v, s)]. split; [exact Es|]. exists s. split; [reflexivity|]. split; [exact Is|].
        intros r' E'. assert (r' = r) as -> by congruence. auto. }
      rewrite En. cbn [bind]. eexists. split; [reflexivity|].
      assert (Q : filled (vs ++ [v]) (map (fun rn : obs * obs => fst rn ++ snd rn) (combine rows news))).
      { apply new_column with (l := l); auto.
        - rewrite Ep. intros x [].
        - apply Forall2_length in Fn. now rewrite seq_length in Fn.
        - intros i r Er. assert (Li : i < N) by (rewrite <- Lr; exact (at_lt _ _ _ Er)).
          destruct (Forall2_at _ _ _ Fn i i (nth_seq N i Li)) as (y & Ey & s & -> & Is & X). exists s. destruct (X r Er). auto. }
      destruct data as [|d0 data']; [|exact Q].
      assert (R : news = map (fun rn : obs * obs => fst rn ++ snd rn) (combine rows news)).
      { unfold rows. assert (Ln : length news = N) by (apply Forall2_length in Fn; now rewrite seq_length in Fn). rewrite <- Ln. clear.
        induction news as [|x r IH]; [reflexivity|]. cbn [length repeat combine map fst snd app]. now rewrite <- IH. }
      rewrite <- R in Q. exact Q.
    - destruct Fd as [[-> ->]|[Ld Sd]]; [exfalso; apply (Ip p); now left|].
      unfold fo_sample_conditional, mf_sample_conditional.
      assert (Step : forall i r, nth_error data i = Some r -> exists g s, mf_restrict (F v) r = Ok g /\ sample_once g (u v i) = Ok [(v, s)] /\ In s l /\
        (below (F v) v l s r <= u v i)%Qc /\ (u v i < below (F v) v l s r + entry (F v) ((v, s) :: r))%Qc).
      { intros i r E. assert (S := Sd i r E). apply one_step; auto; [rewrite (proj1 S); exact Nv|rewrite (proj1 S), Ep; exact Ip|eapply selected_row; eauto|apply Hu|apply Hu]. }
      destruct (mapM_all (fun o => let* g := mf_restrict (F v) o in Ok (o, g)) (fun o og => fst og = o /\ mf_restrict (F v) o = Ok (snd og))
                 (rev (nodup eqd (rev data)))) as (fs & Ef & Ff).
      { intros o Jo. apply in_rev, nodup_In, in_rev in Jo. apply In_nth_error in Jo as (i & Ei). destruct (Step i o Ei) as (g & s & Eg & _).
        exists (o, g). rewrite Eg. auto. }
      assert (Look : forall o, In o data -> exists g, dget o fs = Some g /\ mf_restrict (F v) o = Ok g).
      { intros o Jo. assert (Jo' : In o (rev (nodup eqd (rev data)))) by (apply -> in_rev; apply nodup_In; apply -> in_rev; exact Jo).
        clear - Ff Jo'. induction Ff as [|a b la lb (Ea & Eb) Fl IH]; [destruct Jo'|]. destruct b as [bo bg]. cbn [fst snd] in *. subst bo. cbn [dget].
        destruct (eqd o a) as [-> | Ne]; [exists bg; auto|]. apply IH. destruct Jo' as [->|J]; [congruence|exact J]. }
      destruct data as [|d0 data'] eqn:Ed; [cbn in Ld; pose proof N_pos; lia|]. rewrite <- Ed in *. rewrite Ef. cbn [bind].
      destruct (mapM_all (fun io : nat * obs => match dget (snd io) fs with Some g => sample_once g (u v (fst io)) | None => Raise KeyError end)
        (fun io y => exists s, y = [(v, s)] /\ In s l /\
          (below (F v) v l s (snd io) <= u v (fst io))%Qc /\ (u v (fst io) < below (F v) v l s (snd io) + entry (F v) ((v, s) :: snd io))%Qc)
        (combine (seq 0 (length data)) data)) as (news & En & Fn).
      { intros [i o] J. cbn [fst snd]. apply In_nth_error in J as (k & Ek).
        assert (Lk : k < length data). { assert (X : nth_error (combine (seq 0 (length data)) data) k <> None) by congruence. apply nth_error_Some in X.
          rewrite combine_length in X. lia. }
        destruct (nth_error data k) as [o'|] eqn:Eo; [|apply nth_error_None in Eo; lia].
        rewrite (nth_combine _ _ _ _ _ (nth_seq _ _ Lk) Eo) in Ek. injection Ek as <- <-.
        destruct (Look o' (nth_error_In _ _ Eo)) as (g & Eg & Rg). rewrite Eg. destruct (Step k o' Eo) as (g' & s & Eg' & Es & X). rewrite Rg in Eg'. injection Eg' as <-.
        exists [(v, s)]. split; [exact Es|]. exists s. auto. }
      rewrite En. cbn [bind]. eexists. split; [reflexivity|]. apply new_column with (l := l); auto.
      + rewrite Ep. exact Ip.
      + apply Forall2_length in Fn. rewrite combine_length, seq_length in Fn. lia.
      + intros i r Er. assert (Li : i < length data) by (exact (at_lt _ _ _ Er)).
        destruct (Forall2_at _ _ _ Fn i (i, r) (nth_combine _ _ _ _ _ (nth_seq _ _ Li) Er)) as (y & Ey & s & -> & X). exists s. auto.
  Qed.

  Lemma forward_ok order : topological (m_graph m) order -> order <> [] ->
    exists rows, forward_sampling order m n u = Ok rows /\ length rows = N /\
      forall i r, nth_error rows i = Some r -> selected D F (fun v => u v i) order r.
  Proof.
    intros (ND & Eo & To) Ne. unfold forward_sampling.
    assert (G : forall l2 l1 data, order = l1 ++ l2 -> filled l1 data -> exists data', foldM (forward_step m n u) l2 data = Ok data' /\ filled order data').
    { induction l2 as [|v l2 IH]; intros l1 data E Fd.
      - rewrite app_nil_r in E. subst l1. exists data. split; [reflexivity|exact Fd].
      - assert (Jv : In v (keys D)). { apply (net_nodes _ _ _ _ H). apply Eo. rewrite E. apply in_or_app. right. now left. }
        apply keys_In in Jv as (l & Jv).
        assert (Cl : forall w, In w l1 -> incl (preds (m_graph m) w) l1).
        { intros w Jw x Jx. apply in_split in Jw as (a & b & Ew). apply in_preds in Jx. rewrite Ew. apply in_or_app. left.
          eapply (To x w a (b ++ v :: l2)); [rewrite E, Ew, <- app_assoc; reflexivity|exact Jx]. }
        assert (Nv : ~ In v l1). { intros J. rewrite E in ND. apply NoDup_remove_2 in ND. apply ND. apply in_or_app. auto. }
        assert (Ip : incl (preds (m_graph m) v) l1). { intros x Jx. apply in_preds in Jx. eapply To; eauto. }
        destruct (step_ok l1 v l data Cl Jv Nv Ip Fd) as (data' & Es & Fd'). cbn [foldM]. rewrite Es. cbn [bind].
        apply (IH (l1 ++ [v])); [rewrite E, <- app_assoc; reflexivity|exact Fd']. }
    destruct (G order [] [] eq_refl) as (rows & Er & Fr); [left; auto|]. exists rows. split; [exact Er|].
    destruct Fr as [[-> _]|Fr]; [congruence|exact Fr].
  Qed.
End Sampling.
