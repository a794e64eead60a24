(** Facts about model objects: construction and set_factor. *)

From Coq Require Import String Ascii Bool Arith ZArith QArith Qcanon List Lia.
From Verif Require Import PyBase PyFacts Num DomainModel NdArray StoreModel NumStore FactorModel GraphModel ModelModel
  Spec StoreSpec DomainFacts StoreFacts NumFacts PropFacts1 FactorSpec FactorFacts FactorFacts2 FactorFacts3 GraphSpec GraphFacts ModelSpec.
From Coq Require Import List.
Import ListNotations.
Local Open Scope nat_scope.
Local Arguments eqd : simpl never.

Lemma set_eqb_iff : forall (K : Type) (H : EqD K) (l1 l2 : list K), set_eqb l1 l2 = true <-> same_set l1 l2.
Proof.
  intros K H l1 l2. unfold set_eqb, same_set. rewrite andb_true_iff, !forallb_forall. split.
  - intros [A B] x. split; intros I; apply mem_In; auto.
  - intros A. split; intros x I; apply mem_In; now apply A.
Qed.

(** ** Construction *)
Lemma initialize_ok : forall g, wf_graph g ->
  (acyclic g -> initialize (GDag g) = Ok g) /\ (~ acyclic g -> initialize (GDag g) = Raise ValueError).
Proof.
  intros g W. unfold initialize. cbn [bind]. pose proof (simple_cycles_iff g W) as S. split.
  - intros A. apply S in A. now rewrite A.
  - intros A. destruct (simple_cycles g) as [|c r] eqn:E; [|reflexivity]. exfalso. apply A. now apply S.
Qed.

Lemma dget_map_none : forall (A : Type) (v : var) l,
  dget v (map (fun w => (w, @None A)) l) = if mem v l then Some None else None.
Proof.
  intros A v l. induction l as [|w l IH]; [reflexivity|]. cbn [map dget mem existsb]. unfold mem. cbn [existsb].
  destruct (eqd v w) as [-> | N]; [reflexivity|]. rewrite IH. reflexivity.
Qed.

Lemma fresh_is_fresh : forall g c k, is_fresh (fresh g c k).
Proof.
  intros g c k. unfold is_fresh, fresh. cbn [m_factors m_domains m_graph]. split; [|split].
  - intros v I. apply mem_In in I. now rewrite !dget_map_none, I.
  - intros v I. unfold keys in I. rewrite map_map in I. cbn in I. now rewrite map_id in I.
  - intros v I. unfold keys in I. rewrite map_map in I. cbn in I. now rewrite map_id in I.
Qed.

(** ** set_factor *)
Lemma recorded_iff : forall m v l, recorded m v = Some l <-> has_domain m v l.
Proof.
  intros m v l. unfold recorded, has_domain. destruct (dget v (m_domains m)) as [[l'|]|]; split; intros E; congruence.
Qed.

Lemma set_factor_base_raise : forall m v f m' e, set_factor_base m v f = (m', Some e) -> m' = m.
Proof.
  intros m v f m' e H. unfold set_factor_base in H.
  destruct (if m_check m then check_factor m v f else Ok tt); [|now injection H].
  cbv zeta in H. destruct (match recorded m v with Some _ => _ | None => _ end); [discriminate|now injection H].
Qed.
Lemma set_factor_raise : forall m v f m' e, set_factor m v f = (m', Some e) -> m' = m.
Proof.
  intros m v f m' e H. unfold set_factor in H. destruct (m_kind m).
  - eapply set_factor_base_raise; eassumption.
  - destruct (scm_prepare m endo cast v f); [eapply set_factor_base_raise; eassumption|now injection H].
Qed.

Lemma check_factor_ok : forall m v f, check_factor m v f = Ok tt ->
  exists d l r, is_factor f d l r /\ In v (nodes (m_graph m)) /\ same_set [v] l /\
    (forall p, In p r <-> arc (m_graph m) p v) /\
    (forall w dw rw, In (w, dw) d -> has_domain m w rw -> same_set rw dw).
Proof.
  intros m v f H. unfold check_factor in H.
  assert (K : exists d l r, is_factor f d l r).
  { unfold is_factor. destruct f as [f|f|]; cbn; [eauto 6|eauto 6|discriminate]. }
  destruct K as (d & l & r & K1 & K2 & K3). exists d, l, r. split; [split; [|split]; auto|].
  assert (G : (let* parents := get_parents (m_graph m) [v] in
       if negb (set_eqb parents r) then Raise ValueError else
       if negb (set_eqb [v] l) then Raise ValueError else
       if forallb (fun wl => match recorded m (fst wl) with Some l => set_eqb l (snd wl) | None => true end) d
       then Ok tt else Raise ValueError) = Ok tt).
  { rewrite K1, K2, K3 in H. cbn [bind] in H. destruct f; [exact H|exact H|discriminate]. }
  clear H. destruct (in_dec string_dec v (nodes (m_graph m))) as [I|I].
  - destruct (get_parents_ok (m_graph m) [v]) as (ps & E & N & P); [intros x [<- | []]; auto|]. rewrite E in G. cbn [bind] in G.
    destruct (set_eqb ps r) eqn:E1; [|discriminate]. destruct (set_eqb [v] l) eqn:E2; [|discriminate]. cbn [negb] in G.
    destruct (forallb _ d) eqn:E3; [|discriminate].
    apply set_eqb_iff in E1. apply set_eqb_iff in E2. split; [auto|]. split; [auto|]. split.
    + intros p. rewrite <- (E1 p), P. split.
      * intros (u & [<- | []] & A). auto.
      * intros A. exists v. split; [now left|auto].
    + intros w dw rw J D. rewrite forallb_forall in E3. specialize (E3 _ J). cbn in E3. apply recorded_iff in D. rewrite D in E3.
      now apply set_eqb_iff in E3.
  - rewrite (get_parents_unknown _ _ v) in G; [discriminate|now left|auto].
Qed.

(** What a successful call does. *)
Lemma set_factor_base_done : forall m v f m', set_factor_base m v f = (m', None) ->
  m_graph m' = m_graph m /\ m_check m' = m_check m /\ m_kind m' = m_kind m /\
  m_factors m' = dset v (Some f) (m_factors m) /\
  ((recorded m v <> None /\ m_domains m' = m_domains m) \/
   (recorded m v = None /\ exists d l, fo_domain f = Ok d /\ dget v d = Some l /\ m_domains m' = dset v (Some l) (m_domains m))) /\
  (m_check m = true -> check_factor m v f = Ok tt).
Proof.
  intros m v f m' H. unfold set_factor_base in H.
  destruct (if m_check m then check_factor m v f else Ok tt) eqn:EC; [|discriminate].
  assert (C : m_check m = true -> check_factor m v f = Ok tt). { intros T. rewrite T in EC. now destruct a. }
  cbv zeta in H. destruct (recorded m v) as [l|] eqn:R.
  - injection H as <-. cbn. repeat (split; [reflexivity|]). split; [|auto]. left. split; [congruence|reflexivity].
  - destruct (fo_domain f) as [d|] eqn:D; [|discriminate]. cbn [bind] in H. unfold dlook in H.
    destruct (dget v d) as [l|] eqn:L; [|discriminate]. cbn [bind] in H. injection H as <-. cbn.
    repeat (split; [reflexivity|]). split; [|auto]. right. split; [reflexivity|]. exists d, l. auto.
Qed.

Lemma set_factor_done : forall m v f m', set_factor m v f = (m', None) ->
  exists f', set_factor_base m v f' = (m', None) /\
    (m_kind m = KBn -> f' = f) /\
    (forall endo cast, m_kind m = KScm endo cast -> scm_prepare m endo cast v f = Ok f').
Proof.
  intros m v f m' H. unfold set_factor in H. destruct (m_kind m) as [|endo cast] eqn:K.
  - exists f. split; [auto|]. split; [auto|]. intros; discriminate.
  - destruct (scm_prepare m endo cast v f) as [f'|] eqn:E; [|discriminate]. exists f'. split; [auto|]. split; [discriminate|].
    intros e c J. injection J as <- <-. auto.
Qed.

(** ** Invariants of histories *)
Lemma run_inv : forall (P : pgm -> Prop), (forall m v f m', P m -> set_factor m v f = (m', None) -> P m') ->
  forall calls m, P m -> P (run_calls m calls).
Proof.
  intros P H. induction calls as [|[v f] calls IH]; intros m Pm; [auto|]. cbn. apply IH.
  destruct (set_factor m v f) as [m' [e|]] eqn:E; cbn [fst].
  - apply set_factor_raise in E. now subst.
  - eapply H; eassumption.
Qed.

Definition structural (m : pgm) : Prop :=
  m_check m = true /\
  forall v f, stored m v f -> exists d l r dv rv, is_factor f d l r /\ In v (nodes (m_graph m)) /\
    same_set [v] l /\ (forall p, In p r <-> arc (m_graph m) p v) /\
    dget v d = Some dv /\ has_domain m v rv /\ same_set rv dv.

Lemma fo_left_In : forall f d l r v, is_factor f d l r -> In v l -> In v (keys d).
Proof.
  intros f d l r v (D & L & R) I. destruct f as [f|f|]; cbn in *; try discriminate.
  - injection D as <-. injection L as <-. apply filter_In in I. tauto.
  - injection D as <-. injection L as <-. apply filter_In in I. tauto.
Qed.

Lemma structural_step : forall m v f m', structural m -> set_factor m v f = (m', None) -> structural m'.
Proof.
  intros m v f m' [CK S] H. apply set_factor_done in H. destruct H as (f' & H & _ & _).
  apply set_factor_base_done in H. destruct H as (G & C & K & F & D & CF). specialize (CF CK).
  split; [congruence|]. intros w h ST. unfold stored in ST. rewrite F, dget_dset in ST.
  apply check_factor_ok in CF. destruct CF as (d & l & r & IF & IV & SL & SR & SD).
  destruct (eqd w v) as [-> | NW].
  - injection ST as <-. rewrite G.
    assert (VD : In v (keys d)) by (eapply fo_left_In; [exact IF|apply SL; now left]).
    apply dget_keys in VD. destruct VD as (dv & VD).
    destruct D as [[ND ED]|(ND & d' & l' & E1 & E2 & ED)].
    + destruct (recorded m v) as [rv|] eqn:R; [|congruence]. apply recorded_iff in R.
      exists d, l, r, dv, rv. repeat (split; [solve [auto]|]). split; [unfold has_domain; now rewrite ED|].
      apply (SD v dv rv); [now apply dget_In|auto].
    + pose proof IF as (IF1 & _). rewrite IF1 in E1. injection E1 as <-. rewrite VD in E2. injection E2 as <-.
      exists d, l, r, dv, dv. repeat (split; [solve [auto]|]). split; [unfold has_domain; rewrite ED, dget_dset; apply eqd_refl|].
      intros x; tauto.
  - destruct (S w h ST) as (d2 & l2 & r2 & dv & rv & I1 & I2 & I3 & I4 & I5 & I6 & I7).
    rewrite G. exists d2, l2, r2, dv, rv. repeat (split; [solve [auto]|]). split; [|auto]. unfold has_domain.
    destruct D as [[_ ED]|(_ & d' & l' & _ & _ & ED)]; rewrite ED; [auto|]. rewrite dget_dset, eqd_neq; auto.
Qed.

Lemma structural_fresh : forall m, is_fresh m -> m_check m = true -> structural m.
Proof.
  intros m (F1 & F2 & F3) C. split; [auto|]. intros v f ST. exfalso. unfold stored in ST.
  assert (I : In v (nodes (m_graph m))). { apply F2. apply dget_keys. eauto. }
  apply F1 in I. destruct I. congruence.
Qed.

Lemma run_graph : forall calls m, m_graph (run_calls m calls) = m_graph m /\ m_kind (run_calls m calls) = m_kind m.
Proof.
  intros calls m. apply (run_inv (fun m' => m_graph m' = m_graph m /\ m_kind m' = m_kind m)); [|auto].
  intros m1 v f m2 [E1 E2] H. apply set_factor_done in H. destruct H as (f' & H & _).
  apply set_factor_base_done in H. destruct H as (G & C & K & _). split; congruence.
Qed.

(** Agreement on shared domains when parents come first. *)
Definition agreeing (m : pgm) : Prop :=
  m_check m = true /\
  forall v f d l r, stored m v f -> is_factor f d l r ->
    forall w dw, dget w d = Some dw -> exists rw, has_domain m w rw /\ same_set rw dw.

Lemma is_factor_vars : forall f d l r w, is_factor f d l r -> In w (keys d) -> In w l \/ In w r.
Proof.
  intros f d l r w (D & L & R) I. destruct f as [f|f|]; cbn in *; try discriminate.
  - injection D as <-. injection L as <-. injection R as <-. unfold mf_left, mf_vars.
    destruct (mem w (mf_right f)) eqn:E; [right; now apply mem_In|left]. apply filter_In. split; [auto|]. now rewrite E.
  - injection D as <-. injection L as <-. injection R as <-. unfold df_left, df_vars.
    destruct (mem w (df_right f)) eqn:E; [right; now apply mem_In|left]. apply filter_In. split; [auto|]. now rewrite E.
Qed.

Lemma has_domain_keep : forall m v f m' w l, set_factor m v f = (m', None) -> has_domain m w l -> has_domain m' w l.
Proof.
  intros m v f m' w l H D. apply set_factor_done in H. destruct H as (f' & H & _). apply set_factor_base_done in H.
  destruct H as (_ & _ & _ & _ & K & _). unfold has_domain in *. destruct K as [[_ ->]|(R & d & l' & _ & _ & ->)]; [auto|].
  rewrite dget_dset. destruct (eqd w v) as [-> | N]; [|auto]. apply recorded_iff in D. congruence.
Qed.

Lemma agreeing_step : forall m v f m', agreeing m -> (forall p, arc (m_graph m) p v -> exists l, has_domain m p l) ->
  set_factor m v f = (m', None) -> agreeing m'.
Proof.
  intros m v f m' [CK A] PF H0. pose proof H0 as H. apply set_factor_done in H. destruct H as (f' & H & _ & _).
  apply set_factor_base_done in H. destruct H as (G & C & K & F & D & CF). specialize (CF CK).
  split; [congruence|]. intros w h d l r ST IF x dx IX. unfold stored in ST. rewrite F, dget_dset in ST.
  destruct (eqd w v) as [-> | NW].
  - injection ST as <-. apply check_factor_ok in CF. destruct CF as (d2 & l2 & r2 & IF2 & IV & SL & SR & SD).
    assert (d2 = d /\ l2 = l /\ r2 = r) as (-> & -> & ->).
    { destruct IF as (X1 & X2 & X3), IF2 as (Y1 & Y2 & Y3). repeat split; congruence. }
    assert (XK : In x (keys d)) by (apply dget_keys; eauto).
    destruct (is_factor_vars f' d l r x IF XK) as [XL|XR].
    + apply SL in XL. destruct XL as [<- | []].
      destruct D as [[ND ED]|(ND & d' & l' & E1 & E2 & ED)].
      * destruct (recorded m v) as [rv|] eqn:R; [|congruence]. apply recorded_iff in R. exists rv.
        split; [unfold has_domain; now rewrite ED|]. eapply SD; [apply dget_In; eassumption|eassumption].
      * destruct IF as (IF1 & IF2' & IF3). rewrite IF1 in E1. injection E1 as <-. exists dx.
        split; [|intros z; tauto]. unfold has_domain. rewrite ED, dget_dset, eqd_refl. congruence.
    + apply SR in XR. destruct (PF x XR) as (rx & RX). exists rx. split; [eapply has_domain_keep; eassumption|].
      eapply SD; [apply dget_In; eassumption|eassumption].
  - destruct (A w h d l r ST IF x dx IX) as (rw & R1 & R2). exists rw. split; [eapply has_domain_keep; eassumption|auto].
Qed.

Lemma run_inv_calls : forall (P : pgm -> Prop) (Q : fobj -> Prop),
  (forall m v f m', P m -> Q f -> set_factor m v f = (m', None) -> P m') ->
  forall calls m, P m -> (forall v f, In (v, f) calls -> Q f) -> P (run_calls m calls).
Proof.
  intros P Q H. induction calls as [|[v f] calls IH]; intros m Pm Qc; [auto|]. cbn. apply IH.
  - destruct (set_factor m v f) as [m' [e|]] eqn:E; cbn [fst].
    + apply set_factor_raise in E. now subst.
    + eapply H; [eassumption| |eassumption]. apply (Qc v). now left.
  - intros w h I. apply (Qc w). now right.
Qed.

(** What the degenerate check means. *)
Lemma is_degenerate_ok : forall f, wf_mf f ->
  exists b, mf_is_degenerate f = Ok b /\ (b = true <-> zero_one f).
Proof.
  intros f (Ws & U & _). destruct (values_list_ok (mf_store f) Ws) as (xs & E & L & P).
  unfold mf_is_degenerate, mf_values. rewrite E. cbn [bind]. eexists. split; [reflexivity|].
  rewrite forallb_forall. unfold zero_one. split.
  - intros F o Fo. destruct (get_full (mf_store f) o Ws Fo) as (x & Lx & Gx).
    assert (I : In x xs). { eapply nth_error_In. rewrite (P (asg_of o)); [exact Lx|]. now apply full_valid. }
    specialize (F _ I). unfold mf_get_value. rewrite Gx. destruct x as [q| | |]; try discriminate.
    apply orb_true_iff in F. destruct F as [F|F]; apply qzero_spec in F.
    + left. now subst.
    + right. unfold n1. do 2 f_equal. qclra.
  - intros Z x I. apply In_nth_error in I. destruct I as (i & I).
    assert (Li : i < prodl (card (st_domain (mf_store f)))). { rewrite <- L. apply nth_error_Some. congruence. }
    destruct U as (W & _). unfold mf_domain in W.
    destruct (enumeration_ok (st_domain (mf_store f)) (proj1 W)) as (E1 & E2 & E3 & E4 & _).
    destruct (nth_error (assignment_space (st_domain (mf_store f))) i) as [o|] eqn:Eo.
    2:{ exfalso. apply nth_error_None in Eo. rewrite E1, size_prodl in Eo. lia. }
    assert (Fo : keys o = keys (st_domain (mf_store f)) /\ full (st_domain (mf_store f)) o) by (apply E2; eapply nth_error_In; eassumption).
    destruct Fo as [Ko Fo]. pose proof (E4 o Ko Fo) as R.
    assert (rowpos (st_domain (mf_store f)) o = i).
    { assert (ND : NoDup (assignment_space (st_domain (mf_store f)))) by (apply E3; intros v l J; now apply (proj2 W v l)).
      rewrite NoDup_nth_error in ND. apply ND; [|congruence]. apply nth_error_Some. congruence. }
    pose proof (P (asg_of o) (full_valid _ _ Fo)) as Q. rewrite <- rowpos_ravel in Q by auto. rewrite H, I in Q.
    destruct (get_full (mf_store f) o Ws Fo) as (y & L1 & G1). assert (x = y) by congruence. subst y.
    destruct (Z o Fo) as [G|G].
    + unfold mf_get_value in G. rewrite G1 in G. injection G as ->. reflexivity.
    + unfold mf_get_value in G. rewrite G1 in G. injection G as ->. reflexivity.
Qed.

(** Endogenous variables of an SCM only get functions. *)
Definition functional (endo : list var) (cast : bool) (m : pgm) : Prop :=
  m_check m = true /\ m_kind m = KScm endo cast /\
  forall v f, In v endo -> stored m v f ->
    (exists g, f = FM g /\ zero_one g) \/ (cast = false /\ exists g, f = FD g).

Lemma functional_step : forall endo cast m v f m', functional endo cast m -> wf_fobj f ->
  set_factor m v f = (m', None) -> functional endo cast m'.
Proof.
  intros endo cast m v f m' (CK & KD & S) WF H. apply set_factor_done in H. destruct H as (f' & H & _ & P). specialize (P _ _ KD).
  apply set_factor_base_done in H. destruct H as (G & C & K & F & _). split; [congruence|]. split; [congruence|].
  intros w h Iw ST. unfold stored in ST. rewrite F, dget_dset in ST. destruct (eqd w v) as [-> | N]; [|now apply (S w)].
  injection ST as <-. unfold scm_prepare in P. rewrite (proj2 (mem_In v endo) Iw), CK in P. destruct f as [g|g|]; cbn [bind negb] in P.
  - destruct (is_degenerate_ok g WF) as (b & E & B). rewrite E in P. cbn [bind] in P. destruct b; [|discriminate]. cbn [negb] in P.
    injection P as <-. left. exists g. split; [reflexivity|]. now apply B.
  - destruct cast.
    + destruct WF as ((u & l & WD) & U). destruct (df_to_multinomial_ok g u l WD U) as (h & E & Wh & Dh & _ & _ & _ & V).
      rewrite E in P. injection P as <-. left. exists h. split; [reflexivity|].
      intros o Fo. rewrite Dh in Fo. destruct (V o Fo) as (y & z & _ & _ & ->). destruct (eqd y z); auto.
    + injection P as <-. right. eauto.
  - discriminate.
Qed.

Lemma functional_fresh : forall m endo cast, is_fresh m -> m_check m = true -> m_kind m = KScm endo cast -> functional endo cast m.
Proof.
  intros m endo cast (F1 & F2 & F3) C K. split; [auto|]. split; [auto|]. intros v f _ ST. exfalso. unfold stored in ST.
  assert (I : In v (nodes (m_graph m))). { apply F2. apply dget_keys. eauto. }
  apply F1 in I. destruct I. congruence.
Qed.
Lemma agreeing_fresh : forall m, is_fresh m -> m_check m = true -> agreeing m.
Proof.
  intros m (F1 & F2 & F3) C. split; [auto|]. intros v f d l r ST. exfalso. unfold stored in ST.
  assert (I : In v (nodes (m_graph m))). { apply F2. apply dget_keys. eauto. }
  apply F1 in I. destruct I. congruence.
Qed.
Lemma agreeing_run : forall calls m, agreeing m -> parents_first m calls -> agreeing (run_calls m calls).
Proof.
  induction calls as [|[v f] calls IH]; intros m A P; [auto|]. cbn in *. destruct P as [P1 P2]. apply IH; [|auto].
  destruct (set_factor m v f) as [m' [e|]] eqn:E; cbn [fst].
  - apply set_factor_raise in E. now subst.
  - eapply agreeing_step; eassumption.
Qed.

(** ** Statements of the properties *)
Lemma structure_of_run : forall m calls, is_fresh m -> m_check m = true ->
  let m' := run_calls m calls in
  m_graph m' = m_graph m /\
  forall v f, stored m' v f -> exists d l r dv rv,
    is_factor f d l r /\ In v (nodes (m_graph m)) /\
    same_set [v] l /\ (forall p, In p r <-> arc (m_graph m) p v) /\
    dget v d = Some dv /\ has_domain m' v rv /\ same_set rv dv.
Proof.
  intros m calls F C. cbv zeta. pose proof (run_graph calls m) as [G _]. split; [auto|]. intros v f ST.
  pose proof (run_inv structural (fun m v f m' P H => structural_step m v f m' P H) calls m (structural_fresh m F C)) as [_ S].
  destruct (S v f ST) as (d & l & r & dv & rv & S'). rewrite G in S'. exists d, l, r, dv, rv. exact S'.
Qed.

Lemma functional_of_run : forall m calls endo cast, is_fresh m -> m_check m = true -> m_kind m = KScm endo cast ->
  (forall v f, In (v, f) calls -> wf_fobj f) ->
  forall v f, In v endo -> stored (run_calls m calls) v f ->
    (exists g, f = FM g /\ zero_one g) \/ (cast = false /\ exists g, f = FD g).
Proof.
  intros m calls endo cast F C K W.
  pose proof (run_inv_calls (functional endo cast) wf_fobj (functional_step endo cast) calls m (functional_fresh m endo cast F C K) W) as (_ & _ & S).
  exact S.
Qed.

Lemma agreement_of_run : forall m calls, is_fresh m -> m_check m = true -> parents_first m calls ->
  forall v1 f1 d1 l1 r1 v2 f2 d2 l2 r2 w s1 s2,
    stored (run_calls m calls) v1 f1 -> stored (run_calls m calls) v2 f2 ->
    is_factor f1 d1 l1 r1 -> is_factor f2 d2 l2 r2 ->
    dget w d1 = Some s1 -> dget w d2 = Some s2 -> same_set s1 s2.
Proof.
  intros m calls F C P. destruct (agreeing_run calls m (agreeing_fresh m F C) P) as [_ A].
  intros v1 f1 d1 l1 r1 v2 f2 d2 l2 r2 w s1 s2 S1 S2 I1 I2 D1 D2.
  destruct (A _ _ _ _ _ S1 I1 _ _ D1) as (rw1 & H1 & E1). destruct (A _ _ _ _ _ S2 I2 _ _ D2) as (rw2 & H2 & E2).
  unfold has_domain in *. rewrite H1 in H2. injection H2 as <-. intros x. rewrite <- (E1 x), (E2 x). tauto.
Qed.

Lemma acyclic_decP : forall g, wf_graph g -> acyclic g \/ ~ acyclic g.
Proof.
  intros g W. pose proof (simple_cycles_iff g W) as S. destruct (simple_cycles g) as [|c l]; [left; now apply S|].
  right. intros A. apply S in A. discriminate.
Qed.

Lemma bn_init_ok : forall g check, wf_graph g ->
  (acyclic g -> exists m, bn_init (GDag g) None check = Ok m /\ m_graph m = g /\ m_check m = check /\ is_fresh m) /\
  (~ acyclic g -> bn_init (GDag g) None check = Raise ValueError).
Proof.
  intros g check W. destruct (initialize_ok g W) as [I1 I2]. unfold bn_init. split.
  - intros A. rewrite (I1 A). cbn [bind]. eexists. split; [reflexivity|]. split; [reflexivity|]. split; [reflexivity|apply fresh_is_fresh].
  - intros A. now rewrite (I2 A).
Qed.
Lemma scm_init_ok : forall g endo cast check, wf_graph g ->
  (acyclic g -> exists m endo', scm_init (GDag g) None endo cast check = Ok m /\ m_graph m = g /\ m_check m = check /\
     is_fresh m /\ m_kind m = KScm endo' cast /\
     (forall v r, endo = Some (v :: r) -> endo' = v :: r) /\
     (endo = None \/ endo = Some [] -> forall v, In v endo' <-> In v (nodes g) /\ exists p, arc g p v)) /\
  (~ acyclic g -> scm_init (GDag g) None endo cast check = Raise ValueError).
Proof.
  intros g endo cast check W. destruct (initialize_ok g W) as [I1 I2]. unfold scm_init. split.
  - intros A. rewrite (I1 A). cbn [bind].
    assert (D : forall v, In v (filter (fun v => 0 <? length (preds g v)) (nodes g)) <-> In v (nodes g) /\ exists p, arc g p v).
    { intros v. rewrite filter_In, Nat.ltb_lt. split.
      - intros [I L]. split; [auto|]. destruct (preds g v) as [|p r] eqn:E; [cbn in L; lia|]. exists p.
        apply in_preds. rewrite E. now left.
      - intros [I (p & K)]. split; [auto|]. apply in_preds in K. destruct (preds g v); [destruct K|cbn; lia]. }
    destruct endo as [[|v r]|]; cbn [bind]; eexists; eexists; (split; [reflexivity|]); (split; [reflexivity|]); (split; [reflexivity|]);
      (split; [apply fresh_is_fresh|]); (split; [reflexivity|]).
    + split; [discriminate|auto].
    + split; [intros ? ? E; congruence|intros [E|E]; discriminate].
    + split; [discriminate|auto].
  - intros A. now rewrite (I2 A).
Qed.
Lemma init_other : forall check cast endo,
  bn_init GOther None check = Raise ValueError /\ scm_init GOther None endo cast check = Raise ValueError.
Proof. intros. split; reflexivity. Qed.
Lemma scm_init_str : forall s g cast check, str2dag s = Ok g -> wf_graph g -> acyclic g ->
  scm_init (GStr s) None None cast check = Raise AttributeError /\
  exists m, bn_init (GStr s) None check = Ok m /\ m_graph m = g.
Proof.
  intros s g cast check E W A. destruct (initialize_ok g W) as [I1 _]. specialize (I1 A). unfold initialize in I1. cbn [bind] in I1.
  unfold scm_init, bn_init, initialize. rewrite E. cbn [bind]. rewrite I1. cbn [bind]. split; [reflexivity|]. eexists. split; reflexivity.
Qed.
Lemma submodel_raises : forall m ns, m_submodel m ns = Raise TypeError.
Proof. reflexivity. Qed.
