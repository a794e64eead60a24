(** Every conditional table is the mixture of a canonical equation, and the
    uniform distribution gives the uniform table. *)

From Coq Require Import String Bool Arith ZArith QArith Qcanon Lia Permutation List.
From Verif Require Import PyBase Num DomainModel NdArray StoreModel NumStore FactorModel GenModel GraphModel ModelModel Spec StoreSpec FactorSpec GraphSpec ModelSpec GenSpec NetSpec CanonSpec
  NumFacts PyFacts BigSum StoreFacts FactorFacts FactorFacts2 FactorFacts3 PropFacts1 NetSem FactorSem EmMath GenFacts2 GenFacts3 NetFacts VeFacts4 CanonFacts1 CanonFacts2 CanonFacts3.
From Coq Require Import List.
Import ListNotations.
Local Open Scope nat_scope.
Local Open Scope list_scope.

Lemma obs_dec (p q : obs) : {p = q} + {p <> q}.
Proof. apply list_eq_dec. intros (v, s) (v', s'). destruct (eqd v v'), (eqd s s'); [left|right|right|right]; congruence. Qed.
Definition state_dec (s s' : state) : {s = s'} + {s <> s'} := eqd s s'.

Section Given.
  Variables (dom : domain) (x exo : var) (endo : list var) (l lu : list state) (vt : vtype).
  Hypothesis Us : usable dom.
  Hypothesis CV : canon_vars dom x exo endo l lu.
  Hypothesis NP : vt = VNumpy -> length endo = 1.
  Hypothesis Card : length lu = length l ^ size (order_dom dom endo).
  Let pdom := order_dom dom endo.
  Let A := all_assignments pdom.
  Let WD : wf_dom dom := usable_wf dom Us.
  Variables (t : mfactor) (a0 : asg).
  Hypothesis Ct : cpt dom vt x endo t.
  Hypothesis Nn : no_negative t.
  Hypothesis V0 : valid dom a0.
  Let Gt : good dom vt t := cpt_good dom vt x endo t Ct.

  Definition wt (p : obs) (s : state) : Qc := fv t (upd (over p a0) x s).

  Lemma over_A p : In p A -> valid dom (over p a0) /\ keys p = endo.
  Proof.
    intros I. apply all_assignments_In_full in I as (K & F); [|apply (cv_pdom _ _ _ _ _ _ CV)].
    unfold pdom in K. rewrite order_dom_keys in K. split; [|assumption]. destruct CV as (W & _ & _ & _ & Ie & _).
    intros v k J. unfold over. destruct (dget v p) as [s|] eqn:E; [|now apply V0].
    assert (Iv : In v endo) by (rewrite <- K; apply dget_keys; eauto).
    destruct (F v k) as (s' & E' & Is).
    - apply (order_dom_In dom endo v k (proj1 W) Ie). split; [assumption|assumption].
    - rewrite E in E'. now injection E' as ->.
  Qed.

  Lemma wt_one p : In p A -> qsum (map (wt p) l) = 1%Qc.
  Proof.
    intros I. destruct (over_A p I) as (V & _). assert (Q := cpt_one dom vt WD x endo t (over p a0) Ct V).
    rewrite (sm_one dom WD x l) in Q; [exact Q|apply (dep_ext (mf_vars t)), (fv_dep dom vt), Gt|]. apply CV.
  Qed.

  Lemma upd_valid a s : valid dom a -> In s l -> valid dom (upd a x s).
  Proof.
    intros V I v k J. unfold upd. destruct (eqd v x) as [-> | _]; [|now apply V].
    assert (Ix : In (x, l) dom) by apply CV. now rewrite (same_states dom x k l (proj1 WD) J Ix).
  Qed.

  Lemma fv_nonneg a : valid dom a -> (0 <= fv t a)%Qc.
  Proof.
    intros V. rewrite <- (entry_fv dom vt t a (obs_of (keys dom) a) WD Gt V).
    - apply Nn. apply (good_full dom vt t _ Gt). now apply full_obs_D.
    - intros v J. apply agrees_obs_of. now apply (good_vars dom vt t Gt).
  Qed.
  Lemma wt_nonneg p s : In p A -> In s l -> (0 <= wt p s)%Qc.
  Proof. intros I J. apply fv_nonneg, upd_valid; [|assumption]. apply (over_A p I). Qed.

  Lemma wt_at a : valid dom a -> fv t a = wt (obs_of endo a) (a x).
  Proof.
    intros V. unfold wt. apply (fv_dep dom vt t Gt). intros v J. apply (cpt_vars dom vt x endo t v Ct) in J.
    unfold upd. destruct (eqd v x) as [-> | N]; [reflexivity|]. destruct J as [J | J]; [contradiction|].
    unfold over. now rewrite (agrees_obs_of endo a v J).
  Qed.
End Given.

(** the weights of the functions *)
Lemma weights dom x exo endo l lu vt t f (val : state -> obs -> state) : usable dom -> canon_vars dom x exo endo l lu ->
  (vt = VNumpy -> length endo = 1) -> length lu = length l ^ size (order_dom dom endo) ->
  cpt dom vt x endo t -> no_negative t -> canonical_deterministic dom exo endo vt = Ok f ->
  (forall u p, In u lu -> In p (all_assignments (order_dom dom endo)) -> get_value (df_store f) ((exo, u) :: p) = Ok (val u p)) ->
  exists q, total (map q lu) = 1%Qc /\ (forall u, In u lu -> (0 <= q u)%Qc) /\
    forall a, valid dom a -> qsum (map (fun u => if eqd (val u (obs_of endo a)) (a x) then q u else 0%Qc) lu) = fv t a.
Proof.
  intros Us CV NP Card Ct Nn E V. assert (WD := usable_wf _ Us). destruct (some_valid dom WD) as (a0 & V0).
  destruct (cv_unique dom x exo endo l lu vt CV NP Card val f E V) as (VI & VJ & VS).
  set (A := all_assignments (order_dom dom endo)) in *.
  set (w := wt x t a0).
  assert (W1 : forall p, In p A -> qsum (map (w p) l) = 1%Qc) by exact (wt_one dom x exo endo l lu vt Us CV t a0 Ct V0).
  set (q := fun u => qprod (map (fun p => w p (val u p)) A)).
  assert (Cnt : length lu = length l ^ length A) by (unfold A; rewrite (cv_len dom endo); assumption).
  assert (NA : NoDup A) by exact (cv_A dom x exo endo l lu CV).
  assert (Nl := cv_l dom x exo endo l lu CV). assert (Nu := cv_lu dom x exo endo l lu CV).
  assert (T1 : total (map q lu) = 1%Qc).
  { rewrite total_qsum. unfold q. rewrite (sum_product lu A l val Nu Cnt VI VJ w). now apply qprod_ones. }
  assert (Qn : forall u, In u lu -> (0 <= q u)%Qc).
  { intros u Iu. apply qprod_nonneg. intros z J. apply in_map_iff in J as (p & <- & Ip).
    apply (wt_nonneg dom x exo endo l lu vt Us CV t a0 Ct Nn V0); auto. }
  exists q. split; [assumption|]. split; [assumption|]. intros a Va.
  rewrite (wt_at dom x endo vt t a0 Ct a) by assumption. assert (Ix : In (x, l) dom) by apply CV.
  apply (sum_at state_dec obs_dec lu A l val Nu NA Nl Cnt VI VJ w (obs_of endo a) (a x)).
  - exact (In_A dom x exo endo l lu CV a Va).
  - apply (Va x l Ix).
  - exact W1.
Qed.

Lemma table_of_canonical : forall dom x exo endo l lu vt t, usable dom -> canon_vars dom x exo endo l lu ->
  (vt = VNumpy -> length endo = 1) -> length lu = length l ^ size (order_dom dom endo) ->
  cpt dom vt x endo t -> no_negative t ->
  exists c g prod h, canonical_multinomial dom exo endo vt = Ok c /\ cpt dom vt exo [] g /\ no_negative g /\
    mf_multiply g (OFac c) = Ok prod /\ mf_marginalize prod [exo] = Ok h /\
    mf_left h = [x] /\ same_set (mf_vars h) (mf_vars t) /\
    forall o, full (mf_domain t) o -> exists y, mf_get_value t o = Ok y /\ mf_get_value h o = Ok y.
Proof.
  intros dom x exo endo l lu vt t Us CV NP Card Ct Nn. assert (WD := usable_wf _ Us).
  destruct (some_valid dom WD) as (a0 & V0). assert (Gt := cpt_good dom vt x endo t Ct).
  destruct (canon_table dom x exo endo l lu vt Us CV NP Card) as (f & c & val & E & V & Ec & Gc & Lc & Rc & Dc & Fc).
  destruct (weights dom x exo endo l lu vt t f val Us CV NP Card Ct Nn E V) as (q & T1 & Qn & Sq).
  assert (Iu : In (exo, lu) dom) by apply CV. assert (Ix : In (x, l) dom) by apply CV.
  destruct (root_table dom vt exo lu q Us Iu T1) as (g & Eg & Cg & Dg & Gg & Fg).
  destruct (mixture dom x exo endo l lu vt Us CV f c val g q E V Gc Lc Rc Dc Fc Cg Fg) as (prod & h & Ep & Eh & Gh & Lh & Vh & Fh).
  exists c, g, prod, h. split; [assumption|]. split; [assumption|]. split.
  { intros o Fo. rewrite Dg in Fo. destruct (Fo exo lu (or_introl eq_refl)) as (s & Eo & Is). unfold entry.
    rewrite (Gg o s Eo Is). now apply Qn. }
  split; [assumption|]. split; [assumption|]. split; [assumption|].
  assert (Sv : same_set (mf_vars h) (mf_vars t)) by (intros v; rewrite (Vh v), (cpt_vars dom vt x endo t v Ct); reflexivity).
  split; [assumption|]. intros o Fo.
  set (a := fun v => if mem v (mf_vars t) then over o a0 v else a0 v).
  assert (Va : valid dom a).
  { intros v k J. unfold a. destruct (mem v (mf_vars t)) eqn:M; [|now apply V0]. apply mem_In in M. unfold mf_vars in M. apply keys_In in M as (k' & M).
    assert (k' = k) by (apply (same_states dom v k' k); [apply WD|now apply Gt|assumption]). subst k'.
    destruct (Fo v k M) as (s & Es & Is). unfold over. now rewrite Es. }
  assert (Ag : agrees o a (mf_vars t)).
  { intros v J. assert (J' := J). unfold mf_vars in J'. apply keys_In in J' as (k & J'). destruct (Fo v k J') as (s & Es & _).
    rewrite Es. f_equal. unfold a, over. apply mem_In in J. now rewrite J, Es. }
  exists (Fin (fv t a)). split; [now apply (fv_get dom vt)|].
  rewrite (fv_get dom vt h a o Gh Va); [|intros v J; apply Ag, Sv, J]. f_equal. f_equal.
  rewrite (Fh a Va). now apply Sq.
Qed.

Lemma qn_pow n m : qn (n ^ m) = pw (qn n) m.
Proof. induction m as [|m IH]; [reflexivity|]. cbn [Nat.pow pw]. now rewrite qn_mul, IH. Qed.

Lemma uniform_mixture : forall dom x exo endo l lu vt, usable dom -> canon_vars dom x exo endo l lu ->
  (vt = VNumpy -> length endo = 1) -> length lu = length l ^ size (order_dom dom endo) ->
  exists c g prod h, canonical_multinomial dom exo endo vt = Ok c /\ uniform_multinomial [(exo, lu)] [] vt = Ok g /\
    mf_multiply g (OFac c) = Ok prod /\ mf_marginalize prod [exo] = Ok h /\
    mf_left h = [x] /\ same_set (mf_vars h) (x :: endo) /\
    forall o, full (mf_domain h) o -> exists y, mf_get_value h o = Ok (Fin y) /\ (y * Q2Qc (Z.of_nat (length l) # 1) = 1)%Qc.
Proof.
  intros dom x exo endo l lu vt Us CV NP Card. assert (WD := usable_wf _ Us).
  destruct (some_valid dom WD) as (a0 & V0).
  destruct (canon_table dom x exo endo l lu vt Us CV NP Card) as (f & c & val & E & V & Ec & Gc & Lc & Rc & Dc & Fc).
  destruct (cv_unique dom x exo endo l lu vt CV NP Card val f E V) as (VI & VJ & VS).
  set (A := all_assignments (order_dom dom endo)) in *.
  assert (Iu : In (exo, lu) dom) by apply CV. assert (Ix : In (x, l) dom) by apply CV.
  assert (U1 : usable [(exo, lu)]) by (apply (usable_one exo lu dom); auto).
  destruct (uniform_multinomial_ok [(exo, lu)] [] vt U1) as (g & Eg & Wg & Dg & Rg & Tg & Ng & Gg); [constructor|intros ? []|].
  assert (Cnt : length lu = length l ^ length A) by (unfold A; rewrite (cv_len dom endo); assumption).
  assert (NA : NoDup A) by exact (cv_A dom x exo endo l lu CV).
  assert (Nl := cv_l dom x exo endo l lu CV). assert (Nu := cv_lu dom x exo endo l lu CV).
  assert (Pl : (0 < qn (length l))%Qc).
  { apply qn_pos. destruct l; [exfalso; apply (proj2 (proj2 WD x [] Ix)); reflexivity|cbn; lia]. }
  assert (Pu : (0 < qn (length lu))%Qc).
  { apply qn_pos. destruct lu; [exfalso; apply (proj2 (proj2 WD exo [] Iu)); reflexivity|cbn; lia]. }
  assert (Nz : forall q, (0 < q)%Qc -> q <> 0%Qc) by (intros q P ->; now apply Qcle_not_lt in P; [|apply Qcle_refl]).
  assert (Val : forall o, full [(exo, lu)] o -> mf_get_value g o = Ok (Fin (/ qn (length lu))%Qc)).
  { intros o Fo. rewrite (Gg o Fo). f_equal. change (drop [] [(exo, lu)]) with [(exo, lu)]. cbn [size]. rewrite Nat.mul_1_r.
    assert (S : nsum (repeat n1 (length lu)) = Fin (qn (length lu))).
    { transitivity (nsum (map Fin (repeat 1%Qc (length lu)))).
      - f_equal. clear. induction (length lu) as [|k IH]; [reflexivity|]. cbn. now rewrite IH.
      - rewrite nsum_Fin, qsum_repeat. f_equal. ring. }
    rewrite S. unfold ndiv, n1. assert (Z := Nz _ Pu). destruct (qzero (qn (length lu))) eqn:Qz; [now apply qzero_spec in Qz|].
    f_equal. unfold Qcdiv. ring. }
  assert (Cg : cpt dom vt exo [] g).
  { split; [assumption|]. split; [assumption|]. split; [|split; [|split; [|split]]].
    - unfold mf_left, mf_vars. rewrite Dg, Rg. intros v. reflexivity.
    - rewrite Rg. intros v. reflexivity.
    - rewrite Dg. intros w k [[= <- <-] | []]. assumption.
    - rewrite Dg. intros o Fo. eexists. now apply Val.
    - assumption. }
  assert (Gd := cpt_good dom vt exo [] g Cg).
  assert (Fg : forall a, valid dom a -> fv g a = (fun _ => / qn (length lu))%Qc (a exo)).
  { intros a Va. assert (Q := get_obs_D dom vt g a Gd Va). rewrite Val in Q; [now injection Q|].
    intros v k [[= <- <-] | []]. exists (a exo). split; [apply agrees_obs_of, keys_In; eauto|now apply (Va exo lu)]. }
  destruct (mixture dom x exo endo l lu vt Us CV f c val g _ E V Gc Lc Rc Dc Fc Cg Fg) as (prod & h & Ep & Eh & Gh & Lh & Vh & Fh).
  exists c, g, prod, h. split; [assumption|]. split; [assumption|]. split; [assumption|]. split; [assumption|]. split; [assumption|].
  split; [intros v; rewrite (Vh v); cbn; intuition congruence|]. intros o Fo.
  set (a := fun v => if mem v (mf_vars h) then over o a0 v else a0 v).
  assert (Va : valid dom a).
  { intros v k J. unfold a. destruct (mem v (mf_vars h)) eqn:M; [|now apply V0]. apply mem_In in M. unfold mf_vars in M. apply keys_In in M as (k' & M).
    assert (k' = k) by (apply (same_states dom v k' k); [apply WD|now apply Gh|assumption]). subst k'.
    destruct (Fo v k M) as (s & Es & Is). unfold over. now rewrite Es. }
  assert (Ag : agrees o a (mf_vars h)).
  { intros v J. assert (J' := J). unfold mf_vars in J'. apply keys_In in J' as (k & J'). destruct (Fo v k J') as (s & Es & _).
    rewrite Es. f_equal. unfold a, over. apply mem_In in J. now rewrite J, Es. }
  exists (fv h a). split; [now apply (fv_get dom vt)|]. rewrite (Fh a Va).
  assert (Q := sum_at state_dec obs_dec lu A l val Nu NA Nl Cnt VI VJ (fun _ _ => / qn (length l))%Qc (obs_of endo a) (a x)
    (In_A dom x exo endo l lu CV a Va) (Va x l Ix)).
  transitivity (/ qn (length l) * qn (length l))%Qc; [|field; now apply Nz]. f_equal. etransitivity; [|apply Q].
  - apply (f_equal qsum), map_ext. intros u. unfold state_dec. destruct (eqd (val u (obs_of endo a)) (a x)); [|reflexivity].
    assert (R : map (fun _ : obs => / qn (length l))%Qc A = repeat (/ qn (length l))%Qc (length A)).
    { generalize (/ qn (length l))%Qc. clear. intros z. induction A as [|p r IH]; [reflexivity|]. cbn. now rewrite IH. }
    rewrite R, qprod_repeat, Cnt, qn_pow.
    assert (Pw := pw_inv (qn (length l)) (length A) (Nz _ Pl)).
    assert (Pz : pw (qn (length l)) (length A) <> 0%Qc) by (apply Nz, pw_pos, Pl).
    transitivity (pw (/ qn (length l)) (length A) * pw (qn (length l)) (length A) * / pw (qn (length l)) (length A))%Qc.
    + rewrite Pw. ring.
    + field. assumption.
  - intros p _. assert (R : map (fun _ : state => / qn (length l))%Qc l = repeat (/ qn (length l))%Qc (length l)).
    { generalize (/ qn (length l))%Qc. clear. intros z. induction l as [|s r IH]; [reflexivity|]. cbn. now rewrite IH. }
    rewrite R, qsum_repeat. field. now apply Nz.
Qed.
