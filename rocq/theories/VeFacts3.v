(** The answer of variable elimination. *)

From Coq Require Import String Bool Arith ZArith QArith Qcanon Lia Permutation List.
From Verif Require Import PyBase PyFacts Num DomainModel NdArray StoreModel NumStore FactorModel Spec StoreSpec DomainFacts StoreFacts
  NumFacts PropFacts1 StoreMarg2 FactorSpec FactorFacts FactorFacts2 FactorFacts3 BigSum GraphModel GraphSpec GraphFacts GraphFacts2
  ModelModel ModelSpec ModelFacts BuildFacts InferModel NetSpec NetSem FactorSem NetFacts VeFacts VeFacts2.
From Coq Require Import List.
Import ListNotations.
Local Open Scope nat_scope.
Local Arguments eqd : simpl never.

Lemma vals_of {V} (d : dict var V) (h : var -> V) : NoDup (keys d) -> (forall v, In v (keys d) -> dget v d = Some (h v)) ->
  vals d = map h (keys d).
Proof.
  induction d as [|[k x] d IH]; intros N E; [reflexivity|]. cbn in N. inversion N; subst. cbn. f_equal.
  - specialize (E k (or_introl eq_refl)). cbn in E. destruct (eqd k k); congruence.
  - apply IH; auto. intros v J. specialize (E v (or_intror J)). cbn in E. destruct (eqd v k) as [-> | ]; auto. contradiction.
Qed.

Lemma varsizes_go D (d : dict var (option (list state))) : NoDup (keys d) ->
  (forall v, In v (keys d) -> exists l, dget v d = Some (Some l) /\ In (v, l) D) ->
  exists sizes, mapM (fun vd => match snd vd with Some l => Ok (fst vd, length l) | None => Raise TypeError end) d = Ok sizes /\
     forall v, In v (keys d) -> exists l, In (v, l) D /\ dget v sizes = Some (length l).
Proof.
  induction d as [|[k o] d IH]; intros N Hd.
  - exists []. split; [reflexivity|]. intros v [].
  - cbn in N. inversion N; subst. destruct (Hd k (or_introl eq_refl)) as (l & E & J). cbn in E. destruct (eqd k k); [|congruence].
    injection E as ->. destruct IH as (sizes & Es & Q); auto.
    { intros v Jv. destruct (Hd v (or_intror Jv)) as (l' & E' & J'). cbn in E'. destruct (eqd v k) as [-> | ]; [contradiction|eauto]. }
    exists ((k, length l) :: sizes). cbn [mapM snd fst]. rewrite Es. split; [reflexivity|].
    intros v [<-|Jv]; cbn; [destruct (eqd k k); [eauto|congruence]|]. destruct (eqd v k) as [-> | ]; [contradiction|auto].
Qed.

Lemma get_varsizes_ok m D g : keys (m_domains m) = nodes g -> NoDup (nodes g) ->
  (forall v, In v (nodes g) -> exists l, has_domain m v l /\ In (v, l) D) ->
  exists sizes, get_varsizes m (nodes g) = Ok sizes /\
    forall v, In v (nodes g) -> exists l, In (v, l) D /\ dget v sizes = Some (length l).
Proof.
  intros Kd ND Hd. unfold get_varsizes, get_domains. rewrite dfilter_true.
  2:{ intros k J. apply mem_In. now rewrite <- Kd. }
  rewrite <- Kd in *. destruct (varsizes_go D (m_domains m) ND Hd) as (s & E & Q). eauto.
Qed.

Lemma sm_over D (WD : wf_dom D) S h e a : ext_fun h -> (forall v, In v S -> ~ In v (keys e)) ->
  sm D S (fun b => h (over e b)) a = sm D S h (over e a).
Proof.
  intros Ex N. unfold sm, sumdom. f_equal. apply map_ext_in. intros o J. apply Ex. intros w. unfold over.
  destruct (dget w e) eqn:Ew.
  - assert (Nw : dget w o = None); [|now rewrite Nw]. apply dget_None. rewrite (all_assignments_keys _ _ J).
    intros K. apply keys_pick in K as [_ K]. apply (N w K). apply dget_keys. eauto.
  - auto.
Qed.

Section Run.
  Variables (m : pgm) (D : domain) (F : var -> mfactor) (vt : vtype).
  Hypothesis H : network m D F vt.
  Variable e : obs.
  Hypothesis Ke : known D e.
  Variable T : list var.
  Hypothesis NT : NoDup T.
  Hypothesis T0 : T <> [].
  Hypothesis Dj : forall v, In v T -> ~ In v (keys e).
  Notation P := (P F).
  Notation fam := (fam F).
  Notation sm := (sm D).
  Notation prods := (prods P).
  Variables (im : pgm) (R : list var) (G : var -> mfactor).
  Hypothesis NR : NoDup R.
  Hypothesis IR : incl R (keys D).
  Hypothesis TR : incl T R.
  Hypothesis closed : forall n p, In n R -> In p (fam n) -> ~ In p (keys e) -> In p R.
  Hypothesis Bi : built D (m_graph im) G im.
  Hypothesis Wi : wf_graph (m_graph im).
  Hypothesis Ai : acyclic (m_graph im).
  Hypothesis Ni : forall v, In v (nodes (m_graph im)) <-> In v R.
  Hypothesis HG : forall v, In v R -> mf_restrict (F v) (dfilter (fun w => mem w (mf_right (F v))) e) = Ok (G v).
  Variable heur : digraph -> list var -> dict var nat -> res (list var).
  Hypothesis Hh : is_heuristic heur.
  Variable set_order : list (list var) -> list var.
  Hypothesis Hs : is_set_order set_order.
  Let WD : wf_dom D := net_wd m D F vt H.

  Lemma restricted n : In n R -> good D vt (G n) /\
    (forall v, In v (mf_vars (G n)) <-> In v (fam n) /\ (v = n \/ ~ In v (keys e))) /\
    (forall v, In v (mf_left (G n)) <-> v = n) /\
    (forall a, ok D e a -> fv (G n) a = P n a).
  Proof.
    intros J. assert (Jd := IR n J). set (ob := dfilter (fun w => mem w (mf_right (F n))) e).
    assert (Kob : known D ob).
    { intros w l s Jw Es. unfold ob in Es. rewrite dget_dfilter in Es. destruct (mem w (mf_right (F n))); [|discriminate]. eapply Ke; eauto. }
    assert (Gn := net_good m D F vt H n Jd).
    destruct (good_restrict D vt (F n) ob Gn Kob) as (h & E & Gh & _ & Vh & Lh & Xh).
    unfold ob in E. rewrite (HG n J) in E. injection E as <-. fold ob in Vh, Lh, Xh.
    destruct (net_cpt m D F vt H n Jd) as (Wf & _ & Lf & _). destruct (wf_mf_partitioned (F n) Wf) as (_ & _ & _ & Pt & Dis).
    assert (Kin : forall v, In v (keys ob) <-> In v (mf_right (F n)) /\ In v (keys e)).
    { intros v. unfold ob. rewrite keys_dfilter, filter_In, mem_In. tauto. }
    split; [auto|]. split; [|split].
    - intros v. rewrite Vh, Kin. unfold NetFacts.fam. split.
      + intros [A B]. split; auto. apply Pt in A as A'. destruct A' as [A'|A']; [left; apply Lf in A'; destruct A' as [->|[]]; auto|].
        right. tauto.
      + intros [A [-> | B]]; split; auto; [|tauto]. intros [C _]. apply (Dis n). split; auto. apply Lf. now left.
    - intros v. rewrite Lh, Kin. split.
      + intros [A _]. apply Lf in A. destruct A as [->|[]]; auto.
      + intros ->. assert (A : In n (mf_left (F n))) by (apply Lf; now left). split; auto. intros [C _]. apply (Dis n). auto.
    - intros a Oa. rewrite (Xh a (proj1 Oa)). apply (P_dep m D F vt H n Jd). intros w Jw. unfold over.
      destruct (dget w ob) as [s|] eqn:Ew; auto. symmetry. apply (proj2 Oa).
      + unfold ob in Ew. rewrite dget_dfilter in Ew. destruct (mem w (mf_right (F n))); [auto|discriminate].
      + eapply fam_keys; eauto.
  Qed.

  Lemma ok_over a : valid D a -> ok D e (over e a).
  Proof. intros V. split; [now apply over_valid|]. intros v s E _. unfold over. now rewrite E. Qed.

  Lemma ve_run_ok : exists r, ve_run heur set_order im T e = Ok r /\ wf_mf r /\ mf_vtype r = vt /\
    same_set (mf_vars r) T /\ mf_right r = [] /\ (forall v l, In (v, l) (mf_domain r) -> In (v, l) D) /\
    forall a t, valid D a -> assigns D T t ->
      mf_get_value r t = Ok (div_op vt (Fin (sm (minus (minus R T) (keys e)) (prods R) (over t (over e a))))
                                       (Fin (sm (minus R (keys e)) (prods R) (over e a)))).
  Proof.
    destruct Bi as (_ & Kf & Kd & St & Hd).
    set (ks := nodes (m_graph im)) in *.
    assert (NK : NoDup ks) by apply Wi.
    assert (Ef : mapM multinomial_of (vals (m_factors im)) = Ok (map G ks)).
    { rewrite (vals_of (m_factors im) (fun v => Some (FM (G v)))); [|now rewrite Kf|intros v J; rewrite Kf in J; now apply St].
      rewrite Kf, mapM_map. apply mapM_map_ok. reflexivity. }
    destruct (get_varsizes_ok im D (m_graph im) Kd NK Hd) as (sizes & Esz & Hsz). fold ks in Esz, Hsz.
    assert (Pk : Permutation ks R) by (apply NoDup_Permutation; auto).
    assert (Kne : map G ks <> []).
    { destruct T as [|t0 T'] eqn:ET; [congruence|]. assert (J : In t0 ks) by (apply Ni, TR; now left).
      destruct ks; [destruct J|discriminate]. }
    set (vf := set_order (map mf_vars (map G ks))). set (tr := filter (fun v => negb (mem v T) && negb (mem v (keys e))) vf).
    assert (Itr : forall v, In v tr <-> In v R /\ ~ In v T /\ ~ In v (keys e)).
    { intros v. unfold tr. rewrite filter_In, andb_true_iff, !negb_true_iff, !mem_nIn. unfold vf.
      destruct (Hs (map mf_vars (map G ks))) as [_ Es]. rewrite (Es v), map_map, in_concat. split.
      - intros ((l & Jl & Jv) & N1 & N2). apply in_map_iff in Jl as (n & <- & Jn). apply Ni in Jn.
        split; auto. destruct (restricted n Jn) as (_ & Vn & _). apply Vn in Jv as [Jv _]. eapply closed; eauto.
      - intros (J & N1 & N2). split; auto. exists (mf_vars (G v)). split; [apply in_map_iff; exists v; split; auto; now apply Ni|].
        destruct (restricted v J) as (_ & Vn & _). apply Vn. split; auto. apply (fam_In m D F vt H); auto. }
    assert (Ntr : NoDup tr) by (apply NoDup_filter, Hs).
    destruct (Hh (m_graph im) tr sizes Wi Ai Ntr) as (order & Eo & Po).
    { intros v J. apply Ni. apply Itr in J. tauto. }
    { intros v J. destruct (Hsz v J) as (l & _ & E). eauto. }
    assert (Iorder : forall v, In v order <-> In v R /\ ~ In v T /\ ~ In v (keys e)).
    { intros v. rewrite <- Itr. split; apply Permutation_in; auto. now symmetry. }
    assert (I0 : inv D F vt e R (map (fun n => (G n, [n])) ks) []).
    { apply (inv_start m D F vt H e R NR IR G); auto; intros n; intros; apply restricted; auto. }
    destruct (ve_loop_ok m D F vt H e R IR order (map (fun n => (G n, [n])) ks) [] I0) as (L & Z & El & IL & IZ).
    { rewrite app_nil_r. eapply Permutation_NoDup; [symmetry; exact Po|auto]. }
    { intros z J. apply Iorder in J. tauto. }
    rewrite map_map in El. cbn [fst] in El.
    assert (HZ : forall v, In v Z <-> In v R /\ ~ In v T /\ ~ In v (keys e)).
    { intros v. rewrite IZ, Iorder. cbn. tauto. }
    destruct IL as (It & NDL & Cov & _ & _ & Gl).
    assert (Lne : map fst L <> []).
    { destruct T as [|t0 T'] eqn:ET; [congruence|]. assert (J : In t0 (flat_map snd L)).
      { apply Cov; [apply TR; now left|]. rewrite HZ. intros (_ & N & _). apply N. now left. }
      destruct L; [destruct J|discriminate]. }
    destruct (product_all_ok D vt WD (map fst L) Lne) as (j0 & Ej0 & Gj0 & Vj0 & Lj0 & Xj0).
    { intros f J. apply in_map_iff in J as ([f' S] & <- & J). apply (It _ J). }
    destruct (good_restrict D vt j0 e Gj0 Ke) as (jt & Ejt & Gjt & Djt & Vjt & Ljt & Xjt).
    assert (T_S : forall v, In v T -> exists f S, In (f, S) L /\ In v S).
    { intros v J. assert (C : In v (flat_map snd L)) by (apply Cov; [auto|rewrite HZ; tauto]).
      apply in_flat_map in C as ([f S] & C & C'). exists f, S. auto. }
    assert (Vars : forall v, In v (mf_vars jt) <-> In v T).
    { intros v. rewrite Vjt, Vj0. split.
      - intros ((f & J & Jv) & Ne). apply in_map_iff in J as ([f' S] & <- & J). destruct (It _ J) as (_ & IS & _ & Vf & _).
        apply (Vf v Ne) in Jv as (Nz & n & Jn & Jf). destruct (in_dec eqd v T) as [|NvT]; auto. exfalso. apply Nz, HZ.
        split; [eapply closed; [apply IS; exact Jn|auto|auto]|auto].
      - intros J. split; [|auto]. destruct (T_S v J) as (f & S & JL & JS). exists f. split; [apply in_map_iff; exists (f, S); auto|].
        destruct (It _ JL) as (_ & IS & _ & Vf & _). apply Vf; [auto|]. split; [rewrite HZ; tauto|]. exists v. split; auto.
        apply (fam_In m D F vt H); auto. }
    assert (Lefts : forall v, In v (mf_left jt) <-> In v T).
    { intros v. split; [intros J; apply Vars; now apply mf_left_In in J|]. intros J. apply Ljt. split; [|auto]. apply Lj0.
      destruct (T_S v J) as (f & S & JL & JS). exists f. split; [apply in_map_iff; exists (f, S); auto|].
      destruct (It _ JL) as (_ & _ & Lf & _). apply Lf. split; auto. rewrite HZ. tauto. }
    assert (Xj : forall a, valid D a -> fv jt a = sm Z (prods R) (over e a)).
    { intros a V. rewrite (Xjt a V). assert (O := ok_over a V). rewrite (Xj0 _ (proj1 O)), map_map. now apply Gl. }
    destruct (good_marg D WD vt jt T Gjt NT) as (dn & Edn & Gdn & _ & Vdn & _ & Xdn). { intros v J. now apply Vars. }
    assert (Vdn0 : forall v, ~ In v (mf_vars dn)) by (intros v J; apply Vdn in J as [A B]; apply B; now apply Vars).
    destruct (good_div D WD vt jt dn Gjt Gdn) as (r & Er & Wr & Tr & Dr & Lr & Rr & Xr).
    exists r. split.
    { assert (Em : forall (x : list var), match map G ks with [] => Raise TypeError | _ => Ok x end = Ok x)
        by (intros; destruct (map G ks); [congruence|reflexivity]).
      unfold ve_run. rewrite Ef. cbn [bind]. rewrite Em. cbn [bind]. fold vf. fold tr. fold ks. rewrite Esz. cbn [bind].
      rewrite Eo. cbn [bind]. change (map G ks) with (map (fun x : var => G x) ks). rewrite El. cbn [bind].
      rewrite Ej0. cbn [bind]. rewrite Ejt. cbn [bind]. rewrite Edn. cbn [bind]. exact Er. }
    split; [auto|]. split; [auto|]. split.
    { intros v. unfold mf_vars. rewrite Dr, join_keys. fold (mf_vars jt) (mf_vars dn). rewrite Vars.
      split; [intros [A|A]; auto; exfalso; eapply Vdn0; eauto|auto]. }
    split.
    { destruct (mf_right r) as [|v rr] eqn:Err; auto. exfalso. assert (J : In v (v :: rr)) by (now left). apply Rr in J as [J|J].
      - destruct (wf_mf_partitioned jt (proj1 Gjt)) as (_ & _ & _ & Pt & Dis). apply (Dis v). split; auto. apply Lefts, Vars, Pt. auto.
      - eapply Vdn0; eauto. }
    split.
    { intros v l J. rewrite Dr in J. apply join_In in J as [J|J]; [now apply Gjt|now apply Gdn]. }
    intros a t Va [Kt Ft].
    assert (Et : forall v, In v T -> exists s, dget v t = Some s) by (intros v J; apply dget_keys; now rewrite Kt).
    assert (Vta : forall b, valid D b -> valid D (over t b)).
    { intros b Vb v l J. unfold over. destruct (dget v t) as [s|] eqn:Es; [|now apply Vb].
      destruct (Ft v l) as (s' & Es' & Js'); [|congruence]. apply filter_In. split; auto. cbn. apply mem_In. rewrite <- Kt. apply dget_keys. eauto. }
    assert (Ag : forall vs, incl vs T -> agrees t (over t a) vs).
    { intros vs I v J. destruct (Et v (I v J)) as (s & Es). unfold over. now rewrite Es. }
    destruct (Xr t) as (x & y & X & Y & Z').
    { intros v l J. assert (J' : In (v, l) (mf_domain jt)).
      { apply join_In in J as [J|J]; auto. exfalso. apply (Vdn0 v). unfold mf_vars, keys. apply (in_map fst) in J. auto. }
      assert (JD : In (v, l) D) by (now apply Gjt). apply Ft. apply filter_In. split; auto. cbn. apply mem_In.
      apply Vars. unfold mf_vars, keys. apply (in_map fst) in J'. auto. }
    rewrite Z'. apply (f_equal Ok).
    assert (ExR : ext_fun (prods R)) by (now apply (prods_ext' m D F vt H)).
    assert (Ex : x = sm (minus (minus R T) (keys e)) (prods R) (over t (over e a))).
    { rewrite (fv_get D vt jt (over t a) t Gjt (Vta a Va)) in X by (apply Ag; intros v J; now apply Vars).
      injection X as <-. rewrite (Xj _ (Vta a Va)).
      transitivity (sm Z (prods R) (over t (over e a))).
      - apply (sm_ext_fun D); auto. intros w. unfold over. destruct (dget w e) eqn:Ew, (dget w t) eqn:Etw; auto.
        exfalso. apply (Dj w); [rewrite <- Kt|]; apply dget_keys; eauto.
      - apply sm_set. intros v _. rewrite HZ, !minus_In. tauto. }
    assert (Ey : y = sm (minus R (keys e)) (prods R) (over e a)).
    { rewrite (fv_get D vt dn (over t a) t Gdn (Vta a Va)) in Y by (apply Ag; intros v J; exfalso; eapply Vdn0; eauto).
      injection Y as <-. rewrite (Xdn _ (Vta a Va)).
      rewrite (sm_ext D WD T (fv jt) (fun b => sm Z (prods R) (over e b)) _ (Vta a Va)) by (intros; now apply Xj).
      rewrite (sm_over D WD T (sm Z (prods R)) e (over t a)); auto.
      2:{ now apply sm_ext_fun. }
      rewrite <- (sm_app D WD T Z); auto.
      2:{ intros v J J' _. apply HZ in J'. tauto. }
      transitivity (sm (minus R (keys e)) (prods R) (over e (over t a))).
      - apply sm_set. intros v _. rewrite in_app_iff, HZ, minus_In. split; [intros [J|J]; [split; auto|tauto]|].
        intros [J N]. destruct (in_dec eqd v T); auto.
      - apply (sm_same D); auto. intros w Jw. unfold over. destruct (dget w e) eqn:Ew; auto. destruct (dget w t) eqn:Etw; auto.
        exfalso. assert (JT : In w T) by (rewrite <- Kt; apply dget_keys; eauto).
        destruct Jw as [Jw|Jw]; [apply Jw, minus_In; split; auto|apply Jw; auto]. }
    now rewrite Ex, Ey.
  Qed.
End Run.
