(** The expected counts of a family and the table made of them. *)

From Coq Require Import String Bool Arith ZArith QArith Qcanon Lia Permutation List.
From Verif Require Import PyBase PyFacts Num DomainModel NdArray StoreModel NumStore FactorModel GraphModel ModelModel InferModel
  Spec DomainFacts StoreSpec StoreFacts NumFacts PropFacts1 FactorSpec FactorFacts FactorFacts2 FactorFacts3 BigSum
  GraphSpec GraphFacts ModelSpec ModelFacts
  NetSpec NetSem FactorSem NetFacts VeFacts4 VeFacts5 LearnModel EmSpec EmMath EmFacts1 EmFacts2.
From Coq Require Import List.
Import ListNotations.
Local Open Scope nat_scope.
Local Arguments eqd : simpl never.

Section Arith.
  Variable D : domain.
  Hypothesis WD : wf_dom D.
  Variable vt : vtype.
  Notation good := (good D vt).
  Notation sm := (sm D).

  Lemma good_add f g : good f -> good g -> incl (mf_vars g) (mf_vars f) ->
    exists h, mf_addition f (OFac g) = Ok h /\ good h /\
      (forall v, In v (mf_vars h) <-> In v (mf_vars f)) /\
      (forall v, In v (mf_left h) <-> In v (mf_left f) \/ In v (mf_left g)) /\
      forall a, valid D a -> fv h a = (fv f a + fv g a)%Qc.
  Proof.
    intros G1 G2 Iv. assert (C := compat_good D WD vt f g G1 G2).
    destruct (mf_arith_ok nadd f g) as (h & E & W & T & Dh & L & R & V); auto.
    { apply G1. } { apply G2. } { destruct G1 as (_ & -> & _), G2 as (_ & -> & _). auto. }
    exists h. split; [exact E|].
    assert (Gh : good h /\ forall a, valid D a -> fv h a = (fv f a + fv g a)%Qc).
    { apply (good_intro D vt h (fun a => fv f a + fv g a)%Qc).
      - auto.
      - destruct G1 as (_ & <- & _). auto.
      - intros v l I. rewrite Dh in I. apply join_In in I. destruct I as [I|I]; [apply G1|apply G2]; auto.
      - intros o F. rewrite Dh in F. destruct (get_combine D WD vt f g h o G1 G2 F) as (p & q & E1 & E2).
        destruct (V o F) as (x & y & X & Y & Z). rewrite E1 in X. rewrite E2 in Y. injection X as <-. injection Y as <-. eauto.
      - intros a Va. destruct (V (obs_of (keys D) a)) as (x & y & X & Y & Z).
        { apply (full_join_D D vt); auto. now apply full_obs_D. }
        rewrite (get_obs_D D vt) in X, Y by auto. injection X as <-. injection Y as <-. exact Z. }
    destruct Gh as [Gh V']. split; [auto|]. split; [|split; auto].
    intros v. unfold mf_vars. rewrite Dh. rewrite join_keys. split; [|auto]. intros [J|J]; [auto|]. now apply Iv.
  Qed.

  Lemma good_scale f q : good f ->
    exists h, mf_multiply f (ONum (Fin q)) = Ok h /\ good h /\
      (forall v, In v (mf_vars h) <-> In v (mf_vars f)) /\
      forall a, valid D a -> fv h a = (fv f a * q)%Qc.
  Proof.
    intros G1. destruct (mf_scalar_ok nmul f (Fin q)) as (h & E & W & T & Dh & L & R & V); [apply G1|].
    exists h. split; [exact E|].
    assert (Gh : good h /\ forall a, valid D a -> fv h a = (fv f a * q)%Qc).
    { apply (good_intro D vt h (fun a => fv f a * q)%Qc).
      - auto.
      - destruct G1 as (_ & <- & _). auto.
      - intros v l I. rewrite Dh in I. now apply G1.
      - intros o F. rewrite Dh in F. destruct (V o F) as (y & Y & Z). destruct (proj2 (proj2 (proj2 G1)) o F) as (p & Ep).
        rewrite Y in Ep. injection Ep as ->. eauto.
      - intros a Va. destruct (V (obs_of (keys D) a)) as (y & Y & Z).
        { eapply (good_full D vt); [exact G1|]. now apply full_obs_D. }
        rewrite (get_obs_D D vt) in Y by auto. injection Y as <-. exact Z. }
    destruct Gh as [Gh V']. split; [auto|]. split; [|auto]. intros v. unfold mf_vars. now rewrite Dh.
  Qed.

  (** a table over the variables [T] given at the assignments of [T] *)
  Lemma good_table r T (h : obs -> Qc) : NoDup T -> incl T (keys D) -> wf_mf r -> mf_vtype r = vt -> same_set (mf_vars r) T ->
    (forall v l, In (v, l) (mf_domain r) -> In (v, l) D) ->
    (forall t, assigns D T t -> mf_get_value r t = Ok (Fin (h t))) ->
    good r /\ forall a, valid D a -> fv r a = h (obs_of T a).
  Proof.
    intros NT IT W Tp Sv Sub V.
    assert (At : forall a, valid D a -> mf_get_value r (obs_of T a) = Ok (Fin (h (obs_of T a)))).
    { intros a Va. apply V. apply assigns_obs; auto. }
    assert (Ge : forall o a, valid D a -> agrees o a (mf_vars r) -> full (mf_domain r) o -> mf_get_value r o = mf_get_value r (obs_of T a)).
    { intros o a Va Ag Fo. symmetry. unfold mf_get_value. apply get_value_agree; [apply W|exact Fo|]. intros v J. rewrite Ag by exact J.
      rewrite obs_of_get; [reflexivity|]. now apply Sv. }
    apply (good_intro D vt r (fun a => h (obs_of T a))); auto.
    - intros o Fo. destruct (extend D (mf_domain r) o WD Fo Sub) as (b & Vb & Ag). exists (h (obs_of T b)).
      rewrite (Ge o b Vb Ag Fo). auto.
    - intros a Va. rewrite (Ge _ a Va); [auto|..].
      + intros v J. rewrite obs_of_get; [reflexivity|]. apply IT, Sv, J.
      + intros v l J. exists (a v). split; [|apply Va, Sub, J]. rewrite obs_of_get; [reflexivity|].
        apply (in_map fst) in J. apply IT, Sv. exact J.
  Qed.
End Arith.

Lemma dict_of_NoDup {V} (l : list (var * V)) : NoDup (keys (dict_of l)).
Proof. apply NoDup_dmerge. constructor. Qed.
Lemma subdomain_ok (d D : domain) vs : NoDup vs -> NoDup (keys d) ->
  (forall v, In v vs -> exists l, In (v, l) d) -> (forall v l, In v vs -> In (v, l) d -> In (v, l) D) ->
  exists s, subdomain d vs = Ok s /\ keys s = vs /\ forall v l, In (v, l) s -> In (v, l) D.
Proof.
  intros NV ND Hv Sub. unfold subdomain.
  assert (G : exists l, mapM (fun v => let* x := dlook v d in Ok (v, x)) vs = Ok l /\ map fst l = vs /\ forall v x, In (v, x) l -> In (v, x) D).
  { clear NV. induction vs as [|v vs IH]; [exists []; repeat split; intros ? ? []|]. cbn [mapM].
    specialize (IH (fun w J => Hv w (or_intror J)) (fun w l J => Sub w l (or_intror J))).
    destruct (Hv v) as (x & Jx); [now left|]. unfold dlook at 1. rewrite (In_dget _ _ _ ND Jx). cbn [bind].
    destruct IH as (l & -> & Kl & Hl). cbn [bind]. exists ((v, x) :: l). split; [auto|]. split; [cbn; congruence|].
    intros w y [Q|J]; [injection Q as <- <-; apply Sub; [now left|auto]|auto]. }
  destruct G as (l & -> & Kl & Hl). cbn [bind]. rewrite dict_of_id by (unfold keys; now rewrite Kl). exists l. split; [auto|]. split; [exact Kl|exact Hl].
Qed.

Lemma known_domains_In (d : dict var (option (list state))) v l :
  In (v, l) (flat_map (fun vd => match snd vd with Some d => [(fst vd, d)] | None => [] end) d) <-> In (v, Some l) d.
Proof.
  rewrite in_flat_map. split.
  - intros ([w [x|]] & J & Q); cbn in Q; [|destruct Q]. destruct Q as [Q|[]]. injection Q as <- <-. exact J.
  - intros J. exists (v, Some l). split; [exact J|now left].
Qed.
Lemma known_domains_NoDup (d : dict var (option (list state))) : NoDup (keys d) ->
  NoDup (keys (flat_map (fun vd => match snd vd with Some d => [(fst vd, d)] | None => [] end) d)).
Proof.
  induction d as [|[w x] d IH]; [intros _; constructor|]. intros N. cbn in N. apply NoDup_cons_iff in N as [Nw N]. specialize (IH N).
  cbn [flat_map snd fst]. destruct x as [x|]; [|exact IH]. cbn. constructor; [|exact IH]. intros J. apply Nw.
  apply in_map_iff in J as ([w' y] & <- & J). apply known_domains_In in J. apply (in_map fst) in J. exact J.
Qed.

Section Family.
  Variables (m : pgm) (D : domain) (F : var -> mfactor) (vt : vtype).
  Hypothesis H : network m D F vt.
  Notation g := (m_graph m).
  Variable prior : pgm.
  Hypothesis Gp : m_graph prior = g.
  Hypothesis Dp : describes D prior.
  Variable query : pgm -> list var -> obs -> res mfactor.
  Hypothesis Hq : exact_query query.
  Variable v : var.
  Hypothesis Iv : In v (nodes g).
  Let WD : wf_dom D := net_wd m D F vt H.
  Notation good := (good D vt).
  Notation sm := (sm D).
  Notation fam := (fam F).

  Definition same_family (T : list var) : Prop :=
    exists pa, get_parents g [v] = Ok pa /\ T = v :: pa /\ NoDup T /\ forall x, In x T <-> x = v \/ arc g x v.
  Lemma family : exists T, same_family T.
  Proof.
    destruct (get_parents_ok g [v]) as (pa & E & N & Hp); [intros x [<- | []]; auto|]. exists (v :: pa), pa. split; [auto|]. split; [auto|].
    assert (Hp' : forall x, In x pa <-> arc g x v).
    { intros x. rewrite Hp. split; [intros (y & [<- | []] & A); auto|]. intros A. exists v. split; [now left|auto]. }
    split; [|intros x; cbn; rewrite Hp'; split; intros [J|J]; auto].
    constructor; [|auto]. intros J. apply Hp' in J. apply (net_ac m D F vt H v). now apply walk_one.
  Qed.
  Lemma family_keys T : same_family T -> incl T (keys D).
  Proof.
    intros (pa & _ & _ & _ & HT) x J. apply (net_nodes m D F vt H). apply HT in J as [-> | A]; [auto|]. apply (proj2 (proj2 (net_wg m D F vt H)) x v A).
  Qed.
  Lemma family_vars T x : same_family T -> (In x (fam v) <-> In x T).
  Proof.
    intros (pa & _ & _ & _ & HT). rewrite HT. apply (fam_In m D F vt H). now apply (net_nodes m D F vt H).
  Qed.

  Lemma describes_get x : In x (keys D) -> exists l, In (x, l) D /\ In (x, l) (known_domains prior).
  Proof.
    intros J. apply in_map_iff in J as ([x' l] & <- & J). exists l. split; [auto|]. apply known_domains_In. apply dget_In. apply Dp, J.
  Qed.

  Lemma pcounts_ok T : same_family T ->
    exists pc, get_pcounts vt prior v = Ok pc /\ good pc /\ (forall x, In x (mf_vars pc) <-> In x T) /\ mf_right pc = [] /\
      forall a, valid D a -> fv pc a = 0%Qc.
  Proof.
    intros HT0. assert (IT := family_keys T HT0). assert (HT1 := HT0). destruct HT0 as (pa & Epa & -> & NT & HT).
    unfold get_pcounts. rewrite Gp, Epa. cbn [bind].
    assert (Eb : existsb (fun w => match dget w (m_domains prior) with Some None => true | _ => false end) (v :: pa) = false).
    { apply not_true_is_false. intros Q. apply existsb_exists in Q as (w & J & Q). destruct (describes_get w (IT w J)) as (l & Jl & _).
      rewrite (proj2 Dp w l Jl) in Q. discriminate. }
    rewrite Eb. 
    destruct (subdomain_ok (known_domains prior) D (v :: pa) NT) as (d & Ed & Kd & Sd).
    { apply known_domains_NoDup, Dp. }
    { intros w J. destruct (describes_get w (IT w J)) as (l & _ & Jl). eauto. }
    { intros w l Jw J. apply known_domains_In in J. apply (In_dget _ _ _ (proj1 Dp)) in J.
      destruct (describes_get w (IT w Jw)) as (l' & Jl' & _). rewrite (proj2 Dp w l' Jl') in J. injection J as <-. exact Jl'. }
    rewrite Ed. cbn [bind].
    assert (Gv := net_good m D F vt H v (proj2 (net_nodes m D F vt H v) Iv)).
    assert (Sv : forall w l, In (w, l) d -> In (w, l) (mf_domain (F v))).
    { intros w l J. assert (Jw : In w (mf_vars (F v))).
      { apply (family_vars (v :: pa) w HT1). rewrite <- Kd. apply (in_map fst) in J. exact J. }
      apply keys_In in Jw as (l' & J'). rewrite (dom_unique D w l l' (proj1 WD) (Sd w l J)); [exact J'|]. now apply Gv. }
    assert (Us : usable d).
    { destruct (proj1 Gv) as (_ & ((N1 & N2) & U2 & U3) & _). split; [split|split].
      - rewrite Kd. exact NT.
      - intros w l J. apply (N2 w). auto.
      - intros w l x y J. apply (U2 w). auto.
      - intros w s J. apply U3. apply keys_In in J as (l & J). apply Sv in J. apply (in_map fst) in J. exact J. }
    destruct (mf_init_ok d (FScalar n0) (repeat n0 (size d)) None None [] vt Us) as (f & Ef & Wf & Df & Tf & Rf & Vf & _).
    { apply repeat_length. } { right. right. eauto. } { reflexivity. }
    rewrite Ef. exists f. split; [auto|].
    assert (Wm : wf_mf f).
    { split; [auto|]. rewrite Df, Rf. split; [auto|]. split; [constructor|intros x []]. }
    assert (Vf0 : forall o, full d o -> mf_get_value f o = Ok (Fin 0%Qc)).
    { intros o Fo. destruct (Vf o Fo) as (x & Ex & Nx). rewrite Ex. f_equal. apply nth_error_In in Nx. now apply repeat_spec in Nx. }
    destruct (good_intro D vt f (fun _ => 0%Qc)) as [Gf Vz]; auto.
    { intros w l J. rewrite Df in J. auto. }
    { intros o Fo. exists 0%Qc. apply Vf0. now rewrite <- Df. }
    { intros a Va. apply Vf0. intros w l J. exists (a w). split; [|apply Va, Sd, J]. apply obs_of_get.
      apply (in_map fst) in J. apply IT. rewrite <- Kd. exact J. }
    split; [auto|]. split; [|split; [exact Rf|exact Vz]]. intros x. unfold mf_vars. rewrite Df, Kd. tauto.
  Qed.

  (** the counts of a list of observations *)
  Lemma expected_ok T ocs : same_family T ->
    (forall o c, In (o, c) ocs -> incl (keys o) (nodes g) /\ (forall x, In x T -> ~ In x (keys o)) /\ mass D F o <> 0%Qc) ->
    forall pc, good pc -> (forall x, In x (mf_vars pc) <-> In x T) -> (forall x, In x (mf_left pc) <-> In x T) ->
    exists pc', expected_counts query prior m v ocs pc = Ok pc' /\ good pc' /\
      (forall x, In x (mf_vars pc') <-> In x T) /\ (forall x, In x (mf_left pc') <-> In x T) /\
      forall a, valid D a ->
        fv pc' a = (fv pc a + qsum (map (fun oc => qn (snd oc) * (mass D F (obs_of T a ++ fst oc) / mass D F (fst oc))) ocs))%Qc.
  Proof.
    intros HT. assert (IT := family_keys T HT). destruct HT as (pa & Epa & ET & NT & HT).
    unfold expected_counts. induction ocs as [|[o c] ocs IH]; intros Ho pc Gc Vc Lc.
    - exists pc. cbn [foldM]. split; [auto|]. split; [auto|]. split; [auto|]. split; [auto|]. intros a Va. cbn. ring.
    - cbn [foldM fst snd]. rewrite Gp, Epa. cbn [bind]. destruct (Ho o c) as (Io & Do & Mo); [now left|].
      assert (Eh : filter (fun x => negb (mem x (keys o))) (v :: pa) = T).
      { rewrite <- ET. apply GraphFacts.filter_all. intros x J. apply negb_true_iff, mem_nIn. auto. }
      rewrite Eh.
      destruct (Hq m D F vt T o H NT) as (r & Er & Wr & Tr & Sr & Dr & Vr); auto.
      { rewrite ET. discriminate. } { intros x J. apply (net_nodes m D F vt H). auto. }
      rewrite Er. cbn [bind].
      destruct (good_table D WD vt r T (fun t => mass D F (t ++ o) / mass D F o)%Qc) as [Gr Fr]; auto.
      destruct (good_scale D vt r (qn c) Gr) as (ec & Ee & Ge & Ve & Fe). unfold qn in Ee. rewrite Ee. cbn [bind].
      destruct (good_add D WD vt pc ec Gc Ge) as (pc1 & E1 & G1 & V1 & L1 & F1).
      { intros x J. apply Vc. apply Ve in J. now apply Sr. }
      rewrite E1. cbn [bind].
      destruct IH with (pc := pc1) as (pc2 & E2 & G2 & V2 & L2 & F2); auto.
      { intros o' c' J. apply (Ho o' c'). now right. }
      { intros x. rewrite V1. apply Vc. }
      { intros x. rewrite L1, Lc. split; [intros [J|J]; [auto|]|auto]. apply mf_left_In in J as [J _]. apply Ve in J. now apply Sr. }
      rewrite Gp, Epa in E2.
      exists pc2. split; [exact E2|]. split; [auto|]. split; [auto|]. split; [auto|].
      intros a Va. rewrite (F2 a Va), (F1 a Va), (Fe a Va), (Fr a Va). cbn [map qsum fst snd]. ring.
  Qed.

  (** the new table *)
  Lemma maximize_ok T joint : same_family T -> good joint -> (forall x, In x (mf_vars joint) <-> In x T) ->
    (forall x, In x (mf_left joint) <-> In x T) ->
    (forall a, valid D a -> sm [v] (fv joint) a <> 0%Qc) ->
    exists p, maximize joint v = Ok p /\ cpt D vt v (preds g v) p /\
      forall a, valid D a -> fv p a = (fv joint a / sm [v] (fv joint) a)%Qc.
  Proof.
    intros HT Gj Vj Lj Nz. assert (IT := family_keys T HT). destruct HT as (pa & Epa & ET & NT & HT).
    assert (NA : ~ arc g v v) by (intros A; apply (net_ac m D F vt H v); now apply walk_one).
    unfold maximize.
    destruct (good_marg D WD vt joint [v] Gj) as (den & Ed & Gd & _ & Vd & Ld & Fd).
    { repeat constructor; intros []. } { intros x [<- | []]. apply Vj, HT. auto. }
    rewrite Ed. cbn [bind].
    destruct (good_div D WD vt joint den Gj Gd) as (p & Ep & Wp & Tp & Dp' & Lp & Rp & Vp).
    rewrite Ep. exists p. split; [auto|].
    assert (Vd' : forall x, In x (mf_vars den) <-> arc g x v).
    { intros x. rewrite Vd, Vj, HT. cbn. split; [intros [[-> | A] N]; [destruct N; auto|auto]|]. intros A. split; [auto|].
      intros [<- | []]. contradiction. }
    destruct (good_intro D vt p (fun a => fv joint a / sm [v] (fv joint) a)%Qc) as [Gp' Fp]; auto.
    { intros w l J. rewrite Dp' in J. apply join_In in J as [J|J]; [now apply Gj|now apply Gd]. }
    { intros o Fo. rewrite Dp' in Fo. destruct (Vp o Fo) as (x & y & Ex & Ey & Ez). rewrite Ez.
      destruct (extend D (join (mf_domain joint) (mf_domain den)) o WD Fo) as (b & Vb & Ag).
      { intros w l J. apply join_In in J as [J|J]; [now apply Gj|now apply Gd]. }
      rewrite (fv_get D vt den b o Gd Vb) in Ey.
      - injection Ey as <-. rewrite div_fin; [eauto|]. rewrite (Fd b Vb). auto.
      - intros w J. apply Ag. apply join_keys. auto. }
    { intros a Va. destruct (Vp (obs_of (keys D) a)) as (x & y & Ex & Ey & Ez).
      { apply (full_join_D D vt); auto. now apply full_obs_D. }
      rewrite (get_obs_D D vt) in Ex, Ey by auto. injection Ex as <-. injection Ey as <-. rewrite Ez, (Fd a Va).
      rewrite div_fin; auto. }
    assert (Lp' : same_set (mf_left p) [v]).
    { intros x. rewrite Lp, Lj, HT, Vd'. cbn. split; [intros [[-> | A] N]; [auto|contradiction]|]. intros [<- | []]. auto. }
    split; [|exact Fp]. split; [auto|]. split; [auto|]. split; [auto|]. split; [|split; [|split]].
    - intros x. rewrite Rp, Vd', in_preds. split; [intros [J|J]; [|auto]|auto].
      assert (Jx : In x (mf_vars joint)) by (apply (proj1 Gj) in J; exact J).
      exfalso. assert (Jl : In x (mf_left joint)) by (apply Lj, Vj, Jx). apply mf_left_In in Jl as [_ Jl]. contradiction.
    - apply Gp'.
    - apply Gp'.
    - apply (good_normalised D vt p v WD Gp' Lp'). intros a Va.
      rewrite (sm_ext D WD [v] _ (fun b => fv joint b * / sm [v] (fv joint) a)%Qc a Va).
      + rewrite (sm_scale_r D). { apply Qcmult_inv_r. auto. } intros b Hb. reflexivity.
      + intros b Vb Hb. rewrite (Fp b Vb). unfold Qcdiv. f_equal. f_equal. apply (sm_same D).
        * eapply dep_ext, (fv_dep D vt), Gj.
        * intros w [N|N]; [auto|]. apply Hb. intros [<- | []]. apply N. apply IT, HT. auto.
  Qed.
End Family.
