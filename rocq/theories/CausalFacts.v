(** Interventions on causal models. *)

From Coq Require Import String Bool Arith ZArith QArith Qcanon Lia Permutation List.
From Verif Require Import PyBase PyFacts Num DomainModel NdArray StoreModel NumStore FactorModel Spec StoreSpec DomainFacts StoreFacts
  NumFacts PropFacts1 FactorSpec FactorFacts FactorFacts2 FactorFacts3 GraphModel GraphSpec GraphFacts ModelModel ModelSpec ModelFacts
  NetSpec NetSem FactorSem NetFacts VeFacts4 BuildFacts BuildFacts2 InferModel CausalModel CausalSpec.
From Coq Require Import List.
Import ListNotations.
Local Open Scope nat_scope.
Local Arguments eqd : simpl never.

(** ** Tables *)

Lemma cpt_parents D vt v ps ps' f : same_set ps ps' -> cpt D vt v ps f -> cpt D vt v ps' f.
Proof.
  intros S (a & b & c & d & e). split; [auto|]. split; [auto|]. split; [auto|]. split; [|auto].
  intros x. rewrite (d x). apply S.
Qed.

Lemma cpt_left D vt v ps f : cpt D vt v ps f -> mf_left f = [v].
Proof.
  intros (W & _ & L & _). destruct (wf_mf_partitioned f W) as (_ & N & _).
  destruct (mf_left f) as [|x [|y r]] eqn:E.
  - exfalso. specialize (L v). cbn in L. tauto.
  - f_equal. specialize (L x). cbn in L. intuition congruence.
  - exfalso. inversion N as [|? ? H1 _]; subst. assert (x = v) by (specialize (L x); cbn in L; intuition congruence).
    assert (y = v) by (specialize (L y); cbn in L; intuition congruence). subst. apply H1. now left.
Qed.
Lemma cpt_dom D vt v ps f : cpt D vt v ps f -> NoDup (keys D) -> exists l, In (v, l) (mf_domain f) /\ In (v, l) D.
Proof.
  intros (W & _ & L & _ & Dm & _) N. assert (I : In v (mf_left f)) by (apply L; now left).
  apply mf_left_In in I as [I _]. apply keys_In in I as (l & I). exists l. auto.
Qed.

Lemma all_one' v (l : list state) : all_assignments [(v, l)] = map (fun s => [(v, s)]) l.
Proof. cbn. induction l as [|s l IH]; [reflexivity|]. cbn. now f_equal. Qed.

Lemma point_zero_one v l x f : point_mass v l x f -> zero_one f.
Proof.
  intros (Dm & _ & V) o Fo. destruct (Fo v l) as (s & E & I). { rewrite Dm. now left. }
  rewrite (V o s E I). destruct (eqd s x); auto.
Qed.

Lemma point_cpt D vt v l x f : wf_mf f -> mf_vtype f = vt -> In (v, l) D -> NoDup l -> In x l -> point_mass v l x f -> cpt D vt v [] f.
Proof.
  intros W T I Nl Ix (Dm & R & V).
  assert (L : mf_left f = [v]).
  { unfold mf_left, mf_vars. rewrite Dm, R. reflexivity. }
  split; [auto|]. split; [auto|]. split; [rewrite L; intros y; tauto|]. split; [rewrite R; intros y; tauto|].
  split; [|split].
  - rewrite Dm. intros w m [E|[]]. injection E as <- <-. auto.
  - intros o Fo. destruct (Fo v l) as (s & E & Is). { rewrite Dm. now left. }
    rewrite (V o s E Is). destruct (eqd s x); [exists 1%Qc|exists 0%Qc]; reflexivity.
  - intros o _. rewrite Dm, R. unfold drop. cbn [filter fst mem existsb negb].
    exists (map (fun s => if eqd x s then n1 else n0) l). split.
    + rewrite all_one'. assert (Hin : forall s, In s l -> In s l) by auto. revert Hin. generalize l at 1 3 4.
      induction l0 as [|s l0 IH]; intros Hin; cbn [map]; constructor.
      * rewrite (V _ s); [destruct (eqd s x), (eqd x s); congruence| |apply Hin; now left].
        cbn [app dget]. now rewrite eqd_refl.
      * apply IH. intros; apply Hin; now right.
    + apply nsum_point; auto.
Qed.

(** The table of [v] under the intervention [d]. *)
Definition do_table (F : var -> mfactor) (d : obs) (v : var) : mfactor :=
  match dget v d with
  | Some x => match mf_constant (F v) x with Ok f => f | Raise _ => F v end
  | None => F v
  end.

Lemma do_table_out F d v : ~ In v (keys d) -> do_table F d v = F v.
Proof. intros N. unfold do_table. apply dget_None in N. now rewrite N. Qed.

Lemma do_table_in D vt F d v ps x l : NoDup (keys D) -> cpt D vt v ps (F v) -> In (v, l) D -> In x l -> dget v d = Some x ->
  mf_constant (F v) x = Ok (do_table F d v) /\ wf_mf (do_table F d v) /\ mf_vtype (do_table F d v) = vt /\
  point_mass v l x (do_table F d v).
Proof.
  intros ND C I Ix E. assert (L := cpt_left _ _ _ _ _ C). destruct (cpt_dom _ _ _ _ _ C ND) as (l' & J & J').
  assert (l' = l) by (eapply dom_unique; eauto). subst l'.
  destruct (mf_constant_ok (F v) v l x (proj1 C) L J Ix) as (f & Ef & W & T & Dm & _ & R & V).
  unfold do_table. rewrite E, Ef. split; [auto|]. split; [auto|]. split; [rewrite T; apply C|]. split; auto.
Qed.

Lemma get_full_mf f o : wf_mf f -> full (mf_domain f) o -> exists x, mf_get_value f o = Ok x.
Proof. intros (W & _) Fo. destruct (get_full (mf_store f) o W Fo) as (x & _ & E). exists x. exact E. Qed.

(** ** Objects *)

Lemma tab_factor D vt v ps fo f : tabulates v fo f -> cpt D vt v ps f ->
  is_factor fo (mf_domain f) (mf_left f) (mf_right f).
Proof.
  intros T C. destruct fo as [g|d|]; cbn in T.
  - subst g. repeat split.
  - destruct T as ((l & Wd) & U & Ed & Er & Ev & _). split; [cbn; now rewrite Ed|]. split; [|cbn; now rewrite Er].
    cbn. f_equal. unfold df_left, df_vars, mf_left, mf_vars. now rewrite Ed, Er.
  - destruct T.
Qed.

Lemma accept_scm D vt g endo cast v fo f : NoDup (keys D) -> In v (nodes g) -> tabulates v fo f -> cpt D vt v (preds g v) f ->
  (In v endo -> zero_one f /\ (cast = true -> fo = FM f)) -> accepted D g true (KScm endo cast) v fo fo.
Proof.
  intros ND Iv T C Hz. split; [|split; [auto|]].
  - intros m Ec. unfold scm_prepare. destruct (mem v endo) eqn:Me; [|auto]. apply mem_In in Me.
    destruct (Hz Me) as [Z Ct]. rewrite Ec. destruct fo as [h|d|]; cbn in T.
    + subst h. destruct (is_degenerate_ok f (proj1 C)) as (b & Eb & Hb). rewrite Eb. cbn [bind].
      rewrite (proj2 Hb Z). reflexivity.
    + cbn [bind negb]. destruct cast; [|auto]. discriminate (Ct eq_refl).
    + destruct T.
  - exists (mf_domain f), (mf_left f), (mf_right f). split; [eapply tab_factor; eauto|].
    assert (L := cpt_left _ _ _ _ _ C). split.
    + assert (I : In v (mf_left f)) by (rewrite L; now left). apply mf_left_In in I as [I _]. exact I.
    + destruct C as (_ & _ & Sl & Sr & Dm & _). split; [exact Dm|]. auto.
Qed.

Lemma filter_none {A} (f : A -> bool) l : (forall x, In x l -> f x = false) -> filter f l = [].
Proof. induction l as [|x l IH]; intros H; [reflexivity|]. cbn. rewrite (H x) by now left. apply IH. intros; apply H; now right. Qed.
Lemma mapM_In_inv {A B} (f : A -> res B) l ys y : mapM f l = Ok ys -> In y ys -> exists x, In x l /\ f x = Ok y.
Proof.
  revert ys. induction l as [|x l IH]; intros ys E I; cbn [mapM] in E; [injection E as <-; destruct I|].
  destruct (f x) as [z|] eqn:Ex; [|discriminate]. cbn [bind] in E. destruct (mapM f l) as [zs|]; [|discriminate].
  cbn [bind] in E. injection E as <-. destruct I as [-> | I]; [exists x; split; [now left|auto]|].
  destruct (IH zs eq_refl I) as (x' & J & E'). exists x'. split; [now right|auto].
Qed.

(** ** Intervention *)

Lemma zip_dict {A} (l : list A) (R : A -> A -> Prop) : (forall x, In x l -> R x x) -> Forall2 R l l.
Proof. induction l; intros H; constructor; auto. - apply H. now left. - apply IHl. intros; apply H; now right. Qed.

Section Do.
  Variables (m : pgm) (D : domain) (F : var -> mfactor) (vt : vtype) (endo : list var) (cast : bool).
  Hypothesis H : causal m D F vt endo cast.
  Variable d : obs.
  Hypothesis Kd : known D d.

  Notation g := (m_graph m).
  Notation g' := (remove_ingoing_edges g (keys d)).

  Lemma causal_endo h : wf_graph h -> (forall x y, arc h x y -> arc g x y) -> scm_endo h (Some endo) = endo.
  Proof.
    intros Wh Sub. destruct H as (_ & _ & _ & _ & _ & _ & _ & _ & Ar). destruct endo as [|v r]; [|reflexivity].
    unfold scm_endo. apply filter_none. intros v Iv. destruct (preds h v) as [|p q] eqn:E; [reflexivity|].
    exfalso. apply (Ar p v), Sub, in_preds. rewrite E. now left.
  Qed.

  Definition do_object (v : var) (f : fobj) : res fobj :=
    match dget v d with None => Ok f | Some x => fo_constant (Some f) x end.

  Lemma do_object_ok v : In v (nodes g) -> exists f f', stored m v f /\ do_object v f = Ok f' /\ 
     (~ In v (keys d) -> f' = f) /\ (forall h, f = FM h -> f' = FM (do_table F d v)) /\
     tabulates v f' (do_table F d v) /\ cpt D vt v (preds g' v) (do_table F d v) /\
     (In v endo -> zero_one (do_table F d v) /\ (cast = true -> f' = FM (do_table F d v))) /\
     (forall x l, dget v d = Some x -> In (v, l) D -> point_mass v l x (do_table F d v)).
  Proof.
    intros Iv. destruct H as (K & Wg & Ac & WD & SD & NF & SF & Hv & Ar).
    destruct (Hv v Iv) as (f & St & T & C & Z). destruct (remove_ingoing_ok g (keys d) Wg) as (En & Wg' & Ha).
    unfold do_object. destruct (dget v d) as [x|] eqn:E.
    - assert (Id : In v (keys d)) by (apply dget_keys; eauto).
      destruct (cpt_dom _ _ _ _ _ C (proj1 WD)) as (l & J & J'). assert (Ix := Kd v l x J' E).
      destruct (do_table_in D vt F d v _ x l (proj1 WD) C J' Ix E) as (Ec & Wt & Tt & Pm).
      assert (Cp : cpt D vt v (preds g' v) (do_table F d v)).
      { apply (cpt_parents D vt v []); [|eapply point_cpt; eauto; apply (proj2 WD v l J')].
        intros y. rewrite in_preds, Ha. cbn. tauto. }
      assert (Pm' : forall x' l', Some x = Some x' -> In (v, l') D -> point_mass v l' x' (do_table F d v)).
      { intros x' l' E1 J2. injection E1 as <-. assert (l' = l) by (eapply dom_unique; eauto; apply WD). now subst. }
      destruct f as [h|h|]; cbn in T.
      + subst h. exists (FM (F v)), (FM (do_table F d v)). split; [auto|]. split; [cbn; now rewrite Ec|].
        split; [tauto|]. split; [auto|]. split; [reflexivity|]. split; [auto|]. split; [|auto].
        intros _. split; [eapply point_zero_one; eauto|auto].
      + destruct T as ((l2 & Wd) & U & Ed & Er & Ev & Hvv).
        assert (l2 = l). { destruct Wd as (_ & _ & I2 & _). rewrite <- Ed in I2. eapply dom_unique; [apply WD|apply (proj1 (proj2 (proj2 (proj2 (proj2 C))))), I2|auto]. }
        subst l2. destruct (df_constant_ok h v l x Wd Ix) as (h' & Eh & Wh' & Dh' & Rh' & Th' & Vh').
        exists (FD h), (FD h'). split; [auto|]. split; [cbn; now rewrite Eh|]. split; [tauto|]. split; [discriminate|]. split.
        { cbn. split; [exists l; auto|]. destruct Pm as (P1 & P2 & P3). rewrite Dh', Rh', P1, P2, Tt, Th'.
          split; [|split; [auto|split; [auto|split]]].
          - rewrite <- P1. apply Wt.
          - rewrite <- Ev. symmetry. apply C.
          - intros o Fo. destruct (Fo v l (or_introl eq_refl)) as (s & Es & Is). exists x, s. split; [apply Vh'|].
            split; [auto|]. rewrite (P3 o s Es Is). destruct (eqd s x), (eqd x s); congruence. }
        split; [auto|]. split; [|auto]. intros Ie. split; [eapply point_zero_one; eauto|].
        intros Ct. destruct (Z Ie) as [_ Zc]. discriminate (Zc Ct).
      + destruct T.
    - assert (Id : ~ In v (keys d)) by (now apply dget_None). exists f, f. split; [auto|]. split; [auto|].
      split; [auto|]. rewrite (do_table_out F d v Id).
      split. { intros h ->. cbn in T. congruence. }
      split; [auto|]. split.
      { eapply cpt_parents; [|exact C]. intros y. rewrite !in_preds, Ha. tauto. }
      split; [auto|discriminate].
  Qed.

  Lemma intervention_ok : exists m', scm_intervention m d = Ok m' /\ causal m' D (do_table F d) vt endo cast /\
    m_graph m' = g' /\ keys (m_factors m') = nodes g' /\
    (forall v, In v (nodes g) -> exists l, has_domain m' v l /\ In (v, l) D) /\
    (forall v f, ~ In v (keys d) -> stored m v f -> stored m' v f) /\
    (forall v h, stored m v (FM h) -> stored m' v (FM (do_table F d v))).
  Proof.
    assert (H0 := H). destruct H0 as (K & Wg & Ac & WD & SD & NF & SF & Hv & Ar).
    destruct (remove_ingoing_ok g (keys d) Wg) as (En & Wg' & Ha).
    assert (Ac' : acyclic g') by (eapply acyclic_mono; [|exact Ac]; intros x y A; now apply Ha in A).
    assert (Ee : scm_endo g' (Some endo) = endo) by (apply causal_endo; auto; intros x y A; now apply Ha in A).
    unfold scm_intervention. rewrite K.
    destruct (mapM_total (fun vf : var * option fobj => match dget (fst vf) d with
                             | None => Ok (fst vf, as_fobj (snd vf))
                             | Some x => let* f := fo_constant (snd vf) x in Ok (fst vf, f)
                             end) (m_factors m)) as (fs & Efs).
    { intros [v of] I. cbn [fst snd]. destruct (do_object_ok v) as (f & f' & St & Eo & _).
      { apply SF. apply (in_map fst) in I. exact I. }
      apply (In_dget _ _ _ NF) in I. unfold stored in St. rewrite I in St. injection St as ->.
      unfold do_object in Eo. destruct (dget v d); [rewrite Eo; cbn; eauto|eauto]. }
    rewrite Efs. cbn [bind]. 
    assert (Kfs : keys fs = keys (m_factors m)).
    { clear -Efs. revert fs Efs. induction (m_factors m) as [|[v of] r IH]; intros fs E; cbn [mapM] in E; [now injection E as <-|].
      cbn [fst snd] in E. destruct (match dget v d with Some x => _ | None => _ end) as [p|] eqn:E1; [|discriminate].
      cbn [bind] in E. destruct (mapM _ r) as [fs'|] eqn:E2; [|discriminate]. cbn [bind] in E. injection E as <-.
      cbn [keys map]. f_equal; [|apply IH; auto]. destruct (dget v d); [|now injection E1 as <-].
      destruct (fo_constant of s); [|discriminate]. cbn [bind] in E1. now injection E1 as <-. }
    assert (Hfs : forall v f', In (v, f') fs -> In v (nodes g) /\ (forall f, stored m v f -> do_object v f = Ok f')).
    { intros v f' I. assert (Iv : In v (nodes g)) by (apply SF; rewrite <- Kfs; apply (in_map fst) in I; exact I).
      split; [auto|]. intros f St. destruct (mapM_In_inv _ _ _ _ Efs I) as ([v0 of] & J & E). cbn [fst snd] in E.
      assert (v0 = v). { destruct (dget v0 d); [destruct (fo_constant of s); [|discriminate]; cbn [bind] in E; congruence|congruence]. }
      subst v0. apply (In_dget _ _ _ NF) in J. unfold stored in St. rewrite J in St. injection St as ->.
      unfold do_object. destruct (dget v d) as [x|]; [|now injection E as <-].
      destruct (fo_constant (Some f) x); [|discriminate]. cbn [bind] in E. now injection E as <-. }
    set (G := fun v => match dget v fs with Some f => f | None => FObj end).
    assert (HG : forall v f, In (v, f) fs -> f = G v).
    { intros v f I. unfold G. rewrite (In_dget v f fs); [auto| |auto]. now rewrite Kfs. }
    assert (HG' : forall v, In v (nodes g) -> In (v, G v) fs).
    { intros v Iv. apply SF in Iv. rewrite <- Kfs in Iv. apply keys_In in Iv as (f & I). now rewrite <- (HG v f I). }
    destruct (scm_complete D g' true cast (Some endo) fs fs G (proj1 WD) Wg' Ac') as (m' & Em & (Cg & Cf & Cd & Cs & Ch) & _ & Ck).
    - apply zip_dict. intros [v f'] I. cbn [fst snd]. split; [auto|]. rewrite Ee.
      destruct (Hfs v f' I) as [Iv Ho]. destruct (do_object_ok v Iv) as (f & f2 & St & Eo & _ & _ & T & C & Z & _).
      rewrite (Ho f St) in Eo. injection Eo as ->. eapply accept_scm; eauto. apply WD.
    - auto.
    - intros v Iv. rewrite Kfs. apply SF. now rewrite <- En.
    - exists m'. split; [exact Em|]. rewrite Ee in Ck.
      assert (Hst : forall v, In v (nodes g) -> exists f f', stored m v f /\ stored m' v f' /\ do_object v f = Ok f' /\
        (~ In v (keys d) -> f' = f) /\ (forall h, f = FM h -> f' = FM (do_table F d v)) /\ tabulates v f' (do_table F d v) /\ cpt D vt v (preds g' v) (do_table F d v) /\
        (In v endo -> zero_one (do_table F d v) /\ (cast = true -> f' = FM (do_table F d v)))).
      { intros v Iv. destruct (do_object_ok v Iv) as (f & f2 & St & Eo & Ho & Hm & T & C & Z & _).
        destruct (Hfs v (G v) (HG' v Iv)) as [_ Hq]. assert (Eq := Hq f St). rewrite Eo in Eq. injection Eq as Eq.
        exists f, f2. split; [auto|]. split; [rewrite Eq; apply Cs; now rewrite En|]. split; [auto|]. auto. }
      split; [|split; [auto|split; [auto|split; [|split]]]].
      + split; [auto|]. rewrite Cg. split; [auto|]. split; [auto|]. split; [auto|]. rewrite En. split; [auto|].
        rewrite Cf, En. split; [apply Wg|]. split; [intros y; tauto|]. split.
        * intros v Iv. destruct (Hst v Iv) as (f & f' & _ & St' & _ & _ & _ & T & C & Z). exists f'. auto.
        * intros x v A. apply Ha in A as [A _]. eauto.
      + intros v Iv. destruct (Ch v) as (l & Hd & Il); [now rewrite En|]. exists l. auto.
      + intros v f Nv St. assert (Iv : In v (nodes g)). { apply SF. unfold stored in St. apply dget_keys. eauto. }
        destruct (Hst v Iv) as (f1 & f' & St1 & St' & _ & Ef & _). rewrite (Ef Nv) in St'.
        unfold stored in St, St1. rewrite St in St1. injection St1 as <-. exact St'.
      + intros v h St. assert (Iv : In v (nodes g)). { apply SF. unfold stored in St. apply dget_keys. eauto. }
        destruct (Hst v Iv) as (f1 & f' & St1 & St' & _ & _ & Hm & _).
        unfold stored in St, St1. rewrite St in St1. injection St1 as <-. now rewrite (Hm h eq_refl) in St'.
  Qed.

  (** The joint distribution of the intervened model. *)
  Lemma cons_get o v s : NoDup (keys o) -> dget v o = Some s -> forall e, consistent e o = true -> forall x, dget v e = Some x -> x = s.
  Proof.
    intros N E e C x Ex. unfold consistent in C. rewrite forallb_forall in C.
    apply dget_In in E. specialize (C (v, s) E). cbn [fst snd] in C. rewrite Ex in C. destruct (eqd x s); [auto|discriminate].
  Qed.
  Lemma cons_intro e o : NoDup (keys o) -> (forall v s x, dget v o = Some s -> dget v e = Some x -> x = s) -> consistent e o = true.
  Proof.
    intros N C. apply forallb_forall. intros [v s] I. cbn [fst snd]. destruct (dget v e) as [x|] eqn:E; [|auto].
    rewrite (C v s x); [now rewrite eqd_refl| |auto]. apply In_dget; auto.
  Qed.

  Lemma do_joint_ok o : In o (all_assignments D) -> joint (do_table F d) (keys D) o = do_joint D F d o.
  Proof.
    intros I. destruct H as (K & Wg & Ac & WD & SD & NF & SF & Hv & Ar).
    apply (all_assignments_In_full D o (proj1 WD)) in I as [Ko Fo]. unfold do_joint, joint.
    assert (Val : forall v, In v (keys D) -> entry (do_table F d v) o =
              match dget v d with Some x => if match dget v o with Some s => if eqd s x then true else false | None => false end then 1%Qc else 0%Qc
                                | None => entry (F v) o end).
    { intros v Iv. destruct (dget v d) as [x|] eqn:E; [|rewrite do_table_out; auto; now apply dget_None].
      destruct (do_object_ok v) as (f & f' & _ & _ & _ & _ & _ & _ & _ & Pm); [now apply SD|].
      apply keys_In in Iv as (l & J). destruct (Pm x l E J) as (_ & _ & V). destruct (Fo v l J) as (s & Es & Is).
      unfold entry. rewrite Es, (V o s Es Is). destruct (eqd s x); reflexivity. }
    destruct (consistent d o) eqn:C.
    - assert (Kdr : keys (drop (keys d) D) = filter (fun v => negb (mem v (keys d))) (keys D)).
      { unfold drop, keys. clear. induction D as [|[v l] r IH]; [reflexivity|]. cbn [filter map fst].
        destruct (negb (mem v (map fst d))); cbn [map fst]; now rewrite IH. }
      rewrite Kdr. assert (Sub : incl (keys D) (keys D)) by (intros x; auto). revert Sub. generalize (keys D) at 1 3 4.
      induction l as [|v r IH]; intros Sub; [reflexivity|]. cbn [map filter product_of].
      unfold product_of in *. cbn [fold_right map]. rewrite (Val v) by (apply Sub; now left).
      rewrite IH by (intros x Ix; apply Sub; now right). destruct (dget v d) as [x|] eqn:E.
      + assert (M : mem v (keys d) = true) by (apply mem_In, dget_keys; eauto). rewrite M. cbn [negb].
        assert (Iv : In v (keys D)) by (apply Sub; now left). apply keys_In in Iv as (l & J).
        destruct (Fo v l J) as (s & Es & Is). rewrite Es.
        assert (x = s) by (eapply (cons_get o v s); eauto; rewrite Ko; apply WD). subst x. rewrite eqd_refl. ring.
      + assert (M : mem v (keys d) = false) by (apply mem_nIn, dget_None; auto). rewrite M. cbn [negb map fold_right]. reflexivity.
    - assert (exists v s x, In v (keys D) /\ dget v o = Some s /\ dget v d = Some x /\ s <> x) as (v & s & x & Iv & Es & Ex & Nx).
      { unfold consistent in C. assert (existsb (fun vs => negb (match dget (fst vs) d with Some s => if eqd s (snd vs) then true else false | None => true end)) o = true).
        { clear -C. induction o as [|p r IH]; [discriminate|]. cbn [forallb existsb] in *. apply andb_false_iff in C as [C|C].
          - now rewrite C.
          - rewrite (IH C). apply orb_true_r. }
        apply existsb_exists in H0 as ([v s] & I & B). cbn [fst snd] in B. destruct (dget v d) as [x|] eqn:E; [|discriminate].
        exists v, s, x. assert (Io : In v (keys o)) by (apply (in_map fst) in I; exact I).
        split; [now rewrite <- Ko|]. split; [apply In_dget; [rewrite Ko; apply WD|auto]|]. split; [auto|].
        intros ->. rewrite eqd_refl in B. discriminate. }
      rewrite product_qprod. apply qprod_zero. apply in_map_iff. exists v. split; [|auto].
      rewrite (Val v Iv), Ex, Es, eqd_neq by auto. reflexivity.
  Qed.
End Do.

(** A value that is not a state is rejected. *)
Lemma intervention_bad m D F vt endo cast d v x l : causal m D F vt endo cast ->
  In v (nodes (m_graph m)) -> dget v d = Some x -> In (v, l) D -> ~ In x l -> scm_intervention m d = Raise ValueError.
Proof.
  intros (K & Wg & Ac & WD & SD & NF & SF & Hv & Ar) Iv Ev J Nx. unfold scm_intervention. rewrite K.
  rewrite (mapM_raise _ _ _ ValueError); [reflexivity| |].
  - intros [w of] I. cbn [fst snd]. destruct (dget w d) as [y|] eqn:E; [|eauto].
    assert (Iw : In w (nodes (m_graph m))) by (apply SF; apply (in_map fst) in I; exact I).
    destruct (Hv w Iw) as (f & St & T & C & Z). apply (In_dget _ _ _ NF) in I. unfold stored in St. rewrite I in St. injection St as ->.
    assert (L := cpt_left _ _ _ _ _ C). destruct (cpt_dom _ _ _ _ _ C (proj1 WD)) as (m0 & J1 & J2).
    destruct (in_dec eqd y m0) as [Iy|Ny]; [left|right]; destruct f as [h|h|]; cbn in T; [subst h| | |subst h| |]; try (destruct T; fail).
    + destruct (mf_constant_ok (F w) w m0 y (proj1 C) L J1 Iy) as (f & Ef & _). cbn. rewrite Ef. cbn. eauto.
    + destruct T as ((l2 & Wd) & U & Ed & _).
      assert (l2 = m0). { destruct Wd as (_ & _ & I2 & _). rewrite <- Ed in I2. eapply dom_unique; [apply WD|apply (proj1 (proj2 (proj2 (proj2 (proj2 C))))), I2|auto]. }
      subst l2. destruct (df_constant_ok h w m0 y Wd Iy) as (h' & Eh & _). cbn. rewrite Eh. cbn. eauto.
    + cbn. destruct (mf_constant_bad (F w) y (proj1 C)) as (_ & B & _). now rewrite (B w m0 L J1 Ny).
    + destruct T as ((l2 & Wd) & U & Ed & _).
      assert (l2 = m0). { destruct Wd as (_ & _ & I2 & _). rewrite <- Ed in I2. eapply dom_unique; [apply WD|apply (proj1 (proj2 (proj2 (proj2 (proj2 C))))), I2|auto]. }
      subst l2. cbn. now rewrite (df_constant_bad h w m0 y Wd Ny).
  - destruct (Hv v Iv) as (f & St & T & C & Z). exists (v, Some f). split; [apply dget_In; exact St|]. cbn [fst snd]. rewrite Ev.
    assert (L := cpt_left _ _ _ _ _ C). destruct (cpt_dom _ _ _ _ _ C (proj1 WD)) as (m0 & J1 & J2).
    assert (m0 = l) by (eapply dom_unique; eauto; apply WD). subst m0.
    destruct f as [h|h|]; cbn in T; [subst h| |destruct T].
    + cbn. destruct (mf_constant_bad (F v) x (proj1 C)) as (_ & B & _). now rewrite (B v l L J1 Nx).
    + destruct T as ((l2 & Wd) & U & Ed & _).
      assert (l2 = l). { destruct Wd as (_ & _ & I2 & _). rewrite <- Ed in I2. eapply dom_unique; [apply WD|apply (proj1 (proj2 (proj2 (proj2 (proj2 C))))), I2|auto]. }
      subst l2. cbn. now rewrite (df_constant_bad h v l x Wd Nx).
Qed.

(** ** Conversion to multinomial factors *)

Definition table_of_object (F : var -> mfactor) (m : pgm) (v : var) : mfactor :=
  match dget v (m_factors m) with
  | Some (Some (FD d)) => match df_to_multinomial d with Ok h => h | Raise _ => F v end
  | _ => F v
  end.

Lemma cpt_same D vt v ps f f' : NoDup (keys D) -> cpt D vt v ps f -> wf_mf f' -> mf_domain f' = mf_domain f -> mf_right f' = mf_right f ->
  mf_vtype f' = vt -> (forall o, full (mf_domain f) o -> mf_get_value f' o = mf_get_value f o) -> cpt D vt v ps f'.
Proof.
  intros ND C W Ed Er Ev Hv. destruct C as (W0 & T & Sl & Sr & Dm & Fin & Nm).
  split; [auto|]. split; [auto|]. split. { unfold mf_left, mf_vars in *. now rewrite Ed, Er. }
  split; [now rewrite Er|]. split; [now rewrite Ed|]. split. { rewrite Ed. intros o Fo. rewrite Hv by auto. auto. }
  intros o Fo. rewrite Er, Ed in *. destruct (Nm o Fo) as (xs & F2 & S). exists xs. split; [|auto].
  assert (Hp : forall p, In p (all_assignments (drop (mf_right f) (mf_domain f))) -> full (mf_domain f) (p ++ o)).
  { intros p Ip. assert (Wd : NoDup (keys (drop (mf_right f) (mf_domain f)))).
    { apply wf_drop. apply W0. }
    apply all_assignments_In_full in Ip as [Kp Fp]; [|apply Wd].
    intros w l I. rewrite dget_app. destruct (mem w (mf_right f)) eqn:M.
    - destruct (dget w p) as [s|] eqn:E.
      + exfalso. assert (In w (keys p)) by (apply dget_keys; eauto). rewrite Kp in H. apply keys_In in H as (l' & H).
        apply filter_In in H as [_ H]. cbn in H. rewrite M in H. discriminate.
      + apply Fo. apply filter_In. split; auto.
    - destruct (Fp w l) as (s & E & Is). { apply filter_In. split; auto. cbn. now rewrite M. } rewrite E. eauto. }
  revert Hp F2. clear -Hv. generalize (all_assignments (drop (mf_right f) (mf_domain f))). intros L Hp F2.
  induction F2; constructor; [|apply IHF2; intros; apply Hp; now right]. rewrite Hv; [auto|]. apply Hp. now left.
Qed.

Section Convert.
  Variables (m : pgm) (D : domain) (F : var -> mfactor) (vt : vtype) (endo : list var) (cast : bool).
  Hypothesis H : causal m D F vt endo cast.
  Hypothesis PR : plain_roots m.
  Notation g := (m_graph m).
  Notation F1 := (table_of_object F m).

  Lemma convert_table v f : stored m v f -> tabulates v f (F v) -> cpt D vt v (preds g v) (F v) ->
    (forall d, f = FD d -> df_to_multinomial d = Ok (F1 v)) /\ (forall h, f = FM h -> F1 v = F v) /\
    cpt D vt v (preds g v) (F1 v) /\ mf_domain (F1 v) = mf_domain (F v) /\
    (forall o, full (mf_domain (F v)) o -> mf_get_value (F1 v) o = mf_get_value (F v) o).
  Proof.
    intros St T C. unfold table_of_object. unfold stored in St. rewrite St. destruct f as [h|d|]; cbn in T; [| |destruct T].
    - split; [discriminate|]. split; [auto|]. auto.
    - destruct T as ((l & Wd) & U & Ed & Er & Ev & Hv). destruct (df_to_multinomial_ok d v l Wd U) as (h & Eh & Wh & Dh & Rh & Lh & Th & Vh).
      rewrite Eh. assert (Val : forall o, full (mf_domain (F v)) o -> mf_get_value h o = mf_get_value (F v) o).
      { intros o Fo. rewrite Ed in Fo. destruct (Vh o Fo) as (y & z & E1 & E2 & E3). destruct (Hv o Fo) as (y' & z' & E1' & E2' & E3').
        assert (y' = y) by congruence. assert (z' = z) by congruence. subst. congruence. }
      split; [intros d0 E; now injection E as <-|]. split; [discriminate|]. split; [|split; [congruence|auto]].
      destruct H as (_ & _ & _ & WD & _). eapply cpt_same; eauto; try congruence. { apply WD. } rewrite Th, <- Ev. apply C.
  Qed.

  Lemma convert_ok : exists m1 endo1, cve_init m = Ok m1 /\ causal m1 D F1 vt endo1 true /\ m_graph m1 = g /\
    roots g (filter (fun v => negb (mem v endo1)) (nodes g)) /\
    keys (m_factors m1) = nodes g /\
    (forall v, In v endo1 <-> exists x, arc g x v) /\
    (forall v, In v (nodes g) -> stored m1 v (FM (F1 v))) /\
    (forall v, In v (nodes g) -> exists l, has_domain m1 v l /\ In (v, l) D) /\
    (forall v o, In v (keys D) -> full D o -> entry (F1 v) o = entry (F v) o).
  Proof.
    assert (H0 := H). destruct H0 as (K & Wg & Ac & WD & SD & NF & SF & Hv & Ar).
    set (endo1 := scm_endo g None).
    assert (He : forall v, In v endo1 <-> exists x, arc g x v).
    { intros v. unfold endo1, scm_endo. rewrite filter_In. split.
      - intros [_ L]. destruct (preds g v) as [|p r] eqn:E; [discriminate|]. exists p. apply in_preds. rewrite E. now left.
      - intros (x & A). split; [apply (proj2 (proj2 Wg) x v), A|]. apply in_preds in A. destruct (preds g v); [destruct A|reflexivity]. }
    assert (HF : forall v, In v (nodes g) -> exists f, stored m v f /\ tabulates v f (F v) /\
       (forall d, f = FD d -> df_to_multinomial d = Ok (F1 v)) /\ (forall h, f = FM h -> F1 v = F v) /\
       cpt D vt v (preds g v) (F1 v) /\ (In v endo1 -> zero_one (F1 v)) /\ 
       (forall o, full D o -> entry (F1 v) o = entry (F v) o)).
    { intros v Iv. destruct (Hv v Iv) as (f & St & T & C & Z). destruct (convert_table v f St T C) as (c1 & c2 & c3 & c4 & c5).
      exists f. split; [auto|]. split; [auto|]. split; [auto|]. split; [auto|]. split; [auto|]. split.
      - intros Ie. apply He in Ie as (x & A). destruct (Z (Ar x v A)) as [Z1 _]. intros o Fo. rewrite c4 in Fo. rewrite c5 by auto. auto.
      - intros o Fo. unfold entry. rewrite c5; [auto|]. intros w l I. apply Fo. apply C. auto. }
    unfold cve_init, scm_to_multinomial.
    assert (Hfd : forall v f, In (v, f) (m_factor_dict m) -> In v (nodes g) /\ stored m v f).
    { intros v f I. unfold m_factor_dict in I. apply in_map_iff in I as ([w of] & E & I). cbn [fst snd] in E. injection E as <- <-.
      assert (Iv : In w (nodes g)) by (apply SF; apply (in_map fst) in I; exact I). split; [auto|].
      destruct (Hv w Iv) as (f & St & _). apply (In_dget _ _ _ NF) in I. unfold stored in *. rewrite I in St. injection St as ->. auto. }
    destruct (scm_complete D g true true None (m_factor_dict m) (map (fun vf => (fst vf, FM (F1 (fst vf)))) (m_factor_dict m))
                (fun v => FM (F1 v)) (proj1 WD) Wg Ac) as (m1 & Em & (Cg & Cf & Cd & Cs & Ch) & _ & Ck).
    - assert (Hall : forall v f, In (v, f) (m_factor_dict m) -> accepted D g true (KScm endo1 true) v f (FM (F1 v))).
      { intros v f I. destruct (Hfd v f I) as [Iv St]. destruct (HF v Iv) as (f0 & St0 & T & c1 & c2 & c3 & Z & _).
        assert (f0 = f) by (unfold stored in *; congruence). subst f0.
        assert (A : accepted D g true (KScm endo1 true) v (FM (F1 v)) (FM (F1 v))).
        { eapply accept_scm; eauto; [apply WD|reflexivity]. }
        destruct f as [h|d|]; cbn in T; [| |destruct T].
        - assert (Eh : h = F1 v) by (rewrite T; symmetry; eapply c2; reflexivity). rewrite Eh. exact A.
        - destruct A as (A1 & A2 & A3). split; [|auto]. intros m0 Ec. unfold scm_prepare.
          destruct (mem v endo1) eqn:Me.
          + rewrite Ec. cbn [bind negb]. now rewrite (c1 d eq_refl).
          + exfalso. destruct (PR v (FD d) St) as (h & E); [|discriminate]. intros x A. apply mem_nIn in Me. apply Me, He. eauto. }
      clear -Hall. fold endo1. induction (m_factor_dict m) as [|[v f] r IH]; constructor.
      + split; [reflexivity|]. apply Hall. now left.
      + apply IH. intros; apply Hall; now right.
    - intros v f I. apply in_map_iff in I as ([w f0] & E & I). cbn in E. now injection E as <- <-.
    - intros v Iv. unfold keys. rewrite map_map. cbn. unfold m_factor_dict. rewrite map_map. cbn. now apply SF.
    - fold endo1 in Ck. exists m1, endo1. split; [exact Em|].
      assert (Hs : forall v, In v (nodes g) -> stored m1 v (FM (F1 v))) by auto.
      split; [|split; [auto|split; [|split; [auto|split; [auto|split; [auto|split; [auto|]]]]]]].
      + split; [auto|]. rewrite Cg. split; [auto|]. split; [auto|]. split; [auto|]. split; [auto|].
        rewrite Cf. split; [apply Wg|]. split; [intros y; tauto|]. split.
        * intros v Iv. destruct (HF v Iv) as (f & _ & _ & _ & _ & c3 & Z & _). exists (FM (F1 v)).
          split; [auto|]. split; [reflexivity|]. auto.
        * intros x v A. apply He. eauto.
      + intros v. rewrite filter_In. split.
        * intros [Iv M]. split; [auto|]. intros x A. apply negb_true_iff, mem_nIn in M. apply M, He. eauto.
        * intros [Iv N]. split; [auto|]. apply negb_true_iff, mem_nIn. intros Ie. apply He in Ie as (x & A). eapply N; eauto.
      + intros v o Iv Fo. apply SD in Iv. destruct (HF v Iv) as (f & _ & _ & _ & _ & _ & _ & E). auto.
  Qed.
End Convert.

(** A causal model with multinomial factors is a network. *)
Lemma causal_network m D F vt endo cast : causal m D F vt endo cast -> (forall v, In v (nodes (m_graph m)) -> stored m v (FM (F v))) ->
  network m D F vt.
Proof.
  intros (K & Wg & Ac & WD & SD & NF & SF & Hv & Ar) Hs. do 6 (split; [assumption|]).
  intros v Iv. split; [auto|]. destruct (Hv v Iv) as (f & _ & _ & C & _). exact C.
Qed.
