(** Conversions between causal models and Bayesian networks. *)

From Coq Require Import String Bool Arith ZArith QArith Qcanon Lia Permutation List.
From Verif Require Import PyBase PyFacts Num DomainModel NdArray StoreModel NumStore FactorModel GenModel Spec StoreSpec DomainFacts StoreFacts
  NumFacts PropFacts1 FactorSpec FactorFacts FactorFacts2 FactorFacts3 GraphModel GraphSpec GraphFacts ModelModel ModelSpec ModelFacts
  NetSpec NetSem FactorSem NetFacts VeFacts4 BuildFacts BuildFacts2 InferModel CausalModel CausalSpec CausalFacts ConvModel ConvSpec.
From Coq Require Import List.
Import ListNotations.
Local Open Scope nat_scope.
Local Arguments eqd : simpl never.

Lemma nonroots g : wf_graph g -> children_of g (scm_endo g None).
Proof.
  intros Wg v. unfold scm_endo. rewrite filter_In. split.
  - intros [_ L]. destruct (preds g v) as [|p r] eqn:E; [discriminate|]. exists p. apply in_preds. rewrite E. now left.
  - intros (x & A). split; [apply (proj2 (proj2 Wg) x v), A|]. apply in_preds in A. destruct (preds g v); [destruct A|reflexivity].
Qed.

Lemma factor_dict_In m v f : NoDup (keys (m_factors m)) -> (forall w, In w (keys (m_factors m)) -> exists h, stored m w h) ->
  In (v, f) (m_factor_dict m) -> In v (keys (m_factors m)) /\ stored m v f.
Proof.
  intros NF St I. unfold m_factor_dict in I. apply in_map_iff in I as ([w of] & E & I). cbn [fst snd] in E. injection E as <- <-.
  assert (Iv : In w (keys (m_factors m))) by (apply (in_map fst) in I; exact I). split; [auto|].
  destruct (St w Iv) as (h & Sh). apply (In_dget _ _ _ NF) in I. unfold stored in *. rewrite I in Sh. injection Sh as ->. exact I.
Qed.
Lemma factor_dict_keys m : keys (m_factor_dict m) = keys (m_factors m).
Proof. unfold m_factor_dict, keys. rewrite map_map. reflexivity. Qed.

Lemma cpt_storable D vt g k v f : NoDup (keys D) -> In v (nodes g) -> cpt D vt v (preds g v) f ->
  (forall endo cast, k = KScm endo cast -> In v endo -> zero_one f) -> storable D g true k v f.
Proof.
  intros ND Iv C Z. assert (L := cpt_left _ _ _ _ _ C). split; [auto|]. split.
  { assert (I : In v (mf_left f)) by (rewrite L; now left). apply mf_left_In in I as [I _]. exact I. }
  destruct C as (W & _ & Sl & Sr & Dm & _). split; [exact Dm|]. split; [apply W|]. intros _. split; [auto|]. split; [auto|].
  intros endo cast -> Ie. destruct (is_degenerate_ok f W) as (b & Eb & Hb). rewrite Eb. f_equal. apply Hb. eauto.
Qed.

(** A network from the tables of a model. *)
Lemma bn_of_tables m D G vt : wf_graph (m_graph m) -> acyclic (m_graph m) -> wf_dom D -> same_set (keys D) (nodes (m_graph m)) ->
  NoDup (keys (m_factors m)) -> same_set (keys (m_factors m)) (nodes (m_graph m)) ->
  (forall v, In v (nodes (m_graph m)) -> stored m v (FM (G v)) /\ cpt D vt v (preds (m_graph m) v) (G v)) ->
  exists b, bn_init (GDag (m_graph m)) (Some (FsDict (m_factor_dict m))) true = Ok b /\ network b D G vt /\ m_kind b = KBn /\
    m_graph b = m_graph m /\ (forall v, In v (nodes (m_graph m)) -> stored b v (FM (G v))).
Proof.
  intros Wg Ac WD SD NF SF H.
  destruct (bn_build D (m_graph m) true (m_factor_dict m) G (proj1 WD) Wg Ac) as (b & Eb & (Bg & Bf & Bd & Bs & Bh) & _ & Bk).
  - intros v f I. apply factor_dict_In in I as [Iv Sv]; [|exact NF|].
    + apply SF in Iv. destruct (H v Iv) as [Sf C]. assert (f = FM (G v)) by (unfold stored in *; congruence). split; [auto|].
      eapply cpt_storable; eauto; [apply WD|]. discriminate.
    + intros w Iw. apply SF in Iw. destruct (H w Iw). eauto.
  - intros v Iv. rewrite factor_dict_keys. now apply SF.
  - exists b. split; [exact Eb|]. split; [|auto]. split; [congruence|]. rewrite Bg. split; [auto|]. split; [auto|]. split; [auto|].
    rewrite Bf. split; [apply Wg|]. split; [intros y; tauto|]. intros v Iv. split; [auto|]. now apply H.
Qed.

Section FromCausal.
  Variables (m : pgm) (D : domain) (F : var -> mfactor) (vt : vtype) (endo : list var) (cast : bool).
  Hypothesis H : causal m D F vt endo cast.
  Notation g := (m_graph m).
  Notation F1 := (table_of_object F m).

  Lemma tables_same v : In v (nodes g) -> exists f, stored m v f /\ tabulates v f (F v) /\
     (forall d, f = FD d -> df_to_multinomial d = Ok (F1 v)) /\ (forall h, f = FM h -> h = F v /\ F1 v = F v) /\
     cpt D vt v (preds g v) (F1 v) /\ (In v endo -> zero_one (F1 v)) /\
     (forall o, full D o -> entry (F1 v) o = entry (F v) o).
  Proof.
    intros Iv. assert (H0 := H). destruct H0 as (K & Wg & Ac & WD & SD & NF & SF & Hv & Ar).
    destruct (Hv v Iv) as (f & St & T & C & Z). destruct (convert_table m D F vt endo cast H v f St T C) as (c1 & c2 & c3 & c4 & c5).
    exists f. split; [auto|]. split; [auto|]. split; [auto|]. split; [|split; [auto|split]].
    - intros h ->. split; [exact T|]. now apply (c2 h).
    - intros Ie o Fo. rewrite c4 in Fo. rewrite c5 by auto. now apply Z.
    - intros o Fo. unfold entry. rewrite c5; [auto|]. intros w l I. apply Fo. apply C. auto.
  Qed.

  Lemma same_F1 : same_tables D F F1.
  Proof.
    intros v o Iv Fo. assert (H0 := H). destruct H0 as (_ & _ & _ & _ & SD & _). apply SD in Iv.
    destruct (tables_same v Iv) as (f & _ & _ & _ & _ & _ & _ & E). auto.
  Qed.

  Lemma kept_F1 v f : In v (nodes g) -> stored m v (FM f) -> F1 v = f.
  Proof.
    intros Iv St. destruct (tables_same v Iv) as (f0 & S0 & _ & _ & c & _). assert (f0 = FM f) by (unfold stored in *; congruence).
    destruct (c f H0). congruence.
  Qed.

  Lemma stored_node v f : stored m v f -> In v (nodes g).
  Proof.
    intros St. assert (H0 := H). destruct H0 as (_ & _ & _ & _ & _ & _ & SF & _). apply SF. apply dget_keys. eauto.
  Qed.

  Lemma to_multinomial_ok : plain_roots m ->
    exists m1 F1 endo1, scm_to_multinomial m = Ok m1 /\ causal m1 D F1 vt endo1 true /\ m_graph m1 = g /\
      children_of g endo1 /\ (forall v, In v (nodes g) -> stored m1 v (FM (F1 v))) /\ same_tables D F F1 /\ keeps_tables m m1.
  Proof.
    intros PR. destruct (convert_ok m D F vt endo cast H PR) as (m1 & endo1 & E & C & G & _ & _ & He & Hs & _ & _).
    exists m1, F1, endo1. split; [exact E|]. split; [auto|]. split; [auto|]. split; [auto|]. split; [auto|].
    split; [apply same_F1|]. intros v f St. assert (Iv := stored_node v _ St). rewrite <- (kept_F1 v f Iv St). auto.
  Qed.

  Lemma to_bnet_ok : plain_roots m -> incl endo (nodes g) ->
    exists b F1, scm_to_bnet m = Ok b /\ network b D F1 vt /\ m_kind b = KBn /\ m_graph b = g /\
      same_tables D F F1 /\ keeps_tables m b.
  Proof.
    intros PR Ie. assert (H0 := H). destruct H0 as (K & Wg & Ac & WD & SD & NF & SF & Hv & Ar).
    unfold scm_to_bnet, scm_has_deterministic, scm_endogenous, get_factors. rewrite K.
    assert (Hd : exists fs, mapM (fun v => dlook v (m_factors m)) endo = Ok fs /\
              forall v, In v endo -> exists f, stored m v f /\ In (Some f) fs).
    { assert (Hv' : forall v, In v (nodes g) -> exists f, stored m v f) by (intros v Iv; destruct (Hv v Iv) as (f & St & _); eauto).
      clear - Ie Hv'. revert Ie. induction endo as [|v r IH]; intros Ie; [exists []; split; [reflexivity|intros v []]|].
      destruct IH as (fs & Ef & Hf); [intros x I; apply Ie; now right|].
      destruct (Hv' v) as (f & St); [apply Ie; now left|]. exists (Some f :: fs). cbn [mapM]. unfold dlook at 1. unfold stored in St.
      rewrite St. cbn [bind]. rewrite Ef. cbn [bind]. split; [reflexivity|]. intros w [<-|I].
      - exists f. split; [exact St|now left].
      - destruct (Hf w I) as (f' & S' & I'). exists f'. split; [auto|now right]. }
    destruct Hd as (fs & Ef & Hf). rewrite Ef. cbn [bind].
    destruct (existsb (fun f => match f with Some (FD _) => true | _ => false end) fs) eqn:Ex.
    - destruct (convert_ok m D F vt endo cast H PR) as (m1 & endo1 & E & C & G & _ & Kf & He & Hs & _ & _).
      change (cve_init m) with (scm_to_multinomial m) in E. rewrite E. cbn [bind].
      destruct C as (_ & W1 & A1 & _ & S1 & N1 & SF1 & Hv1 & _).
      destruct (bn_of_tables m1 D F1 vt W1 A1 WD S1 N1 SF1) as (b & Eb & Nb & Kb & Gb & Sb).
      { intros v Iv. rewrite G in *. split; [auto|]. destruct (tables_same v Iv) as (f & _ & _ & _ & _ & c & _). exact c. }
      exists b, F1. split; [exact Eb|]. split; [auto|]. split; [auto|]. split; [congruence|]. split; [apply same_F1|].
      intros v f St. assert (Iv := stored_node v _ St). rewrite <- (kept_F1 v f Iv St). apply Sb. now rewrite G.
    - cbn [bind].
      assert (Hs : forall v, In v (nodes g) -> stored m v (FM (F1 v)) /\ cpt D vt v (preds g v) (F1 v)).
      { intros v Iv. destruct (tables_same v Iv) as (f & St & T & c1 & c2 & c3 & _). split; [|auto].
        assert (Hm : exists h, f = FM h).
        { destruct (preds g v) as [|p r] eqn:Ep.
          - apply (PR v f St). intros x A. apply in_preds in A. rewrite Ep in A. destruct A.
          - assert (Iv' : In v endo) by (apply (Ar p v); apply in_preds; rewrite Ep; now left).
            destruct (Hf v Iv') as (f' & S' & I'). assert (f' = f) by (unfold stored in *; congruence). subst f'.
            destruct f as [h|d|]; [eauto| |destruct T]. exfalso. 
            assert (existsb (fun f => match f with Some (FD _) => true | _ => false end) fs = true) by (apply existsb_exists; eauto).
            congruence. }
        destruct Hm as (h & ->). destruct (c2 h eq_refl). congruence. }
      destruct (bn_of_tables m D F1 vt Wg Ac WD SD NF SF Hs) as (b & Eb & Nb & Kb & Gb & Sb).
      exists b, F1. split; [exact Eb|]. split; [auto|]. split; [auto|]. split; [congruence|]. split; [apply same_F1|].
      intros v f St. assert (Iv := stored_node v _ St). rewrite <- (kept_F1 v f Iv St). auto.
  Qed.

  Lemma causal_to_bnet_ok :
    exists b F1, causal_to_bnet m = Ok b /\ network b D F1 vt /\ m_kind b = KBn /\ m_graph b = g /\
      same_tables D F F1 /\ keeps_tables m b.
  Proof.
    assert (H0 := H). destruct H0 as (K & Wg & Ac & WD & SD & NF & SF & Hv & Ar). unfold causal_to_bnet.
    assert (Hall : forall v f, In (v, f) (m_factor_dict m) -> In v (nodes g) /\ fo_multinomial f = Ok (FM (F1 v))).
    { intros v f I. apply factor_dict_In in I as [Iv Sv]; [|exact NF|].
      - apply SF in Iv. split; [auto|]. destruct (tables_same v Iv) as (f0 & S0 & T & c1 & c2 & _).
        assert (f0 = f) by (unfold stored in *; congruence). subst f0. destruct f as [h|d|]; [| |destruct T].
        + destruct (c2 h eq_refl). cbn. congruence.
        + cbn. now rewrite (c1 d eq_refl).
      - intros w Iw. apply SF in Iw. destruct (Hv w Iw) as (f1 & ? & _). eauto. }
    assert (Em : mapM fo_multinomial (vals (m_factor_dict m)) = Ok (map (fun vf => FM (F1 (fst vf))) (m_factor_dict m))).
    { clear - Hall. induction (m_factor_dict m) as [|[v f] r IH]; [reflexivity|]. cbn [vals map snd mapM fst].
      destruct (Hall v f (or_introl eq_refl)) as [_ E]. rewrite E. cbn [bind].
      assert (E2 := IH (fun w h I => Hall w h (or_intror I))). unfold vals in E2. rewrite E2. reflexivity. }
    rewrite Em. cbn [bind].
    set (fs' := map (fun vf => (fst vf, FM (F1 (fst vf)))) (m_factor_dict m) : dict var fobj).
    assert (Hs : Forall2 (fun f vf' => fo_left f = Ok [fst vf'] /\ accepted D g true KBn (fst vf') f (snd vf'))
                   (map (fun vf => FM (F1 (fst vf))) (m_factor_dict m)) fs').
    { assert (Hc : forall v f, In (v, f) (m_factor_dict m) -> mf_left (F1 v) = [v] /\ accepted D g true KBn v (FM (F1 v)) (FM (F1 v))).
      { intros v f I. destruct (Hall v f I) as [Iv _]. destruct (tables_same v Iv) as (_ & _ & _ & _ & _ & C & _).
        assert (L := cpt_left _ _ _ _ _ C). split; [auto|]. split; [reflexivity|]. split; [auto|].
        exists (mf_domain (F1 v)), (mf_left (F1 v)), (mf_right (F1 v)). split; [repeat split|]. split.
        - assert (I' : In v (mf_left (F1 v))) by (rewrite L; now left). apply mf_left_In in I' as [I' _]. exact I'.
        - destruct C as (_ & _ & Sl & Sr & Dm & _). split; [exact Dm|]. auto. }
      unfold fs'. clear - Hc. induction (m_factor_dict m) as [|[v f] r IH]; cbn [map fst]; constructor.
      - cbn [fst snd]. destruct (Hc v f (or_introl eq_refl)) as [L A]. split; [cbn; congruence|exact A].
      - apply IH. intros; eapply Hc; right; eauto. }
    unfold bn_init. destruct (initialize_ok g Wg) as [E _]. rewrite (E Ac). cbn [bind].
    destruct (put_list D (proj1 WD) g true KBn _ fs' Hs _ _ (partial_fresh D g true KBn)) as (b & Eb & B).
    assert (Kb : keys fs' = keys (m_factors m)).
    { unfold fs'. rewrite <- factor_dict_keys. unfold keys. rewrite map_map. reflexivity. }
    assert (Cb : complete D g (fun v => FM (F1 v)) b).
    { eapply partial_complete; [exact B| |].
      - intros v f I. unfold fs' in I. apply in_map_iff in I as ([w f0] & E1 & I). cbn in E1. now injection E1 as <- <-.
      - intros v Iv. rewrite Kb. now apply SF. }
    destruct Cb as (Bg & Bf & Bd & Bs & Bh). exists b, F1. split; [exact Eb|].
    split; [|split; [apply B|split; [auto|split; [apply same_F1|]]]].
    - split; [congruence|]. rewrite Bg. split; [auto|]. split; [auto|]. split; [auto|].
      rewrite Bf. split; [apply Wg|]. split; [intros y; tauto|]. intros v Iv. split; [auto|].
      now destruct (tables_same v Iv) as (_ & _ & _ & _ & _ & C & _).
    - intros v f St. assert (Iv := stored_node v _ St). rewrite <- (kept_F1 v f Iv St). auto.
  Qed.
End FromCausal.

(** ** Causal models from networks *)

Lemma from_network b D F vt : network b D F vt ->
  (forall x v, arc (m_graph b) x v -> zero_one (F v)) ->
  exists m endo, bnet_to_causal b = Ok m /\ causal m D F vt endo true /\ m_graph m = m_graph b /\
    children_of (m_graph b) endo /\ (forall v, In v (nodes (m_graph b)) -> stored m v (FM (F v))).
Proof.
  intros (Wg & Ac & WD & SD & NF & SF & Hv) Z. set (g := m_graph b) in *. assert (He := nonroots g Wg).
  destruct (scm_build D g true true None (m_factor_dict b) F (proj1 WD) Wg Ac) as (m & Em & (Bg & Bf & Bd & Bs & Bh) & _ & Bk).
  - intros v f I. apply factor_dict_In in I as [Iv Sv]; [|exact NF|].
    + apply SF in Iv. destruct (Hv v Iv) as [Sf C]. assert (f = FM (F v)) by (unfold stored in *; congruence). split; [auto|].
      eapply cpt_storable; eauto; [apply WD|]. intros e c Ek Ie. injection Ek as <- <-. apply He in Ie as (x & A). eauto.
    + intros w Iw. apply SF in Iw. destruct (Hv w Iw). eauto.
  - intros v Iv. rewrite factor_dict_keys. now apply SF.
  - exists m, (scm_endo g None). split; [exact Em|]. split; [|split; [auto|split; [auto|auto]]].
    split; [auto|]. rewrite Bg. split; [auto|]. split; [auto|]. split; [auto|]. split; [auto|].
    rewrite Bf. split; [apply Wg|]. split; [intros y; tauto|]. split.
    + intros v Iv. exists (FM (F v)). split; [auto|]. split; [reflexivity|]. split; [now apply Hv|].
      intros Ie. split; [|auto]. apply He in Ie as (x & A). eauto.
    + intros x v A. apply He. eauto.
Qed.

Lemma foldM_raises {A B} (step : A -> B -> res A) (P : A -> Prop) e l :
  (forall a x, P a -> In x l -> step a x = Raise e \/ exists a', step a x = Ok a' /\ P a') ->
  (exists x, In x l /\ forall a, P a -> step a x = Raise e) ->
  forall a, P a -> foldM step l a = Raise e.
Proof.
  induction l as [|x l IH]; intros Hs (y & I & Hy) a Pa; [destruct I|]. cbn [foldM].
  destruct (Hs a x Pa (or_introl eq_refl)) as [E|(a' & E & Pa')]; rewrite E; [reflexivity|]. cbn [bind].
  destruct I as [<-|I].
  - rewrite (Hy a Pa) in E. discriminate.
  - apply IH; eauto. intros b z Pb Iz. apply Hs; [auto|now right].
Qed.

Lemma from_network_bad b D F vt x v : network b D F vt -> arc (m_graph b) x v -> ~ zero_one (F v) ->
  bnet_to_causal b = Raise ValueError.
Proof.
  intros (Wg & Ac & WD & SD & NF & SF & Hv) A Nz. set (g := m_graph b) in *. assert (He := nonroots g Wg).
  unfold bnet_to_causal, scm_init. fold g. destruct (initialize_ok g Wg) as [E _]. rewrite (E Ac). cbn [bind].
  assert (Ee := scm_endo_ok g None). cbn [bind].
  change (filter (fun v => 0 <? length (preds g v)) (nodes g)) with (scm_endo g None). cbn [set_factors].
  set (k := KScm (scm_endo g None) true).
  assert (Hall : forall w f, In (w, f) (m_factor_dict b) -> In w (nodes g) /\ f = FM (F w)).
  { intros w f I. apply factor_dict_In in I as [Iv Sv]; [|exact NF|].
    - apply SF in Iv. destruct (Hv w Iv) as [Sf _]. split; [auto|]. unfold stored in *. congruence.
    - intros u Iw. apply SF in Iw. destruct (Hv u Iw). eauto. }
  assert (Bad : forall w m, m_kind m = k -> m_check m = true -> In w (nodes g) -> In w (scm_endo g None) -> ~ zero_one (F w) ->
            set_or_raise m w (FM (F w)) = Raise ValueError).
  { intros w m Km Cm Iw Ie Nw. unfold set_or_raise, set_factor. rewrite Km. unfold k, scm_prepare. apply mem_In in Ie. rewrite Ie, Cm.
    destruct (is_degenerate_ok (F w)) as (d & Ed & Hd); [apply (proj2 (Hv w Iw))|]. rewrite Ed. cbn [bind]. destruct d.
    - exfalso. apply Nw, Hd. reflexivity.
    - reflexivity. }
  apply (foldM_raises _ (fun m => exists done, building D g true k done m)).
  - intros m [w f] (done & B) I. cbn [fst snd]. destruct (Hall w f I) as [Iw ->].
    destruct (mem w (scm_endo g None)) eqn:Me.
    + apply mem_In in Me. destruct (is_degenerate_ok (F w)) as (d & Ed & Hd); [apply (proj2 (Hv w Iw))|]. destruct d.
      * right. destruct (set_one D (proj1 WD) g true k done m w (F w) Wg B) as (m' & Em & B'); [|eauto].
        eapply cpt_storable; [apply WD|auto|apply Hv; auto|]. intros. now apply Hd.
      * left. apply Bad; [apply B|apply B|auto|auto|]. intros Zw. apply Hd in Zw. discriminate.
    + right. destruct (set_one D (proj1 WD) g true k done m w (F w) Wg B) as (m' & Em & B'); [|eauto].
      eapply cpt_storable; [apply WD|auto|apply Hv; auto|]. intros e c Ek Ie. injection Ek as <- <-. apply mem_nIn in Me. contradiction.
  - assert (Iv : In v (nodes g)) by (apply (proj2 (proj2 Wg) x v), A).
    exists (v, FM (F v)). split.
    + unfold m_factor_dict. apply in_map_iff. exists (v, Some (FM (F v))). split; [reflexivity|]. apply dget_In. now apply Hv.
    + intros m (done & B). cbn [fst snd]. apply Bad; [apply B|apply B|auto| |auto]. apply He. eauto.
  - exists (fun _ => None). apply building_fresh.
Qed.
