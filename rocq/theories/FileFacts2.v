(** Networks read from files. *)

From Coq Require Import String Bool Arith ZArith Lia Permutation List.
From Verif Require Import PyBase Num DomainModel NdArray StoreModel NumStore FactorModel GraphModel ModelModel PgmpyModel FileModel
  PyFacts Spec DomainFacts StoreSpec StoreFacts StoreOps PropFacts1 GraphSpec GraphFacts FactorSpec ModelSpec ModelFacts FactorFacts FactorFacts2 FactorFacts3
  DataFacts BuildFacts UaiSpec PgmpySpec PgmpyFacts PgmpyFacts2 PgmpyFacts3 FileSpec FileFacts ConvSpec ConvFacts.
Import ListNotations.
Local Open Scope nat_scope.
Local Arguments eqd : simpl never.

Section Nets.
  Variables (idx : list state -> state -> res nat) (m : pgm) (D : domain) (F : var -> mfactor) (vt : vtype) (label : state -> string).
  Hypothesis T : tabled m D F.
  Hypothesis Al : forall v l, In (v, l) D -> aligned (F v) v /\ square (F v) (length l).
  Hypothesis Fi : forall v l, In (v, l) D -> finds idx (map (fun s => SStr (label s)) l).
  Let g := m_graph m.
  Let vs := keys (m_factors m).
  Notation tb := (tab F).

  Let Al0 : forall v l, In (v, l) D -> aligned (F v) v /\ square (F v) (length l) /\ finds index_by_name l.
  Proof.
    intros v l J. destruct (Al v l J). split; [assumption|]. split; [assumption|]. apply by_name_finds.
    apply (proj2 (proj1 (proj2 (proj2 T))) v l J).
  Qed.
  Lemma label_NoDup v l : In (v, l) D -> NoDup (map (fun s => SStr (label s)) l).
  Proof. intros J. apply (finds_NoDup idx), (Fi v l J). Qed.

  Definition arr (v : var) : domain := arrange (v :: mf_right (F v)) (mf_domain (F v)).
  Lemma tab_ok v : In v (nodes g) -> tb_variable (tb v) = v /\ tb_variables (tb v) = v :: mf_right (F v) /\ tb_states (tb v) = mf_domain (F v) /\
    shape (tb_values (tb v)) = card (arr v) /\ length (flat (tb_values (tb v))) = size (arr v) /\
    NoDup (v :: mf_right (F v)) /\ same_set (mf_vars (F v)) (v :: mf_right (F v)) /\
    forall o, full (mf_domain (F v)) o -> exists x, mf_get_value (F v) o = Ok x /\ nth_error (flat (tb_values (tb v))) (rowpos (arr v) o) = Some x.
  Proof.
    intros Iv. destruct (Tv m D F T v Iv) as (_ & Wf & LF & _ & SD). destruct (states m D F T v Iv) as (l & IlD & Il).
    destruct (Al v l IlD) as (A & Sq). assert (C := aligned_convertible _ _ _ Wf A Il Sq). assert (Lv := aligned_left _ _ Wf A).
    destruct (to_tabular_ok (F v) v l Wf Lv Il C) as (ys & Et & Ly & _). unfold tab. rewrite Et. cbn [tb_variable tb_variables tb_states tb_values shape flat].
    assert (Nv : ~ In v (mf_right (F v))) by (apply (v_right (F v) v Lv)).
    assert (Nd : NoDup (v :: mf_right (F v))) by (constructor; [exact Nv|apply Wf]).
    assert (Sk : same_set (mf_vars (F v)) (v :: mf_right (F v))).
    { intros w. unfold aligned in A. rewrite A, in_app_iff. cbn [In]. tauto. }
    assert (Ea : arr v = (v, l) :: arrange (mf_right (F v)) (mf_domain (F v))).
    { unfold arr, arrange. cbn [flat_map]. rewrite (In_dget _ _ _ (proj1 (usable_wf _ (proj1 (proj2 Wf)))) Il). reflexivity. }
    split; [reflexivity|]. split; [reflexivity|]. split; [reflexivity|]. split; [rewrite Ea; reflexivity|]. split; [rewrite Ea; exact Ly|].
    split; [exact Nd|]. split; [exact Sk|].
    assert (Ht := table index_by_name m D F vt T Al0 v Iv). destruct Ht as (Et2 & _ & _ & Eb & _ & _ & (Db & Rb & Sv)).
    assert (Tb : tb v = MkTab v (v :: mf_right (F v)) (mkNd (length l :: card (arrange (mf_right (F v)) (mf_domain (F v)))) ys) (mf_domain (F v))).
    { unfold tab. now rewrite Et. }
    destruct (table_read index_by_name (tb v) v (mf_right (F v)) vt) as (f & Ef & _ & _ & _ & _ & Hf); rewrite ?Tb; cbn [tb_variable tb_variables tb_states tb_values shape flat]; try reflexivity.
    - exact Nd.
    - exact Sk.
    - apply Wf.
    - fold (arr v). rewrite Ea. reflexivity.
    - intros w k J. apply (Al0 w k). now apply SD.
    - fold (arr v). rewrite Ea. exact Ly.
    - rewrite Eb in Ef. injection Ef as <-. rewrite Tb in Hf. cbn [tb_states tb_values flat] in Hf. fold (arr v) in Hf. intros o Fo.
      destruct (Sv o Fo) as (x & E1 & E2). destruct (Hf o Fo) as (y & E3 & E4). rewrite E2 in E3. injection E3 as <-. eauto.
  Qed.

  (** A table of the file. *)
  Lemma restated_ok v c : In v (nodes g) -> restated label (tb v) c ->
    exists f, to_multinomial_factor idx c vt = Ok f /\ wf_mf f /\ mf_vtype f = vt /\ same_but_names label (F v) f.
  Proof.
    intros Iv (E1 & E2 & E3 & P). destruct (Tv m D F T v Iv) as (_ & Wf & _ & _ & SD).
    destruct (tab_ok v Iv) as (T1 & T2 & T3 & Sh & Ln & Nd & Sk & Hv). rewrite T1 in E1. rewrite T2 in E2. rewrite T3 in P.
    assert (Nl : forall w l, In (w, l) (mf_domain (F v)) -> NoDup (map (fun s => SStr (label s)) l)) by (intros w l J; apply (label_NoDup w), SD, J).
    assert (Uc : usable (tb_states c)).
    { apply (usable_perm _ _ (Permutation_sym P)), relabel_usable; [apply Wf|exact Nl]. }
    assert (Ea : arrange (v :: mf_right (F v)) (tb_states c) = relabel label (arr v)).
    { unfold arr. rewrite <- relabel_arrange. apply arrange_perm; [exact P|]. apply (usable_wf _ Uc). }
    destruct (table_read idx c v (mf_right (F v)) vt E1 E2 Nd) as (f & Ef & Wm & Vm & Dm & Rm & Hm).
    - intros w. rewrite <- (Sk w). unfold mf_vars. rewrite <- (relabel_keys label (mf_domain (F v))). split; intros J.
      + apply (Permutation_in _ (Permutation_map fst P) J).
      + apply (Permutation_in _ (Permutation_sym (Permutation_map fst P)) J).
    - exact Uc.
    - rewrite Ea, relabel_card, E3. exact Sh.
    - intros w k J. apply (Permutation_in _ P) in J. apply relabel_In in J as (l & J & ->). apply (Fi w), SD, J.
    - rewrite Ea, relabel_size, E3. exact Ln.
    - exists f. split; [exact Ef|]. split; [exact Wm|]. split; [exact Vm|]. split; [now rewrite Dm|]. split; [exact Rm|]. intros o Fo.
      destruct (Hv o Fo) as (x & Ex & Nx). exists x. split; [exact Ex|].
      assert (Fr : full (tb_states c) (relabel_obs label o)).
      { intros w k J. apply (Permutation_in _ P) in J. now apply (relabel_full label (mf_domain (F v)) o Fo). }
      destruct (Hm _ Fr) as (y & Ey & Ny). rewrite Ea, E3, relabel_rowpos in Ny.
      + rewrite Nx in Ny. injection Ny as <-. exact Ey.
      + intros w l J. apply (Nl w l). apply arrange_In in J. apply dget_In, J.
      + intros w l J. apply Fo. apply arrange_In in J. apply dget_In, J.
  Qed.

  (** The graph of the file. *)
  Variable g' : digraph.
  Hypothesis Wg' : wf_graph g'.
  Hypothesis Ag' : forall x y, arc g' x y <-> arc g x y.
  Let dag := graph_of (in_edges g').
  Lemma dag_arc x y : arc dag x y <-> arc g x y.
  Proof.
    unfold dag, arc at 1. rewrite graph_of_edges. unfold in_edges. rewrite in_flat_map. split.
    - intros (w & Iw & J). apply in_map_iff in J. destruct J as (p & E & J). injection E as -> ->. apply in_preds in J. now apply Ag'.
    - intros A. exists y. apply Ag' in A. split; [now apply Wg' in A|]. apply in_map_iff. exists x. split; [reflexivity|]. now apply in_preds.
  Qed.
  Lemma dag_node v : In v (nodes dag) <-> exists w, arc g v w \/ arc g w v.
  Proof.
    unfold dag. rewrite graph_of_nodes. split.
    - intros ([x y] & I & E). apply graph_of_edges in I. change (arc dag x y) in I. apply dag_arc in I.
      cbn [fst snd] in E. destruct E as [-> | ->]; eauto.
    - intros (w & [A | A]); apply dag_arc in A; apply (proj1 (graph_of_edges _ _)) in A; eexists; (split; [exact A|]); cbn; auto.
  Qed.
  Lemma dag_old v : In v (nodes dag) -> In v (nodes g).
  Proof. intros I. apply dag_node in I. destruct I as (w & [A | A]); apply (proj1 T) in A; apply A. Qed.

  Lemma good_storable k v f : (forall endo cast, k = KScm endo cast -> In v endo -> mf_is_degenerate f = Ok true) ->
    In v (nodes dag) -> wf_mf f -> same_but_names label (F v) f -> storable (relabel label D) dag true k v f.
  Proof.
    intros Kd Id Wm (P & Rm & _). assert (Iv := dag_old v Id). destruct (Tv m D F T v Iv) as (_ & Wf & LF & RF & SD).
    assert (Kv : forall w, In w (mf_vars f) <-> In w (mf_vars (F v))).
    { intros w. unfold mf_vars. rewrite <- (relabel_keys label (mf_domain (F v))). split; intros J.
      - apply (Permutation_in _ (Permutation_map fst P) J).
      - apply (Permutation_in _ (Permutation_sym (Permutation_map fst P)) J). }
    assert (Lm : forall w, In w (mf_left f) <-> In w (mf_left (F v))) by (intros w; rewrite !mf_left_In, Kv, Rm; tauto).
    split; [exact Id|]. split.
    { apply Kv. assert (J : In v (mf_left (F v))) by (apply LF; now left). now apply mf_left_In in J. }
    split.
    { intros w k0 J. apply (Permutation_in _ P) in J. apply relabel_In in J as (l & J & ->). apply relabel_In. exists l. split; [now apply SD|reflexivity]. }
    split; [apply (usable_wf _ (proj1 (proj2 Wm)))|]. intros _. split; [intros w; rewrite Lm; apply LF|]. split; [|exact Kd].
    intros w. rewrite Rm, (RF w), !in_preds. symmetry. apply dag_arc.
  Qed.

  (** The list of factors read. *)
  Lemma factors_read ts cs : Permutation ts cs -> Forall2 (restated label) (map tb vs) ts ->
    exists fs, mapM (fun c => let* f := to_multinomial_factor idx c vt in Ok (tb_variable c, FM f)) cs = Ok fs /\ NoDup (keys fs) /\
      same_set (keys fs) vs /\
      forall v o, In (v, o) fs -> exists f, o = FM f /\ wf_mf f /\ mf_vtype f = vt /\ same_but_names label (F v) f.
  Proof.
    intros P H2.
    assert (Iv : forall v, In v vs -> In v (nodes g)) by apply T.
    assert (Nv : NoDup vs) by apply T.
    assert (Ek : map tb_variable ts = vs).
    { clear P Nv. revert ts H2. induction vs as [|v l IH]; intros ts H2; inversion H2 as [|? c ? ts' R H2']; subst; [reflexivity|]. cbn [map]. f_equal.
      - destruct R as (-> & _). apply tab_ok, Iv. now left.
      - apply IH; [intros w J; apply Iv; now right|exact H2']. }
    assert (Hc : forall c, In c cs -> exists v, In v vs /\ restated label (tb v) c).
    { intros c J. apply (Permutation_in _ (Permutation_sym P)) in J. clear P Nv Iv Ek. revert ts H2 J.
      induction vs as [|v l IH]; intros ts H2 J; inversion H2 as [|? c' ? ts' R H2']; subst; [destruct J|].
      destruct J as [<- | J]; [exists v; split; [now left|exact R]|]. destruct (IH ts' H2' J) as (w & J' & R'). exists w. split; [now right|exact R']. }
    assert (Pk : Permutation vs (map tb_variable cs)) by (rewrite <- Ek; now apply Permutation_map).
    assert (G : forall l, (forall c, In c l -> exists v, In v vs /\ restated label (tb v) c) ->
      exists fs, mapM (fun c => let* f := to_multinomial_factor idx c vt in Ok (tb_variable c, FM f)) l = Ok fs /\ keys fs = map tb_variable l /\
      forall v o, In (v, o) fs -> exists f, o = FM f /\ wf_mf f /\ mf_vtype f = vt /\ same_but_names label (F v) f).
    { induction l as [|c l IH]; intros Hl; [exists []; split; [reflexivity|split; [reflexivity|intros v o []]]|].
      destruct IH as (fs & E & K & H); [intros x J; apply Hl; now right|]. destruct (Hl c (or_introl eq_refl)) as (v & Jv & R).
      destruct (restated_ok v c (Iv v Jv) R) as (f & Ef & Wm & Vm & Sm). assert (Ec : tb_variable c = v).
      { destruct R as (-> & _). apply tab_ok, Iv, Jv. }
      exists ((v, FM f) :: fs). cbn [mapM]. rewrite Ef, Ec. cbn [bind]. rewrite E. cbn [bind]. split; [reflexivity|]. split.
      - cbn [keys map fst]. rewrite Ec. f_equal. exact K.
      - intros w o [J | J]; [|now apply H]. injection J as <- <-. eauto. }
    destruct (G cs Hc) as (fs & E & K & H). exists fs. split; [exact E|]. rewrite K. split; [apply (Permutation_NoDup Pk Nv)|]. split; [|exact H].
    intros w. split; intros J.
    - apply (Permutation_in _ (Permutation_sym Pk) J).
    - apply (Permutation_in _ Pk J).
  Qed.

  Lemma net_read ts cs : no_isolated g -> Permutation ts cs -> Forall2 (restated label) (map tb vs) ts ->
    exists m' F', to_bcause idx (MkPg g' cs) vt = Ok m' /\ m_kind m' = KBn /\ tabled m' (relabel label D) F' /\
      same_set (nodes (m_graph m')) (nodes g) /\ (forall x y, arc (m_graph m') x y <-> arc g x y) /\
      forall v, In v (nodes g) -> same_but_names label (F v) (F' v) /\ mf_vtype (F' v) = vt.
  Proof.
    intros NI P H2. destruct (factors_read ts cs P H2) as (fs & Ef & Nf & Sf & Hf).
    assert (SN : forall v, In v (nodes dag) <-> In v (nodes g)) by (intros v; split; [apply dag_old|intros J; now apply dag_node, NI]).
    set (F' := fun v => match dget v fs with Some (FM f) => f | _ => F v end).
    assert (HF : forall v, In v (nodes g) -> dget v fs = Some (FM (F' v)) /\ wf_mf (F' v) /\ mf_vtype (F' v) = vt /\ same_but_names label (F v) (F' v)).
    { intros v Iv. assert (J : In v (keys fs)) by (apply Sf; now apply T). apply dget_keys in J as (o & E). assert (J := dget_In _ _ _ E).
      destruct (Hf v o J) as (f & -> & W). unfold F'. rewrite E. auto. }
    assert (Wd : wf_graph dag) by apply graph_of_wf.
    assert (Ac : acyclic dag) by (apply (acyclic_mono g); [intros x y; apply dag_arc|apply T]).
    assert (WD' : wf_dom (relabel label D)) by (apply relabel_wf; [apply T|intros w l J; now apply (label_NoDup w)]).
    destruct (bn_build (relabel label D) dag true fs F') as (m' & Em & (Gm & Kf & Kd & St & Dm) & _ & K).
    - apply WD'.
    - exact Wd.
    - exact Ac.
    - intros v o J. assert (Iv : In v (nodes g)) by (apply T, Sf, keys_In; eauto). destruct (HF v Iv) as (E & Wm & _ & Sm).
      apply (In_dget _ _ _ Nf) in J. rewrite E in J. injection J as <-. split; [reflexivity|]. apply good_storable; [discriminate|now apply SN|assumption|assumption].
    - intros v J. apply Sf, T. now apply SN.
    - exists m', F'. split.
      { unfold to_bcause. cbn [pn_graph pn_cpds]. rewrite Ef. cbn [bind]. fold dag. rewrite dict_of_id by exact Nf. exact Em. }
      split; [exact K|]. rewrite Gm. split; [|split; [|split]].
      + unfold tabled. rewrite Gm. split; [exact Wd|]. split; [exact Ac|]. split; [exact WD'|].
        split; [intros v; rewrite relabel_keys, (SN v); apply T|]. rewrite Kf. split; [apply Wd|]. split; [intros v; tauto|].
        intros v I. split; [now apply St|]. assert (Ig := I). apply SN in Ig. destruct (HF v Ig) as (_ & Wm & _ & Sm). split; [exact Wm|].
        destruct (good_storable KBn v (F' v)) as (_ & _ & SD & _ & H); [discriminate|assumption|assumption|assumption|]. destruct (H eq_refl) as (H1 & H3 & _). auto.
      + intros v. apply SN.
      + apply dag_arc.
      + intros v Iv. destruct (HF v Iv) as (_ & _ & V & Sm). auto.
  Qed.

  (** A variable without arcs is lost by [in_edges]. *)
  Lemma net_isolated ts cs : (exists v, isolated g v) -> Permutation ts cs -> Forall2 (restated label) (map tb vs) ts ->
    to_bcause idx (MkPg g' cs) vt = Raise NetworkXError.
  Proof.
    intros (u & Iu & Nu) P H2. destruct (factors_read ts cs P H2) as (fs & Ef & Nf & Sf & Hf).
    assert (Wd : wf_graph dag) by apply graph_of_wf.
    assert (Ac : acyclic dag) by (apply (acyclic_mono g); [intros x y; apply dag_arc|apply T]).
    assert (WD' : wf_dom (relabel label D)) by (apply relabel_wf; [apply T|intros w l J; now apply (label_NoDup w)]).
    unfold to_bcause. cbn [pn_graph pn_cpds]. rewrite Ef. cbn [bind]. fold dag. rewrite dict_of_id by exact Nf. unfold bn_init.
    rewrite (proj1 (initialize_ok _ Wd) Ac). cbn [bind set_factors].
    assert (Bad : forall w f m0, ~ In w (nodes dag) -> (exists done, building (relabel label D) dag true KBn done m0) ->
      set_or_raise m0 w (FM f) = Raise NetworkXError).
    { intros w f m0 J (done & Gm & Cm & Km & _). unfold set_or_raise, set_factor. rewrite Km. unfold set_factor_base. rewrite Cm. unfold check_factor.
      rewrite Gm. unfold get_parents. cbn [mapM]. unfold predecessors. apply mem_nIn in J. rewrite J. reflexivity. }
    apply (foldM_raises _ (fun m0 => exists done, building (relabel label D) dag true KBn done m0)).
    - intros m0 [w o] (done & B) J. cbn [fst snd]. destruct (Hf w o J) as (f & -> & Wm & _ & Sm). destruct (in_dec string_dec w (nodes dag)) as [Jd | Jd]; [|left; apply Bad; eauto].
      right.
      destruct (set_one (relabel label D) (proj1 WD') dag true KBn) with (done := done) (m := m0) (v := w) (f := f) as (m1 & E1 & B1);
        [exact Wd|exact B|apply good_storable; [discriminate|assumption|assumption|assumption]|]. eauto.
    - assert (Ju : In u (keys fs)) by (apply Sf; now apply T). apply keys_In in Ju as (o & Jo). exists (u, o). split; [exact Jo|].
      intros m0 B. destruct (Hf u o Jo) as (f & -> & _). cbn [fst snd]. apply Bad; [|exact B]. intros J. apply dag_node in J as (x & J). now apply (Nu x).
    - eexists. apply building_fresh.
  Qed.
End Nets.
