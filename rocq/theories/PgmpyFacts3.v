(** The round trip of factors and of whole networks. *)

From Coq Require Import String Bool Arith ZArith Lia Permutation List.
From Verif Require Import PyBase Num DomainModel NdArray StoreModel NumStore FactorModel GraphModel ModelModel PgmpyModel
  PyFacts Spec DomainFacts StoreSpec StoreFacts PropFacts1 FactorSpec FactorFacts FactorFacts2 FactorFacts3
  GraphSpec GraphFacts GraphFacts2 ModelSpec ModelFacts NetSpec NetFacts BuildFacts UaiSpec
  PgmpySpec PgmpyFacts PgmpyFacts2.
Import ListNotations.
Local Open Scope nat_scope.
Local Arguments eqd : simpl never.

(** ** the rules for states *)
Lemma by_name_finds l : NoDup l -> finds index_by_name l.
Proof. intros N i s E. unfold index_by_name. now rewrite (index_of_nth l i s). Qed.
Lemma by_type_finds l : NoDup l -> (forall s, In s l -> exists x, s = SStr x) -> finds index_by_type l.
Proof.
  intros N St i s E. unfold index_by_type. destruct (St s (nth_error_In _ _ E)) as (x & ->). now rewrite (index_of_nth l i (SStr x)).
Qed.
Lemma by_type_positions l : (forall i s, nth_error l i = Some s -> s = SInt (Z.of_nat i)) -> finds index_by_type l.
Proof.
  intros H i s E. rewrite (H i s E). cbn. replace (0 <=? Z.of_nat i)%Z with true by (symmetry; apply Z.leb_le; lia).
  apply (f_equal Ok). apply Nat2Z.id.
Qed.

Lemma found_ok : forall l, NoDup l -> finds index_by_name l /\
  ((forall s, In s l -> exists x, s = SStr x) -> finds index_by_type l) /\
  ((forall i s, nth_error l i = Some s -> s = SInt (Z.of_nat i)) -> finds index_by_type l).
Proof. intros l N. split; [now apply by_name_finds|]. split; [now apply by_type_finds|apply by_type_positions]. Qed.

(** ** factors *)
Lemma exact_ok : forall idx f v l vt, wf_mf f -> mf_left f = [v] -> In (v, l) (mf_domain f) ->
  convertible (length l) (mf_domain f) -> (forall w k, In (w, k) (mf_domain f) -> finds idx k) ->
  exists t f', to_tabular f = Ok t /\ to_multinomial_factor idx t vt = Ok f' /\ wf_mf f' /\ mf_vtype f' = vt /\
    mf_domain f' = mf_domain f /\ mf_right f' = mf_right f /\
    forall o, full (mf_domain f) o -> exists o' x, full (mf_domain f) o' /\
      rowpos (mf_domain f) o' = rowpos (arrange (mf_right f ++ [v]) (mf_domain f)) o /\
      mf_get_value f o' = Ok x /\ mf_get_value f' o = Ok x.
Proof.
  intros idx f v l vt Wf Lv Iv C Fi. destruct (back_ok f v l Wf Lv Iv idx vt C Fi) as (t & f' & H).
  exists t, f'. rewrite arrange_app. cbn [arrange flat_map]. rewrite (Dv f v l Wf Iv). exact H.
Qed.

Lemma aligned_left f v : wf_mf f -> aligned f v -> mf_left f = [v].
Proof.
  intros Wf A. unfold mf_left. rewrite A. unfold aligned in A. assert (N : NoDup (mf_vars f)) by apply (usable_wf _ (proj1 (proj2 Wf))).
  rewrite A in N. rewrite filter_app. replace (filter _ (mf_right f)) with (@nil var).
  - cbn [app filter]. destruct (mem v (mf_right f)) eqn:E; [|reflexivity]. apply mem_In in E. exfalso.
    apply NoDup_remove_2 in N. apply N. rewrite app_nil_r. assumption.
  - symmetry. assert (G : forall r, incl r (mf_right f) -> filter (fun w => negb (mem w (mf_right f))) r = []).
    { induction r as [|w r IH]; intros I; [reflexivity|]. cbn [filter]. rewrite (proj2 (mem_In w (mf_right f))) by (apply I; now left).
      apply IH. intros x J. apply I. now right. }
    apply G, incl_refl.
Qed.
Lemma aligned_domain f v : wf_mf f -> aligned f v -> arrange (mf_right f ++ [v]) (mf_domain f) = mf_domain f.
Proof. intros Wf A. unfold aligned in A. rewrite <- A. apply arrange_self, (usable_wf _ (proj1 (proj2 Wf))). Qed.

Lemma aligned_convertible f v l : wf_mf f -> aligned f v -> In (v, l) (mf_domain f) -> square f (length l) ->
  convertible (length l) (mf_domain f).
Proof.
  intros Wf A Iv Sq. assert (E := aligned_domain f v Wf A). rewrite arrange_app in E. cbn [arrange flat_map] in E.
  rewrite (Dv f v l Wf Iv) in E. cbn [app] in E. unfold square, mf_vars, keys in Sq. rewrite map_length in Sq.
  set (R := arrange (mf_right f) (mf_domain f)) in *. rewrite <- E in *. clearbody R. clear E.
  destruct R as [|[x k] [|[y k'] R]]; [exact I|reflexivity|].
  change (((x, k) :: (y, k') :: R) ++ [(v, l)]) with ((x, k) :: ((y, k') :: R) ++ [(v, l)]) in *.
  assert (G : length k = length l). { refine (Sq _ x k _ eq_refl). cbn [length]. rewrite app_length. cbn [length]. lia. }
  assert (L : last (((y, k') :: R) ++ [(v, l)]) (EmptyString, []) = (v, l)) by apply last_last.
  cbn [app] in *. destruct (R ++ [(v, l)]) as [|z d] eqn:Ez; [destruct R; discriminate|].
  unfold convertible. split; [assumption|]. now rewrite L.
Qed.

Lemma roundtrip_ok : forall idx f v l vt, wf_mf f -> aligned f v -> In (v, l) (mf_domain f) -> square f (length l) ->
  (forall w k, In (w, k) (mf_domain f) -> finds idx k) ->
  exists t f', to_tabular f = Ok t /\ tb_variables t = v :: mf_right f /\ to_multinomial_factor idx t vt = Ok f' /\
    wf_mf f' /\ mf_vtype f' = vt /\ same_factor f f'.
Proof.
  intros idx f v l vt Wf A Iv Sq Fi.
  assert (C := aligned_convertible f v l Wf A Iv Sq). assert (Lv := aligned_left f v Wf A).
  destruct (exact_ok idx f v l vt Wf Lv Iv C Fi) as (t & f' & Et & Ef & Wf' & Vt & Df & Rf & G).
  exists t, f'. split; [assumption|]. split.
  { destruct (to_tabular_ok f v l Wf Lv Iv C) as (ys & Et' & _). rewrite Et in Et'. injection Et' as ->. reflexivity. }
  split; [assumption|]. split; [assumption|]. split; [assumption|]. split; [assumption|]. split; [assumption|].
  intros o Fo. destruct (G o Fo) as (o' & x & Fo' & Eo' & Gx & Gx'). exists x. split; [|assumption].
  rewrite (aligned_domain f v Wf A) in Eo'. destruct (factor_array f Wf) as (a & _ & _ & _ & Ga).
  destruct (Ga o Fo) as (y & Gy & Ny). destruct (Ga o' Fo') as (y' & Gy' & Ny'). rewrite Eo' in Ny'. congruence.
Qed.

Lemma raises_ok : forall f v l, wf_mf f -> mf_left f = [v] -> In (v, l) (mf_domain f) ->
  ~ convertible (length l) (mf_domain f) -> to_tabular f = Raise ValueError.
Proof. exact to_tabular_raises. Qed.

Lemma no_left_raises : forall f, mf_left f = [] -> to_tabular f = Raise IndexError.
Proof. intros f L. unfold to_tabular. rewrite left_domain_keys, L. reflexivity. Qed.

(** ** networks *)
Section Nets.
  Variables (idx : list state -> state -> res nat) (m : pgm) (D : domain) (F : var -> mfactor) (vt : vtype).
  Hypothesis T : tabled m D F.
  Hypothesis Ok_tables : forall v l, In (v, l) D -> aligned (F v) v /\ square (F v) (length l) /\ finds idx l.
  Let g := m_graph m.

  Definition tab (v : var) : tabcpd := match to_tabular (F v) with Ok t => t | Raise _ => MkTab v [] (mkNd [] []) [] end.
  Definition back (v : var) : mfactor := match to_multinomial_factor idx (tab v) vt with Ok f => f | Raise _ => F v end.

  Lemma Wg : wf_graph g. Proof. apply T. Qed.
  Lemma Tv v : In v (nodes g) -> stored m v (FM (F v)) /\ wf_mf (F v) /\ same_set (mf_left (F v)) [v] /\ same_set (mf_right (F v)) (preds g v) /\
    (forall w l, In (w, l) (mf_domain (F v)) -> In (w, l) D).
  Proof. apply T. Qed.
  Lemma states v : In v (nodes g) -> exists l, In (v, l) D /\ In (v, l) (mf_domain (F v)).
  Proof.
    intros I. destruct (Tv v I) as (_ & Wf & LF & _ & SD).
    assert (Iv : In v (mf_vars (F v))) by (apply (proj1 (mf_left_In (F v) v)); apply LF; now left).
    apply keys_In in Iv. destruct Iv as (l & Il). exists l. auto.
  Qed.

  Lemma table v : In v (nodes g) -> to_tabular (F v) = Ok (tab v) /\ tb_variable (tab v) = v /\ tb_variables (tab v) = v :: mf_right (F v) /\
    to_multinomial_factor idx (tab v) vt = Ok (back v) /\ wf_mf (back v) /\ mf_vtype (back v) = vt /\ same_factor (F v) (back v).
  Proof.
    intros I. destruct (states v I) as (l & IlD & Il). destruct (Ok_tables v l IlD) as (A & Sq & _). destruct (Tv v I) as (_ & Wf & _ & _ & SD).
    assert (C := aligned_convertible _ _ _ Wf A Il Sq). assert (Lv := aligned_left _ _ Wf A).
    destruct (roundtrip_ok idx (F v) v l vt Wf A Il Sq) as (t & f' & Et & Vt & Ef & R).
    { intros w k J. apply (Ok_tables w k). now apply SD. }
    assert (E : tab v = t) by (unfold tab; now rewrite Et). unfold back. rewrite E, Ef.
    split; [assumption|]. split; [|split; [assumption|split; [reflexivity|assumption]]].
    destruct (to_tabular_ok (F v) v l Wf Lv Il C) as (ys & Et' & _). rewrite Et in Et'. now injection Et' as ->.
  Qed.

  Let vs := keys (m_factors m).
  Lemma vs_nodes v : In v vs -> In v (nodes g).
  Proof. apply T. Qed.
  Lemma vs_NoDup : NoDup vs. Proof. apply T. Qed.

  Lemma tables_ok : mapM (fun vf => fo_tabular (snd vf)) (m_factors m) = Ok (map tab vs).
  Proof.
    unfold vs, keys. rewrite map_map. apply mapM_map_ok. intros [v f] I. cbn [fst snd].
    assert (Iv : In v (nodes g)) by (apply vs_nodes, keys_In; eauto).
    assert (E := proj1 (Tv v Iv)). unfold stored in E. apply In_dget in I; [|apply vs_NoDup]. rewrite E in I. injection I as <-.
    now apply table.
  Qed.

  Lemma add_ok gg : (forall v, In v (nodes g) -> In v (nodes gg)) -> forall l cs, NoDup l -> incl l (nodes g) ->
    (forall c v, In c cs -> In v l -> tb_variable c <> v) ->
    foldM add_cpd (map tab l) (MkPg gg cs) = Ok (MkPg gg (cs ++ map tab l)).
  Proof.
    intros Ng. induction l as [|v l IH]; intros cs N I X; [now rewrite app_nil_r|]. inversion N as [|v' l' N1 N2]; subst.
    assert (Iv : In v (nodes g)) by (apply I; now left). destruct (table v Iv) as (_ & Ev & Es & _). destruct (Tv v Iv) as (_ & Wf & _ & RF & _).
    cbn [map foldM]. unfold add_cpd at 1. cbn [pn_graph pn_cpds]. rewrite Es.
    assert (A : forallb (fun w => mem w (nodes gg)) (v :: mf_right (F v)) = true).
    { apply forallb_forall. intros w J. apply mem_In, Ng. destruct J as [<- | J]; [assumption|].
      apply RF, in_preds in J. now apply Wg in J. }
    rewrite A. cbn [negb]. rewrite Ev.
    assert (B : existsb (fun d => if eqd (tb_variable d) v then true else false) cs = false).
    { destruct (existsb _ cs) eqn:E; [|reflexivity]. apply existsb_exists in E. destruct E as (c & Ic & Ec).
      destruct (eqd (tb_variable c) v) as [E | E]; [|discriminate]. exfalso. apply (X c v Ic); [now left|assumption]. }
    rewrite B. cbn [bind]. rewrite IH; [now rewrite <- app_assoc|assumption|intros x J; apply I; now right|].
    intros c w Ic Iw. apply in_app_iff in Ic. destruct Ic as [Ic | [<- | []]]; [apply X; [assumption|now right]|].
    rewrite Ev. intros ->. contradiction.
  Qed.

  Lemma copy_arc x y : arc (g_copy g) x y <-> arc g x y.
  Proof. unfold g_copy, arc. cbn [edges]. apply (in_g_edges g x y Wg). Qed.
  Lemma copy_wf : wf_graph (g_copy g).
  Proof.
    destruct Wg as (N1 & N2 & H). split; [exact N1|]. split.
    - unfold g_copy. cbn [edges]. apply g_edges_NoDup, Wg.
    - intros x y A. cbn [nodes g_copy]. apply copy_arc in A. now apply H.
  Qed.

  Lemma to_pgmpy_ok : to_pgmpy m = Ok (MkPg (g_copy g) (map tab vs)).
  Proof.
    unfold to_pgmpy. fold g. assert (AC : acyclic (g_copy g)) by (apply (acyclic_mono g); [intros x y; apply copy_arc|apply T]).
    rewrite (proj2 (simple_cycles_iff _ copy_wf) AC). cbn [length Nat.ltb Nat.leb]. rewrite tables_ok. cbn [bind].
    rewrite add_ok; [reflexivity|auto|apply vs_NoDup|intros v J; now apply vs_nodes|intros c v []].
  Qed.

  Definition new_dag : digraph := graph_of (in_edges (g_copy g)).
  Lemma new_arc x y : arc new_dag x y <-> arc g x y.
  Proof.
    unfold new_dag, arc at 1. rewrite graph_of_edges. unfold in_edges. rewrite in_flat_map. split.
    - intros (w & Iw & J). apply in_map_iff in J. destruct J as (p & E & J). injection E as -> ->. apply in_preds in J. now apply copy_arc.
    - intros A. exists y. apply copy_arc in A. split; [now apply copy_wf in A|]. apply in_map_iff. exists x. split; [reflexivity|]. now apply in_preds.
  Qed.
  Lemma new_node v : In v (nodes new_dag) <-> exists w, arc g v w \/ arc g w v.
  Proof.
    unfold new_dag. rewrite graph_of_nodes. split.
    - intros ([x y] & I & E). apply graph_of_edges in I. change (arc new_dag x y) in I. apply new_arc in I.
      cbn [fst snd] in E. destruct E as [-> | ->]; eauto.
    - intros (w & [A | A]); apply new_arc in A; apply (proj1 (graph_of_edges _ _)) in A; eexists; (split; [exact A|]); cbn; auto.
  Qed.
  Lemma new_wf : wf_graph new_dag. Proof. apply graph_of_wf. Qed.
  Lemma new_acyclic : acyclic new_dag.
  Proof. apply (acyclic_mono g); [intros x y; apply new_arc|apply T]. Qed.
  Lemma new_old v : In v (nodes new_dag) -> In v (nodes g).
  Proof. intros I. apply new_node in I. destruct I as (w & [A | A]); apply Wg in A; apply A. Qed.

  Definition new_factors : dict var fobj := map (fun v => (v, FM (back v))) vs.
  Lemma to_bcause_unfold : to_bcause idx (MkPg (g_copy g) (map tab vs)) vt = bn_init (GDag new_dag) (Some (FsDict new_factors)) true.
  Proof.
    unfold to_bcause. cbn [pn_graph pn_cpds]. fold new_dag. rewrite mapM_map.
    rewrite (mapM_map_ok _ (fun v => (v, FM (back v)))).
    - cbn [bind]. fold new_factors. rewrite dict_of_id; [reflexivity|]. unfold new_factors, keys. rewrite map_map. cbn [fst]. rewrite map_id. apply vs_NoDup.
    - intros v I. destruct (table v (vs_nodes v I)) as (_ & Ev & _ & Eb & _). rewrite Eb. cbn [bind]. now rewrite Ev.
  Qed.

  Lemma new_storable v : In v (nodes new_dag) -> storable D new_dag true KBn v (back v).
  Proof.
    intros I. assert (Ig := new_old v I). destruct (table v Ig) as (_ & _ & _ & _ & Wb & _ & (Db & Rb & _)).
    destruct (Tv v Ig) as (_ & Wf & LF & RF & SD). destruct (states v Ig) as (l & IlD & Il).
    assert (Lb : mf_left (back v) = mf_left (F v)) by (unfold mf_left, mf_vars; now rewrite Db, Rb).
    split; [assumption|]. split; [unfold mf_vars; rewrite Db; apply keys_In; eauto|]. split; [rewrite Db; exact SD|].
    split; [apply (usable_wf _ (proj1 (proj2 Wb)))|]. intros _. rewrite Lb, Rb. split; [assumption|]. split; [|discriminate].
    intros w. rewrite (RF w). rewrite !in_preds. symmetry. apply new_arc.
  Qed.

  Lemma network_roundtrip : no_isolated g ->
    exists n m', to_pgmpy m = Ok n /\ to_bcause idx n vt = Ok m' /\ m_kind m' = KBn /\ tabled m' D back /\
      same_set (nodes (m_graph m')) (nodes g) /\ (forall x y, arc (m_graph m') x y <-> arc g x y) /\
      forall v, In v (nodes g) -> same_factor (F v) (back v) /\ mf_vtype (back v) = vt.
  Proof.
    intros NI. eexists.
    destruct (bn_build D new_dag true new_factors back) as (m' & Em & (Gm & Kf & Kd & St & Dm) & _ & K).
    - apply T.
    - apply new_wf.
    - apply new_acyclic.
    - intros v f I. unfold new_factors in I. apply in_map_iff in I. destruct I as (w & E & I). apply pair_equal_spec in E. destruct E as [<- <-].
      split; [reflexivity|]. apply new_storable, new_node, NI. now apply vs_nodes.
    - intros v I. unfold new_factors, keys. rewrite map_map. cbn [fst]. rewrite map_id. apply T. now apply new_old.
    - assert (SN : same_set (nodes new_dag) (nodes g)) by (intros v; split; [apply new_old|intros I; now apply new_node, NI]).
      exists m'. split; [apply to_pgmpy_ok|]. split; [rewrite to_bcause_unfold; exact Em|]. split; [assumption|]. rewrite Gm. split; [|split; [|split]].
      + unfold tabled. rewrite Gm. split; [apply new_wf|]. split; [apply new_acyclic|]. split; [apply T|].
        split; [intros v; rewrite (SN v); apply T|]. rewrite Kf. split; [apply new_wf|]. split; [intros v; tauto|].
        intros v I. split; [now apply St|]. assert (Ig := new_old v I). destruct (table v Ig) as (_ & _ & _ & _ & Wb & _ & _). split; [assumption|].
        destruct (new_storable v I) as (_ & _ & SD & _ & H). destruct (H eq_refl) as (H1 & H2 & _). split; [assumption|]. split; assumption.
      + exact SN.
      + apply new_arc.
      + intros v I. destruct (table v I) as (_ & _ & _ & _ & _ & V & S). auto.
  Qed.

  Lemma network_isolated : (exists v, isolated g v) ->
    exists n, to_pgmpy m = Ok n /\ to_bcause idx n vt = Raise NetworkXError.
  Proof.
    intros (u & Iu & Nu). eexists. split; [apply to_pgmpy_ok|]. rewrite to_bcause_unfold. unfold bn_init.
    rewrite (proj1 (initialize_ok _ new_wf) new_acyclic). cbn [bind set_factors].
    assert (Ju : In u vs) by (apply T; assumption).
    assert (G : forall l done m0, incl l vs -> In u l -> building D new_dag true KBn done m0 ->
      foldM (fun m vf => set_or_raise m (fst vf) (snd vf)) (map (fun v => (v, FM (back v))) l) m0 = Raise NetworkXError).
    { induction l as [|w l IH]; intros done m0 Il Iul B; [destruct Iul|]. cbn [map foldM fst snd].
      destruct (in_dec string_dec w (nodes new_dag)) as [J | J].
      - destruct (set_one D (proj1 (proj1 (proj2 (proj2 T)))) new_dag true KBn) with (done := done) (m := m0) (v := w) (f := back w) as (m1 & E1 & B1);
          [apply new_wf|assumption|now apply new_storable|].
        rewrite E1. cbn [bind]. eapply IH; [intros x Jx; apply Il; now right| |exact B1].
        destruct Iul as [-> | Iul]; [|assumption]. exfalso. apply new_node in J. destruct J as (x & J). now apply (Nu x).
      - assert (E : set_or_raise m0 w (FM (back w)) = Raise NetworkXError).
        { destruct B as (Gm & Cm & Km & _). unfold set_or_raise, set_factor. rewrite Km. unfold set_factor_base. rewrite Cm. unfold check_factor.
          rewrite Gm. unfold get_parents. cbn [mapM]. unfold predecessors.
          destruct (mem w (nodes new_dag)) eqn:Em; [apply mem_In in Em; contradiction|]. reflexivity. }
        now rewrite E. }
    apply (G vs (fun _ => None)); [apply incl_refl|assumption|]. apply building_fresh.
  Qed.
End Nets.

Lemma network_ok : forall idx m D F vt, tabled m D F ->
  (forall v l, In (v, l) D -> aligned (F v) v /\ square (F v) (length l) /\ finds idx l) -> no_isolated (m_graph m) ->
  exists n m' F', to_pgmpy m = Ok n /\ to_bcause idx n vt = Ok m' /\ m_kind m' = KBn /\ tabled m' D F' /\
    same_set (nodes (m_graph m')) (nodes (m_graph m)) /\ (forall x y, arc (m_graph m') x y <-> arc (m_graph m) x y) /\
    forall v, In v (nodes (m_graph m)) -> same_factor (F v) (F' v) /\ mf_vtype (F' v) = vt.
Proof.
  intros idx m D F vt T A NI. destruct (network_roundtrip idx m D F vt T A NI) as (n & m' & H). exists n, m'. eexists. exact H.
Qed.
