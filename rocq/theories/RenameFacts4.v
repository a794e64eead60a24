(** Renaming keeps every probability (C72). *)

From Coq Require Import String Ascii Bool Arith ZArith QArith Qcanon Lia Permutation List.
From Verif Require Import PyBase PyFacts Num DomainModel NdArray StoreModel NumStore FactorModel Spec StoreSpec DomainFacts StoreFacts
  NumFacts PropFacts1 BigSum FactorSpec FactorFacts FactorFacts2 FactorFacts3 GraphModel GraphSpec GraphFacts ModelModel ModelSpec ModelFacts
  NetSpec NetSem FactorSem NetFacts VeFacts4 PropFacts4 BuildFacts BuildFacts2 InferModel CausalModel CausalSpec CausalFacts CausalFacts2
  CfFacts CfFacts2 CfFacts3 RenameSpec RenameFacts1 RenameFacts2 RenameFacts3.
From Coq Require Import List.
Import ListNotations.
Local Open Scope nat_scope.
Local Arguments eqd : simpl never.

Lemma network_objects m D F vt : network m D F vt -> forall v, In v (nodes (m_graph m)) ->
  exists f, stored m v f /\ tabulates v f (F v) /\ cpt D vt v (preds (m_graph m) v) (F v).
Proof.
  intros (_ & _ & _ & _ & _ & _ & H) v I. destruct (H v I) as [S C]. exists (FM (F v)). split; [auto|]. split; [reflexivity|auto].
Qed.

Section Tables.
  Variables (m : pgm) (D : domain) (F : var -> mfactor) (vt : vtype) (r : dict var var).
  Notation g := (m_graph m).
  Hypothesis WD : wf_dom D.
  Hypothesis SD : same_set (keys D) (nodes g).
  Hypothesis Hv : forall v, In v (nodes g) -> exists f, stored m v f /\ tabulates v f (F v) /\ cpt D vt v (preds g v) (F v).
  Hypothesis Gn : good_names r (nodes g).
  Lemma renamed_table_at v : In v (nodes g) -> renamed_table r (F v) (tables' m F r (rename1 r v)).
  Proof.
    intros I. rewrite (tables_at m F r (proj1 Gn) v I).
    destruct (table_ok m D F vt r SD Hv (proj1 Gn) (proj2 Gn) v I) as (_ & C & _ & Dm & Rt & _ & Val).
    split; [exact Dm|]. split; [exact Rt|]. intros o Fo K. destruct (Hv v I) as (f & _ & _ & C0).
    destruct (get_full (mf_store (F v)) o (proj1 (proj1 C0)) Fo) as (x & _ & G). exists x. split; [exact G|].
    rewrite (Val o (rename_obs r o) Fo); [exact G|]. intros w J. unfold rename_obs. apply dget_rename.
    assert (Vn : forall u, In u (mf_vars (F v)) -> In u (nodes g)).
    { intros u Ku. apply keys_In in Ku as (l & Ku). apply SD, keys_In. exists l. now apply C0. }
    intros a b Ia Ib. apply (proj1 Gn); [destruct Ia as [<-|Ia]|destruct Ib as [<-|Ib]]; auto.
  Qed.
  Lemma masses : (forall o, incl (keys o) (nodes g) -> mass (rename_dom r D) (tables' m F r) (rename_obs r o) = mass D F o) /\
    (forall d o, incl (keys d) (nodes g) -> incl (keys o) (nodes g) ->
       do_mass (rename_dom r D) (tables' m F r) (rename_obs r d) (rename_obs r o) = do_mass D F d o) /\
    (forall X events, roots g X ->
       (forall dt, In dt events -> incl (keys (fst dt)) (nodes g) /\ incl (keys (snd dt)) (nodes g)) ->
       cf_mass (rename_dom r D) (tables' m F r) (map (rename1 r) X) (map (rename_pair r) events) = cf_mass D F X events).
  Proof.
    assert (Ij := inj_D m D r SD (proj1 Gn)).
    assert (Sv := same_values m D F vt r SD Hv (proj1 Gn) (proj2 Gn)). assert (Od := own_domain m D F vt SD Hv).
    assert (Tr : forall vs, incl vs (nodes g) -> incl vs (keys D)) by (intros vs I v J; apply SD, I, J).
    split; [|split].
    - intros o I. apply mass_renamed; auto. apply WD.
    - intros d o Id Io. apply do_mass_renamed; auto. apply WD.
    - intros X events Rx He. apply (cf_mass_renamed r D F (tables' m F r)); auto; [apply WD| | |].
      + apply Tr. intros v I. now apply Rx.
      + intros v w I J. apply Rx in I as [I Na]. destruct (Hv v I) as (f & _ & _ & C).
        assert (K : In w (mf_left (F v)) \/ In w (mf_right (F v))).
        { destruct (wf_mf_partitioned _ (proj1 C)) as (_ & _ & _ & P & _). now apply P in J. }
        destruct C as (_ & _ & Sl & Sr & _). destruct K as [K|K].
        * apply Sl in K as [<-|[]]. apply Rx. auto.
        * apply Sr, in_preds in K. exfalso. exact (Na w K).
      + intros dt I. destruct (He dt I). auto.
  Qed.
End Tables.

Lemma complete_keys D g G m : complete D g G m -> wf_graph g -> NoDup (keys (m_factors m)) /\ same_set (keys (m_factors m)) (nodes (m_graph m)).
Proof. intros (E & K & _) W. rewrite K, E. split; [apply W|intros x; tauto]. Qed.

Lemma rename_network m D F vt (r : dict var var) : network m D F vt -> m_kind m = KBn -> good_names r (nodes (m_graph m)) ->
  exists m' F', m_rename m r = Ok m' /\ m_kind m' = KBn /\ network m' (rename_dom r D) F' vt /\
    renamed_graph r (m_graph m) (m_graph m') /\
    (forall v, In v (nodes (m_graph m)) -> renamed_table r (F v) (F' (rename1 r v))) /\
    (forall o, incl (keys o) (nodes (m_graph m)) -> mass (rename_dom r D) F' (rename_obs r o) = mass D F o).
Proof.
  intros H K Gn. assert (Hv := network_objects m D F vt H). destruct H as (Wg & Ac & WD & SD & NF & SF & H).
  destruct Gn as [Inj Und].
  destruct (rename_bn_ok m D F vt r Wg Ac WD SD NF SF Hv Inj Und K) as (m' & E & K' & _ & C).
  exists m', (tables' m F r). assert (GO := graph_ok m r Wg). split; [exact E|]. split; [exact K'|].
  assert (C0 := C). destruct C as (Eg & Kf & Kd & St & _).
  destruct (complete_keys _ _ _ _ C0 (proj1 GO)) as [N1 N2]. split; [|split; [|split]].
  - unfold network. rewrite Eg. split; [apply GO|]. split; [apply (acyclic' m r Wg Ac Inj)|].
    split; [apply (wf_D' m D r WD SD Inj)|]. split; [apply (keys_D' m D r Wg SD)|]. split; [auto|]. split; [rewrite Eg in N2; exact N2|].
    intros x I. assert (I0 := I). apply GO in I as (v & I & ->). rewrite (tables_at m F r Inj v I). split.
    + assert (S := St _ I0). rewrite (objects_at m r Inj v I) in S. destruct (H v I) as [Sv _].
      destruct (object_ok m D F vt r SD Hv Inj Und v (FM (F v)) I Sv eq_refl) as (_ & _ & Fm). rewrite (Fm eq_refl) in S. exact S.
    + eapply cpt'; eauto.
  - rewrite Eg. split; apply GO.
  - intros v I. eapply renamed_table_at; eauto. split; auto.
  - eapply masses; eauto. split; auto.
Qed.

Lemma causal_objects m D F vt endo cast : causal m D F vt endo cast -> forall v, In v (nodes (m_graph m)) ->
  exists f, stored m v f /\ tabulates v f (F v) /\ cpt D vt v (preds (m_graph m) v) (F v).
Proof.
  intros (_ & _ & _ & _ & _ & _ & _ & H & _) v I. destruct (H v I) as (f & S & T & C & _). eauto.
Qed.

Lemma rename_causal m D F vt endo cast (r : dict var var) : causal m D F vt endo cast -> good_names r (nodes (m_graph m)) ->
  incl endo (nodes (m_graph m)) -> incl endo (keys r) ->
  exists m' F', m_rename m r = Ok m' /\ causal m' (rename_dom r D) F' vt (map (rename1 r) endo) cast /\
    (plain_roots m -> plain_roots m') /\
    renamed_graph r (m_graph m) (m_graph m') /\
    (forall v, In v (nodes (m_graph m)) -> renamed_table r (F v) (F' (rename1 r v))) /\
    (forall o, incl (keys o) (nodes (m_graph m)) -> mass (rename_dom r D) F' (rename_obs r o) = mass D F o) /\
    (forall d o, incl (keys d) (nodes (m_graph m)) -> incl (keys o) (nodes (m_graph m)) ->
       do_mass (rename_dom r D) F' (rename_obs r d) (rename_obs r o) = do_mass D F d o) /\
    (forall X events, roots (m_graph m) X ->
       (forall dt, In dt events -> incl (keys (fst dt)) (nodes (m_graph m)) /\ incl (keys (snd dt)) (nodes (m_graph m))) ->
       cf_mass (rename_dom r D) F' (map (rename1 r) X) (map (rename_pair r) events) = cf_mass D F X events).
Proof.
  intros H Gn En Ir. assert (Hv := causal_objects m D F vt endo cast H). destruct H as (K & Wg & Ac & WD & SD & NF & SF & H & Ar).
  assert (Gn0 := Gn). destruct Gn as [Inj Und].
  assert (Z : forall v, In v endo -> zero_one (F v) /\ (cast = true -> stored m v (FM (F v)))).
  { intros v I. destruct (H v (En v I)) as (f & S & _ & _ & Zf). destruct (Zf I) as [Z1 Z2]. split; [auto|].
    intros Hc. rewrite <- (Z2 Hc). exact S. }
  destruct (rename_scm_ok m D F vt r Wg Ac WD SD NF SF Hv Inj Und endo cast K Ar En Z Ir) as (m' & E & K' & _ & C).
  exists m', (tables' m F r). assert (GO := graph_ok m r Wg). split; [exact E|].
  assert (C0 := C). destruct C as (Eg & Kf & Kd & St & _).
  destruct (complete_keys _ _ _ _ C0 (proj1 GO)) as [N1 N2].
  assert (Ob : forall v f, In v (nodes (m_graph m)) -> stored m v f ->
    exists f', stored m' (rename1 r v) f' /\ tabulates (rename1 r v) f' (table' F r v) /\ (f = FM (F v) -> f' = FM (table' F r v))).
  { intros v f I S. exists (object' m r v). assert (I' : In (rename1 r v) (nodes (relabel (m_graph m) r))) by (apply GO; eauto).
    assert (S' := St _ I'). rewrite (objects_at m r Inj v I) in S'. split; [exact S'|].
    destruct (Hv v I) as (f0 & S0 & T0 & _). assert (f0 = f) by (unfold stored in *; congruence). subst f0.
    destruct (object_ok m D F vt r SD Hv Inj Und v f I S T0) as (_ & T' & Fm). auto. }
  split; [|split; [|split; [|split]]].
  - unfold causal. rewrite Eg. split; [exact K'|]. split; [apply GO|]. split; [apply (acyclic' m r Wg Ac Inj)|].
    split; [apply (wf_D' m D r WD SD Inj)|]. split; [apply (keys_D' m D r Wg SD)|]. split; [auto|]. split; [rewrite Eg in N2; exact N2|].
    split.
    + intros x I. apply GO in I as (v & I & ->). rewrite (tables_at m F r Inj v I).
      destruct (H v I) as (f & S & T & Cp & Zf). destruct (Ob v f I S) as (f' & S' & T' & Fm).
      exists f'. split; [exact S'|]. split; [exact T'|]. split; [eapply cpt'; eauto|].
      intros J. apply in_map_iff in J as (w & Ew & J). assert (w = v) by (apply Inj; auto). subst w.
      destruct (Zf J) as [Z1 Z2]. split; [|intros Hc; apply Fm; auto].
      destruct (table_ok m D F vt r SD Hv Inj Und v I) as (_ & _ & Z' & _). auto.
    + intros x y A. apply GO in A as (p & q & A & -> & ->). apply in_map. eapply Ar; eauto.
  - intros Pr x f' S' Np. assert (I : In x (nodes (m_graph m'))).
    { apply N2, dget_keys. eauto. }
    rewrite Eg in I. apply GO in I as (v & I & ->). destruct (Hv v I) as (f & S & T & _).
    destruct (Pr v f S) as (h & ->).
    { intros p A. apply (Np (rename1 r p)). rewrite Eg. apply GO. eauto. }
    cbn in T. subst h. destruct (Ob v _ I S) as (f2 & S2 & _ & Fm). assert (f2 = f') by (unfold stored in *; congruence). subst f2.
    rewrite (Fm eq_refl). eauto.
  - rewrite Eg. split; apply GO.
  - intros v I. eapply renamed_table_at; eauto.
  - eapply masses; eauto.
Qed.

Lemma rename_uncovered m D F vt endo cast (r : dict var var) v : causal m D F vt endo cast -> good_names r (nodes (m_graph m)) ->
  In v endo -> ~ In v (keys r) -> m_rename m r = Raise KeyError.
Proof.
  intros H [Inj Und] I N. assert (Hv := causal_objects m D F vt endo cast H). destruct H as (K & Wg & Ac & WD & SD & NF & SF & H & Ar).
  eapply rename_scm_raises; eauto.
Qed.

(** ** Queries *)

Section Assign.
  Variables (r : dict var var) (D : domain).
  Hypothesis Inj : forall x y, In x (keys D) -> In y (keys D) -> rename1 r x = rename1 r y -> x = y.
  Lemma assigns_renamed T (t : obs) : incl T (keys D) -> assigns D T t -> assigns (rename_dom r D) (map (rename1 r) T) (rename_obs r t).
  Proof.
    intros IT [K Fu]. split; [now rewrite keys_rename_obs, K|]. unfold rename_dom. rewrite (pick_renamed r D Inj T IT).
    apply (full_renamed r (pick T D) t); [exact Fu|]. intros w J. apply (dget_renamed r D Inj).
    - now rewrite K.
    - apply keys_pick in J. apply J.
  Qed.
  Lemma outside_renamed (d e : obs) : incl (keys d) (keys D) -> incl (keys e) (keys D) ->
    outside (rename_obs r d) (rename_obs r e) = rename_obs r (outside d e).
  Proof.
    intros Id. unfold outside. rewrite keys_rename_obs. induction e as [|[v s] e IH]; intros Ie; [reflexivity|].
    cbn [rename_obs map filter fst snd]. rewrite (mem_renamed r D Inj) by (auto; apply Ie; now left).
    assert (IH' := IH (fun w J => Ie w (or_intror J))). unfold rename_obs in IH'. rewrite IH'.
    destruct (mem v (keys d)); reflexivity.
  Qed.
  Lemma known_renamed (d : obs) : NoDup (keys D) -> incl (keys d) (keys D) -> known D d -> known (rename_dom r D) (rename_obs r d).
  Proof.
    intros ND Id K x l s I G. apply in_map_iff in I as ([v k] & E & I). injection E as <- <-.
    assert (Iv : In v (keys D)) by (apply keys_In; eauto).
    eapply K; [exact I|]. rewrite <- G. symmetry. now apply (dget_renamed r D Inj).
  Qed.
End Assign.

Lemma map_incl_nodes r g g' (vs : list var) : renamed_graph r g g' -> incl vs (nodes g) -> incl (map (rename1 r) vs) (nodes g').
Proof. intros [N _] I x J. apply in_map_iff in J as (v & <- & J). apply N. exists v. auto. Qed.
Lemma map_disjoint r (vs T E : list var) : (forall x y, In x vs -> In y vs -> rename1 r x = rename1 r y -> x = y) ->
  incl T vs -> incl E vs -> (forall v, In v T -> ~ In v E) -> forall v, In v (map (rename1 r) T) -> ~ In v (map (rename1 r) E).
Proof.
  intros Inj IT IE H x J K. apply in_map_iff in J as (v & <- & J). apply in_map_iff in K as (w & Ew & K).
  assert (w = v) by (apply Inj; auto). subst w. exact (H v J K).
Qed.

Lemma rename_queries m D F vt (r : dict var var) : network m D F vt -> m_kind m = KBn -> good_names r (nodes (m_graph m)) ->
  exists m', m_rename m r = Ok m' /\
    forall e T heur so heur' so', is_heuristic heur -> is_set_order so -> is_heuristic heur' -> is_set_order so' ->
    NoDup T -> T <> [] -> incl T (nodes (m_graph m)) -> incl (keys e) (nodes (m_graph m)) ->
    (forall v, In v T -> ~ In v (keys e)) -> mass D F e <> 0%Qc ->
    exists q q', ve_query heur so m T None e = Ok q /\
      ve_query heur' so' m' (map (rename1 r) T) None (rename_obs r e) = Ok q' /\
      forall t, assigns D T t -> exists x, mf_get_value q t = Ok x /\ mf_get_value q' (rename_obs r t) = Ok x.
Proof.
  intros H K Gn. destruct (rename_network m D F vt r H K Gn) as (m' & F' & E & K' & H' & Rg & _ & Ms).
  exists m'. split; [exact E|]. intros e T heur so heur' so' Hh Hs Hh' Hs' NT NeT IT Ie Dj Me.
  assert (SD : same_set (keys D) (nodes (m_graph m))) by apply H.
  assert (Ij : forall x y, In x (keys D) -> In y (keys D) -> rename1 r x = rename1 r y -> x = y) by (intros x y Ix Iy; apply Gn; now apply SD).
  destruct (posterior m D F vt H e T heur so Hh Hs NT NeT IT Ie Dj Me) as (q & Eq & _ & _ & _ & _ & _ & _ & Vq & _).
  destruct (posterior m' (rename_dom r D) F' vt H' (rename_obs r e) (map (rename1 r) T) heur' so' Hh' Hs') as (q' & Eq' & _ & _ & _ & _ & _ & _ & Vq' & _).
  - apply NoDup_map_inj; [|auto]. intros x y Ix Iy. apply Gn; auto.
  - destruct T; [congruence|discriminate].
  - now apply (map_incl_nodes r (m_graph m)).
  - rewrite keys_rename_obs. now apply (map_incl_nodes r (m_graph m)).
  - rewrite keys_rename_obs. apply (map_disjoint r (nodes (m_graph m))); auto. apply Gn.
  - rewrite Ms; auto.
  - exists q, q'. split; [exact Eq|]. split; [exact Eq'|]. intros t At. rewrite (Vq t At). eexists. split; [reflexivity|].
    rewrite Vq' by (apply assigns_renamed; auto; intros v J; apply SD, IT, J).
    assert (A : rename_obs r t ++ rename_obs r e = rename_obs r (t ++ e)) by (unfold rename_obs; now rewrite map_app).
    rewrite A, !Ms; auto. unfold keys. rewrite map_app. intros v J. apply in_app_or in J as [J|J]; [|auto].
    apply IT. rewrite <- (proj1 At). exact J.
Qed.

Lemma rename_causal_queries m D F vt endo cast (r : dict var var) : causal m D F vt endo cast -> plain_roots m ->
  good_names r (nodes (m_graph m)) -> incl endo (nodes (m_graph m)) -> incl endo (keys r) ->
  exists m', m_rename m r = Ok m' /\
    forall heur so heur' so', is_heuristic heur -> is_set_order so -> is_heuristic heur' -> is_set_order so' ->
    forall d e T, NoDup (keys d) -> incl (keys d) (nodes (m_graph m)) -> known D d ->
    NoDup T -> T <> [] -> incl T (nodes (m_graph m)) -> incl (keys e) (nodes (m_graph m)) ->
    (forall v, In v T -> ~ In v (keys d) /\ ~ In v (keys e)) -> do_mass D F d (outside d e) <> 0%Qc ->
    exists m1 m1' q q', cve_init m = Ok m1 /\ cve_init m' = Ok m1' /\ causal_query heur so m1 T (DoDict d) e = Ok q /\
      causal_query heur' so' m1' (map (rename1 r) T) (DoDict (rename_obs r d)) (rename_obs r e) = Ok q' /\
      forall t, assigns D T t -> exists x, mf_get_value q t = Ok x /\ mf_get_value q' (rename_obs r t) = Ok x.
Proof.
  intros H Pr Gn En Ir. destruct (rename_causal m D F vt endo cast r H Gn En Ir) as (m' & F' & E & H' & Pr' & Rg & _ & _ & Ms & _).
  exists m'. split; [exact E|]. intros heur so heur' so' Hh Hs Hh' Hs' d e T Nd Id Kd NT NeT IT Ie Dj Me.
  assert (SD : same_set (keys D) (nodes (m_graph m))) by apply H. assert (WD : wf_dom D) by apply H.
  assert (Ij : forall x y, In x (keys D) -> In y (keys D) -> rename1 r x = rename1 r y -> x = y) by (intros x y Ix Iy; apply Gn; now apply SD).
  assert (Tr : forall vs, incl vs (nodes (m_graph m)) -> incl vs (keys D)) by (intros vs I v J; apply SD, I, J).
  assert (Ou := outside_renamed r D Ij d e (Tr _ Id) (Tr _ Ie)).
  assert (Io : incl (keys (outside d e)) (nodes (m_graph m))).
  { intros v J. apply Ie. apply in_map_iff in J as (p & <- & J). apply filter_In in J as [J _]. now apply in_map. }
  destruct (causal_query_ok m D F vt endo cast H Pr heur so Hh Hs d Nd Id e T Kd NT NeT IT Ie Dj Me)
    as (m1 & q & E1 & Eq & _ & _ & _ & _ & _ & _ & Vq & _).
  destruct (causal_query_ok m' (rename_dom r D) F' vt _ cast H' (Pr' Pr) heur' so' Hh' Hs' (rename_obs r d))
    with (e := rename_obs r e) (T := map (rename1 r) T) as (m1' & q' & E1' & Eq' & _ & _ & _ & _ & _ & _ & Vq' & _).
  - rewrite keys_rename_obs. apply NoDup_map_inj; [|auto]. intros x y Ix Iy. apply Gn; auto.
  - rewrite keys_rename_obs. now apply (map_incl_nodes r (m_graph m)).
  - apply known_renamed; auto. apply WD.
  - apply NoDup_map_inj; [|auto]. intros x y Ix Iy. apply Gn; auto.
  - destruct T; [congruence|discriminate].
  - now apply (map_incl_nodes r (m_graph m)).
  - rewrite keys_rename_obs. now apply (map_incl_nodes r (m_graph m)).
  - rewrite !keys_rename_obs. intros v J. split;
      (revert v J; apply (map_disjoint r (nodes (m_graph m))); [apply Gn|auto|auto|intros v J; now apply Dj]).
  - rewrite Ou, Ms; auto.
  - exists m1, m1', q, q'. split; [exact E1|]. split; [exact E1'|]. split; [exact Eq|]. split; [exact Eq'|].
    intros t At. rewrite (Vq t At). eexists. split; [reflexivity|].
    rewrite Vq' by (apply assigns_renamed; auto).
    assert (A : rename_obs r t ++ rename_obs r (outside d e) = rename_obs r (t ++ outside d e)) by (unfold rename_obs; now rewrite map_app).
    rewrite Ou, A, !Ms; auto. unfold keys. rewrite map_app. intros v J. apply in_app_or in J as [J|J]; [|auto].
    apply IT. rewrite <- (proj1 At). exact J.
Qed.
