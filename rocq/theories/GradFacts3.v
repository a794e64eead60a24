(** The likelihood as a function of the table of one exogenous variable, and of
    the tables of several. *)

From Coq Require Import String Bool Arith ZArith QArith Qcanon Lia Permutation List.
From Verif Require Import PyBase PyFacts Num DomainModel DomainFacts NdArray StoreModel NumStore FactorModel GraphModel ModelModel InferModel
  LearnModel UaiModel GradModel Spec StoreSpec FactorSpec GraphSpec ModelSpec NetSpec EmSpec QSpec GradSpec
  StoreFacts FactorFacts NumFacts BigSum FactorSem NetSem NetFacts GraphFacts GraphFacts2 PropFacts1 EmMath EmFacts2 VeFacts4 QFacts5 QFacts6 GradFacts1 GradFacts2.
Import ListNotations.
Local Open Scope nat_scope.
Local Arguments eqd : simpl never.

Section Split.
  Variables (m : pgm) (D : domain) (F : var -> mfactor) (vt : vtype) (endo : list var).
  Hypothesis HC : causal_tables m D F vt endo.
  Variable U : var.
  Hypothesis HU : sole_cause (m_graph m) F endo U.
  Notation g := (m_graph m).
  Notation P := (P F).
  Notation prods := (prods P).
  Notation sm := (sm D).
  Let H : network m D F vt := proj1 HC.
  Let WD : wf_dom D := net_wd m D F vt H.

  Lemma U_root : preds g U = [].
  Proof.
    destruct (preds g U) as [|x l] eqn:Q; [reflexivity|]. exfalso. apply (U_exo m F endo U HU).
    apply (arc_endo m D F vt endo HC x). apply in_preds. rewrite Q. now left.
  Qed.
  Lemma U_fam w : In w (fam F U) -> w = U.
  Proof.
    intros J. apply (fam_In m D F vt H) in J as [J | J]; [exact J| |now apply (U_key m D F vt endo HC U HU)].
    apply in_preds in J. rewrite U_root in J. destruct J.
  Qed.
  Lemma succs_arc v : In v (succs g U) <-> arc g U v.
  Proof. apply in_succs. Qed.
  Definition rest_vars : list var := minus (keys D) (U :: succs g U).
  Lemma rest_perm : Permutation (keys D) (((U :: succs g U) ++ rest_vars) ++ []).
  Proof.
    rewrite app_nil_r. apply NoDup_Permutation.
    - apply WD.
    - apply NoDup_app_iff. split; [|split; [apply NoDup_minus, WD|]].
      + constructor; [|apply succs_NoDup, (net_wg m D F vt H)]. intros J. apply succs_arc in J.
        apply (arc_endo m D F vt endo HC) in J. now apply (U_exo m F endo U HU).
      + intros x J K. apply minus_In in K. tauto.
    - intros x. rewrite in_app_iff. unfold rest_vars. rewrite minus_In. split.
      + intros J. destruct (in_dec eqd x (U :: succs g U)); tauto.
      + intros [[<- | J] | J]; [apply (U_key m D F vt endo HC U HU)| |tauto].
        apply succs_arc, (arc_endo m D F vt endo HC), (endo_keys m D F vt endo HC) in J. exact J.
  Qed.

  Definition rest (a : asg) (o : obs) : Qc := sm (minus rest_vars (keys o)) (prods rest_vars) (over o a).
  Lemma mass_mixture o a : known D o -> valid D a -> incl endo (keys o) -> ~ In U (keys o) ->
    mass D F o = (mixture D F g U (params D F U) o * rest a o)%Qc.
  Proof.
    intros Ko Va IE NU. rewrite (mass_split m D F vt H (U :: succs g U) [] rest_vars o a Ko Va rest_perm).
    - unfold rest. f_equal. assert (Vo := over_valid D o a Ko Va).
      assert (IR : incl (U :: succs g U) (keys D)).
      { intros x [<- | J]; [apply (U_key m D F vt endo HC U HU)|].
        apply succs_arc, (arc_endo m D F vt endo HC), (endo_keys m D F vt endo HC) in J. exact J. }
      assert (Es : forall v, In v (keys D) -> (In v (minus (U :: succs g U) (keys o)) <-> In v [U])).
      { intros v _. rewrite minus_In. cbn [In]. split; [|intuition congruence]. intros [[<- | J] N]; [now left|]. exfalso. apply N, IE.
        now apply succs_arc, (arc_endo m D F vt endo HC) in J. }
      rewrite (sm_set D _ [U] _ _ Es).
      rewrite (sm_one D WD U (states_of D U)); [|now apply (prods_ext' m D F vt H)|apply (U_states m D F vt endo HC U HU)].
      unfold mixture. etransitivity; [|symmetry; apply total_qsum].
      assert (Q : forall l, incl l (states_of D U) -> map (fun s => prods (U :: succs g U) (upd (over o a) U s)) l =
         map (fun st => (snd st * product_of (map (fun v => entry (F v) ((U, fst st) :: o)) (succs g U)))%Qc)
             (combine l (map (fun s => entry (F U) [(U, s)]) l))).
      { induction l as [|s l IH]; intros I; [reflexivity|]. cbn [map combine fst snd]. f_equal; [|apply IH; intros x J; apply I; now right].
        assert (Vu : valid D (upd (over o a) U s)).
        { apply (upd_valid m D F vt endo HC U); [exact Vo|]. apply I. now left. }
        unfold NetSem.prods. cbn [map qprod]. f_equal.
        - symmetry. apply (entry_fv D vt); [apply (net_good m D F vt H), (U_key m D F vt endo HC U HU)|exact Vu|].
          intros w J. apply U_fam in J. subst w. cbn [dget]. unfold upd. destruct (eqd U U) as [_ | X]; [reflexivity|congruence].
        - etransitivity; [|symmetry; apply product_qprod]. f_equal. apply map_ext_in. intros v J. symmetry. apply (entry_fv D vt).
          + apply (net_good m D F vt H), IR. now right.
          + exact Vu.
          + intros w K. cbn [dget]. unfold upd. destruct (eqd w U) as [-> | N]; [reflexivity|].
            destruct (fam_child m D F vt endo HC U HU v w (proj1 (succs_arc v) J) K) as [-> | I']; [congruence|].
            apply IE, dget_keys in I' as (x & Qx). unfold over. now rewrite Qx. }
      f_equal. apply Q. apply incl_refl.
    - intros n p _ _ [].
    - intros v _ [].
    - intros n p [<- | Jn] Jp Jc; unfold rest_vars in Jc; apply minus_In in Jc as [_ Nc].
      + apply U_fam in Jp. subst p. exfalso. apply Nc. now left.
      + destruct (fam_child m D F vt endo HC U HU n p (proj1 (succs_arc n) Jn) Jp) as [-> | I']; [|auto]. exfalso. apply Nc. now left.
    - intros n p Jn Jp [<- | Jr].
      + unfold rest_vars in Jn. apply minus_In in Jn as [Kn Nc]. exfalso. apply Nc.
        apply (fam_In m D F vt H) in Jp as [-> | Jp]; [now left| |auto]. right. now apply succs_arc.
      + apply IE. now apply succs_arc, (arc_endo m D F vt endo HC) in Jr.
  Qed.
End Split.

Lemma mul_nn a b : (0 <= a -> 0 <= b -> 0 <= a * b)%Qc.
Proof. intros A B. replace 0%Qc with (0 * b)%Qc by ring. now apply Qcmult_le_compat_r. Qed.
Lemma rest_nonneg m D F vt endo U a o : causal_tables m D F vt endo -> known D o -> valid D a -> (0 <= rest m D F U a o)%Qc.
Proof.
  intros HC Ko Va. assert (H := ct_net m D F vt endo HC). assert (WD := net_wd m D F vt H).
  unfold rest, sm, sumdom. rewrite bsum_qsum. apply qsum_nn. intros x J. apply in_map_iff in J as (p & <- & J).
  assert (Vb : valid D (over p (over o a))).
  { eapply over_assign_valid; [exact WD|exact J|]. now apply over_valid. }
  apply qprod_nonneg. intros x Jx. apply in_map_iff in Jx as (v & <- & Jv). unfold rest_vars in Jv. apply minus_In in Jv as [Kv _].
  assert (G := net_good m D F vt H v Kv).
  change (0 <= fv (F v) (over p (over o a)))%Qc. rewrite <- (entry_fv D vt (F v) (over p (over o a)) (obs_of (keys D) (over p (over o a))) G Vb).
  - apply (ct_nn m D F vt endo HC); [exact Kv|]. eapply good_full; [exact G|]. now apply full_obs_D.
  - intros w Jw. apply obs_of_get. now apply (good_vars D vt (F v) G).
Qed.

(** Two sets of tables that differ at [U] only. *)
Section OneTable.
  Variables (m : pgm) (D : domain) (F F' : var -> mfactor) (U : var).
  Notation g := (m_graph m).
  Hypothesis Hs : forall v, v <> U -> F' v = F v.
  Lemma rest_same a o : rest m D F' U a o = rest m D F U a o.
  Proof.
    unfold rest, sm, sumdom. f_equal. apply map_ext. intros p. unfold prods. f_equal. apply map_ext_in. intros v J.
    unfold rest_vars in J. apply minus_In in J as [_ N]. unfold P. rewrite Hs; [reflexivity|]. intros ->. apply N. now left.
  Qed.
  Lemma mixture_same theta o : ~ arc g U U -> mixture D F' g U theta o = mixture D F g U theta o.
  Proof.
    intros N. unfold mixture. f_equal. apply map_ext. intros st. do 2 f_equal. apply map_ext_in. intros v J. rewrite Hs; [reflexivity|].
    intros ->. apply in_succs in J. auto.
  Qed.
End OneTable.

Section Likelihood.
  Variables (m : pgm) (D : domain) (F : var -> mfactor) (vt : vtype) (endo : list var).
  Hypothesis HC : causal_tables m D F vt endo.
  Variables (data : frame) (E : list var).
  Hypothesis OD : observes D data E.
  Hypothesis IE : incl endo E.
  Notation g := (m_graph m).

  Lemma mixture_nonneg U theta o : sole_cause g F endo U -> known D o -> incl endo (keys o) -> (forall x, In x theta -> 0 <= x)%Qc ->
    (0 <= mixture D F g U theta o)%Qc.
  Proof.
    intros HU Ko Io Pt. assert (H := ct_net m D F vt endo HC). assert (WD := net_wd m D F vt H).
    destruct (some_valid D WD) as (a & Va). assert (Vo := over_valid D o a Ko Va).
    unfold mixture. rewrite total_qsum. apply qsum_nn. intros x J. apply in_map_iff in J as ([s t] & <- & J). cbn [fst snd].
    assert (Js := in_combine_l _ _ _ _ J). apply in_combine_r, Pt in J.
    apply mul_nn; [exact J|]. rewrite product_qprod. apply qprod_nonneg. intros x Jx. apply in_map_iff in Jx as (v & <- & Jv). apply in_succs in Jv.
    assert (Kv := endo_keys m D F vt endo HC v (arc_endo m D F vt endo HC _ _ Jv)).
    assert (G := net_good m D F vt H v Kv).
    apply (ct_nn m D F vt endo HC); [exact Kv|]. intros w l Jw.
    assert (Jd : In (w, l) D) by (now apply G). cbn [dget]. destruct (eqd w U) as [-> | N].
    - exists s. split; [reflexivity|]. replace l with (states_of D U); [exact Js|]. unfold states_of. now rewrite (In_dget _ _ _ (proj1 WD) Jd).
    - assert (Jv' : In w (mf_vars (F v))) by (apply keys_In; eauto).
      destruct (fam_child m D F vt endo HC U HU v w Jv Jv') as [-> | I']; [congruence|].
      apply Io, dget_keys in I' as (x & Qx). exists x. split; [exact Qx|]. apply (Ko w l x); auto.
  Qed.

  Lemma params_nonneg F' U : wf_dom D -> same_set (mf_vars (F' U)) [U] -> (forall w l, In (w, l) (mf_domain (F' U)) -> In (w, l) D) ->
    (forall o, full (mf_domain (F' U)) o -> 0 <= entry (F' U) o)%Qc -> forall x, In x (params D F' U) -> (0 <= x)%Qc.
  Proof.
    intros WD Sv Sub NN x J. unfold params in J. apply in_map_iff in J as (s & <- & J). apply NN. intros w l Jw.
    assert (Q : w = U). { assert (K : In w (mf_vars (F' U))) by (apply keys_In; eauto). apply Sv in K as [K | []]. auto. }
    subst w. exists s. cbn [dget]. rewrite eqd_refl. split; [reflexivity|]. apply Sub in Jw.
    unfold states_of in J. now rewrite (In_dget _ _ _ (proj1 WD) Jw) in J.
  Qed.
End Likelihood.

(** The model with other tables. *)
Definition with_tables (m : pgm) (F : var -> mfactor) : pgm :=
  mkPgm (m_graph m) (map (fun v => (v, Some (FM (F v)))) (nodes (m_graph m))) (m_domains m) (m_check m) (m_kind m).
Lemma with_tables_ct m D F F' vt endo : causal_tables m D F vt endo ->
  (forall v, In v (nodes (m_graph m)) -> cpt D vt v (preds (m_graph m) v) (F' v)) -> nonnegative D F' ->
  causal_tables (with_tables m F') D F' vt endo.
Proof.
  intros (H & _ & K & I & A) Cp NN. destruct H as (Wg & Ac & WD & SD & Nf & Sf & Hv).
  assert (Kk : keys (m_factors (with_tables m F')) = nodes (m_graph m)).
  { cbn [with_tables m_factors]. unfold keys. rewrite map_map. cbn [fst]. apply map_id. }
  split; [|split; [exact NN|split; [exact K|split; [exact I|exact A]]]].
  unfold network. rewrite Kk. cbn [with_tables m_graph]. split; [exact Wg|]. split; [exact Ac|]. split; [exact WD|]. split; [exact SD|]. split; [apply Wg|].
  split; [intros x; tauto|]. intros v J. split; [|now apply Cp]. unfold stored. apply In_dget.
  - rewrite Kk. apply Wg.
  - cbn [with_tables m_factors]. apply in_map_iff. exists v. auto.
Qed.

Lemma prod_split {A} (f h k : A -> Qc) l : (forall x, In x l -> k x = (f x * h x)%Qc) ->
  product_of (map k l) = (product_of (map f l) * qprod (map h l))%Qc.
Proof.
  induction l as [|x l IH]; intros Q; cbn [map qprod product_of fold_right]; [now rewrite Qcmult_1_l|].
  unfold product_of in IH. rewrite IH by (intros; apply Q; now right). rewrite (Q x) by now left. ring.
Qed.
Lemma likelihood_ext D F F' data : (forall v, F' v = F v) -> likelihood D F' data = likelihood D F data.
Proof.
  intros Q. unfold likelihood. f_equal. apply map_ext. intros r. unfold mass. f_equal. apply map_ext. intros o. unfold joint. f_equal.
  apply map_ext. intros v. now rewrite Q.
Qed.

Section Chain.
  Variables (m : pgm) (D : domain) (F : var -> mfactor) (vt : vtype) (endo : list var).
  Hypothesis HC : causal_tables m D F vt endo.
  Variables (data : frame) (E : list var).
  Hypothesis OD : observes D data E.
  Hypothesis IE : incl endo E.
  Notation g := (m_graph m).

  (** A table that can replace that of [U]. *)
  Definition replaces (U : var) (f : mfactor) : Prop :=
    cpt D vt U [] f /\ forall o, full (mf_domain f) o -> (0 <= entry f o)%Qc.
  Lemma replaced_ct F' U : sole_cause g F endo U -> (forall v, v <> U -> F' v = F v) -> replaces U (F' U) ->
    causal_tables (with_tables m F') D F' vt endo.
  Proof.
    intros HU Hs [Cp NN]. assert (H := ct_net m D F vt endo HC). apply (with_tables_ct m D F F' vt endo HC).
    - intros v J. destruct (eqd v U) as [-> | N].
      + now rewrite (U_root m D F vt endo HC U HU).
      + rewrite Hs by auto. apply (net_cpt m D F vt H). now apply (net_nodes m D F vt H).
    - intros v o Kv Fo. destruct (eqd v U) as [-> | N]; [now apply NN|]. rewrite Hs in * by auto. now apply (ct_nn m D F vt endo HC).
  Qed.

  Lemma replaces_itself U : sole_cause g F endo U -> replaces U (F U).
  Proof.
    intros HU. assert (H := ct_net m D F vt endo HC). assert (J := U_node m F endo U HU). split.
    - assert (C := net_cpt m D F vt H U). rewrite (U_root m D F vt endo HC U HU) in C. apply C. now apply (net_nodes m D F vt H).
    - intros o. apply (ct_nn m D F vt endo HC). now apply (net_nodes m D F vt H).
  Qed.
  Lemma likelihood_share U : sole_cause g F endo U -> ~ In U E ->
    exists c, (0 <= c)%Qc /\ forall F', (forall v, v <> U -> F' v = F v) -> replaces U (F' U) ->
      likelihood D F' data = (mixtures D F g U (params D F' U) data * c)%Qc.
  Proof.
    intros HU NU. assert (H := ct_net m D F vt endo HC). assert (WD := net_wd m D F vt H).
    assert (NA : ~ arc g U U). { intros A. apply (arc_endo m D F vt endo HC) in A. now apply (U_exo m F endo U HU). }
    destruct (some_valid D WD) as (a & Va).
    assert (Ro : forall r, In r (f_rows data) -> known D (row_obs data r) /\ incl endo (keys (row_obs data r)) /\ ~ In U (keys (row_obs data r))).
    { intros r J. destruct (proj2 (proj2 OD) r J) as (_ & K1 & K2). rewrite K1. auto. }
    exists (qprod (map (fun r => rest m D F U a (row_obs data r)) (f_rows data))). split.
    { apply qprod_nonneg. intros x J. apply in_map_iff in J as (r & <- & J). apply (rest_nonneg m D F vt endo U a _ HC); [apply Ro, J|exact Va]. }
    intros F' Hs Rp. assert (HC' := replaced_ct F' U HU Hs Rp).
    assert (HU' : sole_cause (m_graph (with_tables m F')) F' endo U).
    { destruct HU as (H1 & H2 & H3 & H4). split; [exact H1|]. split; [exact H2|]. split; [exact H3|]. intros v A. rewrite Hs; [now apply H4|].
      intros ->. auto. }
    unfold likelihood, mixtures. apply prod_split.
    intros r J. destruct (Ro r J) as (K1 & K2 & K3). rewrite (mass_mixture (with_tables m F') D F' vt endo HC' U HU' _ a K1 Va K2 K3).
    cbn [with_tables m_graph]. rewrite (mixture_same m D F F' U Hs) by auto. f_equal. apply (rest_same m D F F' U Hs).
  Qed.
  Lemma likelihood_le F' U : sole_cause g F endo U -> ~ In U E -> (forall v, v <> U -> F' v = F v) -> replaces U (F' U) ->
    (mixtures D F g U (params D F U) data <= mixtures D F g U (params D F' U) data)%Qc ->
    (likelihood D F data <= likelihood D F' data)%Qc.
  Proof.
    intros HU NU Hs Rp Le. destruct (likelihood_share U HU NU) as (c & Nc & Hc).
    rewrite (Hc F) by (auto; now apply replaces_itself). rewrite (Hc F') by auto. now apply Qcmult_le_compat_r.
  Qed.
End Chain.

Section Several.
  Variables (m : pgm) (D : domain) (F : var -> mfactor) (vt : vtype) (endo : list var).
  Hypothesis HC : causal_tables m D F vt endo.
  Variables (data : frame) (E : list var).
  Hypothesis OD : observes D data E.
  Hypothesis IE : incl endo E.
  Notation g := (m_graph m).
  Variable new : var -> mfactor.

  Definition swap (tr : list var) (v : var) : mfactor := if mem v tr then new v else F v.
  Lemma swap_out tr v : ~ In v tr -> swap tr v = F v.
  Proof. intros N. unfold swap. apply mem_nIn in N. now rewrite N. Qed.
  Lemma swap_in tr v : In v tr -> swap tr v = new v.
  Proof. intros N. unfold swap. apply mem_In in N. now rewrite N. Qed.

  Lemma swap_ct tr : (forall U, In U tr -> sole_cause g F endo U /\ replaces D vt U (new U)) ->
    causal_tables (with_tables m (swap tr)) D (swap tr) vt endo.
  Proof.
    intros Ht. assert (H := ct_net m D F vt endo HC). apply (with_tables_ct m D F _ vt endo HC).
    - intros v J. destruct (in_dec eqd v tr) as [I | N].
      + rewrite swap_in by auto. destruct (Ht v I) as [HU [Cp _]]. now rewrite (U_root m D F vt endo HC v HU).
      + rewrite swap_out by auto. apply (net_cpt m D F vt H). now apply (net_nodes m D F vt H).
    - intros v o Kv Fo. destruct (in_dec eqd v tr) as [I | N].
      + rewrite (swap_in tr v I) in Fo |- *. now apply (proj2 (Ht v I)).
      + rewrite (swap_out tr v N) in Fo |- *. now apply (ct_nn m D F vt endo HC).
  Qed.
  Lemma swap_likelihood tr : (forall U, In U tr -> sole_cause g F endo U /\ replaces D vt U (new U) /\ ~ In U E /\
      (mixtures D F g U (params D F U) data <= mixtures D F g U (params D new U) data)%Qc) ->
    (likelihood D F data <= likelihood D (swap tr) data)%Qc.
  Proof.
    induction tr as [|U tr IH]; intros Ht.
    - apply Qcle_refl.
    - eapply Qcle_trans; [apply IH; intros V J; apply Ht; now right|].
      destruct (in_dec eqd U tr) as [I | N].
      + rewrite (likelihood_ext D (swap tr) (swap (U :: tr))); [apply Qcle_refl|]. intros v.
        destruct (in_dec eqd v tr) as [J | J]; [rewrite !swap_in; auto; now right|]. rewrite !swap_out; auto. intros [<- | K]; auto.
      + assert (Ht' : forall V, In V tr -> sole_cause g F endo V /\ replaces D vt V (new V)) by (intros V J; destruct (Ht V) as (X1 & X2 & _); [now right|auto]).
        assert (HC' := swap_ct tr Ht'). destruct (Ht U) as (HU & Rp & NU & Le); [now left|].
        assert (Ec : forall v, arc g U v -> swap tr v = F v).
        { intros v A. apply swap_out. intros J. apply (arc_endo m D F vt endo HC) in A. destruct (Ht' v J) as [(_ & X & _) _]. auto. }
        assert (Em : forall theta, mixtures D (swap tr) g U theta data = mixtures D F g U theta data).
        { intros theta. unfold mixtures. f_equal. apply map_ext. intros r. unfold mixture. f_equal. apply map_ext. intros st. do 2 f_equal.
          apply map_ext_in. intros v J. apply in_succs in J. now rewrite Ec. }
        apply (likelihood_le (with_tables m (swap tr)) D (swap tr) vt endo HC' data E OD IE (swap (U :: tr)) U).
        * destruct HU as (X1 & X2 & X3 & X4). split; [exact X1|]. split; [exact X2|]. split; [exact X3|]. intros v A. cbn [with_tables m_graph] in A. rewrite Ec by auto. auto.
        * exact NU.
        * intros v Nv. unfold swap. cbn [mem existsb]. destruct (eqd v U); [contradiction|]. reflexivity.
        * rewrite swap_in by now left. exact Rp.
        * cbn [with_tables m_graph]. rewrite !Em. unfold params in *. rewrite swap_out by auto. rewrite (swap_in (U :: tr)) by now left. exact Le.
  Qed.
End Several.
