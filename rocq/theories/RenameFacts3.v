(** Renaming the variables of a model (C72). *)

From Coq Require Import String Ascii Bool Arith ZArith QArith Qcanon Lia Permutation List.
From Verif Require Import PyBase PyFacts Num DomainModel NdArray StoreModel NumStore FactorModel Spec StoreSpec DomainFacts StoreFacts
  NumFacts PropFacts1 BigSum FactorSpec FactorFacts FactorFacts2 FactorFacts3 GraphModel GraphSpec GraphFacts ModelModel ModelSpec ModelFacts
  NetSpec NetSem FactorSem NetFacts VeFacts4 PropFacts4 BuildFacts BuildFacts2 InferModel CausalModel CausalSpec CausalFacts CausalFacts2
  CfFacts CfFacts2 CfFacts3 RenameFacts1 RenameFacts2.
From Coq Require Import List.
Import ListNotations.
Local Open Scope nat_scope.
Local Arguments eqd : simpl never.

Lemma bn_complete_list D g check (fs : list fobj) (fs' : dict var fobj) G : NoDup (keys D) -> wf_graph g -> acyclic g ->
  Forall2 (fun f vf' => fo_left f = Ok [fst vf'] /\ accepted D g check KBn (fst vf') f (snd vf')) fs fs' ->
  (forall v f, In (v, f) fs' -> f = G v) -> (forall v, In v (nodes g) -> In v (keys fs')) ->
  exists m, bn_init (GDag g) (Some (FsList fs)) check = Ok m /\ complete D g G m /\ m_check m = check /\ m_kind m = KBn.
Proof.
  intros ND Wg Ac Hs HG C. unfold bn_init. destruct (initialize_ok g Wg) as [E _]. rewrite (E Ac). cbn [bind].
  destruct (put_list D ND g check _ fs fs' Hs _ _ (partial_fresh D g check _)) as (m & Em & B).
  exists m. cbn [set_factors]. split; [exact Em|]. split; [eapply partial_complete; eauto|]. destruct B as (_ & b2 & b3 & _). auto.
Qed.

Lemma accept_bn D vt g v fo f : In v (nodes g) -> tabulates v fo f -> cpt D vt v (preds g v) f ->
  accepted D g true KBn v fo fo.
Proof.
  intros Iv T C. split; [reflexivity|split; [auto|]].
  exists (mf_domain f), (mf_left f), (mf_right f). split; [eapply tab_factor; eauto|].
  assert (L := cpt_left _ _ _ _ _ C). split.
  - assert (I : In v (mf_left f)) by (rewrite L; now left). apply mf_left_In in I as [I _]. exact I.
  - destruct C as (_ & _ & Sl & Sr & Dm & _). split; [exact Dm|]. auto.
Qed.

Section Rename.
  Variables (m : pgm) (D : domain) (F : var -> mfactor) (vt : vtype) (r : dict var var).
  Notation g := (m_graph m).
  Notation rn := (rename1 r).
  Notation D' := (renamed_dom r D).
  Hypothesis Wg : wf_graph g.
  Hypothesis Ac : acyclic g.
  Hypothesis WD : wf_dom D.
  Hypothesis SD : same_set (keys D) (nodes g).
  Hypothesis NF : NoDup (keys (m_factors m)).
  Hypothesis SF : same_set (keys (m_factors m)) (nodes g).
  Hypothesis Hv : forall v, In v (nodes g) -> exists f, stored m v f /\ tabulates v f (F v) /\ cpt D vt v (preds g v) (F v).
  Hypothesis Inj : forall x y, In x (nodes g) -> In y (nodes g) -> rn x = rn y -> x = y.
  Hypothesis Und : forall v s, In v (nodes g) -> rn v <> String "_"%char s.

  Definition table' (v : var) : mfactor := match mf_rename (F v) r with Ok f => f | Raise _ => F v end.
  Definition object' (v : var) : fobj :=
    match dget v (m_factors m) with
    | Some (Some f) => match fo_rename r f with Ok f' => f' | Raise _ => FObj end
    | _ => FObj
    end.

  Lemma vars_nodes v w : In v (nodes g) -> In w (mf_vars (F v)) -> In w (nodes g).
  Proof.
    intros I J. destruct (Hv v I) as (f & _ & _ & C). apply keys_In in J as (l & J).
    apply SD. apply keys_In. exists l. apply C. exact J.
  Qed.
  Lemma wf_D' : wf_dom D'.
  Proof.
    split.
    - rewrite keys_renamed. apply NoDup_map_inj; [|apply WD]. intros x y Ix Iy. apply Inj; now apply SD.
    - intros v l I. apply in_map_iff in I as ([w k] & E & I). injection E as <- <-. eapply (proj2 WD); eauto.
  Qed.

  Lemma table_ok v : In v (nodes g) -> mf_rename (F v) r = Ok (table' v) /\
    cpt D' vt (rn v) (map rn (preds g v)) (table' v) /\ (zero_one (F v) -> zero_one (table' v)) /\
    mf_domain (table' v) = renamed_dom r (mf_domain (F v)) /\ mf_right (table' v) = map rn (mf_right (F v)) /\
    mf_vtype (table' v) = mf_vtype (F v) /\
    (forall o o', full (mf_domain (F v)) o -> (forall w, In w (mf_vars (F v)) -> dget (rn w) o' = dget w o) ->
       mf_get_value (table' v) o' = mf_get_value (F v) o).
  Proof.
    intros Iv. destruct (Hv v Iv) as (f & _ & _ & C). assert (Sub : forall w l, In (w, l) (mf_domain (F v)) -> In (w, l) D) by apply C.
    assert (Inj' : forall x y, In x (mf_vars (F v)) -> In y (mf_vars (F v)) -> rn x = rn y -> x = y).
    { intros x y Ix Iy. apply Inj; eapply vars_nodes; eauto. }
    assert (Und' : forall w s, In w (mf_vars (F v)) -> rn w <> String "_"%char s).
    { intros w s I. apply Und. eapply vars_nodes; eauto. }
    destruct (rename_cpt D D' vt r v _ _ C Inj' Und') as (f' & E & C' & Z' & V' & X').
    { intros w l I. apply in_map_iff. exists (w, l). auto. }
    destruct (mf_rename_ok (F v) r (proj1 C) Inj' Und') as (f2 & E2 & _ & T2 & D2 & R2 & _).
    assert (f2 = f') by congruence. subst f2. unfold table'. rewrite E. auto 10.
  Qed.

  Lemma object_ok v f : In v (nodes g) -> stored m v f -> tabulates v f (F v) ->
    fo_rename r f = Ok (object' v) /\ tabulates (rn v) (object' v) (table' v) /\
    (f = FM (F v) -> object' v = FM (table' v)).
  Proof.
    intros Iv S T. destruct (table_ok v Iv) as (E & C' & Z' & Dm & Rt & Vt & Val).
    unfold object'. unfold stored in S. rewrite S. destruct f as [h|d|]; cbn in T.
    - subst h. cbn [fo_rename]. rewrite E. cbn [bind]. repeat split; reflexivity.
    - destruct T as ((l & Wd) & U & Ed & Er & Ev & X).
      assert (Vn : forall w, In w (df_vars d) -> In w (nodes g)).
      { intros w I. apply (vars_nodes v); [auto|]. unfold mf_vars. rewrite Ed. exact I. }
      destruct (df_rename_ok d v l r Wd) as (d' & E' & Wd' & Vd & Dd & Rd & Vals).
      { intros x y Ix Iy. apply Inj; auto. }
      cbn [fo_rename]. rewrite E'. cbn [bind]. split; [reflexivity|]. split; [|discriminate].
      assert (Wb := wf_df_rest d v l Wd). assert (Iv' : In v (df_vars d)) by (destruct Wd as (_ & _ & J & _); apply keys_In; eauto).
      cbn [tabulates]. split; [exists l; exact Wd'|]. split.
      { rewrite Dd. destruct U as (W1 & T1 & N1). split; [rewrite <- Dd; apply Wd'|]. split.
        - intros w k x y J. apply in_map_iff in J as ([w' k'] & Ew & J). injection Ew as <- <-. eapply T1; eauto.
        - intros w s J. rewrite keys_renamed in J. apply in_map_iff in J as (w' & <- & J). apply Und, Vn, J. }
      split; [rewrite Dm, Ed, Dd; reflexivity|]. split; [rewrite Rt, Er, Rd; reflexivity|].
      split; [rewrite Vt, Ev, Vd; reflexivity|].
      intros o' Fo'. set (o := obs_of (df_vars d) (fun w => asg_of o' (rn w))).
      assert (Fo : full (df_domain d) o).
      { intros w k I. assert (Ib : In w (df_vars d)) by (apply keys_In; eauto).
        assert (A := agrees_obs_of (df_vars d) (fun w => asg_of o' (rn w)) w Ib). cbv beta in A. fold o in A. rewrite A. eexists. split; [reflexivity|].
        apply (full_valid' _ _ Fo'). rewrite Dd. apply in_map_iff. exists (w, k). auto. }
      assert (Eo : forall w, In w (df_vars d) -> dget (rn w) o' = dget w o).
      { intros w I. assert (A := agrees_obs_of (df_vars d) (fun w => asg_of o' (rn w)) w I). cbv beta in A. fold o in A. rewrite A.
        apply (full_asg (df_domain d')); [auto|]. rewrite Dd, keys_renamed. now apply in_map. }
      destruct (X o Fo) as (y & z & Gy & Gz & Gf). exists y, z. split; [|split].
      + rewrite (Vals o o'); [exact Gy| |].
        * intros w k I. apply filter_In in I as [I _]. now apply Fo.
        * intros w I. apply Eo. now apply Wb.
      + now rewrite Eo.
      + rewrite (Val o o'); [exact Gf|now rewrite Ed|]. intros w I. apply Eo. unfold mf_vars in I. rewrite Ed in I. exact I.
    - destruct T.
  Qed.

  (** ** The graph *)

  Notation g' := (relabel g r).
  Lemma graph_ok : wf_graph g' /\ (forall v, In v (nodes g') <-> exists w, In w (nodes g) /\ v = rn w) /\
    (forall x y, arc g' x y <-> exists p q, arc g p q /\ x = rn p /\ y = rn q).
  Proof. apply relabel_ok, Wg. Qed.
  Lemma arc_renamed x y : In x (nodes g) -> In y (nodes g) -> (arc g' (rn x) (rn y) <-> arc g x y).
  Proof.
    intros Ix Iy. destruct graph_ok as (_ & _ & A). rewrite A. split; [|eauto].
    intros (p & q & B & Ep & Eq). destruct (proj2 (proj2 Wg) p q B) as [Ip Iq].
    apply Inj in Ep; auto. apply Inj in Eq; auto. now subst.
  Qed.
  Lemma acyclic' : acyclic g'.
  Proof.
    destruct graph_ok as (_ & _ & A). intros x Wx.
    assert (Back : forall x y, walk g' x y -> forall p, In p (nodes g) -> x = rn p -> exists q, In q (nodes g) /\ y = rn q /\ walk g p q).
    { induction 1 as [x0 y0 B|x0 y0 z0 B _ IH]; intros p Ip Ex.
      - apply A in B as (p' & q & B & Ex' & Ey). assert (In p' (nodes g) /\ In q (nodes g)) as [I1 I2] by (apply Wg; exact B).
        assert (p' = p) by (apply Inj; auto; congruence). subst p'. exists q. split; [auto|]. split; [auto|]. now constructor.
      - apply A in B as (p' & q & B & Ex' & Ey). assert (In p' (nodes g) /\ In q (nodes g)) as [I1 I2] by (apply Wg; exact B).
        assert (p' = p) by (apply Inj; auto; congruence). subst p'. destruct (IH q I2 Ey) as (z & Iz & Ez & Wz).
        exists z. split; [auto|]. split; [auto|]. exact (walk_step _ _ _ _ B Wz). }
    assert (Ix : exists p, In p (nodes g) /\ x = rn p).
    { inversion Wx as [? ? B|? ? ? B _]; subst; apply A in B as (p & q & B & -> & _); exists p; (split; [|auto]); apply Wg in B; apply B. }
    destruct Ix as (p & Ip & ->). destruct (Back _ _ Wx p Ip eq_refl) as (q & Iq & Eq & Wq).
    apply Inj in Eq; auto. subst q. now apply (Ac p).
  Qed.
  Lemma preds_renamed v : In v (nodes g) -> same_set (map rn (preds g v)) (preds g' (rn v)).
  Proof.
    intros Iv x. destruct graph_ok as (_ & _ & A). rewrite in_preds, A, in_map_iff. split.
    - intros (p & <- & J). apply in_preds in J. exists p, v. auto.
    - intros (p & q & B & -> & Eq). destruct (proj2 (proj2 Wg) p q B) as [Ip Iq]. apply Inj in Eq; auto. subst q.
      exists p. split; [auto|]. now apply in_preds.
  Qed.
  Lemma cpt' v : In v (nodes g) -> cpt D' vt (rn v) (preds g' (rn v)) (table' v).
  Proof. intros I. eapply cpt_parents; [apply preds_renamed, I|]. now apply table_ok. Qed.

  (** ** The tables and objects by their new names *)

  Definition back (x : var) : option var := find (fun v => if eqd (rn v) x then true else false) (nodes g).
  Lemma back_ok v : In v (nodes g) -> back (rn v) = Some v.
  Proof.
    intros I. unfold back. destruct (find _ (nodes g)) as [w|] eqn:E.
    - apply find_some in E as [Iw Ew]. destruct (eqd (rn w) (rn v)) as [E'|]; [|discriminate]. apply Inj in E'; auto. now subst.
    - exfalso. apply (find_none _ _ E) in I. rewrite eqd_refl in I. discriminate.
  Qed.
  Definition tables' (x : var) : mfactor := match back x with Some v => table' v | None => F x end.
  Definition objects' (x : var) : fobj := match back x with Some v => object' v | None => FObj end.
  Lemma tables_at v : In v (nodes g) -> tables' (rn v) = table' v.
  Proof. intros I. unfold tables'. now rewrite (back_ok v I). Qed.
  Lemma objects_at v : In v (nodes g) -> objects' (rn v) = object' v.
  Proof. intros I. unfold objects'. now rewrite (back_ok v I). Qed.

  Notation ks := (keys (m_factors m)).
  Lemma factor_objects : mapM (fo_rename r) (vals (m_factor_dict m)) = Ok (map object' ks).
  Proof.
    assert (Kk : keys (m_factor_dict m) = ks). { unfold m_factor_dict, keys. rewrite map_map. reflexivity. }
    set (ob := fun v => match dget v (m_factors m) with Some f => as_fobj f | None => FObj end).
    assert (Vs : vals (m_factor_dict m) = map ob ks).
    { rewrite <- Kk. apply vals_map; [rewrite Kk; exact NF|]. intros v I. rewrite Kk in I. apply dget_keys in I as (f & I).
      unfold ob. rewrite I. clear - I. unfold m_factor_dict. induction (m_factors m) as [|[w x] l IH]; [discriminate|].
      cbn [map dget fst snd] in *. destruct (eqd v w); [injection I as ->; reflexivity|auto]. }
    rewrite Vs, mapM_map. apply mapM_det. intros v I. apply SF in I. destruct (Hv v I) as (f & S & T & _).
    destruct (object_ok v f I S T) as (E & _). unfold ob. unfold stored in S. rewrite S. exact E.
  Qed.
  Lemma left_at v : In v (nodes g) -> fo_left (object' v) = Ok [rn v].
  Proof.
    intros I. destruct (Hv v I) as (f & S & T & _). destruct (object_ok v f I S T) as (_ & T' & _).
    destruct (tab_factor _ _ _ _ _ _ T' (cpt' v I)) as (_ & L & _). rewrite L. f_equal. eapply cpt_left, cpt', I.
  Qed.

  Lemma same_values v : In v (keys D) -> forall o o' : obs, full (mf_domain (F v)) o ->
    (forall w, In w (mf_vars (F v)) -> dget (rn w) o' = dget w o) -> mf_get_value (tables' (rn v)) o' = mf_get_value (F v) o.
  Proof. intros I. apply SD in I. rewrite (tables_at v I). now apply table_ok. Qed.
  Lemma own_domain v w l : In v (keys D) -> In (w, l) (mf_domain (F v)) -> In (w, l) D.
  Proof. intros I J. apply SD in I. destruct (Hv v I) as (f & _ & _ & C). now apply C. Qed.
  Lemma inj_D x y : In x (keys D) -> In y (keys D) -> rn x = rn y -> x = y.
  Proof. intros Ix Iy. apply Inj; now apply SD. Qed.

  Lemma keys_D' : same_set (keys D') (nodes g').
  Proof.
    intros x. destruct graph_ok as (_ & N & _). rewrite N, keys_renamed, in_map_iff.
    split; intros (w & A & B); exists w; [split; [now apply SD|auto]|split; [auto|now apply SD]].
  Qed.
  Lemma fs'_ok : (forall v f, In (v, f) (map (fun v => (rn v, object' v)) ks) -> f = objects' v) /\
    (forall v, In v (nodes g') -> In v (keys (map (fun v => (rn v, object' v)) ks))).
  Proof.
    split.
    - intros v f I. apply in_map_iff in I as (w & E & I). injection E as <- <-. apply SF in I. symmetry. now apply objects_at.
    - intros v I. apply graph_ok in I as (w & I & ->). unfold keys. rewrite map_map. cbn [fst]. apply in_map. now apply SF.
  Qed.

  Lemma rename_bn_ok : m_kind m = KBn -> exists m', m_rename m r = Ok m' /\ m_kind m' = KBn /\ m_check m' = true /\
    complete D' g' objects' m'.
  Proof.
    intros K. unfold m_rename. rewrite factor_objects. cbn [bind]. rewrite K. unfold m_builder. rewrite K.
    destruct (bn_complete_list D' g' true (map object' ks) (map (fun v => (rn v, object' v)) ks) objects')
      as (m' & E & C & Ck & K'); [apply wf_D'|apply graph_ok|apply acyclic'| |apply fs'_ok|apply fs'_ok|].
    - apply Forall2_map_both. intros v I. apply SF in I. cbn [fst snd]. split; [now apply left_at|].
      destruct (Hv v I) as (f & S & T & _). destruct (object_ok v f I S T) as (_ & T' & _).
      apply (accept_bn D' vt g' (rn v) _ (table' v)); [apply graph_ok; eauto|exact T'|now apply cpt'].
    - exists m'. auto.
  Qed.

  Lemma scm_endo_renamed endo : (forall x v, arc g x v -> In v endo) ->
    scm_endo g' (Some (map rn endo)) = map rn endo.
  Proof.
    intros A. unfold scm_endo. destruct endo as [|e endo]; [|reflexivity]. cbn [map].
    apply filter_none. intros x I. destruct (preds g' x) as [|p l] eqn:E; [reflexivity|]. exfalso.
    assert (J : arc g' p x) by (apply in_preds; rewrite E; now left). apply graph_ok in J as (a & b & J & _). exact (A a b J).
  Qed.

  Lemma rename_scm_ok endo cast : m_kind m = KScm endo cast -> (forall x v, arc g x v -> In v endo) ->
    incl endo (nodes g) ->
    (forall v, In v endo -> zero_one (F v) /\ (cast = true -> stored m v (FM (F v)))) -> incl endo (keys r) ->
    exists m', m_rename m r = Ok m' /\ m_kind m' = KScm (map rn endo) cast /\ m_check m' = true /\ complete D' g' objects' m'.
  Proof.
    intros K Ar En Z Ir. unfold m_rename. rewrite factor_objects. cbn [bind]. rewrite K.
    rewrite (mapM_det _ rn).
    2:{ intros v I. unfold dlook, rename1. apply Ir, dget_keys in I as (w & I). now rewrite I. }
    cbn [bind].
    destruct (scm_complete_list D' g' true cast (Some (map rn endo)) (map object' ks) (map (fun v => (rn v, object' v)) ks) objects')
      as (m' & E & C & Ck & K'); [apply wf_D'|apply graph_ok|apply acyclic'| |apply fs'_ok|apply fs'_ok|].
    - rewrite (scm_endo_renamed endo Ar). apply Forall2_map_both. intros v I. apply SF in I. cbn [fst snd]. split; [now apply left_at|].
      destruct (Hv v I) as (f & S & T & _). destruct (object_ok v f I S T) as (_ & T' & Fm).
      apply (accept_scm D' vt g' _ cast (rn v) _ (table' v)); [apply wf_D'|apply graph_ok; eauto|exact T'|now apply cpt'|].
      intros J. apply in_map_iff in J as (w & Ew & J). assert (w = v) by (apply Inj; auto). subst w.
      destruct (Z v J) as [Z1 Z2]. split; [now apply table_ok|]. intros Hc. apply Fm. specialize (Z2 Hc).
      unfold stored in *. congruence.
    - exists m'. rewrite (scm_endo_renamed endo Ar) in K'. auto.
  Qed.

  Lemma rename_scm_raises endo cast v : m_kind m = KScm endo cast -> In v endo -> ~ In v (keys r) -> m_rename m r = Raise KeyError.
  Proof.
    intros K I N. unfold m_rename. rewrite factor_objects. cbn [bind]. rewrite K.
    assert (E : mapM (fun x => dlook x r) endo = Raise KeyError); [|now rewrite E].
    clear - I N. induction endo as [|w l IH]; [destruct I|]. cbn [mapM]. unfold dlook at 1.
    destruct (dget w r) as [x|] eqn:E.
    - cbn [bind]. destruct I as [<-|I]; [exfalso; apply N, dget_keys; eauto|]. now rewrite (IH I).
    - reflexivity.
  Qed.
End Rename.
