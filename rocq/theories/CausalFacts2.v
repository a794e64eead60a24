(** Causal queries. *)

From Coq Require Import String Bool Arith ZArith QArith Qcanon Lia Permutation List.
From Verif Require Import PyBase PyFacts Num DomainModel NdArray StoreModel NumStore FactorModel Spec StoreSpec DomainFacts StoreFacts
  NumFacts PropFacts1 FactorSpec FactorFacts FactorFacts2 FactorFacts3 GraphModel GraphSpec GraphFacts ModelModel ModelSpec ModelFacts
  NetSpec NetSem FactorSem NetFacts VeFacts4 PropFacts4 BuildFacts BuildFacts2 InferModel CausalModel CausalSpec CausalFacts.
From Coq Require Import List.
Import ListNotations.
Local Open Scope nat_scope.
Local Arguments eqd : simpl never.

Lemma total_filter {A} (f : A -> Qc) (p q : A -> bool) L : (forall o, In o L -> p o <> q o -> f o = 0%Qc) ->
  total (map f (filter p L)) = total (map f (filter q L)).
Proof.
  unfold total. induction L as [|o L IH]; intros Z; [reflexivity|]. cbn [filter].
  assert (IH' := IH (fun x I => Z x (or_intror I))). specialize (Z o (or_introl eq_refl)).
  destruct (p o), (q o); cbn [map fold_right]; rewrite ?IH'; auto.
  - rewrite (Z ltac:(discriminate)). ring.
  - rewrite (Z ltac:(discriminate)). ring.
Qed.
Lemma total_ext {A} (f h : A -> Qc) L : (forall o, In o L -> f o = h o) -> total (map f L) = total (map h L).
Proof. intros E. f_equal. apply map_ext_in. auto. Qed.

Lemma forallb_ext_in' {A} (p q : A -> bool) L : (forall x, In x L -> p x = q x) -> forallb p L = forallb q L.
Proof. induction L as [|x L IH]; intros E; [reflexivity|]. cbn. rewrite E by now left. f_equal. apply IH. intros y I. apply E. now right. Qed.

Lemma dget_dmerge {V} (d e : dict var V) v : NoDup (keys d) -> dget v (dmerge e d) = match dget v d with Some x => Some x | None => dget v e end.
Proof.
  unfold dmerge. revert e. induction d as [|[w x] d IH]; intros e N; [reflexivity|]. cbn [fold_left fst snd].
  inversion N as [|? ? N1 N2]; subst. rewrite (IH _ N2), dget_dset. cbn [dget].
  destruct (eqd v w) as [-> | ]; [|auto]. apply dget_None in N1. cbn [fst] in N1. now rewrite N1.
Qed.
Lemma keys_dmerge {V} (d e : dict var V) v : In v (keys (dmerge e d)) <-> In v (keys e) \/ In v (keys d).
Proof.
  unfold dmerge. revert e. induction d as [|[w x] d IH]; intros e; [cbn; tauto|]. cbn [fold_left fst snd].
  rewrite IH, keys_dset. cbn [keys map fst In]. destruct (mem w (keys e)) eqn:M.
  - apply mem_In in M. split; [tauto|]. intros [?|[<-|?]]; auto.
  - rewrite in_app_iff. cbn. tauto.
Qed.
Lemma dget_keys_iff {V} (d : dict var V) v : dget v d <> None <-> In v (keys d).
Proof. split; [intros N; destruct (in_dec eqd v (keys d)) as [I|I]; [auto|apply dget_None in I; contradiction]|intros I E; now apply dget_None in E]. Qed.
Lemma dget_outside d e v : dget v (outside d e) = if mem v (keys d) then None else dget v e.
Proof.
  unfold outside. induction e as [|[w x] e IH]; [now destruct (mem v (keys d))|]. cbn [filter fst].
  destruct (mem w (keys d)) eqn:M; cbn [negb]; cbn [dget]; destruct (eqd v w) as [-> | ]; rewrite ?M, ?IH; auto.
  now rewrite M.
Qed.
Lemma keys_outside d e v : In v (keys (outside d e)) <-> In v (keys e) /\ ~ In v (keys d).
Proof.
  rewrite <- (dget_keys_iff (outside d e)), <- (dget_keys_iff e), dget_outside. destruct (mem v (keys d)) eqn:M.
  - apply mem_In in M. split; [tauto|intros [_ K]; contradiction].
  - apply mem_nIn in M. tauto.
Qed.

Lemma joint_ext (D : domain) F F1 vs o : (forall v, In v (keys D) -> entry (F1 v) o = entry (F v) o) -> incl vs (keys D) -> joint F1 vs o = joint F vs o.
Proof. intros E I. unfold joint. f_equal. apply map_ext_in. intros v J. apply E, I, J. Qed.
Lemma drop_keys_incl vs (D : domain) : incl (keys (drop vs D)) (keys D).
Proof. intros v I. unfold drop, keys in *. apply in_map_iff in I as (p & <- & I). apply filter_In in I as [I _]. now apply in_map. Qed.
Lemma pick_keys_incl vs (D : domain) : incl (keys (pick vs D)) (keys D).
Proof. intros v I. unfold pick, keys in *. apply in_map_iff in I as (p & <- & I). apply filter_In in I as [I _]. now apply in_map. Qed.

Section Query.
  Variables (m : pgm) (D : domain) (F : var -> mfactor) (vt : vtype) (endo : list var) (cast : bool).
  Hypothesis H : causal m D F vt endo cast.
  Hypothesis PR : plain_roots m.
  Variables (heur : digraph -> list var -> dict var nat -> res (list var)) (so : list (list var) -> list var).
  Hypothesis Hh : is_heuristic heur.
  Hypothesis Hs : is_set_order so.
  Variable d : obs.
  Hypothesis Nd : NoDup (keys d).
  Hypothesis Id : incl (keys d) (nodes (m_graph m)).

  Lemma wd : wf_dom D. Proof. apply H. Qed.

  Lemma do_mass_ok F1 m1 endo1 cast1 t e : causal m1 D F1 vt endo1 cast1 -> known D d ->
    (forall v o, In v (keys D) -> full D o -> entry (F1 v) o = entry (F v) o) ->
    (forall v, In v (keys t) -> ~ In v (keys d)) ->
    mass D (do_table F1 d) (t ++ dmerge e d) = do_mass D F d (t ++ outside d e).
  Proof.
    intros H1 Kd EF Dt. unfold mass, do_mass.
    assert (EJ : forall o, In o (all_assignments D) -> joint (do_table F1 d) (keys D) o = do_joint D F d o).
    { intros o I. rewrite (do_joint_ok m1 D F1 vt endo1 cast1 H1 d Kd o I). unfold do_joint. destruct (consistent d o); [|auto].
      apply (joint_ext D); [|apply drop_keys_incl]. intros v Iv. apply EF; [auto|].
      apply (all_assignments_In_full D o (proj1 wd)) in I. apply I. }
    rewrite (total_ext (joint (do_table F1 d) (keys D)) (do_joint D F d)) by (intros o I; apply EJ; apply filter_In in I; apply I).
    apply total_filter. intros o I Np. unfold do_joint. destruct (consistent d o) eqn:C; [|auto]. exfalso. apply Np.
    apply (all_assignments_In_full D o (proj1 wd)) in I as [Ko _]. assert (No : NoDup (keys o)) by (rewrite Ko; apply wd).
    clear Np. unfold consistent. apply forallb_ext_in'. intros [v s] Iv. cbn [fst snd].
    rewrite !dget_app, (dget_dmerge d e v Nd), dget_outside.
    destruct (dget v d) as [x|] eqn:E.
    - assert (Iv' : In v (keys d)) by (apply dget_keys; eauto). assert (M := proj2 (mem_In v (keys d)) Iv'). rewrite M.
      assert (Nt : dget v t = None). { apply dget_None. intros J. eapply Dt; eauto. } rewrite Nt.
      rewrite (cons_get o v s No (In_dget v s o No Iv) d C x E). now rewrite eqd_refl.
    - apply dget_None in E. apply mem_nIn in E. rewrite E. auto.
  Qed.

  Lemma causal_query_ok e T : known D d ->
    NoDup T -> T <> [] -> incl T (nodes (m_graph m)) -> incl (keys e) (nodes (m_graph m)) ->
    (forall v, In v T -> ~ In v (keys d) /\ ~ In v (keys e)) -> do_mass D F d (outside d e) <> 0%Qc ->
    exists m1 r, cve_init m = Ok m1 /\ causal_query heur so m1 T (DoDict d) e = Ok r /\ wf_mf r /\ mf_vtype r = vt /\
      same_set (mf_vars r) T /\ same_set (mf_left r) T /\ mf_right r = [] /\ (forall v l, In (v, l) (mf_domain r) -> In (v, l) D) /\
      (forall t, assigns D T t ->
        mf_get_value r t = Ok (Fin (do_mass D F d (t ++ outside d e) / do_mass D F d (outside d e))%Qc)) /\
      total (map (entry r) (all_assignments (pick T D))) = 1%Qc.
  Proof.
    intros Kd NT Te IT Ie Dj Me. destruct (convert_ok m D F vt endo cast H PR) as (m1 & endo1 & E1 & H1 & G1 & _ & _ & _ & St1 & _ & EF).
    exists m1. destruct (intervention_ok m1 D _ vt endo1 true H1 d Kd) as (m2 & E2 & H2 & G2 & _ & _ & _ & St2).
    assert (Net : network m2 D (do_table (table_of_object F m) d) vt).
    { eapply causal_network; [exact H2|]. intros v Iv. rewrite G2 in Iv. cbn [nodes remove_ingoing_edges] in Iv. rewrite G1 in Iv.
      eapply St2. apply St1. auto. }
    assert (Nn : nodes (m_graph m2) = nodes (m_graph m)). { rewrite G2. cbn [nodes remove_ingoing_edges]. now rewrite G1. }
    assert (M0 : forall t, (forall v, In v (keys t) -> ~ In v (keys d)) ->
              mass D (do_table (table_of_object F m) d) (t ++ dmerge e d) = do_mass D F d (t ++ outside d e)).
    { intros t Dt. eapply do_mass_ok; eauto. }
    destruct (posterior m2 D _ vt Net (dmerge e d) T heur so) as (r & Er & W & Tp & V1 & V2 & R & Sub & Val & Tot); auto.
    { now rewrite Nn. }
    { rewrite Nn. intros v Iv. apply keys_dmerge in Iv as [Iv|Iv]; auto. }
    { intros v Iv Jv. destruct (Dj v Iv). apply keys_dmerge in Jv. tauto. }
    { rewrite <- (app_nil_l (dmerge e d)), M0; [exact Me|intros v []]. }
    exists r. split; [auto|]. split.
    { unfold causal_query, ci_query, ci_compile_run. cbn [do_vars].
      assert (B : forallb (fun v => mem v (nodes (m_graph m1))) (keys d) = true).
      { apply forallb_forall. intros v Iv. apply mem_In. rewrite G1. auto. }
      rewrite B. cbn [negb bind ci_preprocess]. rewrite E2. cbn [bind]. exact Er. }
    do 6 (split; [assumption|]). split; [|assumption].
    intros t At. rewrite (Val t At), (M0 t).
    - rewrite <- (app_nil_l (dmerge e d)), M0; [reflexivity|intros v []].
    - intros v Iv. rewrite (proj1 At) in Iv. apply Dj. auto.
  Qed.

  Lemma causal_query_bad e T m1 : cve_init m = Ok m1 ->
    (forall dd v, In v (do_vars dd) -> ~ In v (nodes (m_graph m)) -> causal_query heur so m1 T dd e = Raise NodeNotFound) /\
    (forall v x l, dget v d = Some x -> In (v, l) D -> ~ In x l -> causal_query heur so m1 T (DoDict d) e = Raise ValueError) /\
    (known D d -> NoDup T -> forall v, In v T -> In v (keys e) \/ In v (keys d) -> causal_query heur so m1 T (DoDict d) e = Raise ValueError) /\
    (known D d -> ~ NoDup T -> causal_query heur so m1 T (DoDict d) e = Raise ValueError) /\
    (known D d -> NoDup T -> (forall v, In v T -> ~ In v (keys d) /\ ~ In v (keys e)) -> ~ incl (T ++ keys e) (nodes (m_graph m)) ->
       causal_query heur so m1 T (DoDict d) e = Raise NodeNotFound).
  Proof.
    intros Em. destruct (convert_ok m D F vt endo cast H PR) as (m1' & endo1 & E1 & H1 & G1 & _ & _ & _ & St1 & _ & EF).
    rewrite Em in E1. injection E1 as <-.
    assert (Step : known D d -> exists m2, m_graph m2 = remove_ingoing_edges (m_graph m) (keys d) /\
       causal_query heur so m1 T (DoDict d) e = ve_query heur so m2 T None (dmerge e d)).
    { intros Kd. destruct (intervention_ok m1 D _ vt endo1 true H1 d Kd) as (m2 & E2 & H2 & G2 & _).
      exists m2. split; [now rewrite G2, G1|]. unfold causal_query, ci_query, ci_compile_run. cbn [do_vars].
      assert (B : forallb (fun v => mem v (nodes (m_graph m1))) (keys d) = true).
      { apply forallb_forall. intros v Iv. apply mem_In. rewrite G1. auto. }
      rewrite B. cbn [negb bind ci_preprocess]. rewrite E2. reflexivity. }
    split; [|split; [|split; [|split]]].
    - intros dd v Iv Nv. unfold causal_query, ci_query, ci_compile_run.
      destruct (forallb (fun v => mem v (nodes (m_graph m1))) (do_vars dd)) eqn:B; [|reflexivity].
      exfalso. rewrite forallb_forall in B. specialize (B v Iv). apply mem_In in B. rewrite G1 in B. auto.
    - intros v x l E J Nx. unfold causal_query, ci_query, ci_compile_run. cbn [do_vars].
      assert (B : forallb (fun v => mem v (nodes (m_graph m1))) (keys d) = true).
      { apply forallb_forall. intros w Iw. apply mem_In. rewrite G1. auto. }
      rewrite B. cbn [negb bind ci_preprocess].
      rewrite (intervention_bad m1 D _ vt endo1 true d v x l H1); auto. rewrite G1. apply Id. apply dget_keys. eauto.
    - intros Kd NT v Iv Jv. destruct (Step Kd) as (m2 & G2 & ->). destruct (rejects m2 (dmerge e d) T heur so) as (_ & R & _).
      apply (R NT v Iv). apply keys_dmerge. tauto.
    - intros Kd NT. destruct (Step Kd) as (m2 & G2 & ->). destruct (rejects m2 (dmerge e d) T heur so) as (R & _). auto.
    - intros Kd NT Dj Ni. destruct (Step Kd) as (m2 & G2 & ->). destruct (rejects m2 (dmerge e d) T heur so) as (_ & _ & R & _).
      apply R; auto.
      + intros v Iv Jv. destruct (Dj v Iv). apply keys_dmerge in Jv. tauto.
      + rewrite G2. cbn [nodes remove_ingoing_edges]. intros I. apply Ni. intros v Jv. apply I. apply in_app_iff.
        apply in_app_iff in Jv as [Jv|Jv]; [auto|right; apply keys_dmerge; auto].
  Qed.
End Query.
