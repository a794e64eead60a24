(** The fused model of a counterfactual query is a network. *)

From Coq Require Import String Ascii Bool Arith ZArith QArith Qcanon Lia Permutation List.
From Verif Require Import PyBase PyFacts Num DomainModel NdArray StoreModel NumStore FactorModel Spec StoreSpec DomainFacts StoreFacts
  NumFacts PropFacts1 BigSum FactorSpec FactorFacts FactorFacts2 FactorFacts3 GraphModel GraphSpec GraphFacts ModelModel ModelSpec ModelFacts
  NetSpec NetSem FactorSem NetFacts VeFacts4 PropFacts4 BuildFacts BuildFacts2 InferModel CausalModel CausalSpec CausalFacts CausalFacts2
  CfFacts CfFacts2.
From Coq Require Import List.
Import ListNotations.
Local Open Scope nat_scope.
Local Arguments eqd : simpl never.

(** ** Graphs *)

Lemma fold_node vs : forall g, wf_graph g ->
  wf_graph (fold_left add_node vs g) /\ edges (fold_left add_node vs g) = edges g /\
  (forall v, In v (nodes (fold_left add_node vs g)) <-> In v (nodes g) \/ In v vs).
Proof.
  induction vs as [|w vs IH]; intros g W; cbn [fold_left]; [split; [auto|]; split; [auto|]; intros v; cbn; tauto|].
  assert (W' : wf_graph (add_node g w)).
  { destruct W as (N & NE & S). split; [now apply add_node_NoDup|]. rewrite add_node_edges. split; [auto|].
    intros x y I. apply S in I as [I J]. split; apply add_node_nodes; auto. }
  destruct (IH _ W') as (W1 & E1 & N1). split; [auto|]. split; [now rewrite E1, add_node_edges|].
  intros v. rewrite N1, add_node_nodes. cbn. intuition congruence.
Qed.
Lemma relabel_ok g r : wf_graph g -> wf_graph (relabel g r) /\
  (forall v, In v (nodes (relabel g r)) <-> exists w, In w (nodes g) /\ v = rename1 r w) /\
  (forall x y, arc (relabel g r) x y <-> exists p q, arc g p q /\ x = rename1 r p /\ y = rename1 r q).
Proof.
  intros W. unfold relabel. destruct (fold_node (map (rename1 r) (nodes g)) (mkG [] []) empty_wf) as (W0 & E0 & N0).
  split; [now apply fold_add_wf|]. split.
  - intros v. rewrite fold_add_nodes, N0. cbn [nodes]. rewrite in_map_iff. split.
    + intros [[[]|(w & <- & I)]|(e & I & Ev)]; [eauto|]. apply in_map_iff in I as ([x y] & <- & I). cbn in Ev.
      apply (in_g_edges g x y W) in I. apply W in I as [I J]. destruct Ev as [-> | ->]; eauto.
    + intros (w & I & ->). left. right. eauto.
  - intros x y. unfold arc at 1. rewrite fold_add_edges, E0. cbn [edges]. rewrite in_map_iff. split.
    + intros [[]|([p q] & E & I)]. cbn in E. injection E as <- <-. apply (in_g_edges g p q W) in I. eauto.
    + intros (p & q & A & -> & ->). right. exists (p, q). split; [auto|]. now apply in_g_edges.
Qed.
Lemma fuse_ok ms : (forall m, In m ms -> wf_graph (m_graph m)) -> forall g, wf_graph g ->
  wf_graph (fold_left (fun g m => fold_left add_edge (g_edges (m_graph m)) g) ms g) /\
  (forall v, In v (nodes (fold_left (fun g m => fold_left add_edge (g_edges (m_graph m)) g) ms g)) <->
     In v (nodes g) \/ exists m x, In m ms /\ (arc (m_graph m) x v \/ arc (m_graph m) v x)) /\
  (forall x y, arc (fold_left (fun g m => fold_left add_edge (g_edges (m_graph m)) g) ms g) x y <->
     arc g x y \/ exists m, In m ms /\ arc (m_graph m) x y).
Proof.
  induction ms as [|m ms IH]; intros Wm g W; cbn [fold_left].
  - split; [auto|]. split; intros; split; auto; intros [?|(? & H)]; auto; [destruct H as (? & [] & _)|destruct H as ([] & _)].
  - assert (W1 := Wm m (or_introl eq_refl)). destruct (IH (fun m' I => Wm m' (or_intror I)) _ (fold_add_wf (g_edges (m_graph m)) g W)) as (W2 & N2 & A2).
    split; [auto|]. split.
    + intros v. rewrite N2, fold_add_nodes. split.
      * intros [[I|([x y] & I & Ev)]|(m' & x & I & J)]; [auto| |right; exists m', x; split; [now right|auto]].
        apply (in_g_edges _ _ _ W1) in I. right. cbn in Ev. destruct Ev as [-> | ->]; [exists m, y|exists m, x]; (split; [now left|auto]).
      * intros [I|(m' & x & [<-|I] & J)]; [auto| |right; eauto]. left. right. destruct J as [J|J]; apply (in_g_edges _ _ _ W1) in J; eauto.
    + intros x y. rewrite A2. unfold arc at 1. rewrite fold_add_edges, (in_g_edges _ _ _ W1). split.
      * intros [[I|I]|(m' & I & J)]; [auto|right; exists m; split; [now left|auto]|right; exists m'; split; [now right|auto]].
      * intros [I|(m' & [<-|I] & J)]; [left; left; auto|left; right; auto|right; eauto].
Qed.
Lemma rank_acyclic g (rank : var -> nat) : (forall x y, arc g x y -> rank x < rank y) -> acyclic g.
Proof.
  intros R x Wx. assert (L : forall a b, walk g a b -> rank a < rank b).
  { induction 1 as [a b A|a b c A _ IH]; [auto|]. apply R in A. lia. }
  apply L in Wx. lia.
Qed.

(** ** Lists *)

Lemma NoDup_list_prod {A B} (l1 : list A) (l2 : list B) : NoDup l1 -> NoDup l2 -> NoDup (list_prod l1 l2).
Proof.
  intros N1 N2. induction l1 as [|x l1 IH]; [constructor|]. inversion N1 as [|? ? Nx Nl]; subst. cbn. apply NoDup_app_intro.
  - apply NoDup_map_inj; [intros a b _ _ E; congruence|auto].
  - auto.
  - intros [a b] I J. apply in_map_iff in I as (c & E & _). injection E as <- <-. apply in_prod_iff in J. tauto.
Qed.
Lemma combine_seq_In {A} (l : list A) s i x : In (i, x) (combine (seq s (length l)) l) <-> s <= i /\ nth_error l (i - s) = Some x.
Proof.
  revert s. induction l as [|y l IH]; intros s; cbn.
  - split; [intros []|]. intros [_ E]. destruct (i - s); discriminate.
  - rewrite IH. split.
    + intros [E|[L E]]; [injection E as -> ->; split; [lia|]; now rewrite Nat.sub_diag|]. split; [lia|].
      replace (i - s) with (S (i - S s)) by lia. exact E.
    + intros [L E]. destruct (Nat.eq_dec i s) as [->|Ni].
      * rewrite Nat.sub_diag in E. cbn in E. left. congruence.
      * right. split; [lia|]. replace (i - s) with (S (i - S s)) in E by lia. exact E.
Qed.
Lemma vals_map {V} (d : dict var V) (f : var -> V) : NoDup (keys d) -> (forall v, In v (keys d) -> dget v d = Some (f v)) -> vals d = map f (keys d).
Proof.
  induction d as [|[v x] d IH]; intros N E; [reflexivity|]. inversion N as [|? ? N1 N2]; subst.
  assert (Ev := E v (or_introl eq_refl)). cbn [dget] in Ev. rewrite eqd_refl in Ev. injection Ev as ->.
  change (f v :: vals d = f v :: map f (keys d)). f_equal. apply IH; [auto|]. intros w I. rewrite <- E by now right. cbn [dget].
  destruct (eqd w v) as [->|]; [contradiction|auto].
Qed.
Lemma mapM_det {A B} (f : A -> res B) (h : A -> B) l : (forall x, In x l -> f x = Ok (h x)) -> mapM f l = Ok (map h l).
Proof.
  induction l as [|x l IH]; intros E; [reflexivity|]. cbn [mapM map]. rewrite E by now left. cbn [bind].
  rewrite IH; [reflexivity|]. intros y I. apply E. now right.
Qed.
Lemma Forall2_map_both {A B C} (R : B -> C -> Prop) (f : A -> B) (h : A -> C) l : (forall x, In x l -> R (f x) (h x)) -> Forall2 R (map f l) (map h l).
Proof. induction l as [|x l IH]; intros E; cbn; constructor; [apply E; now left|apply IH; intros y I; apply E; now right]. Qed.

Lemma forallb_map {A B} (p : B -> bool) (f : A -> B) l : forallb p (map f l) = forallb (fun x => p (f x)) l.
Proof. induction l as [|x l IH]; [reflexivity|]. cbn. now rewrite IH. Qed.

Section Twin.
  Variables (m : pgm) (D : domain) (F : var -> mfactor) (vt : vtype) (endo : list var).
  Hypothesis H : causal m D F vt endo true.
  Hypothesis Kf : keys (m_factors m) = nodes (m_graph m).
  Hypothesis St : forall v, In v (nodes (m_graph m)) -> stored m v (FM (F v)).
  Notation g := (m_graph m).
  Hypothesis He : forall v, In v endo <-> exists x, arc g x v.
  Variable dos : list obs.
  Notation W := (combine (seq 1 (length dos)) dos).
  Hypothesis Kd : forall d, In d dos -> known D d /\ NoDup (keys d).
  Hypothesis Fresh : forall v i w, In v endo -> In w (nodes g) -> 1 <= i <= length dos -> world_name v i <> w.
  Hypothesis Ne : forall v, In v endo -> v <> ""%string.

  Lemma t_wd : wf_dom D. Proof. apply H. Qed.
  Lemma t_wg : wf_graph g. Proof. apply H. Qed.
  Lemma t_ac : acyclic g. Proof. apply H. Qed.
  Lemma t_keys v : In v (keys D) <-> In v (nodes g). Proof. apply H. Qed.
  Lemma t_endo v : In v endo -> In v (nodes g).
  Proof. intros I. apply He in I as (x & A). apply t_wg in A. apply A. Qed.
  Lemma t_cpt v : In v (nodes g) -> cpt D vt v (preds g v) (F v).
  Proof. intros I. destruct H as (_ & _ & _ & _ & _ & _ & _ & A & _). destruct (A v I) as (f & _ & _ & C & _). auto. Qed.
  Lemma t_zero v : In v endo -> zero_one (F v).
  Proof. intros I. destruct H as (_ & _ & _ & _ & _ & _ & _ & A & _). destruct (A v (t_endo v I)) as (f & _ & _ & _ & Z). now apply Z. Qed.

  Lemma W_In i d : In (i, d) W -> 1 <= i <= length dos /\ In d dos /\ nth_error dos (i - 1) = Some d.
  Proof.
    intros I. apply combine_seq_In in I as [L E]. split; [|split; [eapply nth_error_In; eauto|auto]].
    split; [auto|]. assert (N : nth_error dos (i - 1) <> None) by congruence. apply nth_error_Some in N. lia.
  Qed.
  Lemma W_fun i d d' : In (i, d) W -> In (i, d') W -> d = d'.
  Proof. intros I J. apply W_In in I as (_ & _ & I). apply W_In in J as (_ & _ & J). congruence. Qed.
  Lemma W_NoDup : NoDup W.
  Proof.
    assert (N : NoDup (map fst W)).
    { replace (map fst W) with (seq 1 (length dos)); [apply seq_NoDup|]. generalize 1. clear. induction dos as [|d l IH]; intros s; cbn; [auto|]. now rewrite <- IH. }
    eapply NoDup_map_inv, N.
  Qed.

  (** ** The renaming of a world *)

  Definition mapping (i : nat) : dict var var := map (fun v => (v, world_name v i)) endo.
  Definition rn (i : nat) (v : var) : var := rename1 (mapping i) v.
  Lemma dget_mapping i v : dget v (mapping i) = if mem v endo then Some (world_name v i) else None.
  Proof.
    unfold mapping. clear. induction endo as [|w l IH]; [reflexivity|]. cbn [map dget mem existsb]. unfold mem. cbn [existsb].
    destruct (eqd v w) as [->|Nv]; [reflexivity|]. exact IH.
  Qed.
  Lemma rn_endo i v : In v endo -> rn i v = world_name v i.
  Proof. intros I. unfold rn, rename1. rewrite dget_mapping. now rewrite (proj2 (mem_In v endo) I). Qed.
  Lemma rn_exo i v : ~ In v endo -> rn i v = v.
  Proof. intros I. unfold rn, rename1. rewrite dget_mapping. now rewrite (proj2 (mem_nIn v endo) I). Qed.
  Lemma rn_inj i x y : 1 <= i <= length dos -> In x (nodes g) -> In y (nodes g) -> rn i x = rn i y -> x = y.
  Proof.
    intros L Ix Iy E. destruct (in_dec eqd x endo) as [Jx|Jx], (in_dec eqd y endo) as [Jy|Jy].
    - rewrite !rn_endo in E by auto. now apply world_name_inj in E.
    - rewrite rn_endo, rn_exo in E by auto. exfalso. eapply Fresh; [exact Jx|exact Iy|exact L|exact E].
    - rewrite rn_exo, rn_endo in E by auto. exfalso. eapply Fresh; [exact Jy|exact Ix|exact L|symmetry; exact E].
    - now rewrite !rn_exo in E by auto.
  Qed.

  (** ** The copies *)

  Definition Nn : list var := filter (fun v => mem v endo) (nodes g).
  Lemma Nn_In v : In v Nn <-> In v endo.
  Proof. unfold Nn. rewrite filter_In, mem_In. split; [tauto|]. intros I. split; [now apply t_endo|auto]. Qed.
  Definition copies : dict var (var * (nat * obs)) :=
    map (fun p => (world_name (snd p) (fst (fst p)), (snd p, fst p))) (list_prod W Nn).
  Lemma copies_In x v i d : In (x, (v, (i, d))) copies <-> x = world_name v i /\ In v endo /\ In (i, d) W.
  Proof.
    unfold copies. rewrite in_map_iff. split.
    - intros ([[j e] w] & E & I). cbn in E. injection E as <- <- <- <-. apply in_prod_iff in I as [I J]. apply Nn_In in J. auto.
    - intros (-> & I & J). exists ((i, d), v). split; [auto|]. apply in_prod_iff. split; [auto|now apply Nn_In].
  Qed.
  Lemma copies_NoDup : NoDup (keys copies).
  Proof.
    unfold keys, copies. rewrite map_map. cbn [fst]. apply NoDup_map_inj.
    - intros [[i d] v] [[j e] w] I J E. cbn in E. apply world_name_inj in E as [-> ->].
      apply in_prod_iff in I as [I _]. apply in_prod_iff in J as [J _]. now rewrite (W_fun j d e I J).
    - apply NoDup_list_prod; [apply W_NoDup|]. apply NoDup_filter, t_wg.
  Qed.
  Lemma copies_get v i d : In v endo -> In (i, d) W -> dget (world_name v i) copies = Some (v, (i, d)).
  Proof. intros I J. apply In_dget; [apply copies_NoDup|]. now apply copies_In. Qed.
  Lemma copies_none x : In x (nodes g) -> dget x copies = None.
  Proof.
    intros I. apply dget_None. intros J. apply keys_In in J as ([v [i d]] & J). apply copies_In in J as (-> & J & K).
    apply W_In in K as (K & _). eapply Fresh; [exact J|exact I|exact K|reflexivity].
  Qed.

  Definition states (v : var) : list state := match dget v D with Some l => l | None => [] end.
  Definition Dt : domain := D ++ map (fun c => (fst c, states (fst (snd c)))) copies.
  Definition world_table (i : nat) (d : obs) (v : var) : mfactor :=
    match mf_rename (do_table F d v) (mapping i) with Ok f => f | Raise _ => do_table F d v end.
  Definition Ft (x : var) : mfactor := match dget x copies with Some (v, (i, d)) => world_table i d v | None => F x end.

  Lemma states_ok v l : In (v, l) D -> states v = l.
  Proof. intros I. unfold states. now rewrite (In_dget v l D (proj1 t_wd) I). Qed.
  Lemma keys_Dt : keys Dt = keys D ++ keys copies.
  Proof. unfold Dt, keys. rewrite map_app, map_map. reflexivity. Qed.
  Lemma Dt_In x l : In (x, l) Dt <-> In (x, l) D \/ exists v i d, x = world_name v i /\ In v endo /\ In (i, d) W /\ In (v, l) D.
  Proof.
    unfold Dt. rewrite in_app_iff, in_map_iff. split.
    - intros [I|([y [v [i d]]] & E & I)]; [auto|]. cbn in E. injection E as <- <-. apply copies_In in I as (-> & I & J). right.
      exists v, i, d. do 3 (split; [auto|]). assert (K := proj2 (t_keys v) (t_endo v I)). apply keys_In in K as (l & K). now rewrite (states_ok v l K).
    - intros [I|(v & i & d & -> & I & J & K)]; [auto|]. right. exists (world_name v i, (v, (i, d))). cbn. rewrite (states_ok v l K).
      split; [auto|]. now apply copies_In.
  Qed.
  Lemma Dt_wf : wf_dom Dt.
  Proof.
    split.
    - rewrite keys_Dt. apply NoDup_app_intro; [apply t_wd|apply copies_NoDup|]. intros x I J. apply t_keys, copies_none in I.
      apply dget_None in I. auto.
    - intros x l I. apply Dt_In in I as [I|(v & i & d & _ & _ & _ & I)]; eapply t_wd; eauto.
  Qed.

  Lemma do_cpt d v : In d dos -> In v (nodes g) -> cpt D vt v (preds (remove_ingoing_edges g (keys d)) v) (do_table F d v) /\
    (In v endo -> zero_one (do_table F d v)).
  Proof.
    intros Id I. destruct (do_object_ok m D F vt endo true H d (proj1 (Kd d Id)) v I) as (f & f' & _ & _ & _ & _ & _ & C & Z & _).
    split; [auto|]. intros J. now apply Z.
  Qed.

  Lemma world_table_ok i d v : In (i, d) W -> In v (nodes g) ->
    mf_rename (do_table F d v) (mapping i) = Ok (world_table i d v) /\
    cpt Dt vt (rn i v) (map (rn i) (preds (remove_ingoing_edges g (keys d)) v)) (world_table i d v) /\
    (In v endo -> zero_one (world_table i d v)) /\
    mf_vars (world_table i d v) = map (rn i) (mf_vars (do_table F d v)) /\
    (forall o o', full (mf_domain (do_table F d v)) o -> (forall w, In w (mf_vars (do_table F d v)) -> dget (rn i w) o' = dget w o) ->
       mf_get_value (world_table i d v) o' = mf_get_value (do_table F d v) o).
  Proof.
    intros IW Iv. destruct (W_In i d IW) as (Li & Id & _). destruct (do_cpt d v Id Iv) as [C Z].
    assert (Sub : forall w l, In (w, l) (mf_domain (do_table F d v)) -> In (w, l) D) by apply C.
    assert (Vn : forall w, In w (mf_vars (do_table F d v)) -> In w (nodes g)).
    { intros w I. apply keys_In in I as (l & I). apply Sub in I. apply t_keys. apply (in_map fst) in I. exact I. }
    destruct (rename_cpt D Dt vt (mapping i) v _ _ C) as (f' & E & C' & Z' & V' & X').
    - intros x y Ix Iy. apply rn_inj; auto.
    - intros w s I. fold (rn i w). assert (U : forall s, w <> String "_"%char s). { intros s'. apply C. exact I. }
      destruct (in_dec eqd w endo) as [J|J]; [rewrite rn_endo by auto|rewrite rn_exo by auto; apply U].
      apply world_name_start; auto.
    - intros w l I. fold (rn i w). apply Dt_In. apply Sub in I. destruct (in_dec eqd w endo) as [J|J]; [|left; now rewrite rn_exo].
      right. exists w, i, d. rewrite rn_endo by auto. auto.
    - unfold world_table. rewrite E. do 2 (split; [auto|]). split; [auto|]. split; [auto|]. exact X'.
  Qed.

  (** ** One world *)

  Definition is_world (i : nat) (d : obs) (mi : pgm) : Prop :=
    (exists ei, m_kind mi = KScm ei true /\ forall x, In x ei -> exists v, In v endo /\ x = world_name v i) /\
    wf_graph (m_graph mi) /\
    (forall x, In x (nodes (m_graph mi)) <-> exists v, In v (nodes g) /\ x = rn i v) /\
    (forall x y, arc (m_graph mi) x y <-> exists p q, arc g p q /\ ~ In q (keys d) /\ x = rn i p /\ y = rn i q) /\
    (forall v, In v (nodes g) -> stored mi (rn i v) (FM (world_table i d v))).

  Lemma world_ok i d : In (i, d) W -> exists mi,
    (let* mi := scm_intervention m d in m_rename mi (mapping i)) = Ok mi /\ is_world i d mi.
  Proof.
    intros IW. destruct (W_In i d IW) as (Li & Id & _).
    destruct (intervention_ok m D F vt endo true H d (proj1 (Kd d Id))) as (m' & E & H' & G' & K' & _ & _ & S').
    rewrite E. cbn [bind]. unfold m_rename. assert (Kind := proj1 H'). rewrite Kind.
    assert (Nk : NoDup (keys (m_factor_dict m'))). { unfold m_factor_dict, keys. rewrite map_map. apply H'. }
    assert (Kk : keys (m_factor_dict m') = nodes g).
    { unfold m_factor_dict, keys. rewrite map_map. cbn. change (keys (m_factors m') = nodes g). rewrite K'. reflexivity. }
    assert (Vs : vals (m_factor_dict m') = map (fun v => FM (do_table F d v)) (nodes g)).
    { rewrite <- Kk. apply vals_map; [auto|]. intros v I. rewrite Kk in I. assert (Sv := S' v _ (St v I)). unfold stored in Sv.
      clear - Sv. unfold m_factor_dict. induction (m_factors m') as [|[w x] l IH]; [discriminate|]. cbn [map dget fst snd] in *.
      destruct (eqd v w); [injection Sv as ->; reflexivity|auto]. }
    rewrite Vs, mapM_map. rewrite (mapM_det _ (fun v => FM (world_table i d v))).
    2:{ intros v I. cbn [fo_rename]. destruct (world_table_ok i d v IW I) as (-> & _). reflexivity. }
    cbn [bind]. rewrite (mapM_det _ (fun v => world_name v i)).
    2:{ intros v I. unfold dlook. rewrite dget_mapping. now rewrite (proj2 (mem_In v endo) I). }
    cbn [bind]. rewrite G'. set (g' := remove_ingoing_edges g (keys d)).
    destruct (remove_ingoing_ok g (keys d) t_wg) as (Ng & Wg & Ag). fold g' in Ng, Wg, Ag.
    destruct (relabel_ok g' (mapping i) Wg) as (Wr & Nr & Ar). set (gi := relabel g' (mapping i)) in *.
    assert (Nr' : forall x, In x (nodes gi) <-> exists v, In v (nodes g) /\ x = rn i v).
    { intros x. rewrite Nr, Ng. reflexivity. }
    assert (Ar' : forall x y, arc gi x y <-> exists p q, arc g p q /\ ~ In q (keys d) /\ x = rn i p /\ y = rn i q).
    { intros x y. rewrite Ar. split; intros (p & q & A & B); exists p, q; rewrite Ag in *; tauto. }
    set (ei := map (fun v => world_name v i) endo).
    assert (Hei : forall x, In x (scm_endo gi (Some ei)) -> exists v, In v endo /\ x = world_name v i).
    { intros x I. assert (C : In x ei \/ exists p, arc gi p x).
      { unfold scm_endo in I. destruct ei as [|y l] eqn:Ee; [|now left]. apply filter_In in I as [_ I]. right.
        destruct (preds gi x) as [|p l] eqn:Ep; [discriminate I|]. exists p. apply (in_preds gi p x). rewrite Ep. now left. }
      destruct C as [C|(p & C)].
      - unfold ei in C. apply in_map_iff in C as (v & <- & C). eauto.
      - apply Ar' in C as (p0 & q & A & _ & _ & ->). assert (Q : In q endo) by (apply He; eauto). exists q. split; [auto|now apply rn_endo]. }
    assert (Ac : acyclic gi).
    { destruct (rank_exists m D F vt) as (rank & R). { eapply causal_network; [exact H|exact St]. }
      intros x Wx.
      assert (Back : forall x y, walk gi x y -> forall p, In p (nodes g) -> x = rn i p -> exists q, In q (nodes g) /\ y = rn i q /\ walk g p q).
      { induction 1 as [x0 y0 A|x0 y0 z0 A _ IH]; intros p Ip Ex.
        - apply Ar' in A as (p' & q & A & _ & Ex' & Ey). assert (In p' (nodes g) /\ In q (nodes g)) as [I1 I2] by (apply t_wg; exact A).
          assert (p' = p) by (apply (rn_inj i); auto; congruence). subst p'. exists q. split; [auto|]. split; [auto|]. now constructor.
        - apply Ar' in A as (p' & q & A & _ & Ex' & Ey). assert (In p' (nodes g) /\ In q (nodes g)) as [I1 I2] by (apply t_wg; exact A).
          assert (p' = p) by (apply (rn_inj i); auto; congruence). subst p'. destruct (IH q I2 Ey) as (z & Iz & Ez & Wz).
          exists z. split; [auto|]. split; [auto|]. exact (walk_step _ _ _ _ A Wz). }
      assert (Ix : exists p, In p (nodes g) /\ x = rn i p).
      { inversion Wx as [? ? A|? ? ? A _]; subst; apply Ar' in A as (p & q & A & _ & -> & _); exists p; (split; [|auto]); apply t_wg in A; apply A. }
      destruct Ix as (p & Ip & ->). destruct (Back _ _ Wx p Ip eq_refl) as (q & Iq & Eq & Wq).
      apply (rn_inj i) in Eq; auto. subst q. now apply (t_ac p). }
    destruct (scm_complete_list Dt gi true true (Some ei) (map (fun v => FM (world_table i d v)) (nodes g))
                (map (fun v => (rn i v, FM (world_table i d v))) (nodes g))
                (fun x => FM (match find (fun v => if eqd (rn i v) x then true else false) (nodes g) with Some v => world_table i d v | None => F x end)))
      as (mi & Emi & (C1 & C2 & C3 & C4 & C5) & _ & Kmi); auto.
    - apply Dt_wf.
    - apply Forall2_map_both. intros v I. cbn [fst snd]. destruct (world_table_ok i d v IW I) as (_ & C & Z & _).
      split; [cbn [fo_left]; now rewrite (cpt_left _ _ _ _ _ C)|].
      apply (accept_scm Dt vt gi _ true (rn i v) (FM (world_table i d v)) (world_table i d v)); [apply Dt_wf| | | |].
      + apply Nr'. eauto.
      + reflexivity.
      + eapply cpt_parents; [|exact C]. intros x. rewrite in_preds, Ar', in_map_iff. split.
        * intros (p & <- & J). apply in_preds, Ag in J as [J Nq]. exists p, v. auto.
        * intros (p & q & A & Nq & -> & Eq). assert (q = v). { apply (rn_inj i); auto. apply t_wg in A. apply A. } subst q.
          exists p. split; [auto|]. apply in_preds, Ag. auto.
      + intros J. split; [|auto]. apply Z. destruct (Hei _ J) as (w & Iw & Ew).
        assert (v = w) as ->; [|auto]. apply (rn_inj i); auto using t_endo. rewrite Ew. symmetry. now apply rn_endo.
    - intros x f I. apply in_map_iff in I as (v & Ev & I). injection Ev as <- <-. f_equal.
      destruct (find _ (nodes g)) as [w|] eqn:Ef.
      + apply find_some in Ef as [Iw Ew]. destruct (eqd (rn i w) (rn i v)) as [E'|]; [|discriminate]. apply (rn_inj i) in E'; auto. now subst w.
      + exfalso. apply (find_none _ _ Ef) in I. rewrite eqd_refl in I. discriminate.
    - intros x I. apply Nr' in I as (v & I & ->). unfold keys. rewrite map_map. cbn. apply in_map. auto.
    - exists mi. split; [exact Emi|]. split; [eauto|]. rewrite C1. do 3 (split; [auto|]).
      intros v I. unfold stored. rewrite C4 by (apply Nr'; eauto). do 3 f_equal.
      destruct (find _ (nodes g)) as [w|] eqn:Ef.
      + apply find_some in Ef as [Iw Ew]. destruct (eqd (rn i w) (rn i v)) as [E'|]; [|discriminate]. apply (rn_inj i) in E'; auto. now subst w.
      + exfalso. apply (find_none _ _ Ef) in I. rewrite eqd_refl in I. discriminate.
  Qed.

  (** ** The fused model *)

  Notation X := (scm_exogenous m).
  Lemma X_In v : In v X <-> In v (nodes g) /\ ~ In v endo.
  Proof.
    unfold scm_exogenous, scm_endogenous. rewrite (proj1 H). rewrite filter_In, negb_true_iff, mem_nIn. tauto.
  Qed.
  Lemma X_root v x : In v X -> ~ arc g x v.
  Proof. intros I A. apply X_In in I as [_ I]. apply I, He. eauto. Qed.

  Definition world_of (io : nat * obs) : res pgm :=
    let mapping := map (fun v => (v, world_name v (fst io))) (scm_endogenous m) in
    let* mi := scm_intervention m (snd io) in m_rename mi mapping.
  Lemma worlds_ok : exists ms, mapM world_of W = Ok ms /\ Forall2 (fun id mi => is_world (fst id) (snd id) mi) W ms.
  Proof.
    assert (A : forall l, incl l W -> exists ms, mapM world_of l = Ok ms /\ Forall2 (fun id mi => is_world (fst id) (snd id) mi) l ms).
    { induction l as [|[i d] l IH]; intros I; [exists []; split; [reflexivity|constructor]|].
      destruct (world_ok i d) as (mi & E & Hw); [apply I; now left|]. destruct IH as (ms & E2 & F2); [intros p J; apply I; now right|].
      exists (mi :: ms). split; [|constructor; auto]. cbn [mapM]. unfold world_of at 1, scm_endogenous. rewrite (proj1 H). cbn [fst snd].
      unfold mapping in E. cbv zeta. rewrite E. cbn [bind]. rewrite E2. reflexivity. }
    apply A, incl_refl.
  Qed.

  Variables (heur : digraph -> list var -> dict var nat -> res (list var)) (so : list (list var) -> list var).
  Hypothesis Hh : is_heuristic heur.
  Hypothesis Hs : is_set_order so.

  Lemma Ft_base v : In v (nodes g) -> Ft v = F v.
  Proof. intros I. unfold Ft. now rewrite (copies_none v I). Qed.
  Lemma Ft_copy v i d : In v endo -> In (i, d) W -> Ft (world_name v i) = world_table i d v.
  Proof. intros I J. unfold Ft. now rewrite (copies_get v i d I J). Qed.

  Section Fused.
    Variable ms : list pgm.
    Hypothesis F2 : Forall2 (fun id mi => is_world (fst id) (snd id) mi) W ms.

    Lemma ms_world mi : In mi ms -> exists i d, In (i, d) W /\ is_world i d mi.
    Proof.
      intros I. clear - F2 I. induction F2 as [|[i d] mj W' ms' R F3 IH]; [destruct I|]. destruct I as [<-|I].
      - exists i, d. split; [now left|auto].
      - destruct (IH F3 I) as (j & e & J & K). exists j, e. split; [now right|auto].
    Qed.
    Lemma world_ms i d : In (i, d) W -> exists mi, In mi ms /\ is_world i d mi.
    Proof.
      intros I. clear - F2 I. induction F2 as [|[j e] mj W' ms' R F3 IH]; [destruct I|]. destruct I as [E|I].
      - injection E as -> ->. exists mj. split; [now left|auto].
      - destruct (IH F3 I) as (mi & J & K). exists mi. split; [now right|auto].
    Qed.
    Notation models := (m :: ms).

    Lemma models_wf mk : In mk models -> wf_graph (m_graph mk).
    Proof. intros [<-|I]; [apply t_wg|]. apply ms_world in I as (i & d & _ & Hw). apply Hw. Qed.
    Lemma models_X mk x : In mk models -> In x X -> In x (nodes (m_graph mk)) /\ forall y, ~ arc (m_graph mk) y x.
    Proof.
      intros [<-|I] J.
      - split; [apply X_In in J; apply J|]. intros y. now apply X_root.
      - apply ms_world in I as (i & d & IW & (_ & _ & Nw & Aw & _)). apply X_In in J as [J J']. split.
        + apply Nw. exists x. split; [auto|]. symmetry. now apply rn_exo.
        + intros y A. apply Aw in A as (p & q & A & _ & _ & Ex). assert (Q : In q endo) by (apply He; eauto).
          rewrite rn_endo in Ex by auto. apply W_In in IW as (L & _). eapply Fresh; [exact Q|exact J|exact L|auto].
    Qed.
    Lemma models_stored mk x : In mk models -> In x (nodes (m_graph mk)) -> ~ In x X -> dlook x (m_factors mk) = Ok (Some (FM (Ft x))).
    Proof.
      intros [<-|I] J NX.
      - unfold dlook. assert (S := St x J). unfold stored in S. rewrite S. now rewrite Ft_base.
      - apply ms_world in I as (i & d & IW & (_ & _ & Nw & _ & Sw)). apply Nw in J as (v & J & ->).
        assert (Q : In v endo). { destruct (in_dec eqd v endo) as [Q|Q]; [auto|]. exfalso. apply NX. rewrite rn_exo by auto. apply X_In. auto. }
        assert (S := Sw v J). unfold stored in S. unfold dlook. rewrite S. rewrite rn_endo by auto. now rewrite (Ft_copy v i d).
    Qed.

    Definition gt : digraph := fold_left (fun g m => fold_left add_edge (g_edges (m_graph m)) g) models (fold_left add_node (nodes g) (mkG [] [])).
    Lemma gt_wf : wf_graph gt.
    Proof. apply (fuse_ok models models_wf). apply (fold_node (nodes g) (mkG [] []) empty_wf). Qed.
    Lemma gt_arc x y : arc gt x y <-> arc g x y \/ exists i d p q, In (i, d) W /\ arc g p q /\ ~ In q (keys d) /\ x = rn i p /\ y = rn i q.
    Proof.
      destruct (fold_node (nodes g) (mkG [] []) empty_wf) as (W0 & E0 & N0).
      destruct (fuse_ok models models_wf _ W0) as (_ & _ & A). unfold gt. rewrite A. unfold arc at 1. rewrite E0. split.
      - intros [[]|(mk & [<-|I] & J)]; [auto|]. apply ms_world in I as (i & d & IW & (_ & _ & _ & Aw & _)).
        apply Aw in J as (p & q & J). right. exists i, d, p, q. auto.
      - intros [I|(i & d & p & q & IW & J)]; [right; exists m; split; [now left|auto]|].
        destruct (world_ms i d IW) as (mi & I & (_ & _ & _ & Aw & _)). right. exists mi. split; [now right|]. apply Aw. eauto.
    Qed.
    Lemma gt_nodes_sub x : In x (nodes gt) -> In x (keys Dt).
    Proof.
      destruct (fold_node (nodes g) (mkG [] []) empty_wf) as (W0 & E0 & N0).
      destruct (fuse_ok models models_wf _ W0) as (_ & B & _). rewrite keys_Dt, in_app_iff, t_keys.
      intros I. apply B in I as [I|(mk & y & I & J)]; [apply N0 in I as [[]|I]; auto|].
        assert (K : In x (nodes (m_graph mk))). { apply models_wf in I. destruct J as [J|J]; apply I in J; apply J. }
        destruct I as [<-|I]; [auto|]. apply ms_world in I as (i & d & IW & (_ & _ & Nw & _)). apply Nw in K as (v & K & ->).
        destruct (in_dec eqd v endo) as [Q|Q]; [|left; now rewrite rn_exo]. right. rewrite rn_endo by auto.
        apply (dget_keys (world_name v i) copies). exists (v, (i, d)). now apply copies_get.
    Qed.
    Lemma gt_base x : In x (nodes g) -> In x (nodes gt).
    Proof.
      destruct (fold_node (nodes g) (mkG [] []) empty_wf) as (W0 & E0 & N0).
      destruct (fuse_ok models models_wf _ W0) as (_ & B & _). intros I. apply B. left. apply N0. auto.
    Qed.
    Definition childless (d : obs) (v : var) : Prop := forall w, arc g v w -> In w (keys d).
    Lemma gt_isolated v i d : In v endo -> In (i, d) W -> (In (world_name v i) (nodes gt) <-> ~ (In v (keys d) /\ childless d v)).
    Proof.
      intros I J. split.
      - intros K [Kd' Ch]. destruct (fold_node (nodes g) (mkG [] []) empty_wf) as (W0 & E0 & N0).
        destruct (fuse_ok models models_wf _ W0) as (_ & B & _). apply B in K as [K|(mk & y & Im & A)].
        + apply N0 in K as [[]|K]. apply W_In in J as (L & _). eapply Fresh; [exact I|exact K|exact L|reflexivity].
        + assert (A' : arc gt y (world_name v i) \/ arc gt (world_name v i) y).
          { destruct (fuse_ok models models_wf _ W0) as (_ & _ & A'). unfold gt. destruct A as [A|A]; [left|right]; apply A'; right; eauto. }
          clear A. destruct A' as [A|A]; apply gt_arc in A as [A|(j & e & p & q & JW & A & Nq & Ex & Ey)].
          * apply W_In in J as (L & _). eapply Fresh; [exact I| |exact L|reflexivity]. apply t_wg in A. apply A.
          * assert (Q : In q endo) by (apply He; eauto). rewrite rn_endo in Ey by auto. apply world_name_inj in Ey as [-> ->].
            rewrite (W_fun j e d JW J) in Nq. auto.
          * apply W_In in J as (L & _). eapply Fresh; [exact I| |exact L|reflexivity]. apply t_wg in A. apply A.
          * assert (Ip : In p (nodes g)) by (apply t_wg in A; apply A). destruct (in_dec eqd p endo) as [Q|Q].
            -- rewrite rn_endo in Ex by auto. apply world_name_inj in Ex as [-> ->]. rewrite (W_fun j e d JW J) in Nq. now apply Nq, Ch.
            -- rewrite rn_exo in Ex by auto. subst p. apply W_In in J as (L & _). eapply Fresh; [exact I|exact Ip|exact L|reflexivity].
      - intros K. assert (Hx : exists y, arc gt (rn i v) y \/ arc gt y (rn i v)).
        { destruct (in_dec eqd v (keys d)) as [Kv|Kv].
          - destruct (existsb (fun w => negb (mem w (keys d))) (succs g v)) eqn:Ex.
            + apply existsb_exists in Ex as (w & Iw & Nw). apply negb_true_iff, mem_nIn in Nw. apply in_succs in Iw.
              exists (rn i w). left. apply gt_arc. right. exists i, d, v, w. auto.
            + exfalso. apply K. split; [auto|]. intros w A. apply in_succs in A.
              destruct (in_dec eqd w (keys d)) as [Iw|Nw]; [auto|]. exfalso. rewrite <- not_true_iff_false in Ex. apply Ex.
              apply existsb_exists. exists w. split; [auto|]. now apply negb_true_iff, mem_nIn.
          - assert (I' := I). apply He in I' as (p & A). exists (rn i p). right. apply gt_arc. right. exists i, d, p, v. auto. }
        rewrite rn_endo in Hx by auto. destruct Hx as (y & [A|A]); apply gt_wf in A; apply A.
    Qed.

    Lemma gt_preds_base v x : In v (nodes g) -> (arc gt x v <-> arc g x v).
    Proof.
      intros I. rewrite gt_arc. split; [|auto]. intros [A|(i & d & p & q & IW & A & _ & _ & E)]; [auto|]. exfalso.
      assert (Q : In q endo) by (apply He; eauto). rewrite rn_endo in E by auto. apply W_In in IW as (L & _).
      eapply Fresh; [exact Q|exact I|exact L|auto].
    Qed.
    Lemma gt_preds_copy v i d x : In v endo -> In (i, d) W -> 
      (arc gt x (world_name v i) <-> exists p, arc g p v /\ ~ In v (keys d) /\ x = rn i p).
    Proof.
      intros I IW. rewrite gt_arc. split.
      - intros [A|(j & e & p & q & JW & A & Nq & -> & E)].
        + exfalso. apply W_In in IW as (L & _). eapply Fresh; [exact I| |exact L|reflexivity]. apply t_wg in A. apply A.
        + assert (Q : In q endo) by (apply He; eauto). rewrite rn_endo in E by auto. apply world_name_inj in E as [<- <-].
          rewrite (W_fun i e d JW IW) in Nq. eauto.
      - intros (p & A & Nv & ->). right. exists i, d, p, v. rewrite (rn_endo i v I). auto.
    Qed.

    Lemma gt_acyclic : acyclic gt.
    Proof.
      destruct (rank_exists m D F vt) as (rank & R). { eapply causal_network; [exact H|exact St]. }
      assert (R' : forall p q, arc g p q -> rank p < rank q).
      { intros p q A. assert (In p (nodes g) /\ In q (nodes g)) as [Ip Iq] by (apply t_wg; exact A). apply R.
        - now apply t_keys.
        - apply (fam_In m D F vt); [eapply causal_network; [exact H|exact St]|now apply t_keys|auto].
        - intros ->. eapply t_ac. constructor. exact A. }
      apply (rank_acyclic gt (fun x => match dget x copies with Some (v, _) => rank v | None => rank x end)).
      assert (Rn : forall i d p, In (i, d) W -> In p (nodes g) -> match dget (rn i p) copies with Some (v, _) => rank v | None => rank (rn i p) end = rank p).
      { intros i d p IW I. destruct (in_dec eqd p endo) as [Q|Q].
        - rewrite rn_endo by auto. now rewrite (copies_get p i d Q IW).
        - rewrite rn_exo by auto. now rewrite (copies_none p I). }
      intros x y A. apply gt_arc in A as [A|(i & d & p & q & IW & A & _ & -> & ->)].
      - assert (In x (nodes g) /\ In y (nodes g)) as [Ip Iq] by (apply t_wg; exact A). rewrite !copies_none by auto. auto.
      - assert (In p (nodes g) /\ In q (nodes g)) as [Ip Iq] by (apply t_wg; exact A). rewrite (Rn i d p), (Rn i d q) by auto. auto.
    Qed.

    Lemma gt_cpt x : In x (keys Dt) -> cpt Dt vt x (preds gt x) (Ft x) /\ (~ In x X -> zero_one (Ft x)).
    Proof.
      intros I. rewrite keys_Dt, in_app_iff in I. destruct I as [I|I].
      - apply t_keys in I. rewrite Ft_base by auto. split.
        + assert (C := t_cpt x I). destruct C as (c1 & c2 & c3 & c4 & c5 & c6).
          split; [auto|]. split; [auto|]. split; [auto|]. split; [|split; [|exact c6]].
          * intros y. rewrite (c4 y), !in_preds. symmetry. now apply gt_preds_base.
          * intros w l J. apply Dt_In. left. auto.
        + intros J. apply t_zero. destruct (in_dec eqd x endo) as [Q|Q]; [auto|]. exfalso. apply J, X_In. auto.
      - apply keys_In in I as ([v [i d]] & I). apply copies_In in I as (-> & I & IW). rewrite (Ft_copy v i d) by auto.
        destruct (world_table_ok i d v IW (t_endo v I)) as (_ & C & Z & _). split; [|auto]. rewrite rn_endo in C by auto.
        eapply cpt_parents; [|exact C]. destruct (remove_ingoing_ok g (keys d) t_wg) as (Ng & Wg & Ag).
        intros y. rewrite in_preds, (gt_preds_copy v i d y I IW), in_map_iff. split.
        + intros (p & <- & J). apply in_preds, Ag in J. exists p. tauto.
        + intros (p & A & Nv & ->). exists p. split; [auto|]. apply in_preds, Ag. auto.
    Qed.

    Lemma all_roots_ok l : (forall x mk, In (x, mk) l -> In x X /\ In mk models) -> all_roots l = Ok true.
    Proof.
      induction l as [|[x mk] l IH]; intros A; [reflexivity|]. cbn [all_roots]. destruct (A x mk (or_introl eq_refl)) as [Ix Im].
      destruct (models_X mk x Im Ix) as [J Nr]. unfold predecessors. rewrite (proj2 (mem_In x _) J). cbn [bind].
      destruct (preds (m_graph mk) x) as [|y r] eqn:E.
      - cbn. apply IH. intros y mj I. apply A. now right.
      - exfalso. apply (Nr y). apply in_preds. rewrite E. now left.
    Qed.

    Notation et := (concat (map scm_endogenous models)).
    Lemma fusion_unfold : exists names, (forall x, In x names <-> In x (keys Dt)) /\
      fusion_roots so models X (Some et) = scm_init (GDag gt) (Some (FsList (map (fun x => FM (Ft x)) names))) (Some et) true true.
    Proof.
      set (sel := fun mk : pgm => so [filter (fun v => negb (mem v X)) (nodes (m_graph mk))]).
      assert (Sel : forall mk x, In x (sel mk) <-> In x (nodes (m_graph mk)) /\ ~ In x X).
      { intros mk x. unfold sel. rewrite (proj2 (Hs _) x). cbn [concat]. rewrite app_nil_r, filter_In, negb_true_iff, mem_nIn. tauto. }
      exists (X ++ concat (map sel models)). split.
      { intros x. rewrite keys_Dt. rewrite !in_app_iff. split.
        - intros [I|I]; [left; apply t_keys; apply X_In in I; apply I|]. apply in_concat in I as (l & I & J).
          apply in_map_iff in I as (mk & <- & I). apply Sel in J as [J K]. destruct I as [<-|I]; [left; now apply t_keys|].
          apply ms_world in I as (i & d & IW & (_ & _ & Nw & _)). apply Nw in J as (v & J & ->).
          destruct (in_dec eqd v endo) as [Q|Q]; [|left; rewrite rn_exo by auto; now apply t_keys]. right. rewrite rn_endo by auto.
          apply (dget_keys (world_name v i) copies). exists (v, (i, d)). now apply copies_get.
        - intros [I|I].
          + apply t_keys in I. destruct (in_dec eqd x X) as [J|J]; [auto|]. right. apply in_concat. exists (sel m). split; [now left|].
            apply Sel. auto.
          + right. apply keys_In in I as ([v [i d]] & I). apply copies_In in I as (-> & I & IW).
            destruct (world_ms i d IW) as (mi & Im & (_ & _ & Nw & _)). apply in_concat. exists (sel mi). split; [right; now apply in_map|].
            apply Sel. split; [apply Nw; exists v; split; [now apply t_endo|symmetry; now apply rn_endo]|].
            intros J. apply X_In in J as [J _]. apply W_In in IW as (L & _). eapply Fresh; [exact I|exact J|exact L|reflexivity]. }
      unfold fusion_roots. rewrite all_roots_ok.
      2:{ intros x mk I. split; [eapply in_combine_l; eauto|eapply in_combine_r; eauto]. }
      cbn [bind negb].
      assert (E1 : forallb (fun m0 => Bool.eqb (is_scm m0) (is_scm m)) ms = true).
      { apply forallb_forall. intros mk I. unfold is_scm. rewrite (proj1 H). apply ms_world in I as (i & d & _ & ((ei & -> & _) & _)). reflexivity. }
      rewrite E1. cbn [negb]. fold gt.
      assert (E2 : get_factors m X = Ok (map (fun x => Some (FM (Ft x))) X)).
      { apply mapM_det. intros x I. apply X_In in I as [I _]. unfold dlook. assert (S := St x I). unfold stored in S. now rewrite S, Ft_base. }
      rewrite E2. cbn [bind]. 
      rewrite (mapM_det _ (fun mk => map (fun x => Some (FM (Ft x))) (sel mk))).
      2:{ intros mk I. apply mapM_det. intros x J. apply Sel in J as [J K]. now apply models_stored. }
      cbn [bind]. rewrite (proj1 H).
      assert (E3 : map as_fobj (map (fun x => Some (FM (Ft x))) X ++ concat (map (fun mk => map (fun x => Some (FM (Ft x))) (sel mk)) models))
                 = map (fun x => FM (Ft x)) (X ++ concat (map sel models))).
      { rewrite !map_app, map_map. f_equal. generalize models. clear. intros L. induction L as [|mk l IH]; [reflexivity|].
        cbn [map concat]. rewrite !map_app, IH, map_map. reflexivity. }
      rewrite E3. reflexivity.
    Qed.
    Lemma et_endo x : In x (scm_endo gt (Some et)) -> ~ In x X.
    Proof.
      intros I J. assert (C : In x et \/ exists p, arc gt p x).
      { unfold scm_endo in I. destruct et as [|y l] eqn:Ee; [|now left]. apply filter_In in I as [_ I]. right.
        destruct (preds gt x) as [|p l] eqn:Ep; [discriminate I|]. exists p. apply (in_preds gt p x). rewrite Ep. now left. }
      apply X_In in J as [Jn Je]. destruct C as [C|(p & C)].
      - apply in_concat in C as (l & C & K). apply in_map_iff in C as (mk & <- & C). destruct C as [<-|C].
        + unfold scm_endogenous in K. rewrite (proj1 H) in K. auto.
        + apply ms_world in C as (i & d & IW & ((ei & Ek & Hei) & _)). unfold scm_endogenous in K. rewrite Ek in K.
          apply Hei in K as (v & K & ->). apply W_In in IW as (L & _). eapply Fresh; [exact K|exact Jn|exact L|reflexivity].
      - apply gt_preds_base in C; [|auto]. apply Je, He. eauto.
    Qed.
    Lemma gt_accepted x : In x (nodes gt) -> accepted Dt gt true (KScm (scm_endo gt (Some et)) true) x (FM (Ft x)) (FM (Ft x)).
    Proof.
      intros I. destruct (gt_cpt x (gt_nodes_sub x I)) as [C Z].
      apply (accept_scm Dt vt gt _ true x (FM (Ft x)) (Ft x)); [apply Dt_wf|auto|reflexivity|auto|].
      intros J. split; [|auto]. apply Z. now apply et_endo.
    Qed.

    Lemma fused : (forall d v, In d dos -> In v (keys d) -> In v endo -> ~ childless d v) ->
      exists mt, fusion_roots so models X (Some et) = Ok mt /\ m_graph mt = gt /\ network mt Dt Ft vt.
    Proof.
      intros Child. destruct fusion_unfold as (names & Names & ->).
      assert (gt_nodes : forall x, In x (nodes gt) <-> In x (keys Dt)).
      { intros x. split; [apply gt_nodes_sub|]. rewrite keys_Dt, in_app_iff. intros [I|I]; [apply gt_base; now apply t_keys|].
        apply keys_In in I as ([v [i d]] & I). apply copies_In in I as (-> & I & J). apply (gt_isolated v i d I J). intros [K1 K2].
        eapply Child; [|exact K1|exact I|exact K2]. apply W_In in J. apply J. }
      destruct (scm_complete_list Dt gt true true (Some et) (map (fun x => FM (Ft x)) names) (map (fun x => (x, FM (Ft x))) names)
                  (fun x => FM (Ft x))) as (mt & Emt & (C1 & C2 & C3 & C4 & C5) & _ & Kmt).
      - apply Dt_wf.
      - apply gt_wf.
      - apply gt_acyclic.
      - apply Forall2_map_both. intros x I. cbn [fst snd]. apply Names in I. destruct (gt_cpt x I) as [C Z].
        split; [cbn [fo_left]; now rewrite (cpt_left _ _ _ _ _ C)|]. apply gt_accepted. now apply gt_nodes.
      - intros x f I. apply in_map_iff in I as (y & E & _). injection E as <- <-. reflexivity.
      - intros x I. unfold keys. rewrite map_map. cbn. rewrite map_id. now apply Names, gt_nodes.
      - exists mt. split; [exact Emt|]. split; [auto|].
        unfold network. rewrite C1. split; [apply gt_wf|]. split; [apply gt_acyclic|]. split; [apply Dt_wf|].
        split; [intros x; symmetry; apply gt_nodes|]. rewrite C2. split; [apply gt_wf|]. split; [intros x; tauto|].
        intros x I. split; [now apply C4|]. apply gt_cpt. now apply gt_nodes.
    Qed.

    Lemma fused_childless d v : In d dos -> In v (keys d) -> In v endo -> childless d v ->
      fusion_roots so models X (Some et) = Raise NetworkXError.
    Proof.
      intros Id Iv Ev Ch. destruct fusion_unfold as (names & Names & ->). apply In_nth_error in Id as (k & Ek).
      assert (IW : In (S k, d) W). { apply combine_seq_In. split; [lia|]. now rewrite Nat.sub_1_r. }
      rewrite (scm_list_unfold gt _ true true (Some et) gt_wf gt_acyclic).
      assert (Bad : forall l, (forall x, In x l -> In x (keys Dt)) -> (exists x, In x l /\ ~ In x (nodes gt)) -> 
         forall done m0, partial Dt gt true (KScm (scm_endo gt (Some et)) true) done m0 ->
         foldM put_step (map (fun x => FM (Ft x)) l) m0 = Raise NetworkXError).
      { induction l as [|x l IH]; intros Hl (y & Iy & Ny) done m0 B; [destruct Iy|]. cbn [map foldM].
        destruct (gt_cpt x (Hl x (or_introl eq_refl))) as [C Z]. unfold put_step at 1. cbn [fo_left]. rewrite (cpt_left _ _ _ _ _ C).
        cbn [bind length Nat.ltb Nat.leb]. unfold py_nth. cbn [nth_error bind].
        destruct (in_dec eqd x (nodes gt)) as [Ix|Ix].
        - destruct (put_one Dt (proj1 Dt_wf) gt true _ done m0 x _ _ B (gt_accepted x Ix)) as (m1 & E1 & B1). rewrite E1. cbn [bind].
          apply (IH (fun z Iz => Hl z (or_intror Iz))) with (2 := B1). exists y. split; [|auto]. destruct Iy as [->|Iy]; [contradiction|auto].
        - assert (Es : set_or_raise m0 x (FM (Ft x)) = Raise NetworkXError); [|now rewrite Es].
          destruct B as (Bg & Bc & Bk & _). unfold set_or_raise, set_factor. rewrite Bk. unfold scm_prepare. rewrite Bc.
          assert (Ep : (if mem x (scm_endo gt (Some et)) then
             let* ok := mf_is_degenerate (Ft x) in (if negb ok then Raise ValueError else Ok (FM (Ft x))) else Ok (FM (Ft x))) = Ok (FM (Ft x))).
          { destruct (mem x _) eqn:M; [|auto]. apply mem_In, et_endo in M. destruct (is_degenerate_ok (Ft x) (proj1 C)) as (b & Eb & Hb). rewrite Eb. cbn [bind].
            rewrite (proj2 Hb (Z M)). reflexivity. }
          rewrite Ep. unfold set_factor_base. rewrite Bc. unfold check_factor. rewrite Bg. 
          rewrite (get_parents_unknown gt [x] x); [reflexivity|now left|auto]. }
      eapply Bad; [|exists (world_name v (S k)); split|apply partial_fresh].
      - intros x I. now apply Names.
      - apply Names. rewrite keys_Dt. apply in_app_iff. right. apply (dget_keys (world_name v (S k)) copies). exists (v, (S k, d)). now apply copies_get.
      - intros I. apply (gt_isolated v (S k) d Ev IW) in I. apply I. auto.
    Qed.
  End Fused.

  Lemma preprocess_childless dd d v : do_list dd = dos -> In d dos -> In v (keys d) -> In v endo -> childless d v ->
    ci_preprocess so m dd true = Raise NetworkXError.
  Proof.
    intros Ed Id Iv Ev Ch. destruct worlds_ok as (ms & Em & F2). assert (E := fused_childless ms F2 d v Id Iv Ev Ch).
    unfold ci_preprocess. rewrite Ed. change (mapM _ W) with (mapM world_of W). rewrite Em. cbn [bind]. exact E.
  Qed.

  Hypothesis Child : forall d v, In d dos -> In v (keys d) -> In v endo -> ~ childless d v.
  Lemma preprocess_ok dd : do_list dd = dos -> exists mt, ci_preprocess so m dd true = Ok mt /\ network mt Dt Ft vt /\
    (forall v x, In v X -> ~ arc (m_graph mt) x v) /\ (forall v, In v (keys Dt) -> ~ In v X -> zero_one (Ft v)).
  Proof.
    intros Ed. destruct worlds_ok as (ms & Em & F2). destruct (fused ms F2 Child) as (mt & E & Gt & Net). exists mt.
    split; [|split; [auto|split]].
    - unfold ci_preprocess. rewrite Ed. change (mapM _ W) with (mapM world_of W). rewrite Em. cbn [bind]. exact E.
    - intros v x I A. rewrite Gt in A. apply (gt_preds_base ms F2) in A; [now apply X_root in A|]. apply X_In in I. apply I.
    - intros v I J. apply (gt_cpt ms F2 v I). auto.
  Qed.

  (** ** What the fused model computes *)

  Definition base_of (o : obs) : obs := obs_of (keys D) (asg_of o).
  Definition part_of (i : nat) (o : obs) : obs := obs_of (keys D) (fun v => asg_of o (rn i v)).
  Lemma dget_part i o v : In v (keys D) -> dget v (part_of i o) = Some (asg_of o (rn i v)).
  Proof. intros I. exact (agrees_obs_of (keys D) (fun v => asg_of o (rn i v)) v I). Qed.
  Lemma dget_base o v : In v (keys D) -> dget v (base_of o) = Some (asg_of o v).
  Proof. intros I. exact (agrees_obs_of (keys D) (asg_of o) v I). Qed.
  Lemma keys_part i o : keys (part_of i o) = keys D.
  Proof. apply keys_obs_of. Qed.
  Lemma keys_base o : keys (base_of o) = keys D.
  Proof. apply keys_obs_of. Qed.
  Lemma part_NoDup i o : NoDup (keys (part_of i o)).
  Proof. rewrite keys_part. apply t_wd. Qed.
  Lemma base_NoDup o : NoDup (keys (base_of o)).
  Proof. rewrite keys_base. apply t_wd. Qed.
  Lemma Dt_rn i d v l : In (i, d) W -> In (v, l) D -> In (rn i v, l) Dt.
  Proof.
    intros IW I. apply Dt_In. destruct (in_dec eqd v endo) as [J|J]; [|left; now rewrite rn_exo].
    right. exists v, i, d. rewrite rn_endo by auto. auto.
  Qed.
  Lemma part_all i d o : In (i, d) W -> full Dt o -> In (part_of i o) (all_assignments D).
  Proof. intros IW Fo. apply obs_of_all; [apply t_wd|]. intros v l I. apply (full_valid' Dt o Fo). eapply Dt_rn; eauto. Qed.
  Lemma base_all o : full Dt o -> In (base_of o) (all_assignments D).
  Proof. intros Fo. apply obs_of_all; [apply t_wd|]. intros v l I. apply (full_valid' Dt o Fo). apply Dt_In. auto. Qed.
  Lemma all_full o : In o (all_assignments D) -> full D o /\ keys o = keys D.
  Proof. intros I. apply (all_assignments_In_full D o (proj1 t_wd)) in I. tauto. Qed.

  Lemma entry_copy i d v o : In (i, d) W -> In v endo -> full Dt o -> entry (Ft (world_name v i)) o = entry (do_table F d v) (part_of i o).
  Proof.
    intros IW I Fo. rewrite (Ft_copy v i d I IW). destruct (world_table_ok i d v IW (t_endo v I)) as (_ & C & _ & _ & V). unfold entry.
    destruct (W_In i d IW) as (_ & Id & _). destruct (do_cpt d v Id (t_endo v I)) as [C' _].
    destruct (all_full (part_of i o) (part_all i d o IW Fo)) as [Fp _].
    rewrite (V (part_of i o) o); [auto| |].
    - intros w l J. apply Fp. apply C'. auto.
    - intros w J. assert (Kw : In w (keys D)). { apply keys_In in J as (l & J). apply C' in J. apply (in_map fst) in J. exact J. }
      rewrite dget_part by auto. apply (full_asg Dt); [auto|]. apply keys_In in Kw as (l & Kw). apply (Dt_rn i d _ _ IW) in Kw. apply (in_map fst) in Kw. exact Kw.
  Qed.
  Lemma entry_base v o : In v (nodes g) -> full Dt o -> entry (Ft v) o = entry (F v) (base_of o).
  Proof.
    intros I Fo. rewrite (Ft_base v I). unfold entry, mf_get_value. assert (C := t_cpt v I).
    destruct (all_full (base_of o) (base_all o Fo)) as [Fp _].
    rewrite (get_value_agree (mf_store (F v)) (base_of o) o); [auto|apply C| |].
    - intros w l J. apply Fp. apply C. auto.
    - intros w J. assert (Kw : In w (keys D)). { apply keys_In in J as (l & J). apply C in J. apply (in_map fst) in J. exact J. }
      rewrite dget_base by auto. apply (full_asg Dt); [auto|]. rewrite keys_Dt. apply in_app_iff. auto.
  Qed.

  Lemma solves_do d o : In d dos -> In o (all_assignments D) -> solves D F X d o = solves D (do_table F d) X [] o.
  Proof.
    intros Id Io. apply all_full in Io as [Fo Ko]. unfold solves. apply forallb_ext_in'. intros v I.
    rewrite keys_drop' in I. apply minus_In in I as [I J]. cbn [dget]. destruct (dget v d) as [x|] eqn:E.
    - destruct (do_object_ok m D F vt endo true H d (proj1 (Kd d Id)) v (proj1 (t_keys v) I)) as (_ & _ & _ & _ & _ & _ & _ & _ & _ & PM).
      apply keys_In in I as (l & I). destruct (Fo v l I) as (s & Es & Is). destruct (PM x l E I) as (_ & _ & V).
      unfold entry. rewrite (V o s Es Is), Es. destruct (eqd s x); [destruct (Qc_eq_dec 1 1); [auto|contradiction]|reflexivity].
    - unfold do_table. now rewrite E.
  Qed.
  Lemma happens_do d u E : In d dos -> happens D F X u d E = happens D (do_table F d) X u [] E.
  Proof.
    intros Id. unfold happens. assert (A : forall l, incl l (all_assignments D) ->
      existsb (fun o => solves D F X d o && consistent u o && consistent E o) l = existsb (fun o => solves D (do_table F d) X [] o && consistent u o && consistent E o) l).
    { induction l as [|o l IH]; intros I; [reflexivity|]. cbn. rewrite (solves_do d o) by (auto; apply I; now left). f_equal. apply IH. intros p J. apply I. now right. }
    apply A, incl_refl.
  Qed.

  Lemma drop_X v : In v (keys (drop X D)) <-> In v endo.
  Proof.
    rewrite keys_drop', minus_In, t_keys, X_In. split.
    - intros [I J]. destruct (in_dec eqd v endo) as [K|K]; [auto|]. exfalso. auto.
    - intros I. split; [now apply t_endo|]. tauto.
  Qed.
  Lemma solves_part i d o : In (i, d) W -> full Dt o -> solves Dt Ft X [] o = true -> solves D (do_table F d) X [] (part_of i o) = true.
  Proof.
    intros IW Fo S. unfold solves in *. rewrite forallb_forall in *. intros v I. apply drop_X in I. cbn [dget].
    rewrite <- (entry_copy i d v o IW I Fo). apply (S (world_name v i)). rewrite keys_drop', minus_In, keys_Dt, in_app_iff. split.
    - right. apply (dget_keys (world_name v i) copies). exists (v, (i, d)). now apply copies_get.
    - intros J. apply X_In in J as [J _]. apply W_In in IW as (L & _). eapply Fresh; [exact I|exact J|exact L|reflexivity].
  Qed.
  Lemma solves_base o : full Dt o -> solves Dt Ft X [] o = true -> solves D F X [] (base_of o) = true.
  Proof.
    intros Fo S. unfold solves in *. rewrite forallb_forall in *. intros v I. assert (I' := I). apply drop_X in I. cbn [dget].
    rewrite <- (entry_base v o (t_endo v I) Fo). apply (S v). rewrite keys_drop', minus_In in *. rewrite keys_Dt, in_app_iff. tauto.
  Qed.

  Lemma pick_X : pick X Dt = pick X D.
  Proof.
    unfold pick, Dt. rewrite filter_app. rewrite <- (app_nil_r (filter _ D)) at 2. f_equal. apply filter_none.
    intros [x l] I. apply in_map_iff in I as ([y [v [i d]]] & E & I). cbn in E. injection E as <- <-. apply copies_In in I as (-> & I & IW). cbn.
    apply mem_nIn. intros J. apply X_In in J as [J _]. apply W_In in IW as (L & _). eapply Fresh; [exact I|exact J|exact L|reflexivity].
  Qed.
  Lemma unit_keys u v : In u (all_assignments (pick X D)) -> In v (keys u) -> In v X.
  Proof.
    intros Iu I. apply (all_assignments_In_full (pick X D) _ (proj1 (wf_pick' X D t_wd))) in Iu as [Ku _]. rewrite Ku, keys_pick' in I.
    apply filter_In in I as [_ I]. now apply mem_In.
  Qed.
  Lemma cons_part i u o : In u (all_assignments (pick X D)) -> full Dt o -> keys o = keys Dt -> consistent u o = true ->
    consistent u (part_of i o) = true /\ consistent u (base_of o) = true.
  Proof.
    intros Iu Fo Ko C. assert (No : NoDup (keys o)) by (rewrite Ko; apply Dt_wf).
    assert (A : forall v x, dget v u = Some x -> In v (keys D) /\ ~ In v endo /\ asg_of o v = x).
    { intros v x E. assert (Iv : In v X) by (eapply unit_keys; [exact Iu|apply dget_keys; eauto]). apply X_In in Iv as [Iv Jv].
      assert (Kv : In v (keys Dt)) by (rewrite keys_Dt, in_app_iff, t_keys; auto). split; [now apply t_keys|]. split; [auto|].
      symmetry. exact (cons_get o v _ No (full_asg Dt o v Fo Kv) u C x E). }
    split; (apply cons_intro; [first [apply part_NoDup|apply base_NoDup]|]); intros v s x Es Ex; destruct (A v x Ex) as (Kv & Nv & <-).
    - rewrite dget_part, rn_exo in Es by auto. congruence.
    - rewrite dget_base in Es by auto. congruence.
  Qed.

  (** ** Evidence and targets *)

  Definition target_names (ti : list (var * nat)) : list var := map (fun p => world_name (fst p) (snd p)) ti.
  Lemma dget_target ti xs v i : dget (world_name v i) (combine (target_names ti) xs) = dget v (in_world i ti xs).
  Proof.
    unfold in_world, target_names. revert xs. induction ti as [|[w j] ti IH]; intros [|x xs]; try reflexivity. cbn [map combine filter fst snd dget].
    destruct (j =? i) eqn:Ej.
    - apply Nat.eqb_eq in Ej as ->. cbn [map dget fst snd]. rewrite IH. destruct (eqd (world_name v i) (world_name w i)) as [E|E], (eqd v w) as [E'|E']; auto.
      + apply world_name_inj in E as [E _]. contradiction.
      + subst w. contradiction.
    - rewrite IH. destruct (eqd (world_name v i) (world_name w j)) as [E|E]; [|auto]. apply world_name_inj in E as [_ E]. subst j. now rewrite Nat.eqb_refl in Ej.
  Qed.

  Definition do_pairs : obs := flat_map (fun io => map (fun kv => (world_name (fst kv) (fst io), snd kv)) (snd io)) W.
  Lemma do_pairs_In x s : In (x, s) do_pairs <-> exists i d v, In (i, d) W /\ In (v, s) d /\ x = world_name v i.
  Proof.
    unfold do_pairs. rewrite in_flat_map. split.
    - intros ([i d] & I & J). apply in_map_iff in J as ([v s'] & E & J). cbn in E. injection E as <- <-. exists i, d, v. auto.
    - intros (i & d & v & I & J & ->). exists (i, d). split; [auto|]. apply in_map_iff. exists (v, s). auto.
  Qed.
  Lemma do_pairs_NoDup : NoDup (keys do_pairs).
  Proof.
    assert (A : forall l, incl l W -> NoDup (map fst l) -> NoDup (keys (flat_map (fun io : nat * obs => map (fun kv => (world_name (fst kv) (fst io), snd kv)) (snd io)) l))).
    { induction l as [|[i d] l IH]; intros I N; [constructor|]. cbn [flat_map fst snd]. unfold keys. rewrite map_app. inversion N as [|? ? N1 N2]; subst.
      apply NoDup_app_intro.
      - rewrite map_map. cbn [fst]. rewrite <- (map_map fst (fun v => world_name v i)). apply NoDup_map_inj.
        + intros a b _ _ E. now apply world_name_inj in E.
        + destruct (W_In i d) as (_ & Id & _); [apply I; now left|]. apply (Kd d Id).
      - apply IH; [intros p J; apply I; now right|auto].
      - intros x J K. rewrite map_map in J. apply in_map_iff in J as ([v s] & <- & J). cbn [fst] in K.
        apply in_map_iff in K as ([y s'] & E & K). cbn in E. subst y. apply in_flat_map in K as ([j e] & K1 & K2).
        apply in_map_iff in K2 as ([w s''] & E & K2). cbn in E. injection E as E _. apply world_name_inj in E as [_ ->].
        apply N1. cbn. apply (in_map fst) in K1. exact K1. }
    apply A; [apply incl_refl|]. replace (map fst W) with (seq 1 (length dos)); [apply seq_NoDup|].
    generalize 1. clear. induction dos as [|d l IH]; intros s; cbn; [auto|]. now rewrite <- IH.
  Qed.
  Lemma world_do_eq : world_do dos = do_pairs.
  Proof. apply dict_of_id, do_pairs_NoDup. Qed.
  Lemma dget_do i d v : In (i, d) W -> dget (world_name v i) (world_do dos) = dget v d.
  Proof.
    intros IW. rewrite world_do_eq. destruct (W_In i d IW) as (_ & Id & _). destruct (dget v d) as [x|] eqn:E.
    - apply In_dget; [apply do_pairs_NoDup|]. apply do_pairs_In. exists i, d, v. apply dget_In in E. auto.
    - apply dget_None. intros J. apply keys_In in J as (s & J). apply do_pairs_In in J as (j & e & w & JW & J & E').
      apply world_name_inj in E' as [<- <-]. rewrite (W_fun i e d JW IW) in J. apply dget_None in E. apply E. apply (in_map fst) in J. exact J.
  Qed.
  Lemma keys_do x : In x (keys (world_do dos)) <-> exists i d v, In (i, d) W /\ In v (keys d) /\ x = world_name v i.
  Proof.
    rewrite world_do_eq. split.
    - intros J. apply keys_In in J as (s & J). apply do_pairs_In in J as (i & d & v & IW & J & ->). exists i, d, v. split; [auto|].
      split; [apply (in_map fst) in J; exact J|auto].
    - intros (i & d & v & IW & J & ->). apply keys_In in J as (s & J).
      assert (K : In (world_name v i, s) do_pairs) by (apply do_pairs_In; exists i, d, v; auto). apply (in_map fst) in K. exact K.
  Qed.
  Lemma world_do_NoDup : NoDup (keys (world_do dos)).
  Proof. rewrite world_do_eq. apply do_pairs_NoDup. Qed.

  Variable e : obs.
  Hypothesis Ie : incl (keys e) (nodes g).

  Lemma no_base v i d : In v endo -> In (i, d) W -> ~ In (world_name v i) (nodes g).
  Proof. intros I IW J. apply W_In in IW as (L & _). eapply Fresh; [exact I|exact J|exact L|reflexivity]. Qed.

  Lemma cf_root_do dd ti d v : do_list dd = dos -> NoDup ti ->
    (forall v i, In (v, i) ti -> In v endo /\ (exists d, In (i, d) W /\ ~ In v (keys d))) ->
    In d dos -> In v (keys d) -> ~ In v endo -> (forall i, 1 <= i <= length dos -> ~ In (world_name v i) (nodes g)) ->
    ci_compile_run heur so m (target_names ti) dd e true = Raise NodeNotFound.
  Proof.
    intros Ed Nt Hti Id Iv Ev Nn. unfold ci_compile_run. destruct (negb _); [reflexivity|]. cbn [bind].
    destruct (preprocess_ok dd Ed) as (mt & Ep & Net & _). rewrite Ep. cbn [bind]. rewrite Ed.
    apply In_nth_error in Id as (k & Ek).
    assert (IW : In (S k, d) W). { apply combine_seq_In. split; [lia|]. now rewrite Nat.sub_1_r. }
    apply rejects.
    - unfold target_names. apply NoDup_map_inj; [|auto]. intros [v0 i] [w j] _ _ E. cbn in E. apply world_name_inj in E as [-> ->]. reflexivity.
    - intros x I J. apply in_map_iff in I as ([v0 i] & <- & I). cbn in J. destruct (Hti v0 i I) as (A & d0 & B & Nv).
      apply keys_dmerge in J as [J|J]; [apply Ie in J; eapply no_base; eauto|].
      apply keys_do in J as (j & d' & w & JW & Jw & E). apply world_name_inj in E as [<- <-]. rewrite (W_fun i d' d0 JW B) in Jw. auto.
    - intros I. assert (J : In (world_name v (S k)) (keys Dt)).
      { apply (net_nodes mt Dt Ft vt Net). apply I. apply in_app_iff. right. apply keys_dmerge. right. apply keys_do. exists (S k), d, v. auto. }
      rewrite keys_Dt in J. apply in_app_iff in J as [J|J].
      + apply t_keys in J. eapply Nn; [|exact J]. apply W_In in IW. apply IW.
      + apply keys_In in J as ([w [i d']] & J). apply copies_In in J as (E & J & _). apply world_name_inj in E as [-> _]. auto.
  Qed.

  Hypothesis d_endo : forall d v, In d dos -> In v (keys d) -> In v endo.

  Lemma cons_split ti xs o : In o (all_assignments Dt) -> solves Dt Ft X [] o = true ->
    (forall v i, In (v, i) ti -> In v endo /\ (exists d, In (i, d) W)) ->
    consistent (combine (target_names ti) xs ++ dmerge e (world_do dos)) o =
    consistent e (base_of o) && forallb (fun id => consistent (in_world (fst id) ti xs) (part_of (fst id) o)) W.
  Proof.
    intros Io S Hti. apply (all_assignments_In_full Dt o (proj1 Dt_wf)) in Io as [Ko Fo].
    assert (No : NoDup (keys o)) by (rewrite Ko; apply Dt_wf). set (t := combine (target_names ti) xs).
    assert (Kt : forall x, In x (keys t) -> exists v i d, In v endo /\ In (i, d) W /\ x = world_name v i).
    { intros x I. apply keys_In in I as (s & I). apply in_combine_l in I. unfold target_names in I. apply in_map_iff in I as ([v i] & <- & I).
      destruct (Hti v i I) as (Iv & d & IW). exists v, i, d. auto. }
    assert (Gb : forall v, In v (nodes g) -> dget v (t ++ dmerge e (world_do dos)) = dget v e).
    { intros v I. rewrite dget_app. replace (dget v t) with (@None state).
      2:{ symmetry. apply dget_None. intros J. apply Kt in J as (w & i & d & Iw & IW & ->). eapply no_base; eauto. }
      rewrite dget_dmerge by apply world_do_NoDup. replace (dget v (world_do dos)) with (@None state); [auto|].
      symmetry. apply dget_None. intros J. apply keys_do in J as (i & d & w & IW & Iw & ->). eapply no_base; [|exact IW|exact I].
      eapply d_endo; [apply W_In in IW; apply IW|exact Iw]. }
    assert (Gc : forall v i d, In v endo -> In (i, d) W -> dget (world_name v i) (t ++ dmerge e (world_do dos)) =
                   match dget v (in_world i ti xs) with Some x => Some x | None => dget v d end).
    { intros v i d I IW. rewrite dget_app. unfold t. rewrite dget_target. destruct (dget v (in_world i ti xs)); [auto|].
      rewrite dget_dmerge by apply world_do_NoDup. rewrite (dget_do i d v IW). destruct (dget v d); [auto|].
      apply dget_None. intros J. apply Ie in J. eapply no_base; eauto. }
    apply eq_true_iff_eq. rewrite andb_true_iff, forallb_forall. split.
    - intros C. split.
      + apply cons_intro; [first [apply part_NoDup|apply base_NoDup]|]. intros v s x Es Ex.
        assert (Iv : In v (keys D)). { assert (I : In v (keys (base_of o))) by (apply dget_keys; eauto). first [rewrite keys_part in I|rewrite keys_base in I]; auto. }
        rewrite dget_base in Es by auto. injection Es as <-.
        eapply (cons_get o v _ No (full_asg Dt o v Fo ltac:(rewrite keys_Dt; apply in_app_iff; auto)) _ C). rewrite Gb; [exact Ex|now apply t_keys].
      + intros [i d] IW. cbn [fst]. apply cons_intro; [first [apply part_NoDup|apply base_NoDup]|]. intros v s x Es Ex.
        assert (Iv : In v (keys D)). { assert (I : In v (keys (part_of i o))) by (apply dget_keys; eauto). first [rewrite keys_part in I|rewrite keys_base in I]; auto. }
        rewrite dget_part in Es by auto. injection Es as <-.
        assert (Iev : In v endo).
        { apply dget_In in Ex. unfold in_world in Ex. apply in_map_iff in Ex as ([[w j] y] & E & I). cbn in E. injection E as -> ->.
          apply filter_In in I as [I _]. apply in_combine_l in I. apply Hti in I. apply I. }
        rewrite rn_endo by auto. eapply (cons_get o (world_name v i) _ No); [|exact C|].
        * apply (full_asg Dt); [auto|]. rewrite keys_Dt. apply in_app_iff. right. apply (dget_keys (world_name v i) copies).
          exists (v, (i, d)). now apply copies_get.
        * rewrite (Gc v i d Iev IW), Ex. reflexivity.
    - intros [C0 C]. apply cons_intro; [exact No|]. intros x s y Es Ey.
      assert (Kx : In x (keys Dt)). { rewrite <- Ko. apply dget_keys. eauto. }
      rewrite (full_asg Dt o x Fo Kx) in Es. injection Es as <-. rewrite keys_Dt, in_app_iff in Kx. destruct Kx as [Kx|Kx].
      + rewrite Gb in Ey by now apply t_keys. apply (cons_get (base_of o) x (asg_of o x)) with (e := e); auto.
        * apply base_NoDup.
        * now apply dget_base.
      + apply keys_In in Kx as ([v [i d]] & Kx). apply copies_In in Kx as (-> & Iv & IW). rewrite (Gc v i d Iv IW) in Ey.
        assert (Dv := proj2 (t_keys v) (t_endo v Iv)). destruct (dget v (in_world i ti xs)) as [y'|] eqn:Et.
        * injection Ey as ->. specialize (C (i, d) IW). cbn [fst] in C.
          assert (Q := cons_get (part_of i o) v (asg_of o (rn i v)) ltac:(first [apply part_NoDup|apply base_NoDup]) (dget_part i o v Dv) _ C y Et).
          now rewrite rn_endo in Q by auto.
        * assert (Sp := solves_part i d o IW Fo S). rewrite <- (solves_do d) in Sp.
          2:{ apply W_In in IW. apply IW. }
          2:{ eapply part_all; eauto. }
          unfold solves in Sp. rewrite forallb_forall in Sp. specialize (Sp v (proj2 (drop_X v) Iv)). rewrite Ey, dget_part in Sp by auto.
          rewrite rn_endo in Sp by auto. destruct (eqd (asg_of o (world_name v i)) y); [auto|discriminate].
  Qed.

  Lemma world_network i d : In (i, d) W -> exists mi, network mi D (do_table F d) vt /\
    (forall v x, In v X -> ~ arc (m_graph mi) x v) /\ (forall v, In v (keys D) -> ~ In v X -> zero_one (do_table F d v)).
  Proof.
    intros IW. destruct (W_In i d IW) as (_ & Id & _).
    destruct (intervention_ok m D F vt endo true H d (proj1 (Kd d Id))) as (m' & E & H' & G' & _ & _ & _ & S'). exists m'. split; [|split].
    - eapply causal_network; [exact H'|]. intros v I. rewrite G' in I. eapply S'. apply St. exact I.
    - intros v x I A. rewrite G' in A. apply (remove_ingoing_ok g (keys d) t_wg) in A as [A _]. now apply X_root in A.
    - intros v I J. apply (do_cpt d v Id); [now apply t_keys|]. apply t_keys in I.
      destruct (in_dec eqd v endo) as [K|K]; [auto|]. exfalso. apply J, X_In. auto.
  Qed.

  Lemma happens_twin mt ti xs u : network mt Dt Ft vt ->
    (forall v x, In v X -> ~ arc (m_graph mt) x v) -> (forall v, In v (keys Dt) -> ~ In v X -> zero_one (Ft v)) ->
    (forall v i, In (v, i) ti -> In v endo /\ (exists d, In (i, d) W)) ->
    In u (all_assignments (pick X D)) ->
    happens Dt Ft X u [] (combine (target_names ti) xs ++ dmerge e (world_do dos)) =
    forallb (fun dt => happens D F X u (fst dt) (snd dt)) (cf_events e dos ti xs).
  Proof.
    intros Net HX HZ Hti Iu. assert (Iu' := Iu). rewrite <- pick_X in Iu'.
    destruct (unit_solution mt Dt Ft vt Net X HZ u Iu') as (o & Io & So & Co).
    rewrite (happens_solution mt Dt Ft vt Net X HZ u o _ Iu' Io So Co). rewrite (cons_split ti xs o Io So Hti).
    apply (all_assignments_In_full Dt o (proj1 Dt_wf)) in Io as [Ko Fo].
    unfold cf_events. cbn [forallb fst snd]. f_equal.
    - symmetry. apply (happens_solution m D F vt); auto.
      + eapply causal_network; [exact H|exact St].
      + intros v I J. apply t_keys in I. apply t_zero. destruct (in_dec eqd v endo) as [K|K]; [auto|]. exfalso. apply J, X_In. auto.
      + now apply base_all.
      + now apply solves_base.
      + apply (cons_part 0 u o); auto.
    - rewrite forallb_map. apply forallb_ext_in'. intros [i d] IW. cbn [fst snd]. rewrite happens_do by (apply W_In in IW; apply IW).
      destruct (world_network i d IW) as (mi & Ni & Xi & Zi). symmetry. apply (happens_solution mi D (do_table F d) vt); auto.
      + eapply part_all; eauto.
      + eapply solves_part; eauto.
      + apply (cons_part i u o); auto.
  Qed.

  Lemma mass_twin mt ti xs : network mt Dt Ft vt ->
    (forall v x, In v X -> ~ arc (m_graph mt) x v) -> (forall v, In v (keys Dt) -> ~ In v X -> zero_one (Ft v)) ->
    (forall v i, In (v, i) ti -> In v endo /\ (exists d, In (i, d) W)) ->
    mass Dt Ft (combine (target_names ti) xs ++ dmerge e (world_do dos)) = cf_mass D F X (cf_events e dos ti xs).
  Proof.
    intros Net HX HZ Hti. rewrite (mass_units mt Dt Ft vt Net X HX HZ). unfold cf_mass. rewrite pick_X.
    rewrite (filter_ext_in_ _ _ (fun u => forallb (fun dt => happens D F X u (fst dt) (snd dt)) (cf_events e dos ti xs))).
    - apply total_ext. intros u _. unfold joint. f_equal. apply map_ext_in. intros v I. rewrite Ft_base; [auto|].
      rewrite keys_pick' in I. apply filter_In in I as [I _]. now apply t_keys.
    - intros u Iu. cbn [forallb fst snd]. rewrite andb_true_r. now apply (happens_twin mt).
  Qed.

  Lemma events_nil : cf_mass D F X (cf_events e dos [] []) = cf_mass D F X [([], e)].
  Proof.
    unfold cf_mass. f_equal. f_equal. apply filter_ext_in_. intros u Iu. unfold cf_events. cbn [forallb fst snd]. f_equal.
    rewrite forallb_map. apply forallb_forall. intros [i d] IW. cbn [fst snd]. rewrite happens_do by (apply W_In in IW; apply IW).
    destruct (world_network i d IW) as (mi & Ni & Xi & Zi). destruct (unit_solution mi D _ vt Ni X Zi u Iu) as (o & Io & So & Co).
    rewrite (happens_solution mi D _ vt Ni X Zi u o _ Iu Io So Co). unfold in_world. cbn. unfold consistent. apply forallb_forall. intros p _. reflexivity.
  Qed.

  Lemma cf_query dd ti : do_list dd = dos -> NoDup ti -> ti <> [] ->
    (forall v i, In (v, i) ti -> In v endo /\ (exists d, In (i, d) W /\ ~ In v (keys d))) ->
    cf_mass D F X [([], e)] <> 0%Qc ->
    exists r, ci_compile_run heur so m (target_names ti) dd e true = Ok r /\ wf_mf r /\ mf_vtype r = vt /\
      same_set (mf_vars r) (target_names ti) /\ same_set (mf_left r) (target_names ti) /\ mf_right r = [] /\
      (forall v i l, In (v, i) ti -> In (world_name v i, l) (mf_domain r) -> In (v, l) D) /\
      (forall xs, Forall2 (fun vi x => exists l, In (fst vi, l) D /\ In x l) ti xs ->
        mf_get_value r (combine (target_names ti) xs) =
          Ok (Fin (cf_mass D F X (cf_events e dos ti xs) / cf_mass D F X [([], e)])%Qc)) /\
      total (map (entry r) (all_assignments (pick (target_names ti) Dt))) = 1%Qc.
  Proof.
    intros Ed Nt T0 Hti Me. destruct (preprocess_ok dd Ed) as (mt & Ep & Net & HX & HZ).
    assert (Hti' : forall v i, In (v, i) ti -> In v endo /\ (exists d, In (i, d) W)).
    { intros v i I. destruct (Hti v i I) as (A & d & B & _). eauto. }
    assert (M0 : mass Dt Ft (dmerge e (world_do dos)) = cf_mass D F X [([], e)]).
    { rewrite <- events_nil, <- (mass_twin mt [] []); auto; intros v i []. }
    destruct (posterior mt Dt Ft vt Net (dmerge e (world_do dos)) (target_names ti) heur so) as (r & Er & Wr & Tr & V1 & V2 & Rr & Sub & Val & Tot); auto.
    - unfold target_names. apply NoDup_map_inj; [|auto]. intros [v i] [w j] _ _ E. cbn in E. apply world_name_inj in E as [-> ->]. reflexivity.
    - destruct ti; [contradiction|discriminate].
    - intros x I. apply in_map_iff in I as ([v i] & <- & I). destruct (Hti' v i I) as (A & d & B). cbn. apply (net_nodes mt Dt Ft vt Net).
      rewrite keys_Dt. apply in_app_iff. right. apply (dget_keys (world_name v i) copies). exists (v, (i, d)). now apply copies_get.
    - intros x I. apply (net_nodes mt Dt Ft vt Net). rewrite keys_Dt. apply in_app_iff. apply keys_dmerge in I as [I|I].
      + left. apply t_keys. auto.
      + right. apply keys_do in I as (i & d & v & IW & Iv & ->). apply (dget_keys (world_name v i) copies). exists (v, (i, d)).
        apply copies_get; [|auto]. eapply d_endo; [apply W_In in IW; apply IW|auto].
    - intros x I J. apply in_map_iff in I as ([v i] & <- & I). cbn in J. destruct (Hti v i I) as (A & d & B & Nv).
      apply keys_dmerge in J as [J|J]; [apply Ie in J; eapply no_base; eauto|].
      apply keys_do in J as (j & d' & w & JW & Jw & E). apply world_name_inj in E as [<- <-]. rewrite (W_fun i d' d JW B) in Jw. auto.
    - rewrite M0. exact Me.
    - exists r. split.
      { unfold ci_compile_run. assert (B : forallb (fun v => mem v (nodes g)) (do_vars dd) = true).
        { apply forallb_forall. intros v I. apply mem_In. assert (Iv : exists d, In d dos /\ In v (keys d)).
          { rewrite <- Ed. destruct dd as [d|l]; cbn in *; [exists d; auto|]. apply in_flat_map in I. exact I. }
          destruct Iv as (d & Id & Iv). apply t_endo. eapply d_endo; eauto. }
        rewrite B. cbn [negb bind]. rewrite Ep. cbn [bind]. rewrite Ed. exact Er. }
      do 5 (split; [assumption|]). split.
      { intros v i l I J. apply Sub in J. destruct (Hti v i I) as (Iv & d & IW & _). apply Dt_In in J as [J|(w & j & d' & Ew & _ & _ & J)].
        - exfalso. apply (no_base v i d Iv IW). apply t_keys. apply (in_map fst) in J. exact J.
        - apply world_name_inj in Ew as [-> _]. exact J. }
      split; [|assumption]. intros xs F2.
      assert (Lx : length (target_names ti) = length xs). { unfold target_names. rewrite map_length. eapply Forall2_length; eauto. }
      rewrite Val.
      + rewrite (mass_twin mt ti xs), M0; auto.
      + split.
        * clear - Lx. revert xs Lx. induction (target_names ti) as [|x l IH]; intros [|y ys] L; try discriminate; [reflexivity|]. cbn. f_equal. apply IH. cbn in L. lia.
        * intros x l I. apply filter_In in I as [I M]. cbn in M. apply mem_In in M. apply in_map_iff in M as ([v i] & <- & M). cbn [fst snd] in *.
          assert (Hx : exists y l', In (world_name v i, y) (combine (target_names ti) xs) /\ In (v, l') D /\ In y l').
          { clear - F2 M. unfold target_names. induction F2 as [|[w j] y ti xs R F3 IH]; [destruct M|]. destruct M as [E|M].
            - injection E as -> ->. destruct R as (l' & R1 & R2). exists y, l'. split; [now left|auto].
            - destruct (IH M) as (y' & l' & A & B). exists y', l'. split; [now right|auto]. }
          destruct Hx as (y & l' & A & B & C). exists y. destruct (Hti v i M) as (Iv & d & IW & _).
          assert (l = l') as ->.
          { eapply dom_unique; [apply Dt_wf|exact I|]. apply Dt_In. right. exists v, i, d. auto. }
          split; [|auto]. apply In_dget; [|auto].
          assert (Kc : keys (combine (target_names ti) xs) = target_names ti).
          { clear - Lx. revert xs Lx. induction (target_names ti) as [|z l IH]; intros [|y ys] L; try discriminate; [reflexivity|]. cbn. f_equal. apply IH. cbn in L. lia. }
          rewrite Kc. unfold target_names. apply NoDup_map_inj; [|auto]. intros [v0 i0] [w0 j0] _ _ E. cbn in E. apply world_name_inj in E as [-> ->]. reflexivity.
  Qed.
End Twin.
