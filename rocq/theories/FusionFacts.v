(** Proofs about the fusion of models at common roots (C65). *)

From Coq Require Import String Bool Arith ZArith QArith Qcanon Permutation Lia List.
From Verif Require Import PyBase PyFacts Num DomainModel NdArray StoreModel NumStore FactorModel GraphModel ModelModel InferModel CausalModel
  Spec StoreSpec FactorSpec GraphSpec ModelSpec NetSpec CausalSpec SepSpec FusionSpec
  BigSum FactorSem NetSem NetFacts GraphFacts FactorFacts BuildFacts BuildFacts2 CausalFacts CfFacts CfFacts2 CfFacts3 SepFacts1 SepFacts3 OpFacts2 ModelFacts.
Import ListNotations.
Local Open Scope nat_scope.
Local Arguments eqd : simpl never.

Section Fusion.
  Variables (vt : vtype) (on : list var) (p0 : part) (ps : list part).
  Hypothesis H : fusable vt on p0 ps.
  Variable so : list (list var) -> list var.
  Hypothesis Hs : is_set_order so.
  Notation parts := (p0 :: ps).
  Notation models := (map p_model parts).

  Lemma f_net p : In p parts -> network (p_model p) (p_dom p) (p_tab p) vt.
  Proof. intros I. apply (proj1 H p I). Qed.
  Lemma f_on p x : In p parts -> In x on -> p_node p x /\ forall y, ~ p_arc p y x.
  Proof. intros I J. now apply (proj1 H p I). Qed.
  Lemma f_keys p x : In p parts -> (In x (keys (p_dom p)) <-> p_node p x).
  Proof. intros I. apply (net_nodes _ _ _ _ (f_net p I)). Qed.
  Lemma f_arc p x y : In p parts -> p_arc p x y -> p_node p x /\ p_node p y.
  Proof. intros I A. apply (net_wg _ _ _ _ (f_net p I)). exact A. Qed.

  Lemma pairs_split {A} (R : A -> A -> Prop) l : ForallOrdPairs R l -> forall x y, In x l -> In y l -> x = y \/ R x y \/ R y x.
  Proof. intros F x y. now apply ForallOrdPairs_In. Qed.
  Lemma f_apart p q x : In p parts -> In q parts -> p_node p x -> p_node q x -> ~ In x on -> p = q.
  Proof.
    intros I J A B N. destruct H as (_ & _ & Q). destruct (pairs_split _ _ Q p q I J) as [E|[E|E]]; [auto| |]; exfalso; eauto.
  Qed.
  Lemma f_states p x l : In p parts -> In x on -> (In (x, l) (p_dom p) <-> In (x, l) (p_dom p0)).
  Proof.
    intros I J. destruct I as [<-|I]; [tauto|]. split; [now apply H|]. intros K.
    assert (K' : In x (keys (p_dom p))). { apply f_keys; [now right|]. apply f_on; [now right|auto]. }
    apply keys_In in K' as (l' & K'). assert (K0 := proj1 (proj2 H) p x l' I J K').
    assert (N : NoDup (keys (p_dom p0))) by apply (net_wd _ _ _ _ (f_net p0 (or_introl eq_refl))).
    apply (In_dget x) in K; [|auto]. apply (In_dget x) in K0; [|auto]. congruence.
  Qed.

  Definition Dt : domain := p_dom p0 ++ flat_map (fun p => drop on (p_dom p)) ps.
  Definition Ft (x : var) : mfactor :=
    match find (fun p => mem x (keys (p_dom p))) parts with Some p => p_tab p x | None => p_tab p0 x end.

  Lemma Dt_In x l : In (x, l) Dt <-> exists p, In p parts /\ In (x, l) (p_dom p).
  Proof.
    unfold Dt. rewrite in_app_iff, in_flat_map. split.
    - intros [I|(p & I & J)]; [exists p0; split; [now left|auto]|]. apply drop_In in J as [J _]. exists p. split; [now right|auto].
    - intros (p & [<-|I] & J); [now left|]. destruct (in_dec eqd x on) as [K|K].
      + left. apply (f_states p x l (or_intror I) K). auto.
      + right. exists p. split; [auto|]. apply drop_In. auto.
  Qed.
  Lemma Dt_keys x : In x (keys Dt) <-> exists p, In p parts /\ p_node p x.
  Proof.
    split.
    - intros I. apply keys_In in I as (l & I). apply Dt_In in I as (p & I & J). exists p. split; [auto|]. apply f_keys; [auto|].
      apply keys_In. eauto.
    - intros (p & I & J). apply (f_keys p x I), keys_In in J as (l & J). apply keys_In. exists l. apply Dt_In. eauto.
  Qed.
  Lemma Dt_wf : wf_dom Dt.
  Proof.
    split.
    - unfold Dt, keys. rewrite map_app. apply NoDup_app_iff. split; [apply (net_wd _ _ _ _ (f_net p0 (or_introl eq_refl)))|].
      assert (A := proj2 (proj2 H)). inversion A as [|? ? A0 A1]; subst.
      assert (N : forall p, In p ps -> NoDup (keys (p_dom p)) /\ forall x, In x (keys (p_dom p)) <-> p_node p x).
      { intros p I. split; [apply (net_wd _ _ _ _ (f_net p (or_intror I)))|]. intros x. apply f_keys. now right. }
      split.
      + revert N A1. clear. induction ps as [|p l IH]; intros N A; [constructor|]. cbn [flat_map]. rewrite map_app. apply NoDup_app_iff.
        inversion A as [|? ? A0 A1]; subst. split; [|split].
        * change (map fst (drop on (p_dom p))) with (keys (drop on (p_dom p))). rewrite keys_drop'. apply NoDup_filter. apply N. now left.
        * apply IH; [|auto]. intros q I. apply N. now right.
        * intros x I J. change (map fst (drop on (p_dom p))) with (keys (drop on (p_dom p))) in I. rewrite keys_drop' in I. apply minus_In in I as [I K].
          apply in_map_iff in J as ([y s] & <- & J). apply in_flat_map in J as (q & J & L). apply drop_In in L as [L _]. cbn [fst] in *.
          apply K. rewrite Forall_forall in A0. apply (A0 q J y); [apply N; [now left|auto]|]. apply N; [now right|]. apply keys_In. eauto.
      + intros x I J. apply in_map_iff in J as ([y s] & <- & J). apply in_flat_map in J as (q & J & L). apply drop_In in L as [L K]. cbn [fst] in *.
        apply K. rewrite Forall_forall in A0. apply (A0 q J y); [|apply N; [auto|]; apply keys_In; eauto].
        apply f_keys; [now left|]. exact I.
    - intros x l I. apply Dt_In in I as (p & I & J). eapply (net_wd _ _ _ _ (f_net p I)). exact J.
  Qed.
  Lemma Ft_on x : In x on -> Ft x = p_tab p0 x.
  Proof.
    intros I. unfold Ft. cbn [find]. assert (E : mem x (keys (p_dom p0)) = true); [|now rewrite E].
    apply mem_In, f_keys; [now left|]. apply f_on; [now left|auto].
  Qed.
  Lemma Ft_part p x : In p parts -> p_node p x -> ~ In x on -> Ft x = p_tab p x.
  Proof.
    intros I J N. unfold Ft. destruct (find _ parts) as [q|] eqn:E.
    - apply find_some in E as [K L]. apply mem_In, (f_keys q x K) in L. now rewrite (f_apart q p x K I L J N).
    - exfalso. assert (K := find_none _ _ E p I). apply mem_nIn in K. apply K. now apply f_keys.
  Qed.

  (** ** The graph *)
  Definition gt : digraph :=
    fold_left (fun g m => fold_left add_edge (g_edges (m_graph m)) g) models (fold_left add_node (nodes (m_graph (p_model p0))) (mkG [] [])).
  Lemma models_wf m : In m models -> wf_graph (m_graph m).
  Proof. intros I. apply in_map_iff in I as (p & <- & I). apply (net_wg _ _ _ _ (f_net p I)). Qed.
  Lemma gt_wf : wf_graph gt.
  Proof. apply (fuse_ok models models_wf). apply (fold_node _ (mkG [] []) empty_wf). Qed.
  Lemma gt_arc x y : arc gt x y <-> exists p, In p parts /\ p_arc p x y.
  Proof.
    destruct (fold_node (nodes (m_graph (p_model p0))) (mkG [] []) empty_wf) as (W0 & E0 & N0).
    destruct (fuse_ok models models_wf _ W0) as (_ & _ & A). unfold gt. rewrite A. unfold arc at 1. rewrite E0. split.
    - intros [[]|(m & I & J)]. apply in_map_iff in I as (p & <- & I). eauto.
    - intros (p & I & J). right. exists (p_model p). split; [now apply in_map|auto].
  Qed.
  Lemma gt_node x : In x (nodes gt) <-> p_node p0 x \/ exists p y, In p parts /\ (p_arc p y x \/ p_arc p x y).
  Proof.
    destruct (fold_node (nodes (m_graph (p_model p0))) (mkG [] []) empty_wf) as (W0 & E0 & N0).
    destruct (fuse_ok models models_wf _ W0) as (_ & B & _). unfold gt. rewrite B, N0. split.
    - intros [[[]|I]|(m & y & I & J)]; [now left|]. apply in_map_iff in I as (p & <- & I). right. eauto.
    - intros [I|(p & y & I & J)]; [auto|]. right. exists (p_model p), y. split; [now apply in_map|auto].
  Qed.
  Lemma gt_sub x : In x (nodes gt) -> In x (keys Dt).
  Proof.
    intros I. apply Dt_keys. apply gt_node in I as [I|(p & y & I & J)]; [exists p0; split; [now left|auto]|].
    exists p. split; [auto|]. destruct J as [J|J]; now apply f_arc in J.
  Qed.
  Lemma gt_into x y p : In p parts -> p_node p y -> ~ In y on -> (arc gt x y <-> p_arc p x y).
  Proof.
    intros I J N. rewrite gt_arc. split; [|eauto]. intros (q & K & A). rewrite (f_apart p q y I K); auto. now apply f_arc in A.
  Qed.
  Lemma gt_root x y : In y on -> ~ arc gt x y.
  Proof. intros I A. apply gt_arc in A as (p & J & A). exact (proj2 (f_on p y J I) x A). Qed.
  Lemma gt_acyclic : acyclic gt.
  Proof.
    assert (Hw : forall x y, walk gt x y -> forall p, In p parts -> p_node p x -> ~ In x on -> walk (m_graph (p_model p)) x y).
    { induction 1 as [x y A|x y z A B IH]; intros p I J N.
      - apply gt_arc in A as (q & K & A). rewrite (f_apart p q x I K J) by (apply f_arc in A; tauto). now constructor.
      - assert (A' := A). apply gt_arc in A as (q & K & A). assert (E := f_apart p q x I K J (proj1 (f_arc q x y K A)) N). subst q.
        apply walk_step with y; [exact A|]. apply IH; [auto|now apply f_arc in A|]. intros M. exact (gt_root x y M A'). }
    intros x W. assert (exists y, arc gt y x) as (y & A).
    { revert W. generalize x at 1. intros z W. induction W; eauto. }
    assert (N : ~ In x on) by (intros M; exact (gt_root y x M A)). apply gt_arc in A as (p & I & A).
    apply (net_ac _ _ _ _ (f_net p I) x). apply Hw; auto. now apply f_arc in A.
  Qed.

  (** ** The tables *)
  Lemma cpt_wider D D' v l ps' f : (forall x s, In (x, s) D -> In (x, s) D') -> cpt D vt v l f -> same_set l ps' -> cpt D' vt v ps' f.
  Proof.
    intros I (c1 & c2 & c3 & c4 & c5 & c6) E. split; [auto|]. split; [auto|]. split; [auto|]. split; [|split; [|exact c6]].
    - intros x. rewrite (c4 x). apply E.
    - intros w s J. apply I, c5, J.
  Qed.
  Lemma Ft_cpt x : In x (keys Dt) -> cpt Dt vt x (preds gt x) (Ft x).
  Proof.
    intros I. destruct (in_dec eqd x on) as [N|N].
    - rewrite Ft_on by auto. destruct (f_on p0 x (or_introl eq_refl) N) as [J R].
      apply (cpt_wider (p_dom p0) Dt x (preds (m_graph (p_model p0)) x)).
      + intros y s K. apply Dt_In. exists p0. split; [now left|auto].
      + apply (net_cpt _ _ _ _ (f_net p0 (or_introl eq_refl))). apply f_keys; [now left|auto].
      + intros y. rewrite !in_preds. split; intros A; exfalso; [exact (R y A)|exact (gt_root y x N A)].
    - apply Dt_keys in I as (p & I & J). rewrite (Ft_part p x I J N).
      apply (cpt_wider (p_dom p) Dt x (preds (m_graph (p_model p)) x)).
      + intros y s K. apply Dt_In. eauto.
      + apply (net_cpt _ _ _ _ (f_net p I)). now apply f_keys.
      + intros y. rewrite !in_preds. symmetry. now apply gt_into.
  Qed.

  (** ** The call *)
  Lemma all_roots_ok l : (forall x m, In (x, m) l -> In x on /\ In m models) -> all_roots l = Ok true.
  Proof.
    induction l as [|[x m] l IH]; intros A; [reflexivity|]. cbn [all_roots]. destruct (A x m (or_introl eq_refl)) as [Ix Im].
    apply in_map_iff in Im as (p & <- & Im). destruct (f_on p x Im Ix) as [J R]. unfold predecessors. unfold p_node in J. rewrite (proj2 (mem_In x _) J). cbn [bind].
    destruct (preds (m_graph (p_model p)) x) as [|y r] eqn:E.
    - cbn. apply IH. intros y m I. apply A. now right.
    - exfalso. apply (R y). unfold p_arc. apply in_preds. rewrite E. now left.
  Qed.

  Variable endo : option (list var).
  Hypothesis Hc : one_class endo p0 ps.
  Definition given (e0 : list var) : option (list var) := match endo with Some e => Some e | None => Some e0 end.
  Definition kt : kind := match m_kind (p_model p0) with KBn => KBn | KScm e0 c => KScm (scm_endo gt (given e0)) c end.

  Lemma fusion_unfold : exists names, (forall x, In x names <-> In x (keys Dt)) /\
    fusion_roots so models on endo = foldM put_step (map (fun x => FM (Ft x)) names) (fresh gt true kt).
  Proof.
    set (sel := fun p : part => so [filter (fun v => negb (mem v on)) (nodes (m_graph (p_model p)))]).
    assert (Sel : forall p x, In x (sel p) <-> p_node p x /\ ~ In x on).
    { intros p x. unfold sel. rewrite (proj2 (Hs _) x). cbn [concat]. rewrite app_nil_r, filter_In, negb_true_iff, mem_nIn. reflexivity. }
    exists (on ++ concat (map sel parts)). split.
    { intros x. rewrite Dt_keys, in_app_iff. split.
      - intros [I|I]; [exists p0; split; [now left|apply f_on; [now left|auto]]|]. apply in_concat in I as (l & I & J).
        apply in_map_iff in I as (p & <- & I). apply Sel in J as [J _]. eauto.
      - intros (p & I & J). destruct (in_dec eqd x on) as [N|N]; [auto|]. right. apply in_concat. exists (sel p). split; [now apply in_map|].
        apply Sel. auto. }
    unfold fusion_roots. rewrite all_roots_ok.
    2:{ intros x m I. split; [eapply in_combine_l; eauto|eapply in_combine_r; eauto]. }
    cbn [bind negb map].
    assert (E1 : forallb (fun m => Bool.eqb (is_scm m) (is_scm (p_model p0))) (map p_model ps) = true).
    { apply forallb_forall. intros m I. apply in_map_iff in I as (p & <- & I). unfold is_scm.
      destruct Hc as [(_ & K)|(e0 & c0 & K0 & K & _)].
      - rewrite (K p (or_intror I)), (K p0 (or_introl eq_refl)). reflexivity.
      - destruct (K p I) as (e & c & Kp). rewrite Kp, K0. reflexivity. }
    rewrite E1. cbn [negb]. change (p_model p0 :: map p_model ps) with models. fold gt.
    assert (St : forall p x, In p parts -> p_node p x -> dlook x (m_factors (p_model p)) = Ok (Some (FM (p_tab p x)))).
    { intros p x I J. destruct (f_net p I) as (_ & _ & _ & _ & _ & _ & S). destruct (S x J) as [S' _]. unfold stored in S'. unfold dlook. now rewrite S'. }
    assert (E2 : get_factors (p_model p0) on = Ok (map (fun x => Some (FM (Ft x))) on)).
    { apply mapM_det. intros x I. rewrite Ft_on by auto. apply St; [now left|]. apply f_on; [now left|auto]. }
    rewrite E2. cbn [bind]. rewrite mapM_map.
    rewrite (mapM_det _ (fun p => map (fun x => Some (FM (Ft x))) (sel p))).
    2:{ intros p I. apply mapM_det. intros x J. apply Sel in J as [J N]. rewrite (Ft_part p x I J N). now apply St. }
    cbn [bind].
    assert (E3 : map as_fobj (map (fun x => Some (FM (Ft x))) on ++ concat (map (fun p => map (fun x => Some (FM (Ft x))) (sel p)) parts))
               = map (fun x => FM (Ft x)) (on ++ concat (map sel parts))).
    { rewrite !map_app, map_map. f_equal. generalize parts. intros L. induction L as [|p l IH]; [reflexivity|].
      cbn [map concat]. rewrite !map_app, IH, map_map. reflexivity. }
    rewrite E3. unfold kt, given. destruct Hc as [(Ee & K)|(e0 & c0 & K0 & _)].
    - rewrite Ee, (K p0 (or_introl eq_refl)). unfold bn_init. destruct (initialize_ok gt gt_wf) as [E _]. rewrite (E gt_acyclic). reflexivity.
    - rewrite K0. destruct endo as [e|]; apply (scm_list_unfold gt _ c0 true _ gt_wf gt_acyclic).
  Qed.

  Lemma endo_zero x : In x (keys Dt) -> (exists e0 c0, m_kind (p_model p0) = KScm e0 c0 /\ In x (scm_endo gt (given e0))) -> zero_one (Ft x).
  Proof.
    intros I (e0 & c0 & K0 & J).
    destruct Hc as [(Ee & K)|(e0' & c0' & K0' & K & Z)]; [rewrite (K p0 (or_introl eq_refl)) in K0; discriminate|].
    rewrite K0 in K0'. injection K0' as <- <-.
    assert (P : exists p, In p parts /\ p_node p x /\ Ft x = p_tab p x /\ (forall y, arc gt y x -> p_arc p y x)).
    { destruct (in_dec eqd x on) as [N|N].
      - exists p0. split; [now left|]. split; [apply f_on; [now left|auto]|]. split; [now apply Ft_on|]. intros y A. exfalso. exact (gt_root y x N A).
      - apply Dt_keys in I as (p & I & Q). exists p. split; [auto|]. split; [auto|]. split; [now apply Ft_part|]. intros y. now apply gt_into. }
    destruct P as (p & Ip & Np & -> & A). apply (Z p x Ip Np). unfold must_decide, scm_endo, given in *.
    assert (Q : forall l : list var, In x (match l with [] => filter (fun v => 0 <? length (preds gt v)) (nodes gt) | v :: r => v :: r end) ->
       match l with [] => exists y, p_arc p y x | _ => In x l end).
    { intros [|v r] L; [|exact L]. apply filter_In in L as [_ L]. destruct (preds gt x) as [|y r] eqn:E; [discriminate L|].
      exists y. apply A. apply in_preds. rewrite E. now left. }
    destruct endo as [[|v r]|]; [exact (Q [] J)|exact J|]. destruct e0 as [|v r]; [exact (Q [] J)|exact J].
  Qed.
  Lemma gt_accepted x : In x (nodes gt) -> accepted Dt gt true kt x (FM (Ft x)) (FM (Ft x)).
  Proof.
    intros I. assert (C := Ft_cpt x (gt_sub x I)). unfold kt.
    assert (C' := C). destruct C' as (c1 & c2 & c3 & c4 & c5 & _).
    destruct (m_kind (p_model p0)) as [|e0 c0] eqn:K0.
    - split; [reflexivity|]. split; [auto|].
      exists (mf_domain (Ft x)), (mf_left (Ft x)), (mf_right (Ft x)). split; [apply (tab_factor _ _ _ _ _ _ (eq_refl : tabulates x (FM (Ft x)) (Ft x)) C)|].
      split; [|split; [auto|auto]]. apply (cpt_vars _ _ _ _ _ x C). now left.
    - apply (accept_scm Dt vt gt _ c0 x (FM (Ft x)) (Ft x)); [apply Dt_wf|auto|reflexivity|auto|].
      intros J. split; [|auto]. apply endo_zero; [now apply gt_sub|]. eauto.
  Qed.

  Lemma fused_ok : (forall p x, In p ps -> ~ lonely on p x) ->
    exists m, fusion_roots so models on endo = Ok m /\ m_kind m = kt /\ m_graph m = gt /\ network m Dt Ft vt /\ united on p0 ps m Dt Ft.
  Proof.
    intros Child. destruct fusion_unfold as (names & Names & ->).
    assert (Nodes : forall x, In x (nodes gt) <-> In x (keys Dt)).
    { intros x. split; [apply gt_sub|]. intros I. apply gt_node. apply Dt_keys in I as (p & [<-|I] & J); [now left|].
      destruct (in_dec eqd x on) as [N|N]; [left; apply f_on; [now left|auto]|].
      right. destruct (existsb (fun e => orb (if eqd (fst e) x then true else false) (if eqd (snd e) x then true else false)) (edges (m_graph (p_model p)))) eqn:E.
      - apply existsb_exists in E as ([a b] & E & F). cbn [fst snd] in F. apply orb_true_iff in F as [F|F].
        + destruct (eqd a x) as [->|]; [|discriminate]. exists p, b. split; [now right|]. right. exact E.
        + destruct (eqd b x) as [->|]; [|discriminate]. exists p, a. split; [now right|]. left. exact E.
      - exfalso. apply (Child p x I). split; [auto|]. split; [auto|]. intros y.
        assert (E' : forall e, In e (edges (m_graph (p_model p))) -> fst e = x \/ snd e = x -> False).
        { intros [a b] K L. rewrite <- not_true_iff_false in E. apply E. apply existsb_exists. exists (a, b). split; [exact K|].
          cbn [fst snd] in *. destruct L as [->| ->]; rewrite eqd_refl; [reflexivity|apply orb_true_r]. }
        split; intros A; eapply E'; [exact A|left; reflexivity|exact A|right; reflexivity]. }
    assert (A : Forall2 (fun f vf' => fo_left f = Ok [fst vf'] /\ accepted Dt gt true kt (fst vf') f (snd vf'))
      (map (fun x => FM (Ft x)) names) (map (fun x => (x, FM (Ft x))) names)).
    { apply Forall2_map_both. intros x I. cbn [fst snd]. apply Names in I.
      split; [cbn [fo_left]; now rewrite (cpt_left _ _ _ _ _ (Ft_cpt x I))|]. apply gt_accepted. now apply Nodes. }
    destruct (put_list Dt (proj1 Dt_wf) gt true kt _ _ A _ _ (partial_fresh Dt gt true kt)) as (m & Em & B).
    exists m. split; [exact Em|]. split; [apply B|].
    assert (C : complete Dt gt (fun x => FM (Ft x)) m).
    { eapply partial_complete; [exact B| |].
      - intros x f I. apply in_map_iff in I as (y & E & _). injection E as <- <-. reflexivity.
      - intros x I. unfold keys. rewrite map_map. cbn. rewrite map_id. now apply Names, Nodes. }
    destruct C as (C1 & C2 & C3 & C4 & C5). split; [exact C1|]. split.
    - unfold network. rewrite C1. split; [apply gt_wf|]. split; [apply gt_acyclic|]. split; [apply Dt_wf|].
      split; [intros x; symmetry; apply Nodes|]. rewrite C2. split; [apply gt_wf|]. split; [intros x; tauto|].
      intros x I. split; [now apply C4|]. apply Ft_cpt. now apply Nodes.
    - split; [intros x y; rewrite C1; apply gt_arc|]. split; [apply Dt_In|]. split; [apply Ft_on|apply Ft_part].
  Qed.

  Lemma fused_lonely p x : In p ps -> lonely on p x -> fusion_roots so models on endo = Raise NetworkXError.
  Proof.
    intros Ip (Nx & Ox & Ax). destruct fusion_unfold as (names & Names & ->).
    assert (Bad : forall l, (forall x, In x l -> In x (keys Dt)) -> (exists x, In x l /\ ~ In x (nodes gt)) ->
       forall done m0, partial Dt gt true kt done m0 -> foldM put_step (map (fun x => FM (Ft x)) l) m0 = Raise NetworkXError).
    { induction l as [|z l IH]; intros Hl (y & Iy & Ny) done m0 B; [destruct Iy|]. cbn [map foldM].
      assert (C := Ft_cpt z (Hl z (or_introl eq_refl))). unfold put_step at 1. cbn [fo_left]. rewrite (cpt_left _ _ _ _ _ C).
      cbn [bind length Nat.ltb Nat.leb]. unfold py_nth. cbn [nth_error bind].
      destruct (in_dec eqd z (nodes gt)) as [Iz|Iz].
      - destruct (put_one Dt (proj1 Dt_wf) gt true _ done m0 z _ _ B (gt_accepted z Iz)) as (m1 & E1 & B1). rewrite E1. cbn [bind].
        apply (IH (fun w Iw => Hl w (or_intror Iw))) with (2 := B1). exists y. split; [|auto]. destruct Iy as [->|Iy]; [contradiction|auto].
      - assert (Es : set_or_raise m0 z (FM (Ft z)) = Raise NetworkXError); [|now rewrite Es].
        destruct B as (Bg & Bc & Bk & _). unfold set_or_raise, set_factor. rewrite Bk.
        assert (Eb : snd (set_factor_base m0 z (FM (Ft z))) = Some NetworkXError).
        { unfold set_factor_base. rewrite Bc. unfold check_factor. rewrite Bg.
          rewrite (get_parents_unknown gt [z] z); [reflexivity|now left|auto]. }
        unfold kt. destruct (m_kind (p_model p0)) as [|e0 c0] eqn:K0.
        + destruct (set_factor_base m0 z (FM (Ft z))) as [m1 o]. cbn [snd] in Eb. subst o. reflexivity.
        + assert (Ep : scm_prepare m0 (scm_endo gt (given e0)) c0 z (FM (Ft z)) = Ok (FM (Ft z))).
          { unfold scm_prepare. rewrite Bc. destruct (mem z _) eqn:M; [|auto]. apply mem_In in M.
            destruct (is_degenerate_ok (Ft z) (proj1 C)) as (b & Ed & Hb). rewrite Ed. cbn [bind].
            rewrite (proj2 Hb); [reflexivity|]. apply endo_zero; [apply Hl; now left|]. exists e0, c0. auto. }
          rewrite Ep. destruct (set_factor_base m0 z (FM (Ft z))) as [m1 o]. cbn [snd] in Eb. subst o. reflexivity. }
    eapply Bad; [|exists x; split|apply partial_fresh].
    - intros y I. now apply Names.
    - apply Names, Dt_keys. exists p. split; [now right|auto].
    - intros I. apply gt_node in I as [I|(q & y & I & J)].
      + apply Ox. destruct (id H) as (_ & _ & Q). inversion Q as [|? ? Q0 _]; subst. rewrite Forall_forall in Q0. exact (Q0 p Ip x I Nx).
      + assert (E : q = p). { apply (f_apart q p x I (or_intror Ip)); auto. destruct J as [J|J]; apply f_arc in J; tauto. } subst q.
        destruct (Ax y). tauto.
  Qed.
End Fusion.
