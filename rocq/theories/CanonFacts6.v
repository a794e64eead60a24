(** A network whose tables are replaced by canonical equations: the structural
    model has the same interventional distributions. *)

From Coq Require Import String Bool Arith ZArith QArith Qcanon Lia Permutation List.
From Verif Require Import PyBase Num DomainModel NdArray StoreModel NumStore FactorModel GenModel GraphModel ModelModel InferModel CausalModel Spec StoreSpec FactorSpec GraphSpec ModelSpec GenSpec NetSpec CausalSpec CanonSpec
  NumFacts PyFacts BigSum StoreFacts FactorFacts FactorFacts2 FactorFacts3 GraphFacts PropFacts1 NetSem FactorSem EmMath BuildFacts BuildFacts2 GenFacts2 GenFacts3 NetFacts VeFacts4 VeFacts5 CalcFacts1 CausalFacts2 CfFacts3 DataFacts2
  CanonFacts1 CanonFacts2 CanonFacts3 CanonFacts4 CanonFacts5.
From Coq Require Import List.
Import ListNotations.
Local Open Scope nat_scope.
Local Open Scope list_scope.
Local Arguments eqd : simpl never.

(** *** generalities *)
Lemma choose {X} (x0 : X) (R : var -> X -> Prop) (L : list var) : (forall v, In v L -> exists x, R v x) ->
  exists h, forall v, In v L -> R v (h v).
Proof.
  induction L as [|v L IH]; intros H; [exists (fun _ => x0); intros ? []|].
  destruct (H v (or_introl eq_refl)) as (x & Hx). destruct IH as (h & Hh); [intros w J; apply H; now right|].
  exists (fun w => if eqd w v then x else h w). intros w J. destruct (eqd w v) as [-> | N]; [assumption|].
  apply Hh. destruct J; congruence.
Qed.

Lemma filter_all {A} (p : A -> bool) l : (forall x, In x l -> p x = true) -> filter p l = l.
Proof. induction l as [|x l IH]; intros H; [reflexivity|]. cbn. rewrite (H x) by now left. f_equal. apply IH. intros y J. apply H. now right. Qed.
Lemma filter_none {A} (p : A -> bool) l : (forall x, In x l -> p x = false) -> filter p l = [].
Proof. induction l as [|x l IH]; intros H; [reflexivity|]. cbn. rewrite (H x) by now left. apply IH. intros y J. apply H. now right. Qed.

(** sums over many variables of a product whose factors share none of them *)
Lemma sm_prod D (WD : wf_dom D) (U : var -> var) (H : var -> asg -> Qc) (vs : var -> list var) L a : NoDup (map U L) ->
  (forall v, In v L -> dep (vs v) (H v)) -> (forall v w, In v L -> In w L -> v <> w -> ~ In (U w) (vs v)) ->
  sm D (map U L) (prods H L) a = prods (fun v => sm D [U v] (H v)) L a.
Proof.
  induction L as [|v L IH]; intros N E I.
  - rewrite sm_nil; [reflexivity|]. intros x y _. reflexivity.
  - cbn [map] in N. inversion N as [|? ? Nv N']; subst. cbn [map].
    assert (Ne : forall w, In w L -> v <> w) by (intros w J ->; apply Nv, in_map, J).
    rewrite prods_cons. rewrite <- IH; auto; [|intros w J; apply E; now right|intros w z J K; apply I; now right].
    change (U v :: map U L) with ([U v] ++ map U L).
    rewrite (sm_mul D WD [U v] (map U L) (H v) (prods H L) (vs v) (flat_map vs L) a).
    + reflexivity.
    + apply E. now left.
    + intros x y Q. unfold prods. f_equal. apply map_ext_in. intros w J. apply E; [now right|]. intros z K. apply Q. apply in_flat_map. eauto.
    + intros z J K. apply in_map_iff in K as (w & <- & K). apply (I v w); auto; [now left|now right].
    + intros z J [<- | []]. apply in_flat_map in J as (w & Jw & J). apply (I w v); auto; [now right|now left|]. intros ->. now apply (Ne v Jw).
    + intros z [<- | []] J. contradiction.
Qed.

Section Model.
  Variables (b : pgm) (D : domain) (F : var -> mfactor) (vt : vtype) (U : var -> var) (lu : var -> list state).
  Notation g := (m_graph b).
  Hypothesis H : network b D F vt.
  Hypothesis Nn : nonnegative D F.
  Hypothesis Vt : vt <> VNumpy.
  Hypothesis X : new_parents D g U lu.
  Notation D' := (exo_dom D U lu).
  Notation g' := (exo_graph g U).

  Lemma x_keys : keys D' = keys D ++ map U (keys D).
  Proof. unfold exo_dom, keys. rewrite map_app, !map_map. reflexivity. Qed.
  Lemma x_us : usable D'. Proof. apply X. Qed.
  Lemma x_wd : wf_dom D'. Proof. apply usable_wf, X. Qed.
  Lemma x_wd0 : wf_dom D. Proof. apply H. Qed.
  Lemma x_nd : NoDup (keys D) /\ NoDup (map U (keys D)) /\ forall v, In v (keys D) -> ~ In v (map U (keys D)).
  Proof.
    assert (N := proj1 x_wd). rewrite x_keys in N. split; [eapply NoDup_app_l; eauto|]. split; [eapply NoDup_app_r; eauto|].
    intros v J K. now apply (NoDup_app_disj (keys D) (map U (keys D)) v).
  Qed.
  Lemma x_inj v w : In v (keys D) -> In w (keys D) -> U v = U w -> v = w.
  Proof.
    destruct x_nd as (_ & N & _). revert N. generalize (keys D). induction l as [|z l IH]; intros N J K E; [destruct J|].
    cbn [map] in N. inversion N as [|? ? Nz N']; subst. destruct J as [-> | J], K as [-> | K]; auto.
    - exfalso. apply Nz. rewrite E. now apply in_map.
    - exfalso. apply Nz. rewrite <- E. now apply in_map.
  Qed.
  Lemma x_new v w : In v (keys D) -> In w (keys D) -> U v <> w.
  Proof. intros J K E. apply (proj2 (proj2 x_nd) w K). rewrite <- E. now apply in_map. Qed.
  Lemma x_node v : In v (keys D) <-> In v (nodes g). Proof. apply H. Qed.
  Lemma x_sub v l : In (v, l) D -> In (v, l) D'.
  Proof. intros J. apply in_or_app. now left. Qed.
  Lemma x_lu v : In v (keys D) -> In (U v, lu v) D'.
  Proof. intros J. apply in_or_app. right. apply keys_In in J as (l & J). apply in_map_iff. exists (v, l). auto. Qed.
  Lemma x_parents v : In v (nodes g) -> incl (preds g v) (keys D).
  Proof. intros J w K. apply in_preds in K. apply x_node. destruct H as (Wg & _). now apply Wg in K. Qed.
  Lemma x_order v : In v (nodes g) -> order_dom D' (preds g v) = order_dom D (preds g v).
  Proof.
    intros J. apply order_dom_ext. intros w K. apply (x_parents v J) in K. unfold exo_dom. rewrite dget_app.
    apply dget_keys in K as (l & ->). reflexivity.
  Qed.
  Lemma x_loop v : ~ In v (preds g v).
  Proof. intros J. apply in_preds in J. destruct H as (_ & Ac & _). apply (Ac v). now constructor. Qed.
  Lemma x_np v : In v (nodes g) -> NoDup (U v :: preds g v).
  Proof.
    intros J. constructor.
    - intros K. assert (J' := J). apply x_node in J'. apply (x_new v (U v) J'); auto. now apply (x_parents v J).
    - apply preds_NoDup. apply H.
  Qed.

  Definition node_dom' (v : var) (l : list state) : domain := (v, l) :: (U v, lu v) :: order_dom D (preds g v).
  Definition node_at (v : var) (x : dfactor * mfactor * mfactor) : Prop :=
    exists l, In (v, l) D /\ let '(f, c, r) := x in
    canonical_deterministic (node_dom' v l) (U v) (preds g v) vt = Ok f /\ tabulates v (FD f) c /\ zero_one c /\
    cpt D' vt v (U v :: preds g v) c /\ cpt D' vt (U v) [] r /\ no_negative r /\
    mf_domain r = [(U v, lu v)] /\ is_factor (FD f) (node_dom' v l) [v] (U v :: preds g v) /\ is_factor (FM r) [(U v, lu v)] [U v] [] /\
    forall a, valid D' a -> qsum (map (fun s => fv c (upd a (U v) s) * fv r (upd a (U v) s))%Qc (lu v)) = fv (F v) a.

  Lemma x_nodes : exists h, forall v, In v (keys D) -> node_at v (h v).
  Proof.
    apply (choose (MkD [] [] (StList [] []), F EmptyString, F EmptyString) node_at). intros v J. assert (J' := J). apply x_node in J'.
    assert (K := J). apply keys_In in K as (l & K).
    assert (C : cpt D vt v (preds g v) (F v)) by (destruct H as (_ & _ & _ & _ & _ & _ & Hv); apply Hv, J').
    destruct (node_ok D' vt v (U v) (preds g v) l (lu v) (F v)) as (f & c & r & h1 & h2 & h3 & h4 & h5 & h6 & h7 & h8 & h9 & h10).
    - apply x_us.
    - now apply x_sub.
    - now apply x_lu.
    - now apply x_np.
    - rewrite x_keys. intros w Q. apply in_or_app. left. now apply (x_parents v J').
    - intros E. now apply (x_new v v J J).
    - apply x_loop.
    - intros E. contradiction.
    - rewrite (x_order v J'). now apply X.
    - apply (cpt_sub D); [|assumption]. intros w k Q. apply x_sub. now apply C.
    - intros o Fo. now apply Nn.
    - rewrite (x_order v J') in *. exists (f, c, r), l. repeat (split; [assumption|]). assumption.
  Qed.

  Section Given.
    Variable h : var -> dfactor * mfactor * mfactor.
    Hypothesis Hh : forall v, In v (keys D) -> node_at v (h v).
    Let eqn (v : var) : dfactor := fst (fst (h v)).
    Let tab (v : var) : mfactor := snd (fst (h v)).
    Let root (v : var) : mfactor := snd (h v).
    Definition back (w : var) : option var := find (fun v => if eqd (U v) w then true else false) (keys D).
    Definition F' (w : var) : mfactor := if mem w (keys D) then tab w else match back w with Some v => root v | None => tab w end.
    Definition G' (w : var) : fobj := if mem w (keys D) then FD (eqn w) else FM (F' w).
    Definition fs' : dict var fobj := map (fun v => (v, FD (eqn v))) (nodes g) ++ map (fun v => (U v, FM (root v))) (nodes g).

    Lemma back_U v : In v (keys D) -> back (U v) = Some v.
    Proof.
      intros J. unfold back. destruct (find _ (keys D)) as [w|] eqn:E.
      - apply find_some in E as (Jw & E). destruct (eqd (U w) (U v)) as [Q | Q]; [|discriminate E]. f_equal. now apply x_inj.
      - exfalso. apply (find_none _ _ E) in J. now rewrite eqd_refl in J.
    Qed.
    Lemma new_mem v : In v (keys D) -> mem (U v) (keys D) = false.
    Proof. intros J. destruct (mem (U v) (keys D)) eqn:M; [|reflexivity]. apply mem_In in M. exfalso. now apply (x_new v (U v)). Qed.
    Lemma F_old v : In v (keys D) -> F' v = tab v.
    Proof. intros J. unfold F'. apply mem_In in J. now rewrite J. Qed.
    Lemma F_new v : In v (keys D) -> F' (U v) = root v.
    Proof. intros J. unfold F'. rewrite new_mem, back_U by assumption. reflexivity. Qed.
    Lemma G_old v : In v (keys D) -> G' v = FD (eqn v).
    Proof. intros J. unfold G'. apply mem_In in J. now rewrite J. Qed.
    Lemma G_new v : In v (keys D) -> G' (U v) = FM (root v).
    Proof. intros J. unfold G'. rewrite new_mem, F_new by assumption. reflexivity. Qed.
    Lemma at_old v : In v (keys D) -> exists l, In (v, l) D /\
      canonical_deterministic (node_dom' v l) (U v) (preds g v) vt = Ok (eqn v) /\ tabulates v (FD (eqn v)) (tab v) /\ zero_one (tab v) /\
      cpt D' vt v (U v :: preds g v) (tab v) /\ cpt D' vt (U v) [] (root v) /\ no_negative (root v) /\
      mf_domain (root v) = [(U v, lu v)] /\ is_factor (FD (eqn v)) (node_dom' v l) [v] (U v :: preds g v) /\ is_factor (FM (root v)) [(U v, lu v)] [U v] [] /\
      forall a, valid D' a -> qsum (map (fun s => fv (tab v) (upd a (U v) s) * fv (root v) (upd a (U v) s))%Qc (lu v)) = fv (F v) a.
    Proof. intros J. destruct (Hh v J) as (l & I & Q). exists l. split; [assumption|]. unfold eqn, tab, root. destruct (h v) as ((f & c) & r). exact Q. Qed.

    (** *** the graph *)
    Lemma x_node' w : In w (nodes g') <-> In w (keys D) \/ exists v, In v (keys D) /\ w = U v.
    Proof.
      cbn. rewrite in_app_iff, <- x_node. split; (intros [J | J]; [now left|right]).
      - apply in_map_iff in J as (v & <- & J). apply x_node in J. eauto.
      - destruct J as (v & J & ->). apply in_map, x_node, J.
    Qed.
    Lemma x_arc x y : arc g' x y <-> arc g x y \/ (In y (keys D) /\ x = U y).
    Proof.
      unfold arc. cbn. rewrite in_app_iff. split; (intros [J | J]; [now left|right]).
      - apply in_map_iff in J as (v & [= <- <-] & J). split; [now apply x_node|reflexivity].
      - destruct J as (J & ->). apply in_map_iff. exists y. split; [reflexivity|now apply x_node].
    Qed.
    Lemma x_arc_nodes x y : arc g x y -> In x (keys D) /\ In y (keys D).
    Proof. intros A. destruct H as (Wg & _). apply Wg in A. now rewrite !x_node. Qed.
    Lemma x_wg : wf_graph g'.
    Proof.
      destruct H as (Wg & _). destruct Wg as (W1 & W2 & W3). split; [|split].
      - cbn. apply GraphFacts.NoDup_app_intro; auto.
        + apply NoDup_map_inj; auto. intros v w J K. apply x_node in J, K. now apply x_inj.
        + intros w J K. apply in_map_iff in K as (v & E & K). apply x_node in J, K. now apply (x_new v w).
      - cbn. apply GraphFacts.NoDup_app_intro; auto.
        + apply NoDup_map_inj; auto. intros v w _ _ E. now injection E.
        + intros [x y] J K. apply in_map_iff in K as (v & [= <- <-] & K). apply W3 in J as [J _]. apply x_node in J, K. now apply (x_new v (U v)).
      - intros x y J. change (arc g' x y) in J. apply x_arc in J. rewrite !x_node'. destruct J as [J | [J ->]].
        + apply x_arc_nodes in J. tauto.
        + split; [right; eauto|now left].
    Qed.
    Lemma x_ac : acyclic g'.
    Proof.
      assert (Ac : acyclic g) by apply H.
      assert (Wk : forall x y, walk g' x y -> In x (keys D) -> walk g x y).
      { intros x y W. induction W as [x y A | x y z A W IH]; intros J; apply x_arc in A; destruct A as [A | [A ->]].
        - now constructor.
        - exfalso. now apply (x_new y (U y)).
        - apply walk_step with y; [assumption|]. apply IH. now apply x_arc_nodes in A.
        - exfalso. now apply (x_new y (U y)). }
      intros x W. assert (J : In x (keys D)).
      { assert (Last : forall y z, walk g' y z -> In z (keys D)).
        { intros y z Q. induction Q as [y z A | y z k A Q IH]; [|assumption]. apply x_arc in A. destruct A as [A | [A _]]; [|assumption]. now apply x_arc_nodes in A. }
        now apply (Last x x). }
      now apply (Ac x), Wk.
    Qed.
    Lemma x_preds v : In v (keys D) -> same_set (preds g' v) (U v :: preds g v).
    Proof.
      intros J w. rewrite in_preds, x_arc. cbn. rewrite in_preds. split; [intros [A | [_ ->]]; auto|intros [<- | A]; auto].
    Qed.
    Lemma x_root v : In v (keys D) -> preds g' (U v) = [].
    Proof.
      intros J. destruct (preds g' (U v)) as [|w r] eqn:E; [reflexivity|]. exfalso.
      assert (K : In w (preds g' (U v))) by (rewrite E; now left). apply in_preds, x_arc in K. destruct K as [K | [K _]].
      - apply x_arc_nodes in K. now apply (x_new v (U v)).
      - now apply (x_new v (U v)).
    Qed.
    Lemma x_endo : scm_endo g' None = nodes g.
    Proof.
      unfold scm_endo. cbn [nodes exo_graph]. rewrite filter_app, filter_all, filter_none, app_nil_r; [reflexivity| |].
      - intros w J. apply in_map_iff in J as (v & <- & J). apply x_node in J. fold g'. now rewrite x_root.
      - intros v J. apply x_node in J. assert (K : In (U v) (preds g' v)) by (apply x_preds; [assumption|now left]).
        unfold exo_graph in K. destruct (preds _ v); [destruct K|reflexivity].
    Qed.

    (** *** the model *)
    Lemma x_built : exists M, scm_init (GDag g') (Some (FsDict fs')) None false true = Ok M /\ complete D' g' G' M /\
      m_check M = true /\ m_kind M = KScm (nodes g) false.
    Proof.
      rewrite <- x_endo. apply (scm_complete D' g' true false None fs' fs' G').
      - apply x_wd.
      - exact x_wg.
      - exact x_ac.
      - rewrite x_endo. assert (A : forall vf, In vf fs' -> accepted D' g' true (KScm (nodes g) false) (fst vf) (snd vf) (snd vf)).
        { intros [w f] J. unfold fs' in J. apply in_app_iff in J as [J | J]; apply in_map_iff in J as (v & [= <- <-] & J); cbn [fst snd];
            assert (J' := J); apply x_node in J'; destruct (at_old v J') as (l & Il & h1 & h2 & h3 & h4 & h5 & h6 & h7 & h8 & h9 & _).
          - split; [|split].
            + intros m _. unfold scm_prepare. apply mem_In in J. rewrite J. destruct (m_check m); reflexivity.
            + apply x_node'. now left.
            + exists (node_dom' v l), [v], (U v :: preds g v). split; [assumption|]. split; [cbn; now left|]. split.
              * intros w s [[= <- <-] | [[= <- <-] | Q]]; [now apply x_sub|now apply x_lu|].
                apply order_dom_In in Q as [_ Q]; [now apply x_sub|apply x_wd0|now apply x_parents].
              * intros _. split; [intros w; reflexivity|]. intros w. symmetry. now apply x_preds.
          - split; [|split].
            + intros m _. unfold scm_prepare. destruct (mem (U v) (nodes g)) eqn:Mu; [|reflexivity].
              apply mem_In, x_node in Mu. exfalso. now apply (x_new v (U v)).
            + apply x_node'. right. eauto.
            + exists [(U v, lu v)], [U v], []. split; [assumption|]. split; [cbn; now left|]. split.
              * intros w s [[= <- <-] | []]. now apply x_lu.
              * intros _. split; [intros w; reflexivity|]. rewrite x_root by assumption. intros w. reflexivity. }
        revert A. generalize fs'. induction d as [|vf d IH]; intros A; constructor; [split; [reflexivity|apply A; now left]|].
        apply IH. intros q J. apply A. now right.
      - intros w f J. unfold fs' in J. apply in_app_iff in J as [J | J]; apply in_map_iff in J as (v & [= <- <-] & J); apply x_node in J.
        + symmetry. now apply G_old.
        + symmetry. now apply G_new.
      - intros w J. unfold fs'. unfold keys. rewrite map_app, !map_map. cbn [fst]. rewrite map_id. exact J.
    Qed.

    Section Made.
      Variable M : pgm.
      Hypothesis HM : complete D' g' G' M.
      Hypothesis KM : m_kind M = KScm (nodes g) false.

      Lemma x_causal : causal M D' F' vt (nodes g) false.
      Proof.
        destruct HM as (Eg & Kf & _ & St & _). split; [assumption|]. rewrite Eg. split; [exact x_wg|]. split; [exact x_ac|].
        split; [apply x_wd|]. split; [|split; [|split; [|split]]].
        - intros w. rewrite x_keys, in_app_iff, x_node'. split; (intros [J | J]; [now left|right]).
          + apply in_map_iff in J as (v & <- & J). eauto.
          + destruct J as (v & J & ->). now apply in_map.
        - rewrite Kf. apply x_wg.
        - rewrite Kf. intros w. reflexivity.
        - intros w J. exists (G' w). split; [now apply St|]. apply x_node' in J. destruct J as [J | (v & J & ->)].
          + rewrite G_old, F_old by assumption. destruct (at_old w J) as (l & Il & h1 & h2 & h3 & h4 & _).
            split; [assumption|]. split; [|split; [assumption|discriminate]].
            destruct h4 as (a1 & a2 & a3 & a4 & a5). split; [assumption|]. split; [assumption|]. split; [assumption|].
            split; [|assumption]. intros z. rewrite (a4 z). symmetry. now apply x_preds.
          + rewrite G_new, F_new by assumption. split; [reflexivity|]. rewrite x_root by assumption.
            destruct (at_old v J) as (l & Il & h1 & h2 & h3 & h4 & h5 & _). split; [assumption|].
            intros K. apply x_node in K. exfalso. now apply (x_new v (U v)).
        - intros x v A. apply x_arc in A. apply x_node. destruct A as [A | [A _]]; [|assumption]. now apply x_arc_nodes in A.
      Qed.
      Lemma x_plain : plain_roots M.
      Proof.
        destruct HM as (Eg & Kf & _ & St & _). intros w f Sf No. rewrite Eg in No.
        assert (J : In w (nodes g')) by (rewrite <- Kf; apply dget_keys; eauto).
        assert (E := St w J). unfold stored in Sf, E. rewrite E in Sf. injection Sf as <-.
        apply x_node' in J. destruct J as [J | (v & J & ->)].
        - exfalso. apply (No (U w)). apply x_arc. auto.
        - rewrite G_new by assumption. eauto.
      Qed.
      Lemma x_roots : roots (m_graph M) (map U (nodes g)).
      Proof.
        destruct HM as (Eg & _). rewrite Eg. intros w. rewrite x_node'. split.
        - intros J. apply in_map_iff in J as (v & <- & J). apply x_node in J. split; [eauto|]. intros x A. apply in_preds in A.
          rewrite x_root in A by assumption. destruct A.
        - intros ([J | (v & J & ->)] & No); [|apply in_map, x_node, J]. exfalso. apply (No (U w)). apply x_arc. auto.
      Qed.
      Lemma x_nonneg : nonnegative D' F'.
      Proof.
        intros w o J Fo. rewrite x_keys in J. apply in_app_iff in J as [J | J].
        - rewrite F_old in * by assumption. destruct (at_old w J) as (l & Il & h1 & h2 & h3 & _). unfold entry.
          destruct (h3 o Fo) as [-> | ->]; cbn; discriminate.
        - apply in_map_iff in J as (v & <- & J). rewrite F_new in * by assumption. destruct (at_old v J) as (l & Il & h1 & h2 & h3 & h4 & h5 & h6 & _). now apply h6.
      Qed.

      (** *** the sums *)
      Lemma x_net : network (tabulated M F') D' F' vt.
      Proof. exact (tabulated_network _ _ _ _ _ _ x_causal). Qed.
      Lemma x_pick S : incl S (keys D) -> pick S D' = pick S D.
      Proof.
        intros I. unfold pick, exo_dom. rewrite filter_app, (filter_none _ (map _ D)), app_nil_r; [reflexivity|].
        intros [w k] J. apply in_map_iff in J as ((v & l) & [= <- <-] & J). cbn [fst].
        destruct (mem (U v) S) eqn:E; [|reflexivity]. apply mem_In, I in E. exfalso. apply (x_new v (U v)); auto. apply keys_In. eauto.
      Qed.
      Lemma x_valid a : valid D' a -> valid D a.
      Proof. intros V w k J. apply V, x_sub, J. Qed.

      Lemma x_do d t : known D d -> known D t -> incl (keys d) (keys D) -> incl (keys t) (keys D) -> (forall v, In v (keys t) -> ~ In v (keys d)) ->
        do_mass D' F' d t = do_mass D F d t.
      Proof.
        intros Kd Kt Id It Dj. destruct (some_valid D' x_wd) as (a & Va).
        assert (Kn : forall o, known D o -> incl (keys o) (keys D) -> known D' o).
        { intros o Ko Io v l s J E. unfold exo_dom in J. apply in_app_iff in J as [J | J]; [now apply (Ko v l s)|].
          apply in_map_iff in J as ((w & k) & [= <- <-] & J). exfalso. apply (x_new w (U w)); auto; [apply keys_In; eauto|]. apply Io. apply dget_keys. eauto. }
        rewrite (do_sm _ D' F' vt x_net d (Kn d Kd Id) t a (Kn t Kt It) Va Dj).
        rewrite (do_sm b D F vt H d Kd t a Kt (x_valid a Va) Dj).
        set (R := minus (keys D) (keys d)). set (S := minus R (keys t)).
        assert (IR : incl R (keys D)) by (intros v J; now apply minus_In in J).
        assert (IS : incl S (keys D)) by (intros v J; apply minus_In in J as [J _]; now apply IR).
        assert (ER : minus (keys D') (keys d) = R ++ map U (keys D)).
        { unfold minus. rewrite x_keys, filter_app. f_equal. apply filter_all. intros w J. apply in_map_iff in J as (v & <- & J).
          apply Bool.negb_true_iff. destruct (mem (U v) (keys d)) eqn:E; [|reflexivity]. apply mem_In, Id in E. exfalso. now apply (x_new v (U v)). }
        assert (ES : minus (R ++ map U (keys D)) (keys t) = S ++ map U (keys D)).
        { unfold minus at 1. rewrite filter_app. f_equal. apply filter_all. intros w J. apply in_map_iff in J as (v & <- & J).
          apply Bool.negb_true_iff. destruct (mem (U v) (keys t)) eqn:E; [|reflexivity]. apply mem_In, It in E. exfalso. now apply (x_new v (U v)). }
        rewrite ER, ES.
        assert (Ext : ext_fun (prods (P F') (R ++ map U (keys D)))).
        { apply (prods_ext' _ D' F' vt x_net). rewrite x_keys. intros w J. apply in_app_iff in J as [J | J]; apply in_app_iff; auto. }
        rewrite (sm_app D' x_wd S (map U (keys D)) _ _ Ext);
          [|intros v J K _; apply IS in J; apply in_map_iff in K as (w & E & K); now apply (x_new w v)].
        transitivity (sm D' S (prods (P F) R) (over t (over d a))).
        2: { unfold sm. now rewrite (x_pick S IS). }
        apply (sm_ext D' x_wd).
        { apply (over_valid D' t _ (Kn t Kt It)), (over_valid D' d _ (Kn d Kd Id)), Va. }
        intros e Ve _.
        set (Hv := fun v x => ((if mem v (keys d) then 1 else P F' v x) * P F' (U v) x)%Qc).
        assert (Epr : forall x L, (prods (P F') (minus L (keys d)) x * prods (P F') (map U L) x = prods Hv L x)%Qc).
        { intros x L. induction L as [|v L IH]; [unfold prods; cbn; ring|]. cbn [map]. rewrite !prods_cons, <- IH. unfold Hv. cbn [minus filter].
          fold (minus L (keys d)). destruct (mem v (keys d)); cbn [negb]; rewrite ?prods_cons; ring. }
        assert (Ko : forall v, In v (keys D) -> In v (keys D') /\ In (U v) (keys D')).
        { intros v J. rewrite x_keys, !in_app_iff. split; [now left|right; now apply in_map]. }
        assert (De : forall v, In v (keys D) -> dep (v :: U v :: preds g v) (Hv v)).
        { intros v J x y Q. unfold Hv. destruct (at_old v J) as (l & Il & h1 & h2 & h3 & h4 & h5 & _). f_equal.
          - destruct (mem v (keys d)); [reflexivity|]. apply (P_dep _ D' F' vt x_net v (proj1 (Ko v J))). intros z Jz. apply Q.
            unfold fam in Jz. rewrite F_old in Jz by assumption. apply (cpt_vars _ _ _ _ _ _ h4) in Jz. cbn in *. intuition.
          - apply (P_dep _ D' F' vt x_net (U v) (proj2 (Ko v J))). intros z Jz. apply Q.
            unfold fam in Jz. rewrite F_new in Jz by assumption. apply (cpt_vars _ _ _ _ _ _ h5) in Jz. cbn in *. intuition. }
        transitivity (sm D' (map U (keys D)) (prods Hv (keys D)) e).
        { apply (sm_ext D' x_wd); [assumption|]. intros x _ _. rewrite prods_app. apply Epr. }
        rewrite (sm_prod D' x_wd U Hv (fun v => v :: U v :: preds g v) (keys D) e (proj1 (proj2 x_nd)) De).
        2: { intros v w J K N [E | [E | E]].
             - symmetry in E. now apply (x_new w v).
             - apply N, x_inj; auto.
             - apply x_parents in E; [now apply (x_new w (U w))|now apply x_node]. }
        transitivity (prods (fun v x => if mem v (keys d) then 1%Qc else P F v x) (keys D) e).
        { unfold prods. f_equal. apply map_ext_in. intros v J. unfold Hv. destruct (mem v (keys d)) eqn:E.
          - transitivity (sm D' [U v] (P F' (U v)) e).
            + apply (sm_ext D' x_wd); [assumption|]. intros x _ _. ring.
            + apply (P_one _ D' F' vt x_net); [apply Ko, J|assumption].
          - destruct (at_old v J) as (l & Il & h1 & h2 & h3 & h4 & h5 & h6 & h7 & h8 & h9 & h10).
            rewrite (sm_one D' x_wd (U v) (lu v)); [|apply (dep_ext (v :: U v :: preds g v)); specialize (De v J); unfold Hv in De; now rewrite E in De|now apply x_lu].
            unfold P. rewrite F_old, F_new by assumption. apply (h10 e Ve). }
        unfold R, prods, minus. generalize (keys D). intros L. induction L as [|v L IH]; [reflexivity|]. cbn [map filter qprod]. rewrite IH.
        destruct (mem v (keys d)); cbn [negb map qprod]; [ring|reflexivity].
      Qed.
    End Made.
  End Given.

  Lemma network_canonical : exists fs M F',
    (forall v, In v (nodes g) -> exists l f t, In (v, l) D /\
       canonical_deterministic ((v, l) :: (U v, lu v) :: order_dom D (preds g v)) (U v) (preds g v) vt = Ok f /\
       In (v, FD f) fs /\ In (U v, FM t) fs) /\
    scm_init (GDag g') (Some (FsDict fs)) None false true = Ok M /\ m_graph M = g' /\
    causal M D' F' vt (nodes g) false /\ plain_roots M /\ roots (m_graph M) (map U (nodes g)) /\ nonnegative D' F' /\
    forall d t, known D d -> known D t -> incl (keys d) (keys D) -> incl (keys t) (keys D) -> (forall v, In v (keys t) -> ~ In v (keys d)) ->
      do_mass D' F' d t = do_mass D F d t.
  Proof.
    destruct x_nodes as (h & Hh). destruct (x_built h Hh) as (M & E & C & _ & K). exists (fs' h), M, (F' h). split.
    { intros v J. assert (J' := J). apply x_node in J'. destruct (at_old h Hh v J') as (l & Il & h1 & _).
      eexists l, _, (snd (h v)). split; [assumption|]. split; [exact h1|]. unfold fs'. split; apply in_or_app; [left|right]; apply in_map_iff; exists v; auto. }
    split; [assumption|]. split; [apply C|]. split; [now apply x_causal|]. split; [now apply (x_plain h)|]. split; [now apply (x_roots h)|].
    split; [now apply x_nonneg|]. intros. now apply (x_do h Hh M C K).
  Qed.

  Lemma known_app (o p : obs) : known D o -> known D p -> known D (o ++ p).
  Proof. intros K L v l s J E. rewrite dget_app in E. destruct (dget v o) as [y|] eqn:Ey; [injection E as ->; eapply K; eauto|eapply L; eauto]. Qed.

  Lemma outside_keys d e v : In v (keys (outside d e)) -> In v (keys e) /\ ~ In v (keys d).
  Proof.
    intros J. apply keys_In in J as (s & J). unfold outside in J. apply filter_In in J as [J K]. cbn in K. apply Bool.negb_true_iff in K.
    split; [apply keys_In; eauto|]. intros Q. apply mem_In in Q. congruence.
  Qed.
  Lemma outside_known d e : known D e -> known D (outside d e).
  Proof.
    intros K v l s J E. apply (K v l s J). unfold outside in E. revert E. clear. induction e as [|[w x] e IH]; intros E; [discriminate E|].
    cbn [filter fst] in E. cbn [dget]. destruct (mem w (keys d)) eqn:M; cbn [negb] in E.
    - destruct (eqd v w) as [-> | _]; [|now apply IH]. exfalso. assert (J : In w (keys (outside d e))) by (apply dget_keys; eauto).
      apply outside_keys in J as [_ J]. apply mem_In in M. contradiction.
    - cbn [dget] in E. destruct (eqd v w); [assumption|now apply IH].
  Qed.
  Lemma assigns_exo T t : incl T (keys D) -> assigns D T t -> assigns D' T t.
  Proof.
    intros I (K & Fl). split; [assumption|]. intros v l J. apply (Fl v l). unfold pick, exo_dom in *. rewrite filter_app in J.
    apply in_app_iff in J as [J | J]; [assumption|]. exfalso. apply filter_In in J as [J M]. apply in_map_iff in J as ((w & k) & [= <- <-] & J).
    cbn in M. apply mem_In, I in M. apply (x_new w (U w)); auto. apply keys_In. eauto.
  Qed.
  Lemma assigns_known T t : NoDup T -> assigns D T t -> known D t.
  Proof.
    intros N (K & Fl) v l s J E. assert (Jt : In v T) by (rewrite <- K; apply dget_keys; eauto).
    destruct (Fl v l) as (s' & E' & Is); [apply filter_In; split; [assumption|]; now apply mem_In|]. congruence.
  Qed.

  Lemma network_answers : exists fs M F',
    (forall v, In v (nodes g) -> exists l f t, In (v, l) D /\
       canonical_deterministic ((v, l) :: (U v, lu v) :: order_dom D (preds g v)) (U v) (preds g v) vt = Ok f /\
       In (v, FD f) fs /\ In (U v, FM t) fs) /\
    scm_init (GDag g') (Some (FsDict fs)) None false true = Ok M /\ m_graph M = g' /\
    causal M D' F' vt (nodes g) false /\ plain_roots M /\ roots (m_graph M) (map U (nodes g)) /\ nonnegative D' F' /\
    forall heur so, is_heuristic heur -> is_set_order so ->
    forall d e T, known D d -> known D e -> NoDup (keys d) -> NoDup T -> T <> [] -> incl (keys d ++ keys e ++ T) (nodes g) ->
      (forall v, In v T -> ~ In v (keys d) /\ ~ In v (keys e)) -> do_mass D F d (outside d e) <> 0%Qc ->
      exists m1 r, cve_init M = Ok m1 /\ causal_query heur so m1 T (DoDict d) e = Ok r /\ same_set (mf_left r) T /\ mf_right r = [] /\
        forall t, assigns D T t ->
          mf_get_value r t = Ok (Fin (do_mass D F d (t ++ outside d e) / do_mass D F d (outside d e))%Qc).
  Proof.
    destruct network_canonical as (fs & M & F1 & h1 & h2 & h3 & h4 & h5 & h6 & h7 & h8). exists fs, M, F1.
    do 7 (split; [assumption|]). intros heur so Hh Hs d e T Kd Ke Nd NT Te I Dj Nz.
    assert (Id : incl (keys d) (keys D)) by (intros v J; apply x_node, I; rewrite !in_app_iff; auto).
    assert (Ie : incl (keys e) (keys D)) by (intros v J; apply x_node, I; rewrite !in_app_iff; auto).
    assert (IT : incl T (keys D)) by (intros v J; apply x_node, I; rewrite !in_app_iff; auto).
    assert (Io : incl (keys (outside d e)) (keys D)) by (intros v J; apply outside_keys in J as [J _]; auto).
    assert (Up : forall vs, incl vs (keys D) -> incl vs (nodes (m_graph M))) by (intros vs J v K; rewrite h3; apply x_node'; auto).
    assert (Ko : known D (outside d e)) by (apply outside_known; assumption).
    assert (E0 : do_mass D' F1 d (outside d e) = do_mass D F d (outside d e)).
    { apply h8; auto. intros v J. now apply outside_keys in J. }
    assert (Kd' : known D' d).
    { intros v l s J E. unfold exo_dom in J. apply in_app_iff in J as [J | J]; [now apply (Kd v l s)|].
      apply in_map_iff in J as ((w & k) & [= <- <-] & J). exfalso. apply (x_new w (U w)); auto; [apply keys_In; eauto|]. apply Id, dget_keys. eauto. }
    destruct (causal_query_ok M D' F1 vt (nodes g) false h4 h5 heur so Hh Hs d Nd (Up _ Id) e T Kd' NT Te (Up _ IT) (Up _ Ie) Dj)
      as (m1 & r & c1 & c2 & c3 & c4 & c5 & c6 & c7 & c8 & c9 & c10); [now rewrite E0|].
    exists m1, r. do 4 (split; [assumption|]). intros t At. rewrite (c9 t (assigns_exo T t IT At)), E0. do 3 f_equal.
    apply h8; auto.
    - apply known_app; [now apply (assigns_known T)|assumption].
    - destruct At as (K & _). unfold keys. rewrite map_app. fold (keys t). fold (keys (outside d e)). intros v J. apply in_app_iff in J as [J | J]; auto. rewrite K in J. auto.
    - destruct At as (K & _). unfold keys at 1. rewrite map_app. fold (keys t). fold (keys (outside d e)). intros v J. apply in_app_iff in J as [J | J]; [rewrite K in J; now apply Dj|now apply outside_keys in J].
  Qed.
End Model.
