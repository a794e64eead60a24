(** Structural models whose equations are replaced by canonical ones. *)

From Coq Require Import String Bool Arith ZArith QArith Qcanon Lia Permutation List.
From Verif Require Import PyBase Num DomainModel NdArray StoreModel NumStore FactorModel GenModel GraphModel ModelModel Spec StoreSpec FactorSpec GraphSpec ModelSpec GenSpec NetSpec CausalSpec CanonSpec InferModel CausalModel
  NumFacts PyFacts BigSum StoreFacts FactorFacts FactorFacts2 FactorFacts3 PropFacts1 NetSem FactorSem EmMath GenFacts2 GenFacts3 GraphFacts NetFacts BuildFacts BuildFacts2 VeFacts4 VeFacts5 CausalFacts CausalFacts2 CfFacts LawFacts
  CanonFacts1 CanonFacts2 CanonFacts3 CanonFacts4 CanonFacts5 CanonFacts8.
From Coq Require Import List.
Import ListNotations.
Local Open Scope nat_scope.
Local Open Scope list_scope.
Local Arguments eqd : simpl never.

Lemma fv_01 D vt f a : good D vt f -> zero_one f -> valid D a -> fv f a = 0%Qc \/ fv f a = 1%Qc.
Proof.
  intros G Z V. assert (E := get_obs_D D vt f a G V).
  assert (Fo : full (mf_domain f) (obs_of (keys D) a)).
  { intros w k J. apply (full_obs_D D a V w k). apply G, J. }
  destruct (Z _ Fo) as [Q | Q]; rewrite E in Q; injection Q as Q; auto.
Qed.

Lemma upd_valid D a v l s : wf_dom D -> In (v, l) D -> In s l -> valid D a -> valid D (upd a v s).
Proof.
  intros W I J V w k K. unfold upd. destruct (eqd w v) as [-> | _]; [|now apply V].
  now rewrite (same_states D v k l (proj1 W) K I).
Qed.

Section Markov.
  Variables (m : pgm) (D : domain) (F : var -> mfactor) (vt : vtype) (endo : list var) (cast : bool) (X : list var) (U : var -> var) (lu : var -> list state).
  Notation g := (m_graph m).
  Hypothesis H : causal m D F vt endo cast.
  Hypothesis Nn : nonnegative D F.
  Hypothesis Vt : vt <> VNumpy.
  Hypothesis Mk : markovian g X U.
  Hypothesis Rs : response_states D g X U lu.
  Notation D' := (with_states D X lu).
  Notation ps := (inner_parents g X).
  Notation A v := (all_assignments (order_dom D (ps v))).

  Lemma k_keys : keys D' = keys D.
  Proof. unfold with_states, keys. rewrite map_map. reflexivity. Qed.
  Lemma k_us : usable D'. Proof. apply Rs. Qed.
  Lemma k_wd : wf_dom D'. Proof. apply usable_wf, Rs. Qed.
  Lemma k_wd0 : wf_dom D. Proof. apply H. Qed.
  Lemma k_node v : In v (keys D) <-> In v (nodes g). Proof. apply H. Qed.
  Lemma k_in v l : In (v, l) D -> In (v, if mem v X then lu v else l) D'.
  Proof. intros J. unfold with_states. apply in_map_iff. exists (v, l). auto. Qed.
  Lemma k_from v k : In (v, k) D' -> exists l, In (v, l) D /\ k = if mem v X then lu v else l.
  Proof. intros J. unfold with_states in J. apply in_map_iff in J as ((w & l) & [= <- <-] & J). eauto. Qed.
  Lemma k_out v : ~ In v X -> mem v X = false.
  Proof. intros N. destruct (mem v X) eqn:E; [|reflexivity]. apply mem_In in E. contradiction. Qed.
  Lemma k_inner v l : ~ In v X -> (In (v, l) D <-> In (v, l) D').
  Proof.
    intros N. split; intros J.
    - apply k_in in J. now rewrite (k_out v N) in J.
    - apply k_from in J as (k & J & ->). now rewrite (k_out v N).
  Qed.
  Lemma k_X x : In x X -> In x (keys D).
  Proof. intros J. apply k_node, Mk, J. Qed.
  Lemma k_lu x : In x X -> In (x, lu x) D'.
  Proof. intros J. assert (K := k_X x J). apply keys_In in K as (l & K). apply k_in in K. apply mem_In in J. now rewrite J in K. Qed.
  Lemma k_ps v w : In w (ps v) <-> arc g w v /\ ~ In w X.
  Proof.
    unfold inner_parents. rewrite filter_In, in_preds, Bool.negb_true_iff. split; intros [B C]; split; auto.
    - intros J. apply mem_In in J. congruence.
    - now apply k_out.
  Qed.
  Lemma k_U v : In v (keys D) -> ~ In v X -> In (U v) X /\ arc g (U v) v.
  Proof. intros J N. apply k_node in J. destruct Mk as (_ & M2 & _). now apply (M2 v J N (U v)). Qed.
  Lemma k_arc x y : arc g x y -> In x (keys D) /\ In y (keys D).
  Proof. intros B. destruct H as (_ & Wg & _). apply Wg in B. now rewrite !k_node. Qed.
  Lemma k_psD v : incl (ps v) (keys D).
  Proof. intros w J. apply k_ps in J as [J _]. now apply k_arc in J. Qed.
  Lemma k_order v : order_dom D' (ps v) = order_dom D (ps v).
  Proof.
    apply order_dom_ext. intros w J. assert (K := k_psD v w J). apply k_ps in J as [_ J]. apply keys_In in K as (l & K).
    rewrite (In_dget w l D (proj1 k_wd0) K). apply In_dget; [apply k_wd|]. now apply k_inner.
  Qed.
  Lemma k_preds v : In v (keys D) -> ~ In v X -> same_set (preds g v) (U v :: ps v).
  Proof.
    intros J N w. rewrite in_preds. cbn [In]. rewrite k_ps. split.
    - intros B. destruct (in_dec eqd w X) as [Jx | Nx]; [|now right]. left. symmetry.
      destruct Mk as (_ & M2 & _). apply k_node in J. now apply (M2 v J N w).
    - intros [<- | [B _]]; [now apply k_U|assumption].
  Qed.
  Lemma k_root x : In x X -> preds g x = [].
  Proof.
    intros J. destruct (preds g x) as [|w r] eqn:E; [reflexivity|]. exfalso. destruct Mk as (M1 & _). apply M1 in J as [_ J].
    apply (J w). apply in_preds. rewrite E. now left.
  Qed.
  Lemma k_cpt v : In v (keys D) -> cpt D vt v (preds g v) (F v).
  Proof. intros J. apply k_node in J. destruct H as (_ & _ & _ & _ & _ & _ & _ & Hv & _). destruct (Hv v J) as (f & _ & _ & C & _). exact C. Qed.
  Lemma k_01 v : In v (keys D) -> ~ In v X -> zero_one (F v).
  Proof.
    intros J N. assert (B := proj2 (k_U v J N)). apply k_node in J. destruct H as (_ & _ & _ & _ & _ & _ & _ & Hv & He).
    destruct (Hv v J) as (f & _ & _ & _ & Z). apply Z. now apply (He (U v) v).
  Qed.
  Lemma k_child x : In x X -> exists v, In v (keys D) /\ ~ In v X /\ U v = x.
  Proof.
    intros J. destruct Mk as (M1 & M2 & _ & M4). destruct (M4 x J) as (v & B). exists v.
    assert (K := proj2 (k_arc x v B)). assert (N : ~ In v X) by (intros Q; apply M1 in Q as [_ Q]; now apply (Q x)).
    split; [assumption|]. split; [assumption|]. symmetry. apply k_node in K. now apply (M2 v K N x).
  Qed.
  Lemma k_inj v w : In v (keys D) -> In w (keys D) -> ~ In v X -> ~ In w X -> U v = U w -> v = w.
  Proof. intros J K. apply k_node in J, K. destruct Mk as (_ & _ & M3 & _). now apply M3. Qed.

  (** *** the weights of the states of an exogenous variable *)
  Definition wt (x : var) (s : state) : Qc := entry (F x) [(x, s)].
  Lemma wt_fv x a : In x X -> valid D a -> fv (F x) a = wt x (a x).
  Proof.
    intros J V. symmetry. assert (C := k_cpt x (k_X x J)). apply (entry_fv D vt (F x) a); [apply k_wd0|apply (cpt_good _ _ _ _ _ C)|assumption|].
    intros w Jw. apply (cpt_vars _ _ _ _ _ _ C) in Jw. rewrite (k_root x J) in Jw. destruct Jw as [-> | []]. cbn [dget]. now rewrite eqd_refl.
  Qed.
  Lemma wt_nonneg x l s : In x X -> In (x, l) D -> In s l -> (0 <= wt x s)%Qc.
  Proof.
    intros J I Js. apply Nn; [now apply k_X|]. assert (C := k_cpt x (k_X x J)). intros w k K.
    assert (Kw : In w (mf_vars (F x))) by (apply keys_In; eauto). apply (cpt_vars _ _ _ _ _ _ C) in Kw. rewrite (k_root x J) in Kw.
    destruct Kw as [-> | []]. exists s. cbn [dget]. rewrite eqd_refl. split; [reflexivity|].
    assert (K' : In (x, k) D) by (apply C; exact K). now rewrite (same_states D x k l (proj1 k_wd0) K' I).
  Qed.
  Lemma wt_total x l : In x X -> In (x, l) D -> qsum (map (wt x) l) = 1%Qc.
  Proof.
    intros J I. destruct (some_valid D k_wd0) as (a & Va). assert (C := k_cpt x (k_X x J)).
    rewrite <- (cpt_one D vt k_wd0 x _ _ a C Va).
    rewrite (sm_one D k_wd0 x l); [|apply (dep_ext (mf_vars (F x))), (fv_dep D vt), (cpt_good _ _ _ _ _ C)|assumption].
    apply (f_equal qsum), map_ext_in. intros s Js. rewrite wt_fv; [|assumption|now apply (upd_valid D a x l s k_wd0)].
    f_equal. unfold upd. now rewrite eqd_refl.
  Qed.

  (** *** one variable *)
  Lemma respond v l lo (val : state -> obs -> state) : In (v, l) D -> ~ In v X -> In (U v, lo) D ->
    (forall k : obs -> state, (forall p, In p (A v) -> In (k p) l) -> exists s, In s (lu (U v)) /\ forall p, In p (A v) -> val s p = k p) ->
    forall s, In s lo -> exists t, In t (lu (U v)) /\
      forall a, valid D a -> a (U v) = s -> fv (F v) a = if eqd (val t (obs_of (ps v) a)) (a v) then 1%Qc else 0%Qc.
  Proof.
    intros Iv N Iu VS s Is. assert (Jv : In v (keys D)) by (apply keys_In; eauto). assert (C := k_cpt v Jv). assert (G := cpt_good _ _ _ _ _ C).
    assert (Uv := k_U v Jv N).
    assert (Vp : forall w, In w (ps v) -> w <> U v /\ w <> v).
    { intros w J. apply k_ps in J as [B J]. split; [intros ->; now apply J|]. intros ->. destruct H as (_ & _ & Ac & _). apply (Ac v). now constructor. }
    assert (Nv : v <> U v) by (intros E; apply N; rewrite E; apply Uv).
    assert (K : forall p, In p (A v) -> exists y, In y l /\ forall a, valid D a -> a (U v) = s -> obs_of (ps v) a = p ->
      fv (F v) a = if eqd y (a v) then 1%Qc else 0%Qc).
    { intros p Jp. destruct (some_valid D k_wd0) as (a0 & Va0).
      assert (Kp : known D p).
      { apply all_assignments_In_full in Jp as [Kp Fp]; [|rewrite order_dom_keys; apply NoDup_filter, preds_NoDup, H].
        intros w k z Jw Ez. assert (Jk : In w (ps v)) by (rewrite <- (order_dom_keys D (ps v)), <- Kp; apply dget_keys; eauto).
        destruct (Fp w k) as (z' & Ez' & Iz); [apply (order_dom_In D (ps v) w k (proj1 k_wd0) (k_psD v)); auto|]. congruence. }
      set (b := upd (over p a0) (U v) s). assert (Vb : valid D b) by (apply (upd_valid D _ (U v) lo s k_wd0 Iu Is), over_valid; assumption).
      assert (One := cpt_one D vt k_wd0 v _ _ b C Vb).
      rewrite (sm_one D k_wd0 v l) in One; [|apply (dep_ext (mf_vars (F v))), (fv_dep D vt), G|assumption].
      destruct (qsum01 (fun y => fv (F v) (upd b v y)) l) as (y & Jy & Ey & Uy).
      - apply (proj2 k_wd0 v l Iv).
      - intros y Jy. apply (fv_01 D vt); [assumption|now apply k_01|now apply (upd_valid D b v l y k_wd0)].
      - exact One.
      - exists y. split; [assumption|]. intros a Va Ea Eo.
        assert (Jav : In (a v) l) by now apply Va.
        assert (Same : fv (F v) a = fv (F v) (upd b v (a v))).
        { apply (fv_dep D vt (F v) G). intros w Jw. apply (cpt_vars _ _ _ _ _ _ C) in Jw. unfold upd at 1. destruct (eqd w v) as [-> | Nw]; [reflexivity|].
          destruct Jw as [-> | Jw]; [contradiction|]. apply (k_preds v Jv N) in Jw. unfold b, upd. destruct Jw as [<- | Jw].
          - now rewrite eqd_refl.
          - rewrite eqd_neq by (now apply Vp). unfold over. rewrite <- Eo, (obs_of_get (ps v) a w Jw). reflexivity. }
        rewrite Same. destruct (eqd y (a v)) as [<- | Ne]; [assumption|].
        destruct (fv_01 D vt (F v) (upd b v (a v)) G (k_01 v Jv N)) as [Z | Z]; [now apply (upd_valid D b v l (a v) k_wd0)|assumption|].
        exfalso. apply Ne. symmetry. now apply Uy. }
    destruct (choose_dec obs_dec (SInt 0%Z) _ (A v) K) as (k & Hk).
    destruct (VS k) as (t & It & Et); [intros p Jp; now apply Hk|]. exists t. split; [assumption|]. intros a Va Ea.
    assert (Jp : In (obs_of (ps v) a) (A v)).
    { apply all_assignments_In_full; [rewrite order_dom_keys; apply NoDup_filter, preds_NoDup, H|]. rewrite order_dom_keys. split; [apply keys_obs_of|].
      intros w kk Jw. apply (order_dom_In D (ps v) w kk (proj1 k_wd0) (k_psD v)) in Jw as (Jw1 & Jw2).
      exists (a w). split; [now apply obs_of_get|now apply Va]. }
    rewrite (Et _ Jp). now apply Hk.
  Qed.

  Definition node_dom' (v : var) (l : list state) : domain := (v, l) :: (U v, lu (U v)) :: order_dom D (ps v).
  Definition node_at (v : var) (x : dfactor * mfactor * mfactor * (state -> state)) : Prop :=
    exists l lo, In (v, l) D /\ In (U v, lo) D /\ let '(f, c, r, phi) := x in
    canonical_deterministic (node_dom' v l) (U v) (ps v) vt = Ok f /\ tabulates v (FD f) c /\ zero_one c /\
    cpt D' vt v (U v :: ps v) c /\ cpt D' vt (U v) [] r /\ no_negative r /\ is_factor (FD f) (node_dom' v l) [v] (U v :: ps v) /\
    is_factor (FM r) [(U v, lu (U v))] [U v] [] /\ (forall s, In s lo -> In (phi s) (lu (U v))) /\
    (forall a a', valid D a -> valid D' a' -> a' v = a v -> (forall w, In w (ps v) -> a' w = a w) -> a' (U v) = phi (a (U v)) -> fv c a' = fv (F v) a) /\
    forall a', valid D' a' -> fv r a' = moved phi (wt (U v)) lo (a' (U v)).

  Definition no_factor : dfactor * mfactor * mfactor * (state -> state) := (MkD [] [] (StList [] []), F EmptyString, F EmptyString, fun s => s).
  Lemma k_nodes : exists h, forall v, In v (filter (fun v => negb (mem v X)) (keys D)) -> node_at v (h v).
  Proof.
    apply (choose_dec (fun a b => eqd a b) no_factor node_at). intros v J. apply filter_In in J as [J N]. apply Bool.negb_true_iff in N.
    assert (N' : ~ In v X) by (intros Q; apply mem_In in Q; congruence). clear N.
    assert (K := J). apply keys_In in K as (l & Il). assert (Uv := k_U v J N').
    assert (K := k_X (U v) (proj1 Uv)). apply keys_In in K as (lo & Io).
    destruct (node_eqn D' vt v (U v) (ps v) l (lu (U v))) as (f & c & val & h1 & h2 & h3 & h4 & h5 & h6 & h7 & h8).
    - apply k_us.
    - now apply k_inner.
    - now apply k_lu.
    - constructor; [|apply NoDup_filter, preds_NoDup, H]. intros Q. apply k_ps in Q as [_ Q]. now apply Q.
    - rewrite k_keys. apply k_psD.
    - intros E. apply N'. rewrite E. apply Uv.
    - intros Q. apply k_ps in Q as [Q _]. destruct H as (_ & _ & Ac & _). apply (Ac v). now constructor.
    - intros E. contradiction.
    - rewrite k_order. now apply Rs.
    - rewrite k_order in *.
      destruct (choose_dec (fun a b : state => eqd a b) (SInt 0%Z) _ lo (respond v l lo val Il N' Io h8)) as (phi & Hphi).
      destruct (node_root D' vt (U v) (lu (U v)) k_us (k_lu (U v) (proj1 Uv)) (moved phi (wt (U v)) lo)) as (r & r1 & r2 & r3 & r4 & r5).
      + rewrite total_qsum. rewrite <- (wt_total (U v) lo (proj1 Uv) Io).
        assert (S := moved_sum (fun _ => 1%Qc) phi (wt (U v)) lo (lu (U v)) (proj1 (proj2 k_wd _ _ (k_lu _ (proj1 Uv)))) (fun s Js => proj1 (Hphi s Js))).
        etransitivity; [|etransitivity; [exact S|]]; apply (f_equal qsum), map_ext; intros s; ring.
      + intros s Js. apply moved_nonneg. intros z Jz. now apply (wt_nonneg (U v) lo).
      + exists (f, c, r, phi), l, lo. repeat (split; [assumption|]). split; [intros s Js; now apply Hphi|]. split; [|assumption].
        intros a a' Va Va' Ev Ep Eu. rewrite (h7 a' Va').
        assert (Eo : obs_of (ps v) a' = obs_of (ps v) a) by (unfold obs_of; apply map_ext_in; intros w Jw; now rewrite Ep).
        rewrite Eo, Ev, Eu. symmetry. apply Hphi; auto.
  Qed.

  Section Given.
    Variable h : var -> dfactor * mfactor * mfactor * (state -> state).
    Hypothesis Hh : forall v, In v (filter (fun v => negb (mem v X)) (keys D)) -> node_at v (h v).
    Let eqn (v : var) : dfactor := fst (fst (fst (h v))).
    Let tab (v : var) : mfactor := snd (fst (fst (h v))).
    Let root (v : var) : mfactor := snd (fst (h v)).
    Definition child (x : var) : var :=
      match find (fun v => negb (mem v X) && if eqd (U v) x then true else false) (keys D) with Some v => v | None => x end.
    Let phi (x : var) : state -> state := snd (h (child x)).
    Definition F' (w : var) : mfactor := if mem w X then root (child w) else tab w.
    Definition G' (w : var) : fobj := if mem w X then FM (F' w) else FD (eqn w).
    Definition fs' : dict var fobj := map (fun w => (w, G' w)) (nodes g).
    Definition E' : list var := filter (fun v => negb (mem v X)) (nodes g).

    Lemma child_ok x : In x X -> In (child x) (keys D) /\ ~ In (child x) X /\ U (child x) = x.
    Proof.
      intros J. unfold child. destruct (find _ (keys D)) as [v|] eqn:E.
      - apply find_some in E as (Jv & E). apply andb_prop in E as [E1 E2]. apply Bool.negb_true_iff in E1.
        split; [assumption|]. split; [intros Q; apply mem_In in Q; congruence|]. destruct (eqd (U v) x); [assumption|discriminate E2].
      - exfalso. destruct (k_child x J) as (v & Jv & Nv & Ev). apply (find_none _ _ E) in Jv. rewrite (k_out v Nv), Ev, eqd_refl in Jv. discriminate Jv.
    Qed.
    Lemma child_U v : In v (keys D) -> ~ In v X -> child (U v) = v.
    Proof.
      intros J N. destruct (child_ok (U v)) as (J' & N' & E); [now apply k_U|]. now apply k_inj.
    Qed.
    Lemma F_in v : ~ In v X -> F' v = tab v.
    Proof. intros N. unfold F'. now rewrite (k_out v N). Qed.
    Lemma F_ex x : In x X -> F' x = root (child x).
    Proof. intros J. unfold F'. apply mem_In in J. now rewrite J. Qed.
    Lemma at_in v : In v (keys D) -> ~ In v X -> exists l lo, In (v, l) D /\ In (U v, lo) D /\
      canonical_deterministic (node_dom' v l) (U v) (ps v) vt = Ok (eqn v) /\ tabulates v (FD (eqn v)) (tab v) /\ zero_one (tab v) /\
      cpt D' vt v (U v :: ps v) (tab v) /\ cpt D' vt (U v) [] (root v) /\ no_negative (root v) /\ is_factor (FD (eqn v)) (node_dom' v l) [v] (U v :: ps v) /\
      is_factor (FM (root v)) [(U v, lu (U v))] [U v] [] /\ (forall s, In s lo -> In (phi (U v) s) (lu (U v))) /\
      (forall a a', valid D a -> valid D' a' -> a' v = a v -> (forall w, In w (ps v) -> a' w = a w) -> a' (U v) = phi (U v) (a (U v)) -> fv (tab v) a' = fv (F v) a) /\
      forall a', valid D' a' -> fv (root v) a' = moved (phi (U v)) (wt (U v)) lo (a' (U v)).
    Proof.
      intros J N. unfold phi. rewrite (child_U v J N).
      destruct (Hh v) as (l & lo & I & Io & Q); [apply filter_In; split; [assumption|]; now rewrite (k_out v N)|]. exists l, lo.
      split; [assumption|]. split; [assumption|]. unfold eqn, tab, root. destruct (h v) as (((f & c) & r) & ph). exact Q.
    Qed.
    Lemma at_ex x : In x X -> exists lo, In (x, lo) D /\ cpt D' vt x [] (F' x) /\ no_negative (F' x) /\ is_factor (FM (F' x)) [(x, lu x)] [x] [] /\
      (forall s, In s lo -> In (phi x s) (lu x)) /\ forall a', valid D' a' -> fv (F' x) a' = moved (phi x) (wt x) lo (a' x).
    Proof.
      intros J. destruct (child_ok x J) as (Jc & Nc & Ec). rewrite (F_ex x J).
      destruct (at_in (child x) Jc Nc) as (l & lo & I & Io & _ & _ & _ & _ & h5 & h6 & _ & h8 & h9 & _ & h11). rewrite Ec in *.
      exists lo. repeat (split; [assumption|]). assumption.
    Qed.

    (** *** the model *)
    Lemma k_endo : scm_endo g None = E'.
    Proof.
      unfold scm_endo, E'. apply filter_ext_in. intros v J. apply k_node in J. destruct (in_dec eqd v X) as [Jx | Nx].
      - rewrite (k_root v Jx). apply mem_In in Jx. now rewrite Jx.
      - rewrite (k_out v Nx). assert (K : In (U v) (preds g v)) by (apply in_preds; now apply k_U).
        destruct (preds g v); [destruct K|reflexivity].
    Qed.
    Lemma k_dom' v l : In (v, l) D -> ~ In v X -> forall w s, In (w, s) (node_dom' v l) -> In (w, s) D'.
    Proof.
      intros I N w s [[= <- <-] | [[= <- <-] | Q]].
      - now apply k_inner.
      - apply k_lu, k_U; [apply keys_In; eauto|assumption].
      - apply (order_dom_In D (ps v) w s (proj1 k_wd0) (k_psD v)) in Q as [Q1 Q2]. apply k_ps in Q1 as [_ Q1]. now apply k_inner.
    Qed.
    Lemma k_built : exists M, scm_init (GDag g) (Some (FsDict fs')) None false true = Ok M /\ complete D' g G' M /\
      m_check M = true /\ m_kind M = KScm E' false.
    Proof.
      rewrite <- k_endo. apply (scm_complete D' g true false None fs' fs' G').
      - apply k_wd.
      - apply H.
      - apply H.
      - rewrite k_endo. assert (B : forall vf, In vf fs' -> accepted D' g true (KScm E' false) (fst vf) (snd vf) (snd vf)).
        { intros [w f] J. unfold fs' in J. apply in_map_iff in J as (v & [= <- <-] & J). cbn [fst snd]. assert (J' := J). apply k_node in J'.
          unfold G'. destruct (mem v X) eqn:Mv.
          - assert (Jx := Mv). apply mem_In in Jx. destruct (at_ex v Jx) as (lo & I & h1 & h2 & h3 & _). split; [|split; [assumption|]].
            + intros m0 _. unfold scm_prepare. destruct (mem v E') eqn:Me; [|reflexivity]. apply mem_In, filter_In in Me as [_ Me]. now rewrite Mv in Me.
            + exists [(v, lu v)], [v], []. split; [assumption|]. split; [cbn; now left|]. split.
              * intros w s [[= <- <-] | []]. now apply k_lu.
              * intros _. split; [intros w; reflexivity|]. rewrite (k_root v Jx). intros w. reflexivity.
          - assert (Nx : ~ In v X) by (intros Q; apply mem_In in Q; congruence).
            destruct (at_in v J' Nx) as (l & lo & I & Io & h1 & h2 & h3 & h4 & h5 & h6 & h7 & _). split; [|split; [assumption|]].
            + intros m0 _. unfold scm_prepare. assert (Me : mem v E' = true) by (apply mem_In, filter_In; now rewrite Mv). rewrite Me.
              destruct (m_check m0); reflexivity.
            + exists (node_dom' v l), [v], (U v :: ps v). split; [assumption|]. split; [cbn; now left|]. split; [now apply k_dom'|].
              intros _. split; [intros w; reflexivity|]. intros w. symmetry. now apply k_preds. }
        revert B. generalize fs'. induction d as [|vf d IH]; intros B; constructor; [split; [reflexivity|apply B; now left]|].
        apply IH. intros q J. apply B. now right.
      - intros w f J. unfold fs' in J. apply in_map_iff in J as (v & [= <- <-] & J). reflexivity.
      - intros w J. unfold fs', keys. rewrite map_map. cbn [fst]. now rewrite map_id.
    Qed.

    Section Made.
      Variable M : pgm.
      Hypothesis HM : complete D' g G' M.
      Hypothesis KM : m_kind M = KScm E' false.

      Lemma k_causal : causal M D' F' vt E' false.
      Proof.
        destruct HM as (Eg & Kf & _ & St & _). split; [assumption|]. rewrite Eg. split; [apply H|]. split; [apply H|].
        split; [apply k_wd|]. split; [|split; [|split; [|split]]].
        - rewrite k_keys. apply H.
        - rewrite Kf. apply H.
        - rewrite Kf. intros w. reflexivity.
        - intros v J. exists (G' v). split; [now apply St|]. apply k_node in J. unfold G'. destruct (mem v X) eqn:Mv.
          + assert (Jx := Mv). apply mem_In in Jx. destruct (at_ex v Jx) as (lo & I & h1 & _). split; [reflexivity|]. rewrite (k_root v Jx).
            split; [assumption|]. intros Me. apply filter_In in Me as [_ Me]. now rewrite Mv in Me.
          + assert (Nx : ~ In v X) by (intros Q; apply mem_In in Q; congruence). rewrite (F_in v Nx).
            destruct (at_in v J Nx) as (l & lo & I & Io & h1 & h2 & h3 & h4 & _). split; [assumption|]. split; [|split; [assumption|discriminate]].
            destruct h4 as (a1 & a2 & a3 & a4 & a5). split; [assumption|]. split; [assumption|]. split; [assumption|].
            split; [|assumption]. intros z. rewrite (a4 z). symmetry. now apply k_preds.
        - intros x v B. apply filter_In. assert (Jv := proj2 (k_arc x v B)). split; [now apply k_node|]. apply Bool.negb_true_iff, k_out.
          intros Q. apply k_root in Q. apply in_preds in B. rewrite Q in B. destruct B.
      Qed.
      Lemma k_plain : plain_roots M.
      Proof.
        destruct HM as (Eg & Kf & _ & St & _). intros w f Sf No. rewrite Eg in No.
        assert (J : In w (nodes g)) by (rewrite <- Kf; apply dget_keys; eauto).
        assert (E := St w J). unfold stored in Sf, E. rewrite E in Sf. injection Sf as <-. unfold G'.
        assert (Jx : In w X) by (apply Mk; split; assumption). apply mem_In in Jx. rewrite Jx. eauto.
      Qed.
      Lemma k_nonneg : nonnegative D' F'.
      Proof.
        intros v o J Fo. rewrite k_keys in J. destruct (in_dec eqd v X) as [Jx | Nx].
        - destruct (at_ex v Jx) as (lo & I & h1 & h2 & _). now apply h2.
        - rewrite (F_in v Nx) in *. destruct (at_in v J Nx) as (l & lo & I & Io & h1 & h2 & h3 & _). unfold entry.
          destruct (h3 o Fo) as [-> | ->]; cbn; discriminate.
      Qed.

      (** *** the units *)
      Lemma obs_asg (d : domain) o : NoDup (keys d) -> In o (all_assignments d) -> exists a, valid d a /\ o = obs_of (keys d) a.
      Proof.
        intros N J. apply all_assignments_In_full in J as [K Fo]; [|assumption]. exists (asg_of o). split; [now apply full_valid|].
        apply obs_ext; [now rewrite keys_obs_of|now rewrite K|]. intros v Jv. rewrite K in Jv. rewrite (obs_of_get _ _ _ Jv).
        now apply (full_agrees d o Fo).
      Qed.
      Lemma entry_obs (d : domain) f a : good d vt f -> valid d a -> entry f (obs_of (keys d) a) = fv f a.
      Proof. intros G V. unfold entry. now rewrite (get_obs_D d vt f a G V). Qed.
      Lemma cons_obs (o : obs) vs a : consistent o (obs_of vs a) = forallb (fun v => match dget v o with Some s => if eqd s (a v) then true else false | None => true end) vs.
      Proof. unfold consistent, obs_of. induction vs as [|v vs IH]; [reflexivity|]. cbn [map forallb fst snd]. now rewrite IH. Qed.

      (** the same values of the endogenous variables, and corresponding states
          of the exogenous ones *)
      Definition match_up (a a' : asg) : Prop :=
        valid D a /\ valid D' a' /\ forall v, In v (keys D) -> a' v = if mem v X then phi v (a v) else a v.

      Lemma match_solves a a' d : match_up a a' -> solves D' F' X d (obs_of (keys D) a') = solves D F X d (obs_of (keys D) a).
      Proof.
        intros (Va & Va' & E). unfold solves. rewrite !keys_drop', k_keys. apply forallb_ext_in'. intros v J.
        apply minus_In in J as [J N]. assert (Ev : a' v = a v) by (rewrite (E v J), (k_out v N); reflexivity).
        rewrite !(obs_of_get (keys D) _ v J), Ev. destruct (dget v d); [reflexivity|].
        destruct (at_in v J N) as (l & lo & I & Io & h1 & h2 & h3 & h4 & h5 & h6 & h7 & h8 & h9 & h10 & _).
        assert (Q : entry (F' v) (obs_of (keys D) a') = entry (F v) (obs_of (keys D) a)).
        { rewrite (entry_obs D (F v) a (cpt_good _ _ _ _ _ (k_cpt v J)) Va), (F_in v N), <- k_keys.
          rewrite (entry_obs D' (tab v) a' (cpt_good _ _ _ _ _ h4) Va'). apply h10; auto.
          - intros w Jw. assert (Jk := k_psD v w Jw). apply k_ps in Jw as [_ Nw]. now rewrite (E w Jk), (k_out w Nw).
          - assert (Jx := proj1 (k_U v J N)). assert (Jk := k_X _ Jx). rewrite (E _ Jk). apply mem_In in Jx. now rewrite Jx. }
        now rewrite Q.
      Qed.
      Lemma match_event a a' t : match_up a a' -> (forall v, In v (keys t) -> ~ In v X) ->
        consistent t (obs_of (keys D) a') = consistent t (obs_of (keys D) a).
      Proof.
        intros (_ & _ & E) N. rewrite !cons_obs. apply forallb_ext_in'. intros v J. destruct (dget v t) as [s|] eqn:Et; [|reflexivity].
        assert (Nv : ~ In v X) by (apply N, dget_keys; eauto). now rewrite (E v J), (k_out v Nv).
      Qed.
      Lemma phi_in x l s : In x X -> In (x, l) D -> In s l -> In (phi x s) (lu x).
      Proof.
        intros J I Js. destruct (at_ex x J) as (lo & Io & _ & _ & _ & hp & _). apply hp. now rewrite (same_states D x lo l (proj1 k_wd0) Io I).
      Qed.
      Lemma unit_get (u : obs) v : dget v (unit_map phi u) = match dget v u with Some s => Some (phi v s) | None => None end.
      Proof.
        induction u as [|[w s] u IH]; [reflexivity|]. cbn [unit_map map dget fst snd]. destruct (eqd v w) as [-> | _]; [reflexivity|]. exact IH.
      Qed.

      Lemma match_happens u d t : In u (all_assignments (pick X D)) -> (forall v, In v (keys t) -> ~ In v X) ->
        happens D' F' X (unit_map phi u) d t = happens D F X u d t.
      Proof.
        intros Ju Nt. assert (NP : NoDup (keys (pick X D))) by (apply wf_pick', k_wd0).
        apply all_assignments_In_full in Ju as [Ku Fu]; [|assumption].
        assert (Gu : forall v l, In (v, l) D -> In v X -> exists s, dget v u = Some s /\ In s l).
        { intros v l I J. apply (Fu v l). apply filter_In. split; [assumption|]. now apply mem_In. }
        assert (Ou : forall v, ~ In v X -> dget v u = None).
        { intros v N. destruct (dget v u) as [s|] eqn:E; [|reflexivity]. exfalso. assert (J : In v (keys u)) by (apply dget_keys; eauto).
          rewrite Ku, keys_pick' in J. apply filter_In in J as [_ J]. apply mem_In in J. contradiction. }
        apply Bool.eq_iff_eq_true. unfold happens. rewrite !existsb_exists. split; intros (o & Jo & S).
        - destruct (obs_asg D' o (proj1 k_wd) Jo) as (a' & Va' & ->). rewrite k_keys in *.
          apply andb_prop in S as [S S3]. apply andb_prop in S as [S1 S2].
          set (a := fun v => if mem v X then match dget v u with Some s => s | None => a' v end else a' v).
          assert (Ma : match_up a a').
          { split; [|split; [assumption|]].
            - intros v l I. unfold a. destruct (mem v X) eqn:Mv.
              + assert (Jx := Mv). apply mem_In in Jx. destruct (Gu v l I Jx) as (s & -> & Is). assumption.
              + assert (N : ~ In v X) by (intros Q; apply mem_In in Q; congruence). apply (Va' v l). now apply k_inner.
            - intros v J. unfold a. destruct (mem v X) eqn:Mv; [|reflexivity]. assert (Jx := Mv). apply mem_In in Jx.
              assert (K := J). apply keys_In in K as (l & K). destruct (Gu v l K Jx) as (s & Es & Is). rewrite Es.
              rewrite cons_obs in S2. rewrite forallb_forall in S2. specialize (S2 v J). rewrite unit_get, Es in S2.
              destruct (eqd (phi v s) (a' v)) as [Q | Q]; [now symmetry|discriminate S2]. }
          exists (obs_of (keys D) a). split; [apply obs_of_all; [apply k_wd0|apply Ma]|].
          rewrite <- (match_solves a a' d Ma), S1, <- (match_event a a' t Ma Nt), S3, Bool.andb_true_r. cbn [andb].
          rewrite cons_obs. apply forallb_forall. intros v J. destruct (dget v u) as [s|] eqn:Es; [|reflexivity].
          unfold a. destruct (mem v X) eqn:Mv; [now rewrite Es, eqd_refl|]. exfalso.
          assert (N : ~ In v X) by (intros Q; apply mem_In in Q; congruence). rewrite (Ou v N) in Es. discriminate Es.
        - destruct (obs_asg D o (proj1 k_wd0) Jo) as (a & Va & ->).
          apply andb_prop in S as [S S3]. apply andb_prop in S as [S1 S2].
          set (a' := fun v => if mem v X then phi v (a v) else a v).
          assert (Ma : match_up a a').
          { split; [assumption|]. split; [|reflexivity]. intros v k I. apply k_from in I as (l & I & ->). unfold a'.
            destruct (mem v X) eqn:Mv; [|now apply Va]. apply mem_In in Mv. apply (phi_in v l); auto. }
          exists (obs_of (keys D) a'). split; [rewrite <- k_keys; apply obs_of_all; [apply k_wd|apply Ma]|].
          rewrite (match_solves a a' d Ma), S1, (match_event a a' t Ma Nt), S3, Bool.andb_true_r. cbn [andb].
          rewrite cons_obs in *. rewrite forallb_forall in *. intros v J. specialize (S2 v J). rewrite unit_get.
          destruct (dget v u) as [s|] eqn:Es; [|reflexivity]. destruct (eqd s (a v)) as [-> | Q]; [|discriminate S2].
          unfold a'. destruct (mem v X) eqn:Mv; [now rewrite eqd_refl|]. exfalso.
          assert (N : ~ In v X) by (intros Q; apply mem_In in Q; congruence). rewrite (Ou v N) in Es. discriminate Es.
      Qed.

      Lemma pick_X : pick X D' = map (fun xl => (fst xl, lu (fst xl))) (pick X D).
      Proof.
        unfold pick, with_states. generalize D. intros d. induction d as [|[v l] r IH]; [reflexivity|]. cbn [map filter fst snd]. destruct (mem v X) eqn:Mv; cbn [map fst]; [|exact IH].
        now rewrite IH.
      Qed.
      Lemma joint_unit (Fx : var -> mfactor) (w : var -> state -> Qc) u : NoDup (keys u) ->
        (forall x s, dget x u = Some s -> entry (Fx x) u = w x s) -> joint Fx (keys u) u = unit_weight w u.
      Proof.
        intros N E. unfold joint, unit_weight. rewrite product_qprod. unfold keys. rewrite map_map. apply (f_equal qprod), map_ext_in.
        intros [x s] J. cbn [fst snd]. apply E. now apply In_dget.
      Qed.
      Definition wt' (x : var) (s : state) : Qc := entry (F' x) [(x, s)].
      Lemma wt_agree (d : domain) f x l s o a0 : wf_dom d -> cpt d vt x [] f -> valid d a0 -> In (x, l) d -> In s l -> dget x o = Some s ->
        entry f o = fv f (upd a0 x s).
      Proof.
        intros W C V I Is E. apply (entry_fv d vt f); [assumption|apply (cpt_good _ _ _ _ _ C)|now apply (upd_valid d a0 x l s)|].
        intros w Jw. apply (cpt_vars _ _ _ _ _ _ C) in Jw. destruct Jw as [-> | []]. unfold upd. now rewrite eqd_refl.
      Qed.
      Lemma wt_moved x lo t : In x X -> In (x, lo) D -> In t (lu x) -> wt' x t = moved (phi x) (wt x) lo t.
      Proof.
        intros J I It. destruct (at_ex x J) as (lo' & I' & C & _ & _ & _ & E). assert (lo' = lo) by now apply (same_states D x lo' lo (proj1 k_wd0)). subst lo'.
        destruct (some_valid D' k_wd) as (a0 & V0). unfold wt'.
        rewrite (wt_agree D' (F' x) x (lu x) t _ a0 k_wd C V0 (k_lu x J) It) by (cbn; now rewrite eqd_refl).
        rewrite E by (now apply (upd_valid D' a0 x (lu x) t k_wd (k_lu x J))). unfold upd. now rewrite eqd_refl.
      Qed.

      Lemma k_cf evs : (forall d t, In (d, t) evs -> forall v, In v (keys t) -> ~ In v X) -> cf_mass D' F' X evs = cf_mass D F X evs.
      Proof.
        intros N. unfold cf_mass. rewrite !total_qsum, !qsum_filter.
        set (ev := fun u => forallb (fun dt => happens D F X u (fst dt) (snd dt)) evs).
        set (ev' := fun u => forallb (fun dt => happens D' F' X u (fst dt) (snd dt)) evs).
        assert (NP : NoDup (keys (pick X D))) by (apply wf_pick', k_wd0).
        assert (NP' : NoDup (keys (pick X D'))) by (apply wf_pick', k_wd).
        assert (Jx : forall x s u d, NoDup (keys (pick X d)) -> In u (all_assignments (pick X d)) -> dget x u = Some s -> In x X /\ exists l, In (x, l) d /\ In s l).
        { intros x s u d Nd J E. apply all_assignments_In_full in J as [K Fo]; [|assumption]. assert (Jk : In x (keys u)) by (apply dget_keys; eauto).
          rewrite K in Jk. apply keys_In in Jk as (l & Jk). assert (Jk' := Jk). apply filter_In in Jk' as [Jd Jx]. split; [now apply mem_In|].
          exists l. split; [assumption|]. destruct (Fo x l Jk) as (s' & E' & Is). congruence. }
        transitivity (qsum (map (fun u => unit_weight wt' u * (if ev' u then 1 else 0))%Qc (all_assignments (pick X D')))).
        { apply (f_equal qsum), map_ext_in. intros u J. assert (K := J). apply all_assignments_In_full in K as [K _]; [|assumption]. rewrite <- K.
          rewrite (joint_unit F' wt' u).
          - change (forallb _ evs) with (ev' u). destruct (ev' u); ring.
          - now rewrite K.
          - intros x s E. destruct (Jx x s u D' NP' J E) as (Jxx & l & I & Is). destruct (at_ex x Jxx) as (lo & _ & C & _).
            destruct (some_valid D' k_wd) as (a0 & V0). unfold wt'. rewrite (wt_agree D' (F' x) x l s u a0 k_wd C V0 I Is E).
            symmetry. apply (wt_agree D' (F' x) x l s _ a0 k_wd C V0 I Is). cbn. now rewrite eqd_refl. }
        rewrite pick_X, (moved_units (pick X D) lu phi wt wt' (fun u => if ev' u then 1 else 0)%Qc).
        - apply (f_equal qsum), map_ext_in. intros u J. assert (K := J). apply all_assignments_In_full in K as [K _]; [|assumption].
          assert (Ee : ev' (unit_map phi u) = ev u).
          { unfold ev', ev. apply forallb_ext_in'. intros [d t] Jd. cbn [fst snd]. apply match_happens; [assumption|]. now apply (N d t). }
          rewrite Ee, <- K. rewrite (joint_unit F wt u).
          + change (forallb _ evs) with (ev u). destruct (ev u); ring.
          + now rewrite K.
          + intros x s E. destruct (Jx x s u D NP J E) as (Jxx & l & I & Is). assert (C := k_cpt x (k_X x Jxx)). rewrite (k_root x Jxx) in C.
            destruct (some_valid D k_wd0) as (a0 & V0). unfold wt. rewrite (wt_agree D (F x) x l s u a0 k_wd0 C V0 I Is E).
            symmetry. apply (wt_agree D (F x) x l s _ a0 k_wd0 C V0 I Is). cbn. now rewrite eqd_refl.
        - intros x l J. apply filter_In in J as [I J]. apply mem_In in J. cbn [fst] in J. split; [apply (proj2 k_wd _ _ (k_lu x J))|].
          split; [intros s Is; now apply (phi_in x l)|]. intros t It. now apply wt_moved.
      Qed.
    End Made.
  End Given.

  Lemma scm_canonical : exists fs M F' endo',
    (forall v, In v (nodes g) -> ~ In v X -> exists l f t, In (v, l) D /\
       canonical_deterministic ((v, l) :: (U v, lu (U v)) :: order_dom D (ps v)) (U v) (ps v) vt = Ok f /\
       In (v, FD f) fs /\ In (U v, FM t) fs) /\
    scm_init (GDag g) (Some (FsDict fs)) None false true = Ok M /\ m_graph M = g /\
    causal M D' F' vt endo' false /\ plain_roots M /\ nonnegative D' F' /\
    forall evs, (forall d t, In (d, t) evs -> forall v, In v (keys t) -> ~ In v X) -> cf_mass D' F' X evs = cf_mass D F X evs.
  Proof.
    destruct k_nodes as (h & Hh). destruct (k_built h Hh) as (M & E & C & _ & K). exists (fs' h), M, (F' h), E'. split.
    { intros v J N. assert (J' := J). apply k_node in J'. destruct (at_in h Hh v J' N) as (l & lo & Il & _ & h1 & _).
      eexists l, _, (F' h (U v)). split; [assumption|]. split; [exact h1|]. unfold fs'. assert (Uv := proj1 (k_U v J' N)). split; apply in_map_iff.
      - exists v. split; [|assumption]. unfold G'. now rewrite (k_out v N).
      - exists (U v). split; [|apply k_node, k_X, Uv]. unfold G'. apply mem_In in Uv. now rewrite Uv. }
    split; [assumption|]. split; [apply C|]. split; [now apply k_causal|]. split; [now apply (k_plain h)|].
    split; [now apply k_nonneg|]. intros evs Ne. now apply (k_cf h Hh).
  Qed.
End Markov.
