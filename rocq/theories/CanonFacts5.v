(** One variable of a network, with a canonical equation and a new exogenous
    parent instead of its table. *)

From Coq Require Import String Bool Arith ZArith QArith Qcanon Lia Permutation List.
From Verif Require Import PyBase Num DomainModel NdArray StoreModel NumStore FactorModel GenModel GraphModel ModelModel Spec StoreSpec FactorSpec GraphSpec ModelSpec GenSpec NetSpec CausalSpec CanonSpec
  NumFacts PyFacts BigSum StoreFacts FactorFacts FactorFacts2 FactorFacts3 PropFacts1 NetSem FactorSem EmMath GenFacts2 GenFacts3 NetFacts VeFacts4 VeFacts5 CanonFacts1 CanonFacts2 CanonFacts3 CanonFacts4.
From Coq Require Import List.
Import ListNotations.
Local Open Scope nat_scope.
Local Open Scope list_scope.
Local Arguments eqd : simpl never.

Lemma order_dom_ext (d d' : domain) r : (forall v, In v r -> dget v d = dget v d') -> order_dom d r = order_dom d' r.
Proof. intros H. apply map_ext_in. intros v J. now rewrite (H v J). Qed.

Lemma cpt_sub (d d' : domain) vt v ps f : (forall w k, In (w, k) (mf_domain f) -> In (w, k) d') -> cpt d vt v ps f -> cpt d' vt v ps f.
Proof. intros S (h1 & h2 & h3 & h4 & _ & h5). repeat (split; [assumption|]). assumption. Qed.

Lemma pick_one_value {A} (eq : forall x y : A, {x = y} + {x <> y}) (l : list A) x : NoDup l -> In x l ->
  qsum (map (fun s => if eq x s then 1%Qc else 0%Qc) l) = 1%Qc.
Proof.
  intros N. induction N as [|y l Ny N IH]; intros J; [destruct J|]. cbn [map qsum]. destruct (eq x y) as [<- | Nx].
  - replace (map (fun s => if eq x s then 1%Qc else 0%Qc) l) with (map (fun _ : A => 0%Qc) l).
    + clear. assert (Z : qsum (map (fun _ : A => 0%Qc) l) = 0%Qc) by (induction l as [|z l IH]; [reflexivity|cbn [map qsum]; rewrite IH; ring]).
      rewrite Z. ring.
    + apply map_ext_in. intros s Js. destruct (eq x s) as [<- | _]; [contradiction|reflexivity].
  - destruct J as [J | J]; [congruence|]. rewrite (IH J). ring.
Qed.

Section Node.
  Variables (D : domain) (vt : vtype) (v u : var) (ps : list var) (l lu : list state) (t : mfactor).
  Hypothesis Us : usable D.
  Hypothesis Iv : In (v, l) D.
  Hypothesis Iu : In (u, lu) D.
  Hypothesis Np : NoDup (u :: ps).
  Hypothesis Sp : incl ps (keys D).
  Hypothesis Nu : v <> u.
  Hypothesis Nv : ~ In v ps.
  Hypothesis NP : vt = VNumpy -> length ps = 1.
  Hypothesis Card : length lu = length l ^ size (order_dom D ps).
  Let dom : domain := (v, l) :: (u, lu) :: order_dom D ps.
  Let WD : wf_dom D := usable_wf D Us.

  Lemma node_dom : usable dom.
  Proof.
    assert (NpU := NoDup_cons_iff u ps). apply NpU in Np as (Npu & Npp).
    assert (Sub : forall w k, In (w, k) dom -> In (w, k) D).
    { intros w k [[= <- <-] | [[= <- <-] | J]]; auto. apply (order_dom_In D ps w k (proj1 WD) Sp) in J. apply J. }
    split; [split|split].
    - cbn. fold (keys (order_dom D ps)). rewrite order_dom_keys. constructor; [|constructor]; auto. intros [E | J]; auto.
    - intros w k J. apply (proj2 WD w k). now apply Sub.
    - intros w k x y J. apply (proj1 (proj2 Us) w k). now apply Sub.
    - intros w s J. apply (proj2 (proj2 Us)). apply keys_In in J as (k & J). apply keys_In. exists k. now apply Sub.
  Qed.
  Lemma node_sub w k : In (w, k) dom -> In (w, k) D.
  Proof. intros [[= <- <-] | [[= <- <-] | J]]; auto. apply (order_dom_In D ps w k (proj1 WD) Sp) in J. apply J. Qed.
  Lemma node_order : order_dom dom ps = order_dom D ps.
  Proof.
    apply order_dom_ext. intros w J. unfold dom. cbn [dget].
    destruct (eqd w v) as [-> | _]; [contradiction|]. destruct (eqd w u) as [-> | _]; [inversion Np; contradiction|].
    assert (K := Sp w J). apply keys_In in K as (k & K).
    rewrite (In_dget w k D (proj1 WD) K). apply In_dget; [rewrite order_dom_keys; now inversion Np|].
    apply (order_dom_In D ps w k (proj1 WD) Sp). auto.
  Qed.
  Lemma node_vars : canon_vars dom v u ps l lu.
  Proof.
    split; [apply (usable_wf _ node_dom)|]. split; [now left|]. split; [right; now left|]. split; [assumption|]. split.
    { intros w J. unfold dom. cbn. right. right. fold (keys (order_dom D ps)). now rewrite order_dom_keys. }
    split; [assumption|]. split; [assumption|]. intros w J. unfold dom in J. cbn in J. fold (keys (order_dom D ps)) in J.
    rewrite order_dom_keys in J. intuition.
  Qed.
  Lemma node_card : length lu = length l ^ size (order_dom dom ps).
  Proof. now rewrite node_order. Qed.
  Lemma node_valid a : valid D a -> valid dom a.
  Proof. intros V w k J. apply V, node_sub, J. Qed.
  (** the equation *)
  Lemma node_eqn : exists f c (val : state -> obs -> state), canonical_deterministic dom u ps vt = Ok f /\
    tabulates v (FD f) c /\ zero_one c /\ cpt D vt v (u :: ps) c /\ is_factor (FD f) dom [v] (u :: ps) /\
    (forall s p, In s lu -> In p (all_assignments (order_dom D ps)) -> get_value (df_store f) ((u, s) :: p) = Ok (val s p)) /\
    (forall a, valid D a -> fv c a = if eqd (val (a u) (obs_of ps a)) (a v) then 1%Qc else 0%Qc) /\
    (forall k : obs -> state, (forall p, In p (all_assignments (order_dom D ps)) -> In (k p) l) ->
       exists s, In s lu /\ forall p, In p (all_assignments (order_dom D ps)) -> val s p = k p).
  Proof.
    assert (Ud := node_dom). assert (CV := node_vars). assert (Cd := node_card). assert (Wd := usable_wf _ Ud).
    destruct (canon_table dom v u ps l lu vt Ud CV NP Cd) as (f & c & val & E & V & Ec & Gc & Lc & Rc & Dc & Fc).
    destruct (canonical_ok dom v u ps l lu vt CV NP Cd) as (f' & E' & Wf & Df & Tf & Rf & _).
    assert (f' = f) by congruence. subst f'. rewrite node_order in Df, Dc. fold dom in Df, Dc.
    assert (Udf : usable (df_domain f)) by now rewrite Df.
    destruct (df_to_multinomial_ok f v l Wf Udf) as (c' & Ec' & Wc & Dc' & Rc' & Lc' & Tc & Gt).
    assert (c' = c) by (unfold canonical_multinomial in Ec; rewrite E in Ec; cbn [bind] in Ec; congruence). subst c'.
    destruct (cv_unique dom v u ps l lu vt CV NP Cd val f E V) as (VI & _ & VS).
    assert (One : normalised c).
    { apply (good_normalised dom vt c v Wd Gc); [rewrite Lc; intros w; reflexivity|]. intros a Va.
      rewrite (sm_one dom Wd v l) by (try (apply CV); intros a1 a2 He; apply (fv_dep dom vt c Gc); auto).
      rewrite <- (pick_one_value state_dec l (val (a u) (obs_of ps a))); [|apply (proj2 WD v l Iv)|apply VI].
      - apply (f_equal qsum), map_ext_in. intros s Js. rewrite Fc.
        + assert (Eu : upd a v s u = a u) by (unfold upd; rewrite eqd_neq; auto).
          assert (Ev : upd a v s v = s) by (unfold upd; now rewrite eqd_refl).
          assert (Eo : obs_of ps (upd a v s) = obs_of ps a).
          { unfold obs_of. apply map_ext_in. intros w J. unfold upd. rewrite eqd_neq; auto. intros ->. contradiction. }
          rewrite Eu, Ev, Eo. unfold state_dec. destruct (eqd (val (a u) (obs_of ps a)) s); reflexivity.
        + intros w k J. unfold upd. destruct (eqd w v) as [-> | _]; [|now apply Va].
          assert (k = l) by (apply (same_states dom v); auto; [apply Wd|apply CV]). now subst k.
      - apply (Va u lu). apply CV.
      - exact (In_A dom v u ps l lu CV a Va). }
    exists f, c, val. split; [assumption|]. split.
    { split; [eauto|]. split; [assumption|]. split; [assumption|]. split; [assumption|]. split; [assumption|]. exact Gt. }
    split.
    { intros o Fo. rewrite Dc' in Fo. destruct (Gt o Fo) as (y & z & _ & _ & ->). destruct (eqd y z); auto. }
    split.
    { split; [assumption|]. split; [apply Gc|]. split; [rewrite Lc; intros w; reflexivity|]. split; [rewrite Rc; intros w; reflexivity|].
      split; [rewrite Dc; exact node_sub|]. split; [apply Gc|assumption]. }
    split.
    { split; [cbn; now rewrite Df|]. split; [cbn; destruct Wf as (_ & Lf & _); now rewrite Lf|cbn; now rewrite Rf]. }
    rewrite node_order in V, VS. split; [exact V|]. split; [|exact VS].
    intros a Va. apply Fc, node_valid, Va.
  Qed.

  (** a table of the exogenous variable *)
  Lemma node_root (q : state -> Qc) : total (map q lu) = 1%Qc -> (forall s, In s lu -> (0 <= q s)%Qc) ->
    exists g, cpt D vt u [] g /\ no_negative g /\ mf_domain g = [(u, lu)] /\ is_factor (FM g) [(u, lu)] [u] [] /\
      forall a, valid D a -> fv g a = q (a u).
  Proof.
    intros T1 Qn. destruct (root_table D vt u lu q Us Iu T1) as (g & Eg & Cg & Dg & Gg & Fg).
    exists g. split; [assumption|]. split.
    { intros o Fo. rewrite Dg in Fo. destruct (Fo u lu (or_introl eq_refl)) as (s & Eo & Is). unfold entry.
      rewrite (Gg o s Eo Is). now apply Qn. }
    split; [assumption|]. split; [|assumption].
    split; [cbn; now rewrite Dg|].
    assert (Rg : mf_right g = []).
    { destruct Cg as (_ & _ & _ & R & _). destruct (mf_right g) as [|w r]; auto. destruct (proj1 (R w) (or_introl eq_refl)). }
    split; cbn; rewrite ?Rg; [|reflexivity]. unfold mf_left, mf_vars. rewrite Dg, Rg. reflexivity.
  Qed.

  Hypothesis Ct : cpt D vt v ps t.
  Hypothesis Nn : no_negative t.
  Lemma node_cpt : cpt dom vt v ps t.
  Proof.
    apply (cpt_sub D dom); [|assumption]. intros w k J. destruct Ct as (Wt & _ & L & R & S & _).
    assert (K := S w k J). assert (Jw : In w (mf_vars t)) by (unfold mf_vars; apply keys_In; eauto).
    apply (cpt_vars D vt v ps t w Ct) in Jw. destruct Jw as [-> | Jw].
    - left. f_equal. now apply (same_states D v l k (proj1 WD)).
    - right. right. apply (order_dom_In D ps w k (proj1 WD) Sp). auto.
  Qed.

  Lemma node_ok : exists f c g, canonical_deterministic dom u ps vt = Ok f /\ tabulates v (FD f) c /\ zero_one c /\
    cpt D vt v (u :: ps) c /\ cpt D vt u [] g /\ no_negative g /\
    mf_domain g = [(u, lu)] /\ is_factor (FD f) dom [v] (u :: ps) /\ is_factor (FM g) [(u, lu)] [u] [] /\
    forall a, valid D a -> qsum (map (fun s => fv c (upd a u s) * fv g (upd a u s))%Qc lu) = fv t a.
  Proof.
    assert (Ud := node_dom). assert (CV := node_vars). assert (Cd := node_card).
    destruct node_eqn as (f & c & val & E & Tb & Zo & Cc & Fa & V & Fc & _).
    destruct (weights dom v u ps l lu vt t f val Ud CV NP Cd node_cpt Nn E) as (q & T1 & Qn & Sq); [now rewrite node_order|].
    destruct (node_root q T1 Qn) as (g & Cg & Ng & Dg & Fg' & Fg).
    exists f, c, g. repeat (split; [assumption|]).
    intros a Va. rewrite <- (Sq a (node_valid a Va)). apply (f_equal qsum), map_ext_in. intros s Js.
    assert (Vs : valid D (upd a u s)).
    { intros w k J. unfold upd. destruct (eqd w u) as [-> | _]; [|now apply Va].
      assert (k = lu) by (apply (same_states D u); auto; apply WD). now subst k. }
    rewrite (Fc _ Vs), (Fg _ Vs).
    assert (Eu : upd a u s u = s) by (unfold upd; now rewrite eqd_refl).
    assert (Ev : upd a u s v = a v) by (unfold upd; rewrite eqd_neq; auto).
    assert (Eo : obs_of ps (upd a u s) = obs_of ps a).
    { unfold obs_of. apply map_ext_in. intros w J. unfold upd. rewrite eqd_neq; auto. intros ->. inversion Np; contradiction. }
    rewrite Eu, Ev, Eo. destruct (eqd (val s (obs_of ps a)) (a v)); ring.
  Qed.
End Node.
