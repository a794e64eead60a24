(** Two treedict stores with a dictionary in common: some set_value on one of
    them changes the other. *)

From Coq Require Import String Bool Arith Lia QArith Qcanon List.
From Verif Require Import PyBase Num DomainModel NdArray StoreModel NumStore PyFacts Spec DomainFacts StoreSpec
  TreeFacts TreeFacts2 StoreFacts StoreOps StoreMarg StoreMarg2 HeapModel HeapSpec HeapFacts HeapFacts2 HeapFacts3
  HeapFacts4 HeapFacts5 HeapFacts6 HeapFacts7.
Import ListNotations.
Local Open Scope nat_scope.
Local Arguments eqd : simpl never.

(** A dictionary with numbers only. *)
Definition bottom (h : heap) (c : nat) (w : var) (kids : dict state hval) : Prop :=
  nth_error h c = Some (CNode w kids) /\ kids <> [] /\ forall s k, In (s, k) kids -> exists y, k = HNum y.

Lemma kids_In h : forall kids ch F s k, reads_kids h kids ch F -> In (s, k) kids ->
  exists c G, In (s, c) ch /\ reads h k c G /\ incl G F.
Proof.
  induction kids as [|[s0 k0] kids IH]; intros ch F s k R I; [destruct I|].
  inversion R as [|s' k' kids' c ch' F1 F2 R0 RK]; subst. destruct I as [I | I].
  - injection I as -> ->. exists c, F1. split; [now left|]. split; [exact R0|]. apply incl_appl, incl_refl.
  - destruct (IH _ _ _ _ RK I) as (c' & G & I' & R' & IN). exists c', G. split; [now right|]. split; [exact R'|].
    now apply incl_appr.
Qed.

Lemma kids_keys h : forall kids ch F, reads_kids h kids ch F -> map fst kids = map fst ch.
Proof.
  induction kids as [|[s0 k0] kids IH]; intros ch F R; inversion R; subst; [reflexivity|].
  cbn. f_equal. eapply IH; eassumption.
Qed.

Lemma kids_foot h : forall kids ch F c, reads_kids h kids ch F -> In c F ->
  exists s k t G, In (s, k) kids /\ In (s, t) ch /\ reads h k t G /\ In c G.
Proof.
  induction kids as [|[s0 k0] kids IH]; intros ch F c R I; inversion R as [|s' k' kids' t ch' F1 F2 R0 RK]; subst; [destruct I|].
  apply in_app_or in I. destruct I as [I | I].
  - exists s0, k0, t, F1. repeat split; [now left | now left | exact R0 | exact I].
  - destruct (IH _ _ _ RK I) as (s & k & t' & G & I1 & I2 & R' & I3). exists s, k, t', G. repeat split; try assumption; now right.
Qed.

Lemma tcomp_leaf_dom {V} d (x : V) : tcomp d (Leaf x) -> d = [].
Proof. intros T. now inversion T. Qed.

Lemma tcomp_nil_leaf {V} (t : tree V) : tcomp [] t -> exists x, t = Leaf x.
Proof. intros T. inversion T as [x | d v l ch I]; subst; [eauto | destruct I]. Qed.

Lemma shared_bottom (S : region) h : closed h S -> forall t v d F c, reads h v t F -> tcomp d t -> wf_dom d ->
  In c F -> S c -> exists b w kids, In b F /\ S b /\ bottom h b w kids.
Proof.
  intros CL. induction t as [x | w ch IH] using tree_ind'; intros v d F c R T W I SC; inversion R as [|a w0 kids ch0 G E0 RK]; subst; [destruct I|].
  inversion T as [|d0 w0 l ch0 Il ND KS TC]; subst.
  assert (WR : wf_dom (dremove w d)) by now apply wf_dremove.
  assert (NE : exists s k, In (s, k) kids).
  { destruct W as (_ & W). destruct (W _ _ Il) as (_ & NL). destruct l as [|s l]; [now destruct NL|].
    assert (Q : In s (map fst ch)) by (apply KS; now left). rewrite <- (kids_keys _ _ _ _ RK) in Q.
    apply in_map_iff in Q. destruct Q as ([s' k] & <- & Q). eauto. }
  destruct I as [-> | I].
  - destruct NE as (s & k & Ik). destruct (kids_In _ _ _ _ _ _ RK Ik) as (t & G' & It & Rt & IN).
    destruct k as [y | b].
    + inversion Rt; subst. pose proof (tcomp_leaf_dom _ _ (TC _ _ It)) as DE.
      exists c, w, kids. split; [now left|]. split; [exact SC|]. split; [exact E0|]. split.
      { intros ->. destruct Ik. }
      intros s' k' I'. destruct (kids_In _ _ _ _ _ _ RK I') as (t' & G'' & It' & Rt' & _).
      pose proof (TC _ _ It') as Q. rewrite DE in Q. destruct (tcomp_nil_leaf _ Q) as (y' & ->). inversion Rt'; subst. eauto.
    + pose proof (CL _ _ _ _ _ SC E0 Ik) as SB. cbn in SB.
      assert (Ib : In b G') by (inversion Rt; subst; now left).
      destruct (IH s t It (HRef b) (dremove w d) G' b Rt (TC _ _ It) WR Ib SB) as (b' & w' & kids' & I1 & S1 & B1).
      exists b', w', kids'. split; [right; auto | auto].
  - destruct (kids_foot _ _ _ _ _ RK I) as (s & k & t & G' & Ik & It & Rt & Ic).
    destruct (IH s t It k (dremove w d) G' c Rt (TC _ _ It) WR Ic SC) as (b' & w' & kids' & I1 & S1 & B1).
    destruct (kids_In _ _ _ _ _ _ RK Ik) as (t2 & G2 & It2 & Rt2 & IN).
    destruct (proj1 (reads_unique h) _ _ _ Rt _ _ Rt2) as (_ & ->).
    exists b', w', kids'. split; [right; auto | auto].
Qed.

Lemma put_id : forall h a c, nth_error h a = Some c -> put h a c = h.
Proof.
  induction h as [|c0 h IH]; intros [|a] c E; cbn in *; try discriminate; [congruence|]. f_equal. auto.
Qed.

Lemma dset_id {B} (s : state) (k : B) : forall kids, dget s kids = Some k -> dset s k kids = kids.
Proof.
  induction kids as [|[s' k'] kids IH]; cbn; [discriminate|]. destruct (eqd s s') as [-> | N]; [congruence|].
  intros E. f_equal. auto.
Qed.

Lemma In_dget_nodup {B} (s : state) (k : B) kids : NoDup (map fst kids) -> In (s, k) kids -> dget s kids = Some k.
Proof.
  induction kids as [|[s' k'] kids IH]; cbn; intros ND I; [destruct I|]. inversion ND as [|? ? NI ND']; subst.
  destruct I as [I | I]; [injection I as -> ->; now rewrite eqd_refl|].
  rewrite eqd_neq; [auto|]. intros ->. apply NI. apply in_map_iff. now exists (s', k).
Qed.

Lemma dremove_notin {B} (w : var) : forall (o : dict var B), ~ In w (keys o) -> dremove w o = o.
Proof.
  induction o as [|[u s] o IH]; cbn; intros N; [reflexivity|]. rewrite eqd_neq; [|intros ->; apply N; now left].
  f_equal. apply IH. intros I. apply N. now right.
Qed.

Lemma In_dremove {B} (w u : var) (l : B) d : In (u, l) (dremove w d) <-> In (u, l) d /\ u <> w.
Proof.
  unfold dremove, dfilter. rewrite filter_In. cbn. destruct (eqd u w) as [-> | N]; cbn; intuition congruence.
Qed.

Lemma hset_path h : forall t v d F c w kids, reads h v t F -> tcomp d t -> wf_dom d -> In c F -> bottom h c w kids ->
  exists o s y, incl (keys o) (keys d) /\ full d o /\ o <> [] /\ dget s kids = Some (HNum y) /\
    forall n x, depth t < n -> hset n v o x h = (Ok v, put h c (CNode w (dset s (HNum x) kids))).
Proof.
  induction t as [x0 | w0 ch IH] using tree_ind'; intros v d F c w kids R T W I B; inversion R as [|a w1 kids0 ch0 G E0 RK]; subst; [destruct I|].
  inversion T as [|d0 w1 l ch0 Il ND KS TC]; subst.
  assert (WR : wf_dom (dremove w0 d)) by now apply wf_dremove.
  assert (LEN : a < length h) by (apply nth_error_Some; congruence).
  destruct (Nat.eq_dec a c) as [<- | NAC].
  - destruct B as (E1 & NE & NUM). rewrite E0 in E1. injection E1 as <- <-.
    destruct kids0 as [|[s k] kids1]; [now destruct NE|]. set (kids0 := (s, k) :: kids1) in *.
    destruct (NUM s k (or_introl eq_refl)) as (y & ->).
    destruct (kids_In _ _ _ _ s (HNum y) RK (or_introl eq_refl)) as (t & G' & It & Rt & _).
    inversion Rt; subst. pose proof (tcomp_leaf_dom _ _ (TC _ _ It)) as DE.
    assert (Ds : dget s kids0 = Some (HNum y)) by (unfold kids0; cbn; now rewrite eqd_refl).
    exists [(w0, s)], s, y. split.
    { intros u [<- | []]. apply in_map_iff. now exists (w0, l). }
    split.
    { intros u l' I'. assert (u = w0).
      { destruct (eqd u w0) as [E | N]; [exact E|]. exfalso.
        assert (Q : In (u, l') (dremove w0 d)) by (apply In_dremove; auto). rewrite DE in Q. destruct Q. }
      subst u. exists s. split; [cbn; now rewrite eqd_refl|].
      replace l' with l. { apply KS, in_map_iff. now exists (s, Leaf y). }
      destruct W as (NDd & _). pose proof (In_dget w0 l d NDd Il). pose proof (In_dget w0 l' d NDd I'). congruence. }
    split; [discriminate|]. split; [exact Ds|].
    intros n x L. destruct n as [|n]; [lia|]. cbn [hset]. unfold hbind at 1. rewrite (hread_node _ _ _ _ E0).
    cbn [dget]. rewrite eqd_refl. rewrite Ds.
    replace (dremove w0 [(w0, s)]) with (@nil (var * state)) by (cbn; now rewrite eqd_refl).
    assert (n <> 0). { pose proof (depth_child w0 ch s (Leaf y) It). cbn [depth] in *. lia. }
    destruct n as [|n]; [lia|]. cbn [hset]. unfold hbind at 1 2. cbn [hread]. unfold hret at 1 2.
    unfold hbind at 1. rewrite (hread_node _ _ _ _ E0). reflexivity.
  - destruct I as [I | I]; [congruence|].
    destruct (kids_foot _ _ _ _ _ RK I) as (s & k & t & G' & Ik & It & Rt & Ic).
    destruct (IH s t It k (dremove w0 d) G' c w kids Rt (TC _ _ It) WR Ic B) as (o & s' & y & KO & FO & NEo & Dy & HS).
    assert (Nw : ~ In w0 (keys o)).
    { intros Q. apply KO in Q. apply in_map_iff in Q. destruct Q as ([u l'] & <- & Q). apply In_dremove in Q. cbn in Q. tauto. }
    assert (Dk : dget s kids0 = Some k).
    { apply In_dget_nodup; [|exact Ik]. rewrite (kids_keys _ _ _ _ RK). exact ND. }
    exists ((w0, s) :: o), s', y. split.
    { intros u [<- | Q]; [apply in_map_iff; now exists (w0, l)|]. apply KO in Q. apply in_map_iff in Q.
      destruct Q as ([u' l'] & <- & Q). apply In_dremove in Q. apply in_map_iff. exists (u', l'). tauto. }
    split.
    { intros u l' I'. cbn [dget]. destruct (eqd u w0) as [-> | N].
      - exists s. split; [reflexivity|]. replace l' with l. { apply KS, in_map_iff. now exists (s, t). }
        destruct W as (NDd & _). pose proof (In_dget w0 l d NDd Il). pose proof (In_dget w0 l' d NDd I'). congruence.
      - apply FO. apply In_dremove; auto. }
    split; [discriminate|]. split; [exact Dy|].
    intros n x L. destruct n as [|n]; [lia|]. cbn [hset]. unfold hbind at 1. rewrite (hread_node _ _ _ _ E0).
    cbn [dget]. rewrite eqd_refl, Dk.
    replace (dremove w0 ((w0, s) :: o)) with o by (cbn; rewrite eqd_refl; symmetry; now apply dremove_notin).
    pose proof (depth_child w0 ch s t It).
    unfold hbind at 1. rewrite HS by lia.
    assert (E1 : nth_error (put h c (CNode w (dset s' (HNum x) kids))) a = Some (CNode w0 kids0)) by (rewrite put_other; auto).
    unfold hbind at 1. rewrite (hread_node _ _ _ _ E1). unfold hbind, hwrite.
    rewrite (dset_id s k kids0 Dk). unfold hret. f_equal.
    now apply put_id.
Qed.

Lemma reads_put h c w kids s x y : nth_error h c = Some (CNode w kids) -> dget s kids = Some (HNum y) -> x <> y ->
  forall t v F F', reads h v t F -> In c F -> reads (put h c (CNode w (dset s (HNum x) kids))) v t F' -> False.
Proof.
  intros E0 Dy NE. assert (LEN : c < length h) by (apply nth_error_Some; congruence).
  induction t as [x0 | w0 ch IH] using tree_ind'; intros v F F' R I R'; inversion R as [|a w1 kids0 ch0 G E1 RK]; subst; [destruct I|].
  inversion R' as [|a' w1 kids1 ch1 G1 E2 RK1]; subst.
  destruct (Nat.eq_dec a c) as [-> | NAC].
  - rewrite put_same in E2 by exact LEN. injection E2 as -> <-. rewrite E0 in E1. injection E1 as <-.
    pose proof (kids_get _ _ _ _ s RK) as K1. pose proof (kids_get _ _ _ _ s RK1) as K2.
    destruct (dget s ch) as [t|]; [|congruence].
    destruct K1 as (k1 & G2 & D1 & R1 & _). destruct K2 as (k2 & G3 & D2 & R2 & _).
    rewrite dget_dset, eqd_refl in D2. injection D2 as <-. rewrite Dy in D1. injection D1 as <-.
    inversion R1; subst. inversion R2; subst. congruence.
  - destruct I as [I | I]; [congruence|]. rewrite put_other in E2 by auto. rewrite E1 in E2. injection E2 as <-.
    destruct (kids_foot _ _ _ _ _ RK I) as (s1 & k & t & G' & Ik & It & Rt & Ic).
    assert (P : exists t2 G2, reads (put h c (CNode w (dset s (HNum x) kids))) k t2 G2 /\ t2 = t /\ In (s1, t2) ch).
    { clear - RK RK1 Rt Ik. revert ch G G1 RK RK1. induction kids0 as [|[s0 k0] kids0 IH]; intros ch G G1 RK RK1; [destruct Ik|].
      inversion RK as [|s2 k2 kk c2 ch2 F1 F2 Ra RKa]; subst. inversion RK1 as [|s3 k3 kk3 c3 ch3 F3 F4 Rb RKb]; subst.
      destruct Ik as [Ik | Ik].
      - injection Ik as -> ->. destruct (proj1 (reads_unique h) _ _ _ Rt _ _ Ra) as (-> & _).
        exists t, F3. split; [exact Rb|]. split; [reflexivity | now left].
      - destruct (IH Ik _ _ _ RKa RKb) as (t2 & G2 & X1 & X2 & X3). exists t2, G2. split; [exact X1|]. split; [exact X2 | now right]. }
    destruct P as (t2 & G2 & X1 & -> & X3). exact (IH s1 t X3 k G' G2 Rt Ic X1).
Qed.

Lemma other_num (y : num) : exists x, x <> y.
Proof.
  destruct y as [z | | |]; [exists NaN | exists n0 | exists n0 | exists n0]; discriminate.
Qed.

Lemma sharing_visible h s r d t d' t' F G a :
  holds h s (StTree d t) F -> holds h r (StTree d' t') G -> wf_store (StTree d' t') ->
  In a F -> In a G ->
  exists x o, full d' o /\ forall m, length d' < m ->
    exists r' h2, hs_set_value m r x o h = (Ok r', h2) /\ ~ exists F', holds h2 s (StTree d t) F'.
Proof.
  intros H HR (W & T) I1 I2. cbn in T.
  inversion H as [| | |d0 v t0 F0 R]; subst. inversion HR as [| | |d0 v' t0 F0 R']; subst.
  destruct (reads_region h) as (RR & _). destruct (RR _ _ _ R) as (CL & _).
  destruct (shared_bottom _ h CL t' v' d' G a R' T W I2 I1) as (b & w & kids & B1 & B2 & BT).
  destruct (hset_path h t' v' d' G b w kids R' T W B1 BT) as (o & k & y & KO & FO & NEo & Dy & HS).
  destruct (other_num y) as (x & NE). exists x, o. split; [exact FO|].
  intros m L. pose proof (tcomp_depth _ _ T).
  exists (mkHS VTree d' v'), (put h b (CNode w (dset k (HNum x) kids))). split.
  - unfold hs_set_value. cbn [hs_type hs_data hs_domain].
    assert (EO : dfilter (fun w0 : var => dmem w0 d') o = o).
    { clear - KO. induction o as [|[u st] o IH]; [reflexivity|]. cbn. 
      assert (Q : dmem u d' = true). { apply dmem_In. apply KO. now left. }
      rewrite Q. f_equal. apply IH. intros z Z. apply KO. now right. }
    rewrite EO. unfold hbind. rewrite HS by lia. reflexivity.
  - intros (F' & HF). inversion HF as [| | |d0 v0 t0 F0 RF]; subst. destruct BT as (E0 & _).
    exact (reads_put h b w kids k x y E0 Dy NE t v F F' R B2 RF).
Qed.

Lemma ones_ext o : ones (ext o) = o.
Proof. induction o as [|[w x] o IH]; cbn; [reflexivity|]. f_equal. exact IH. Qed.

Lemma restrict_exact n s d t o F h r h1 :
  wf_store (StTree d t) -> known d o -> holds h s (StTree d t) F ->
  derive n (DRestrict (ext o)) s h = (Ok r, h1) ->
  (used_up o t <-> forall m calls r' h2, set_values m r calls h1 = (r', h2) -> holds h2 s (StTree d t) F).
Proof.
  intros W KN H E. assert (EO : ones (ext o) = o) by apply ones_ext. split.
  - intros U m calls r' h2 SV.
    apply (derived_own n m (DRestrict (ext o)) s (StTree d t) None F h r h1 calls r' h2 s (StTree d t) F);
      try assumption; [exact I | cbn; now rewrite EO].
  - intros A. destruct (used_up_dec t o) as [U | U]; [exact U|]. exfalso.
    destruct (derived_table n (DRestrict (ext o)) s (StTree d t) None F h r h1 W H I E) as (p' & G & TB & HG & _).
    destruct (st_restrict_ok (StTree d t) o W KN) as (p1 & E1 & W1 & T1 & _).
    cbn [table_of] in TB. unfold st_restrict in E1. fold (ext o) in E1. rewrite E1 in TB. injection TB as <-.
    destruct p1 as [| | |d' t']; try discriminate T1.
    rewrite <- EO in U.
    destruct (restrict_shares n (ext o) s d t F h r h1 _ G H E U HG) as (a & A1 & A2).
    destruct (derive_ok n (DRestrict (ext o)) s _ None F h (Ok r) h1 H I E) as (X & _).
    destruct (sharing_visible h1 s r d t d' t' F G a (holds_grows _ _ _ _ _ X H) HG W1 A1 A2) as (x & ob & _ & SV).
    destruct (SV (S (length d')) (Nat.lt_succ_diag_r _)) as (r' & h2 & E2 & N).
    apply N. exists F. apply (A (S (length d')) [(x, ob)] r' h2). cbn [set_values]. now rewrite E2.
Qed.

Lemma tree_root h v d t F : reads h v t F -> tcomp d t -> d <> [] -> exists a, In a F.
Proof.
  intros R T N. inversion R as [|a w kids ch G]; subst; [|exists a; now left]. inversion T; subst. now destruct N.
Qed.

Lemma shallow_copy_shares n s d t F h r h1 :
  wf_store (StTree d t) -> d <> [] -> holds h s (StTree d t) F -> derive n (DCopy false) s h = (Ok r, h1) ->
  exists x o, full d o /\ forall m, length d < m ->
    exists r' h2, hs_set_value m r x o h1 = (Ok r', h2) /\ ~ exists F', holds h2 s (StTree d t) F'.
Proof.
  intros W N H E. inversion H as [| | |d0 v t0 F0 R]; subst.
  destruct (tree_root h v d t F R (proj2 W) N) as (a & A).
  unfold derive, hs_copy in E. cbn [hs_type hs_data hs_domain] in E. unfold hbind, hret in E.
  inversion R as [x | b w kids ch G E0 RK]; subst; [destruct A|].
  unfold hinit, hbind in E. rewrite (hread_node _ _ _ _ E0) in E. injection E as <- <-.
  exact (sharing_visible h _ _ d _ d _ _ _ a H H W A A).
Qed.

Lemma constructor_array vt d a x s h h1 : vt <> VTree -> nth_error h a = Some (CArr x) ->
  hinit vt d (HRef a) h = (Ok s, h1) ->
  exists p F, st_init vt d (DArr x) = Ok p /\ holds h1 s p F /\
    (vt = VNumpy1D -> F = [a]) /\ (vt <> VNumpy1D -> forall b, In b F -> length h <= b).
Proof.
  intros NT EA E. unfold hinit in E. unfold hbind in E at 1. unfold hread in E at 1. rewrite EA in E.
  assert (NE : forall (c : cell), nth_error (h ++ [c]) (length h) = Some c).
  { intros c. rewrite nth_error_app2 by lia. now rewrite Nat.sub_diag. }
  destruct vt; [| | |now destruct NT]; unfold hbind, hlift, as_array, halloc, hret in E;
    match type of E with context [st_init ?vt d ?z] => destruct (st_init vt d z) as [p|] eqn:EP end;
    try discriminate; injection E as <- <-; exists p; cbn [st_init] in EP;
    match type of EP with (if ?b then _ else _) = _ => destruct b; [|discriminate] end; injection EP as <-.
  - exists [length h]. split; [reflexivity|]. split; [constructor; apply NE|]. split; [discriminate|].
    intros _ b [<- | []]. lia.
  - exists [a]. split; [reflexivity|]. split; [constructor; exact EA|]. split; [reflexivity|]. intros Q. now destruct Q.
  - exists [length h]. split; [reflexivity|]. split; [constructor; apply NE|]. split; [discriminate|].
    intros _ b [<- | []]. lia.
Qed.
