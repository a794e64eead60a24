(** The d-separation test of networkx against active trails. *)

From Coq Require Import String Bool Arith Lia List.
From Verif Require Import PyBase PyFacts Num DomainModel NdArray StoreModel NumStore FactorModel GraphModel
  Spec GraphSpec GraphFacts GraphFacts2 PropFacts3 LearnModel EmSpec EmFacts1 SepSpec.
From Coq Require Import List.
Import ListNotations.
Local Open Scope nat_scope.
Local Arguments eqd : simpl never.

Lemma anc_up g S x y : arc g x y -> ancestral g S y -> ancestral g S x.
Proof.
  intros A (s & Is & Rs). exists s. split; [auto|]. right. destruct Rs as [<- | W]; [now apply walk_one|]. now apply (walk_step g x y).
Qed.
Lemma anc_self g S x : In x S -> ancestral g S x.
Proof. intros J. exists x. split; [auto|now left]. Qed.
Lemma anc_walk g S x y : reach g x y -> ancestral g S y -> ancestral g S x.
Proof.
  intros [-> | W] A; [auto|]. induction W as [x y H|x y z H W IH]; eauto using anc_up.
Qed.

(** ** Active trails and open arcs *)
Section Trails.
  Variables (g : digraph) (X Y Z : list var).
  Hypothesis WG : wf_graph g.
  Hypothesis AC : acyclic g.
  Hypothesis XZ : forall x, In x X -> ~ In x Z.
  Hypothesis YZ : forall y, In y Y -> ~ In y Z.
  Hypothesis IX : incl X (nodes g).
  Hypothesis IZ : incl Z (nodes g).
  Notation S := (X ++ Y ++ Z).
  Notation open := (open_arc g Z S).

  Lemma anc_dec U x : In x (nodes g) -> {ancestral g U x} + {~ ancestral g U x}.
  Proof.
    intros J. destruct (barren_removal g U) as [h|] eqn:Eh.
    - destruct (in_dec string_dec x (nodes h)) as [A|A].
      + left. destruct (barren_removal_ok g U WG AC) as (h' & Q & _ & Nh & _). rewrite Eh in Q. injection Q as <-. now apply Nh.
      + right. destruct (barren_removal_ok g U WG AC) as (h' & Q & _ & Nh & _). rewrite Eh in Q. injection Q as <-. intros B. apply A, Nh. auto.
    - exfalso. destruct (barren_removal_ok g U WG AC) as (h' & Q & _). congruence.
  Qed.

  Lemma active_out_anc x d c : In x X -> active g Z x d c -> d <> Into -> ancestral g S c.
  Proof.
    intros Ix. induction 1 as [|d y z A IH N E|d y z A IH Nd N E|y z A IH Hc E]; intros D.
    - apply anc_self. apply in_or_app. auto.
    - congruence.
    - eapply anc_up; [exact E|]. auto.
    - eapply anc_up; [exact E|]. destruct Hc as (s & Js & R). exists s. split; [apply in_or_app; right; apply in_or_app; auto|auto].
  Qed.
  Lemma active_linked x d c : In x X -> active g Z x d c -> ancestral g S c -> (d = OutOf -> ~ In c Z) -> linked open x c.
  Proof.
    intros Ix. induction 1 as [|d y z A IH N E|d y z A IH Nd N E|y z A IH Hc E]; intros An Hz.
    - constructor.
    - eapply linked_snoc_fwd; [apply IH; [eapply anc_up; eauto|auto]|]. repeat split; auto.
    - eapply linked_snoc_bwd; [apply IH; [eapply active_out_anc; eauto|auto]|]. split; [auto|]. split; [auto|]. eapply active_out_anc; eauto.
    - assert (Ay : ancestral g S y).
      { destruct Hc as (s & Js & R). exists s. split; [apply in_or_app; right; apply in_or_app; auto|auto]. }
      eapply linked_snoc_bwd; [apply IH; [auto|discriminate]|]. split; [auto|]. split; [auto|exact Ay].
  Qed.

  (** a directed path down to [y], or up from [x], outside [Z] *)
  Lemma down_path x c y : reach g c y -> ~ ancestral g Z c -> forall d, active g Z x d c -> exists d', active g Z x d' y.
  Proof.
    intros [-> | W]; [eauto|]. induction W as [c y E|c z y E W IH]; intros N d A.
    - exists Into. eapply act_down; eauto. intros J. apply N. now apply anc_self.
    - apply (IH (fun B => N (anc_up g Z c z E B)) Into). eapply act_down; eauto. intros J. apply N. now apply anc_self.
  Qed.
  Lemma up_path x c : reach g c x -> ~ ancestral g Z c -> exists d, d <> Into /\ active g Z x d c.
  Proof.
    intros [-> | W]; [exists AtStart; split; [discriminate|constructor]|]. induction W as [c x E|c z x E W IH]; intros N.
    - exists OutOf. split; [discriminate|]. apply (act_up g Z x AtStart x c); [constructor|discriminate| |auto].
      intros J. apply N. eapply anc_up; [exact E|]. now apply anc_self.
    - assert (Nz : ~ ancestral g Z z) by (intros B; apply N; eapply anc_up; eauto).
      destruct (IH Nz) as (d & Nd & A). exists OutOf. split; [discriminate|]. apply (act_up g Z x d z c); auto.
      intros J. apply Nz. now apply anc_self.
  Qed.

  Definition reached (c : var) : Prop := exists x d, In x X /\ active g Z x d c /\ (d = OutOf -> ~ In c Z).
  Definition joined : Prop := exists x y, In x X /\ In y Y /\ d_connected g Z x y.

  Lemma reached_up c z : reached c -> open z c -> joined \/ reached z.
  Proof.
    intros (x & d & Ix & A & Hd) (E & Nz & An). assert (Ic : In c (nodes g)) by apply (proj2 (proj2 WG) z c E). destruct d.
    - inversion A; subst. right. exists c, OutOf. split; [auto|]. split; [|auto]. apply (act_up g Z c AtStart c z); auto. discriminate.
    - destruct (anc_dec Z c Ic) as [Az|Nc].
      + right. exists x, OutOf. split; [auto|]. split; [|auto]. eapply act_collider; eauto.
      + destruct An as (s & Js & R). apply in_app_or in Js as [Js|Js]; [|apply in_app_or in Js as [Js|Js]].
        * right. destruct (up_path s c R Nc) as (d & Nd & A'). exists s, OutOf. split; [auto|]. split; [|auto]. apply (act_up g Z s d c z); auto.
          intros J. apply Nc. now apply anc_self.
        * left. destruct (down_path x c s R Nc _ A) as (d' & A'). exists x, s. split; [auto|]. split; [auto|]. now exists d'.
        * exfalso. apply Nc. exists s. auto.
    - right. exists x, OutOf. split; [auto|]. split; [|auto]. apply (act_up g Z x OutOf c z); auto. discriminate.
  Qed.
  Lemma reached_down c z : reached c -> open c z -> reached z.
  Proof.
    intros (x & d & Ix & A & Hd) (E & Nc & An). exists x, Into. split; [auto|]. split; [|discriminate]. eapply act_down; eauto.
  Qed.
  Lemma linked_reached c z : linked open c z -> reached c -> joined \/ reached z.
  Proof.
    induction 1 as [c|c y z O L IH|c y z O L IH]; intros Rc; [auto|..].
    - apply IH. eapply reached_down; eauto.
    - destruct (reached_up c y Rc O) as [J|J]; auto.
  Qed.
  Lemma connected_iff : joined <-> exists x y, In x X /\ In y Y /\ linked open x y.
  Proof.
    split.
    - intros (x & y & Ix & Iy & d & A). exists x, y. split; [auto|]. split; [auto|]. apply (active_linked x d y); auto.
      apply anc_self. apply in_or_app. right. apply in_or_app. auto.
    - intros (x & y & Ix & Iy & L). destruct (linked_reached x y L) as [J|(x' & d & Ix' & A & _)]; [|auto|].
      + exists x, AtStart. split; [auto|]. split; [constructor|discriminate].
      + exists x', y. split; [auto|]. split; [auto|]. now exists d.
  Qed.
End Trails.

(** ** The test *)
Lemma d_separated_cyclic g x y z : wf_graph g -> ~ acyclic g -> d_separated g x y z = Raise NetworkXError.
Proof.
  intros W N. unfold d_separated. destruct (simple_cycles g) as [|c l] eqn:Ec; [|reflexivity]. exfalso. apply N. now apply simple_cycles_iff.
Qed.
Lemma d_separated_unknown g x y z : wf_graph g -> acyclic g -> (exists v, In v (x ++ y ++ z) /\ ~ In v (nodes g)) ->
  d_separated g x y z = Raise NodeNotFound.
Proof.
  intros W A (v & J & N). unfold d_separated. rewrite (proj2 (simple_cycles_iff g W) A). cbn [length]. change (0 <? 0) with false. cbn iota.
  assert (E : forallb (fun v => mem v (nodes g)) (x ++ y ++ z) = false).
  { destruct (forallb (fun v => mem v (nodes g)) (x ++ y ++ z)) eqn:E; [|auto]. rewrite forallb_forall in E. specialize (E v J).
    apply mem_In in E. contradiction. }
  rewrite E. reflexivity.
Qed.
Lemma d_separated_linked g X Y Z : wf_graph g -> acyclic g -> incl (X ++ Y ++ Z) (nodes g) ->
  exists b, d_separated g X Y Z = Ok b /\ (b = false <-> exists x y, In x X /\ In y Y /\ linked (open_arc g Z (X ++ Y ++ Z)) x y).
Proof.
  intros WG AC I. unfold d_separated. rewrite (proj2 (simple_cycles_iff g WG) AC). cbn [length]. change (0 <? 0) with false. cbn iota.
  set (S := X ++ Y ++ Z) in *.
  assert (FN : forallb (fun x => mem x (nodes g)) S = true).
  { apply forallb_forall. intros x J. apply mem_In. auto. }
  rewrite FN. cbn [negb]. destruct (barren_removal_ok g S WG AC) as (h & -> & Wh & Nh & Ah).
  destruct (remove_outgoing_ok h Z Wh) as (Nk & Wk & Ak). set (k := remove_outgoing_edges h Z) in *.
  assert (Ak' : forall x y, arc k x y <-> open_arc g Z S x y).
  { intros x y. rewrite Ak, Ah. unfold open_arc. split.
    - intros ((A & _ & B) & C). apply Nh in B as [_ B]. auto.
    - intros (A & B & C). assert (G := proj2 (proj2 WG) x y A). split; [|auto]. split; [auto|]. split; apply Nh; [|tauto].
      split; [apply G|]. eapply anc_up; eauto. }
  assert (Gen : forall xs, incl xs X -> exists bs, mapM (fun v => match component k v with
       | Some c => Ok (existsb (fun w => mem w c) Y) | None => Raise Unmodelled end) xs = Ok bs /\
       (existsb (fun b => b) bs = true <-> exists x y, In x xs /\ In y Y /\ linked (open_arc g Z S) x y)).
  { induction xs as [|x xs IH]; intros Ix; [exists []; split; [auto|]; cbn; split; [discriminate|intros (x & y & [] & _)]|].
    destruct IH as (bs & Eb & Hb); [intros w J; apply Ix; now right|].
    assert (Jx : In x X) by (apply Ix; now left).
    assert (JS : In x S) by (apply in_or_app; auto).
    destruct (component_ok k x Wk) as (c & Ec & _ & _ & Hc).
    { rewrite Nk. apply Nh. split; [now apply I|]. exists x. split; [auto|now left]. }
    cbn [mapM]. rewrite Ec. cbn [bind]. rewrite Eb. cbn [bind]. eexists. split; [reflexivity|]. cbn [existsb]. rewrite orb_true_iff, Hb. split.
    - intros [Q|(w & y & J & R)]; [|exists w, y; split; [now right|auto]]. apply existsb_exists in Q as (y & Jy & M). apply mem_In, Hc in M.
      exists x, y. split; [now left|]. split; [auto|]. eapply linked_ext; [|exact M]. intros a b; apply Ak'.
    - intros (w & y & [<- | J] & Jy & L); [left|right; eauto]. apply existsb_exists. exists y. split; [auto|]. apply mem_In, Hc.
      eapply linked_ext; [|exact L]. intros a b; apply Ak'. }
  destruct (Gen X (incl_refl _)) as (bs & -> & Hb). cbn [bind]. eexists. split; [reflexivity|]. rewrite <- Hb, negb_false_iff. tauto.
Qed.

(** networkx decides d-separation *)
Theorem d_separated_trails g X Y Z : wf_graph g -> acyclic g -> incl (X ++ Y ++ Z) (nodes g) ->
  (forall v, In v (X ++ Y) -> ~ In v Z) ->
  exists b, d_separated g X Y Z = Ok b /\ (b = false <-> exists x y, In x X /\ In y Y /\ d_connected g Z x y).
Proof.
  intros WG AC I Dj. destruct (d_separated_linked g X Y Z WG AC I) as (b & E & H). exists b. split; [auto|]. rewrite H.
  symmetry. apply (connected_iff g X Y Z WG AC); intros v J; apply Dj, in_or_app; auto.
Qed.

(** ** The nodes separated from a target *)
Lemma dsep_nodes_ok g t E : wf_graph g -> acyclic g -> In t (nodes g) -> incl E (nodes g) -> ~ In t E ->
  exists l, dsep_nodes g t E = Ok l /\ NoDup l /\
    forall w, In w l <-> In w (nodes g) /\ ~ d_connected g (others w E) t w.
Proof.
  intros WG AC It IE Nt.
  assert (X : forall ns, incl ns (nodes g) -> NoDup ns ->
    exists bs, mapM (fun w => let* b := d_separated g [t] [w] (others w E) in Ok (w, b)) ns = Ok bs /\ map fst bs = ns /\
      forall w b, In (w, b) bs -> (b = true <-> ~ d_connected g (others w E) t w)).
  { induction ns as [|w ns IH]; intros I N; cbn [mapM]; [exists []; split; [auto|]; split; [auto|]; intros w b []|].
    apply NoDup_cons_iff in N as [Nw N]. destruct IH as (bs & Eb & Mb & Hb); [intros v J; apply I; now right|auto|].
    destruct (d_separated_trails g [t] [w] (others w E) WG AC) as (b & E1 & H1).
    { intros v J. cbn in J. rewrite others_In in J. destruct J as [<- | [<- | [J _]]]; auto. apply I. now left. }
    { intros v J. rewrite others_In. cbn in J. destruct J as [<- | [<- | []]]; tauto. }
    rewrite E1. cbn [bind]. rewrite Eb. cbn [bind]. eexists. split; [reflexivity|]. split; [cbn; now rewrite Mb|].
    intros v c [Q|J]; [|eauto]. injection Q as <- <-. destruct b.
    - split; [|auto]. intros _ C. assert (true = false); [|discriminate]. apply H1. exists t, w. split; [now left|]. split; [now left|auto].
    - split; [discriminate|]. intros C. exfalso. destruct (proj1 H1 eq_refl) as (x & y & [<- | []] & [<- | []] & C'). auto. }
  destruct (X (nodes g) (incl_refl _) (proj1 WG)) as (bs & Eb & Mb & Hb).
  exists (map fst (filter snd bs)). split; [|split].
  - unfold dsep_nodes. change (fun w => let* b := d_separated g [t] [w] (filter (fun w0 => if eqd w0 w then false else true) E) in Ok (w, b))
      with (fun w => let* b := d_separated g [t] [w] (others w E) in Ok (w, b)). rewrite Eb. reflexivity.
  - assert (N : NoDup (map fst bs)) by (rewrite Mb; apply WG). clear - N. induction bs as [|(w, b) bs IH]; cbn in *; [constructor|].
    apply NoDup_cons_iff in N as [Nw N]. destruct b; cbn; auto. constructor; auto. intros J. apply Nw.
    apply in_map_iff in J as (p & <- & J). apply filter_In in J as [J _]. now apply in_map.
  - intros w. rewrite in_map_iff. split.
    + intros ((w', b) & <- & J). apply filter_In in J as [J Q]. cbn in *. subst b. split; [rewrite <- Mb; now apply (in_map fst) in J|].
      now apply (Hb w' true J).
    + intros [J C]. rewrite <- Mb in J. apply in_map_iff in J as ((w', b) & <- & J). cbn in *. exists (w', b). split; [auto|].
      apply filter_In. split; [auto|]. cbn. now apply (Hb w' b J).
Qed.
Lemma d_connected_dec g t w E : wf_graph g -> acyclic g -> In t (nodes g) -> In w (nodes g) -> incl E (nodes g) -> ~ In t E ->
  d_connected g (others w E) t w \/ ~ d_connected g (others w E) t w.
Proof.
  intros WG AC It Iw IE Nt. destruct (d_separated_trails g [t] [w] (others w E) WG AC) as (b & E1 & H1).
  { intros v J. cbn in J. rewrite others_In in J. destruct J as [<- | [<- | [J _]]]; auto. }
  { intros v J. rewrite others_In. cbn in J. destruct J as [<- | [<- | []]]; tauto. }
  destruct b.
  - right. intros C. assert (true = false); [|discriminate]. apply H1. exists t, w. split; [now left|]. split; [now left|auto].
  - left. destruct (proj1 H1 eq_refl) as (x & y & [<- | []] & [<- | []] & C). exact C.
Qed.
Lemma dcon_nodes_ok g t E : wf_graph g -> acyclic g -> In t (nodes g) -> incl E (nodes g) -> ~ In t E ->
  exists l, dcon_nodes g t E = Ok l /\ NoDup l /\
    forall w, In w l <-> In w (nodes g) /\ w <> t /\ d_connected g (others w E) t w.
Proof.
  intros WG AC It IE Nt. destruct (dsep_nodes_ok g t E WG AC It IE Nt) as (l & El & Nl & Hl). unfold dcon_nodes. rewrite El. cbn [bind].
  eexists. split; [reflexivity|]. split; [apply NoDup_filter, WG|]. intros w. rewrite filter_In, andb_true_iff, negb_true_iff, mem_nIn, Hl.
  destruct (eqd w t) as [-> | N].
  - split; [intros (_ & _ & Q); discriminate|tauto].
  - split; [|tauto]. intros (J & C & _). split; [auto|]. split; [auto|]. destruct (d_connected_dec g t w E WG AC It J IE Nt); tauto.
Qed.
Lemma dsep_nodes_raises g t E : wf_graph g -> nodes g <> [] ->
  (acyclic g -> (exists v, In v (t :: E) /\ ~ In v (nodes g)) -> dsep_nodes g t E = Raise NodeNotFound /\ dcon_nodes g t E = Raise NodeNotFound) /\
  (~ acyclic g -> dsep_nodes g t E = Raise NetworkXError /\ dcon_nodes g t E = Raise NetworkXError).
Proof.
  intros WG NE. assert (Fst : exists w ns, nodes g = w :: ns) by (destruct (nodes g) as [|w ns]; [congruence|eauto]). destruct Fst as (w & ns & Ew). split.
  - intros AC (v & J & N). assert (Q : dsep_nodes g t E = Raise NodeNotFound).
    { unfold dsep_nodes. change (fun w => let* b := d_separated g [t] [w] (filter (fun w0 => if eqd w0 w then false else true) E) in Ok (w, b))
        with (fun w => let* b := d_separated g [t] [w] (others w E) in Ok (w, b)). rewrite Ew at 1. cbn [mapM].
      rewrite (d_separated_unknown g [t] [w] (others w E) WG AC); [reflexivity|]. exists v. split; [|auto]. cbn. rewrite others_In.
      destruct J as [-> | J]; [now left|]. right. right. split; [auto|]. intros ->. apply N. rewrite Ew. now left. }
    split; [auto|]. unfold dcon_nodes. rewrite Q. reflexivity.
  - intros AC. assert (Q : dsep_nodes g t E = Raise NetworkXError).
    { unfold dsep_nodes. rewrite Ew at 1. cbn [mapM]. now rewrite (d_separated_cyclic g _ _ _ WG AC). }
    split; [auto|]. unfold dcon_nodes. rewrite Q. reflexivity.
Qed.
