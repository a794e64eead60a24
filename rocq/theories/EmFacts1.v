(** Evidence that is d-separated from a variable does not change its posterior. *)

From Coq Require Import String Bool Arith ZArith QArith Qcanon Lia Permutation List.
From Verif Require Import PyBase PyFacts Num DomainModel NdArray StoreModel NumStore FactorModel GraphModel ModelModel InferModel
  Spec DomainFacts StoreSpec FactorSpec FactorFacts FactorFacts3 BigSum GraphSpec GraphFacts GraphFacts2 PropFacts3 ModelSpec
  NetSpec NetSem FactorSem NetFacts VeFacts2 VeFacts4 LearnModel EmSpec.
From Coq Require Import List.
Import ListNotations.
Local Open Scope nat_scope.
Local Arguments eqd : simpl never.

Lemma linked_snoc_fwd (R : var -> var -> Prop) x y z : linked R x y -> R y z -> linked R x z.
Proof. intros L A. eapply linked_trans; [exact L|]. eapply linked_fwd; [exact A|apply linked_refl]. Qed.
Lemma linked_snoc_bwd (R : var -> var -> Prop) x y z : linked R x y -> R z y -> linked R x z.
Proof. intros L A. eapply linked_trans; [exact L|]. eapply linked_bwd; [exact A|apply linked_refl]. Qed.

Definition others (w : var) (E : list var) : list var := filter (fun x => if eqd x w then false else true) E.
Lemma others_In w E x : In x (others w E) <-> In x E /\ x <> w.
Proof.
  unfold others. rewrite filter_In. destruct (eqd x w) as [-> | N]; split; intros [A B]; try discriminate; tauto.
Qed.

Section Separated.
  Variables (g : digraph) (v : var) (E : list var).
  Hypothesis WG : wf_graph g.
  Hypothesis AC : acyclic g.
  Hypothesis Iv : In v (nodes g).
  Hypothesis IE : incl E (nodes g).
  Notation open := (open_arc g E (v :: E)).
  Notation anc := (ancestral g (v :: E)).

  Lemma anc_arc x y : arc g x y -> anc y -> anc x.
  Proof.
    intros A (s & Is & Rs). exists s. split; [auto|]. right. destruct Rs as [<- | W]; [now apply walk_one|]. now apply (walk_step g x y).
  Qed.
  Lemma open_anc x y : linked open x y -> anc x -> anc y.
  Proof.
    induction 1 as [x|x y z (A & N & An) L IH|x y z (A & N & An) L IH]; intros Ax; [auto|..]; apply IH; [auto|].
    eapply anc_arc; eauto.
  Qed.
  Lemma anc_v : anc v.
  Proof. exists v. split; [now left|now left]. Qed.

  (** what networkx decides for one observed variable and the others *)
  Lemma d_separated_ok w : In w E ->
    exists b, d_separated g [v] [w] (others w E) = Ok b /\ (b = false <-> bears_on g v E w).
  Proof.
    intros Iw. unfold d_separated. rewrite (proj2 (simple_cycles_iff g WG) AC). cbn [length]. change (0 <? 0) with false. cbn iota.
    set (S := [v] ++ [w] ++ others w E).
    assert (IS : forall x, In x S <-> In x (v :: E)).
    { intros x. unfold S. cbn. rewrite others_In. split.
      - intros [-> | [-> | [H _]]]; auto.
      - intros [-> | H]; auto. destruct (eqd x w) as [-> | N]; auto. }
    assert (FN : forallb (fun x => mem x (nodes g)) S = true).
    { apply forallb_forall. intros x J. apply mem_In. apply IS in J as [<- | J]; auto. }
    rewrite FN. cbn [negb].
    destruct (barren_removal_ok g S WG AC) as (h & -> & Wh & Nh & Ah).
    assert (Nh' : forall x, In x (nodes h) <-> In x (nodes g) /\ anc x).
    { intros x. rewrite Nh. unfold ancestral. split; intros [A (s & B & C)]; split; auto; exists s; split; auto; now apply IS. }
    destruct (remove_outgoing_ok h (others w E) Wh) as (Nk & Wk & Ak). set (k := remove_outgoing_edges h (others w E)) in *.
    assert (Ak' : forall x y, arc k x y <-> arc g x y /\ anc y /\ (In x E -> x = w)).
    { intros x y. rewrite Ak, Ah, !Nh', others_In. split.
      - intros ((A & (_ & _) & (_ & B)) & C). split; [auto|]. split; [auto|]. intros J. destruct (eqd x w); [auto|tauto].
      - intros (A & B & C). assert (G := proj2 (proj2 WG) x y A). split; [split; [auto|split; split; try tauto]|].
        + eapply anc_arc; eauto.
        + tauto. }
    destruct (component_ok k v Wk) as (c & Ec & Nc & Ic & Hc).
    { rewrite Nk. apply Nh'. split; [auto|apply anc_v]. }
    cbn [mapM]. rewrite Ec. cbn [bind existsb]. rewrite !orb_false_r. eexists. split; [reflexivity|].
    assert (G : linked (arc k) v w <-> bears_on g v E w).
    { split.
      - intros L. split; [auto|]. clear - L Ak'.
        assert (Q : forall x y, linked (arc k) x y -> y = w -> exists c, (c = w \/ arc g w c) /\ linked open x c).
        { intros x y. induction 1 as [x|x y z A L0 IH|x y z A L0 IH]; intros ->.
          - exists w. split; [auto|apply linked_refl].
          - destruct (IH eq_refl) as (c & C & Lc). apply Ak' in A as (A & An & Hx).
            destruct (in_dec string_dec x E) as [J|J].
            + rewrite (Hx J). exists w. split; [auto|apply linked_refl].
            + exists c. split; [auto|]. eapply linked_fwd; [|exact Lc]. repeat split; auto.
          - destruct (IH eq_refl) as (c & C & Lc). apply Ak' in A as (A & An & Hx).
            destruct (in_dec string_dec y E) as [J|J].
            + rewrite (Hx J) in A. exists x. split; [auto|apply linked_refl].
            + exists c. split; [auto|]. eapply linked_bwd; [|exact Lc]. repeat split; auto. }
        eapply Q; eauto.
      - intros (_ & c0 & C & L).
        assert (L2 : linked (arc k) v c0) by (eapply linked_ext; [|exact L]; intros a b (A & N & An); apply Ak'; tauto).
        destruct C as [-> | A]; [auto|]. eapply linked_snoc_bwd; [exact L2|]. apply Ak'. split; [auto|]. split; [|auto].
        eapply open_anc; [exact L|apply anc_v]. }
    rewrite <- G, <- Hc. destruct (mem w c) eqn:M; cbn.
    - apply mem_In in M. tauto.
    - apply mem_nIn in M. split; [discriminate|tauto].
  Qed.
  Lemma d_separated_some w : In w (nodes g) -> exists b, d_separated g [v] [w] (others w E) = Ok b.
  Proof.
    intros Iw. unfold d_separated. rewrite (proj2 (simple_cycles_iff g WG) AC). cbn [length]. change (0 <? 0) with false. cbn iota.
    set (S := [v] ++ [w] ++ others w E).
    assert (FN : forallb (fun x => mem x (nodes g)) S = true).
    { apply forallb_forall. intros x J. apply mem_In. unfold S in J. cbn in J. rewrite others_In in J.
      destruct J as [<- | [<- | [J _]]]; auto. }
    rewrite FN. cbn [negb]. destruct (barren_removal_ok g S WG AC) as (h & -> & Wh & Nh & Ah).
    destruct (remove_outgoing_ok h (others w E) Wh) as (Nk & Wk & Ak).
    destruct (component_ok (remove_outgoing_edges h (others w E)) v Wk) as (c & Ec & _).
    { rewrite Nk. apply Nh. split; [auto|]. exists v. split; [now left|now left]. }
    cbn [mapM]. rewrite Ec. cbn [bind]. eauto.
  Qed.

  (** what is kept of the observations *)
  Lemma dsep_filter_ok : exists keep : var -> bool,
    (forall w, In w E -> w <> v -> (keep w = true <-> bears_on g v E w)) /\
    forall d, keys (LearnModel.known d) = E ->
      dsep_filter g v d = Ok (filter (fun vs => keep (fst vs)) (LearnModel.known d)).
  Proof.
    assert (X : exists bs, mapM (fun w => let* b := d_separated g [v] [w] (others w E) in Ok (w, b)) (nodes g) = Ok bs /\
      forall w b, In (w, b) bs <-> In w (nodes g) /\ d_separated g [v] [w] (others w E) = Ok b).
    { assert (G : forall l, incl l (nodes g) -> exists bs, mapM (fun w => let* b := d_separated g [v] [w] (others w E) in Ok (w, b)) l = Ok bs /\
        forall w b, In (w, b) bs <-> In w l /\ d_separated g [v] [w] (others w E) = Ok b); [|apply G, incl_refl].
      induction l as [|w l IH]; intros I; cbn [mapM]; [exists []; split; [auto|]; intros; cbn; tauto|].
      destruct (d_separated_some w) as (b & Eb); [apply I; now left|]. rewrite Eb. cbn [bind].
      destruct IH as (bs & -> & Hb); [intros x J; apply I; now right|]. cbn [bind]. eexists. split; [reflexivity|].
      intros w' b'. cbn. rewrite Hb. split.
      - intros [Q|[Q1 Q2]]; [injection Q as <- <-|]; auto.
      - intros [[<- | J] Q]; [left; congruence|auto]. }
    destruct X as (bs & Em & Hbs). set (sep := map fst (filter snd bs)).
    set (con := filter (fun x => negb (mem x sep) && (if eqd x v then false else true)) (nodes g)).
    exists (fun w => mem w con || (if eqd w v then true else false)). split.
    - intros w Iw Nv. rewrite (eqd_neq w v _ _ Nv). rewrite orb_false_r.
      destruct (d_separated_ok w Iw) as (b & Eb & Hb). rewrite <- Hb. rewrite mem_In. unfold con. rewrite filter_In, (eqd_neq w v _ _ Nv), andb_true_r.
      assert (S : In w sep <-> b = true).
      { unfold sep. rewrite in_map_iff. split.
        - intros ([w' b'] & <- & J). apply filter_In in J as [J Q]. cbn in *. apply Hbs in J as [_ J]. rewrite J in Eb. congruence.
        - intros ->. exists (w, true). split; [auto|]. apply filter_In. split; [|auto]. apply Hbs. auto. }
      destruct (mem w sep) eqn:M; cbn.
      + apply mem_In, S in M. subst b. split; [intros [_ Q]; discriminate|discriminate].
      + apply mem_nIn in M. split; [|auto]. intros _. destruct b; [|auto]. tauto.
    - intros d Kd. unfold dsep_filter. rewrite Kd. unfold dcon_nodes, dsep_nodes.
      change (fun w => let* b := d_separated g [v] [w] (filter (fun w0 => if eqd w0 w then false else true) E) in Ok (w, b))
        with (fun w => let* b := d_separated g [v] [w] (others w E) in Ok (w, b)).
      rewrite Em. cbn [bind]. fold sep. fold con. reflexivity.
  Qed.
End Separated.

Lemma dfilter_is {V} (p : var -> bool) (d : dict var V) : filter (fun vs => p (fst vs)) d = dfilter p d.
Proof. reflexivity. Qed.

Section Posterior.
  Variables (m : pgm) (D : domain) (F : var -> mfactor) (vt : vtype).
  Hypothesis H : network m D F vt.
  Variable e : obs.
  Hypothesis Ke : Spec.known D e.
  Hypothesis Ie : incl (keys e) (keys D).
  Variable v : var.
  Hypothesis Iv : In v (keys D).
  Variable keep : var -> bool.
  Hypothesis Hk : forall w, In w (keys e) -> bears_on (m_graph m) v (keys e) w -> keep w = true.
  Variable T : list var.
  Hypothesis Dj : forall x, In x T -> ~ In x (keys e).
  Hypothesis HT : forall x, In x T -> x = v \/ arc (m_graph m) x v.
  Notation g := (m_graph m).
  Notation P := (P F).
  Notation fam := (fam F).
  Notation sm := (sm D).
  Notation prods := (prods P).
  Notation open := (open_arc g (keys e) (v :: keys e)).
  Notation e1 := (dfilter keep e).

  Lemma e1_In x : In x (keys e1) <-> In x (keys e) /\ keep x = true.
  Proof. rewrite keys_dfilter. apply filter_In. Qed.

  (** the variables linked with [v], the other ancestors, the rest *)
  Lemma linked_part : exists R B C, NoDup R /\
    (forall x, In x R <-> In x (keys D) /\ linked open v x) /\
    Permutation (keys D) ((R ++ C) ++ B) /\
    (forall n p, In n (R ++ C) -> In p (fam n) -> ~ In p B) /\
    (forall w, In w (keys e) -> ~ In w B) /\
    (forall n p, In n R -> In p (fam n) -> In p C -> In p (keys e)) /\
    (forall n p, In n C -> In p (fam n) -> In p R -> In p (keys e)).
  Proof.
    assert (WG := net_wg m D F vt H). assert (AC := net_ac m D F vt H). assert (WD := net_wd m D F vt H).
    assert (NN := net_nodes m D F vt H).
    destruct (barren_removal_ok g (v :: keys e) WG AC) as (h & _ & Wh & Nh & Ah).
    destruct (remove_outgoing_ok h (keys e) Wh) as (Nk & Wk & Ak). set (k := remove_outgoing_edges h (keys e)) in *.
    assert (Av : In v (nodes h)) by (apply Nh; split; [now apply NN|]; apply anc_v).
    destruct (component_ok k v Wk) as (R & _ & NR & IR & HR); [now rewrite Nk|].
    assert (An : forall x y, arc g x y -> In y (nodes h) -> In x (nodes h)).
    { intros x y A Jy. apply Nh in Jy as [_ Jy]. apply Nh. split; [apply (proj2 (proj2 WG) x y A)|]. eapply anc_arc; eauto. }
    assert (Ok : forall x y, arc k x y <-> open x y).
    { intros x y. rewrite Ak, Ah. unfold open_arc. split.
      - intros ((A & _ & B) & C). apply Nh in B as [_ B]. auto.
      - intros (A & B & C). assert (Jy : In y (nodes h)) by (apply Nh; split; [apply (proj2 (proj2 WG) x y A)|auto]).
        split; [split; [auto|split; [eapply An; eauto|auto]]|auto]. }
    assert (HR' : forall x, In x R <-> linked open v x).
    { intros x. rewrite HR. split; apply linked_ext; intros a b; apply Ok. }
    assert (Ih : forall x, In x (nodes h) -> In x (keys D)) by (intros x J; apply NN; now apply Nh in J).
    assert (Rh : forall x, In x R -> In x (nodes h)) by (intros x J; apply IR in J; now rewrite Nk in J).
    exists R, (minus (keys D) (nodes h)), (minus (nodes h) R). split; [auto|]. split; [|split; [|split; [|split; [|split]]]].
    - intros x. rewrite HR'. split; [|tauto]. intros L. split; [|auto]. apply Ih, Rh, HR', L.
    - apply NoDup_Permutation.
      + apply WD.
      + apply NoDup_app_intro; [apply NoDup_app_intro; [auto|apply NoDup_minus, Wh|]|apply NoDup_minus, WD|].
        * intros x J J2. apply minus_In in J2. tauto.
        * intros x J J2. apply minus_In in J2 as [_ J2]. apply J2. apply in_app_or in J as [J|J]; [auto|]. now apply minus_In in J.
      + intros x. rewrite !in_app_iff, !minus_In. split.
        * intros J. destruct (in_dec string_dec x (nodes h)) as [A|A]; [|auto]. destruct (in_dec string_dec x R); auto.
        * intros [[J|[J _]]|[J _]]; auto.
    - intros n p Jn Jp J. apply minus_In in J as [_ J]. apply J.
      assert (Nn : In n (nodes h)) by (apply in_app_or in Jn as [Jn|Jn]; [auto|now apply minus_In in Jn]).
      apply (fam_In m D F vt H n p (Ih n Nn)) in Jp as [-> | A]; [auto|]. eapply An; eauto.
    - intros w Jw J. apply minus_In in J as [_ J]. apply J, Nh. split; [apply NN; auto|]. exists w. split; [now right|now left].
    - intros n p Jn Jp J. apply minus_In in J as [Jh J]. destruct (in_dec string_dec p (keys e)) as [A|A]; [auto|]. exfalso. apply J.
      apply (fam_In m D F vt H n p (Ih n (Rh n Jn))) in Jp as [-> | Ar]; [auto|]. apply HR'. eapply linked_snoc_bwd; [apply HR', Jn|].
      split; [auto|]. split; [auto|]. apply Rh, Nh in Jn. tauto.
    - intros n p Jn Jp J. apply minus_In in Jn as [Jh Jn]. destruct (in_dec string_dec p (keys e)) as [A|A]; [auto|]. exfalso. apply Jn.
      apply (fam_In m D F vt H n p (Ih n Jh)) in Jp as [-> | Ar]; [auto|]. apply HR'. eapply linked_snoc_fwd; [apply HR', J|].
      split; [auto|]. split; [auto|]. apply Nh in Jh. tauto.
  Qed.

  Lemma filtered_posterior t : assigns D T t ->
    (mass D F (t ++ e) * mass D F e1 = mass D F (t ++ e1) * mass D F e)%Qc.
  Proof.
    intros At. assert (WD := net_wd m D F vt H). destruct (some_valid D WD) as [a Va].
    destruct linked_part as (R & B & C & NR & HR & Pm & Hb & He & Hrc & Hcr).
    assert (IRD : incl R (keys D)) by (intros x J; now apply HR in J).
    assert (ICD : incl C (keys D)) by (intros x J; apply (Permutation_in (l := (R ++ C) ++ B)); [now symmetry|]; rewrite !in_app_iff; auto).
    assert (Dj1 : forall x, In x T -> ~ In x (keys e1)) by (intros x J J1; apply e1_In in J1 as [J1 _]; apply (Dj x J J1)).
    assert (TR : incl T R).
    { intros x J. apply HR. destruct (HT x J) as [-> | A]; [split; [auto|apply linked_refl]|].
      split; [apply (net_nodes m D F vt H); apply (proj2 (proj2 (net_wg m D F vt H)) x v A)|]. eapply linked_snoc_bwd; [apply linked_refl|].
      split; [auto|]. split; [auto|apply anc_v]. }
    assert (Bo : forall n p, In n R -> In p (fam n) -> In p (keys e) -> In p (keys e1)).
    { intros n p Jn Jp J. apply e1_In. split; [auto|]. apply Hk; [auto|]. split; [auto|]. exists n.
      apply (fam_In m D F vt H n p (IRD n Jn)) in Jp. split; [|now apply HR]. destruct Jp as [-> | A]; auto. }
    assert (Br : forall p, In p R -> In p (keys e) -> In p (keys e1)).
    { intros p Jp J. apply (Bo p p); auto. apply (fam_In m D F vt H p p (IRD p Jp)). now left. }
    assert (S : split_nodes D F e T R B C) by (repeat split; auto).
    assert (S1 : split_nodes D F e1 T R B C).
    { split; [auto|]. split; [auto|]. split; [auto|]. split; [intros w J; apply e1_In in J as [J _]; auto|].
      split; intros n p Jn Jp Jc; [apply (Bo n p)|apply Br]; eauto. }
    assert (K1 : Spec.known D e1).
    { intros w l s J Es. rewrite dget_dfilter in Es. destruct (keep w); [eapply Ke; eauto|discriminate]. }
    assert (IT : incl T (keys D)) by (intros x J; auto).
    destruct (posterior_masses m D F vt H e Ke T Dj R B C S a Va) as (c & M & Mt).
    destruct (posterior_masses m D F vt H e1 K1 T Dj1 R B C S1 a Va) as (c1 & M1 & Mt1).
    specialize (Mt t At). specialize (Mt1 t At). rewrite M, M1, Mt, Mt1.
    assert (E1 : sm (minus R (keys e)) (prods R) (over e a) = sm (minus R (keys e1)) (prods R) (over e1 a)).
    { transitivity (sm (minus R (keys e)) (prods R) (over e1 a)).
      - apply (sm_dep D (minus R (keys e)) (prods R) (flat_map fam R)); [now apply (prods_dep' m D F vt H)|].
        intros w J. apply filter_In in J as [J _]. apply in_flat_map in J as (n & Jn & Jw). unfold over. rewrite dget_dfilter.
        destruct (keep w) eqn:Ek; [auto|]. destruct (dget w e) as [s|] eqn:Es; [|auto]. exfalso.
        assert (J1 : In w (keys e1)) by (apply (Bo n w); auto; apply dget_keys; eauto). apply e1_In in J1. destruct J1. congruence.
      - apply sm_set. intros x _. rewrite !minus_In. split; intros [J N]; split; auto.
        intros J1. apply e1_In in J1. tauto. }
    assert (E2 : sm (minus (minus R T) (keys e)) (prods R) (over t (over e a)) = sm (minus (minus R T) (keys e1)) (prods R) (over t (over e1 a))).
    { transitivity (sm (minus (minus R T) (keys e)) (prods R) (over t (over e1 a))).
      - apply (sm_dep D (minus (minus R T) (keys e)) (prods R) (flat_map fam R)); [now apply (prods_dep' m D F vt H)|].
        intros w J. apply filter_In in J as [J _]. apply in_flat_map in J as (n & Jn & Jw). unfold over. rewrite dget_dfilter.
        destruct (dget w t) as [st|] eqn:Et; [auto|].
        destruct (keep w) eqn:Ek; [auto|]. destruct (dget w e) as [s|] eqn:Es; [|auto]. exfalso.
        assert (J1 : In w (keys e1)) by (apply (Bo n w); auto; apply dget_keys; eauto). apply e1_In in J1. destruct J1. congruence.
      - apply sm_set. intros x _. rewrite !minus_In. split; intros [[J N1] N]; (split; [split; auto|]); auto.
        intros J1. apply e1_In in J1. tauto. }
    rewrite E1, E2. ring.
  Qed.
End Posterior.
