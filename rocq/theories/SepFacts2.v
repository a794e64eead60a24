(** d-separated variables are independent. *)

From Coq Require Import String Bool Arith ZArith QArith Qcanon Lia Permutation List.
From Verif Require Import PyBase PyFacts Num DomainModel NdArray StoreModel NumStore FactorModel GraphModel ModelModel InferModel
  Spec DomainFacts StoreSpec FactorSpec FactorFacts FactorFacts3 BigSum GraphSpec GraphFacts GraphFacts2 PropFacts3 ModelSpec
  NetSpec NetSem FactorSem NetFacts VeFacts2 VeFacts4 LearnModel EmSpec EmFacts1 SepSpec SepFacts1.
From Coq Require Import List.
Import ListNotations.
Local Open Scope nat_scope.
Local Arguments eqd : simpl never.

Section Markov.
  Variables (m : pgm) (D : domain) (F : var -> mfactor) (vt : vtype).
  Hypothesis H : network m D F vt.
  Notation g := (m_graph m).
  Notation fam := (fam F).
  Notation sm := (sm D).
  Notation prods := (prods (P F)).

  (** two pieces of evidence that agree on the part of the targets *)
  Lemma same_part e e1 T R B C t : Spec.known D e -> Spec.known D e1 ->
    (forall x, In x T -> ~ In x (keys e)) -> (forall x, In x T -> ~ In x (keys e1)) ->
    split_nodes D F e T R B C -> split_nodes D F e1 T R B C -> incl R (keys D) ->
    (forall n p, In n R -> In p (fam n) -> dget p e = dget p e1) -> assigns D T t ->
    (mass D F (t ++ e) * mass D F e1 = mass D F (t ++ e1) * mass D F e)%Qc.
  Proof.
    intros Ke K1 Dj Dj1 S S1 IRD Sa At. assert (WD := net_wd m D F vt H). destruct (some_valid D WD) as [a Va].
    assert (Same : forall p, In p R -> (In p (keys e) <-> In p (keys e1))).
    { intros p J. rewrite !dget_keys. rewrite (Sa p p J); [tauto|]. apply (fam_In m D F vt H p p (IRD p J)). now left. }
    destruct (posterior_masses m D F vt H e Ke T Dj R B C S a Va) as (c & M & Mt).
    destruct (posterior_masses m D F vt H e1 K1 T Dj1 R B C S1 a Va) as (c1 & M1 & Mt1).
    specialize (Mt t At). specialize (Mt1 t At). rewrite M, M1, Mt, Mt1.
    assert (E1 : sm (minus R (keys e)) (prods R) (over e a) = sm (minus R (keys e1)) (prods R) (over e1 a)).
    { transitivity (sm (minus R (keys e)) (prods R) (over e1 a)).
      - apply (sm_dep D (minus R (keys e)) (prods R) (flat_map fam R)); [now apply (prods_dep' m D F vt H)|].
        intros w J. apply filter_In in J as [J _]. apply in_flat_map in J as (n & Jn & Jw). unfold over. now rewrite (Sa n w Jn Jw).
      - apply sm_set. intros x _. rewrite !minus_In. split; intros [J N]; split; auto; intros J1; apply N; now apply Same. }
    assert (E2 : sm (minus (minus R T) (keys e)) (prods R) (over t (over e a)) = sm (minus (minus R T) (keys e1)) (prods R) (over t (over e1 a))).
    { transitivity (sm (minus (minus R T) (keys e)) (prods R) (over t (over e1 a))).
      - apply (sm_dep D (minus (minus R T) (keys e)) (prods R) (flat_map fam R)); [now apply (prods_dep' m D F vt H)|].
        intros w J. apply filter_In in J as [J _]. apply in_flat_map in J as (n & Jn & Jw). unfold over. now rewrite (Sa n w Jn Jw).
      - apply sm_set. intros x _. rewrite !minus_In. split; intros [[J N1] N]; (split; [split; auto|]); intros J1; apply N; now apply Same. }
    rewrite E1, E2. ring.
  Qed.

  Variables (X Y Z : list var).
  Hypothesis IX : incl X (nodes g).
  Hypothesis IY : incl Y (nodes g).
  Hypothesis IZ : incl Z (nodes g).
  Hypothesis XZ : forall v, In v X -> ~ In v Z.
  Hypothesis YZ : forall v, In v Y -> ~ In v Z.
  Hypothesis Sep : forall x y, In x X -> In y Y -> ~ linked (open_arc g Z (X ++ Y ++ Z)) x y.
  Notation S := (X ++ Y ++ Z).
  Notation open := (open_arc g Z S).

  Lemma parts : exists R B C, NoDup R /\ incl X R /\
    (forall x, In x R -> ~ In x Y) /\ incl R (keys D) /\
    Permutation (keys D) ((R ++ C) ++ B) /\
    (forall n p, In n (R ++ C) -> In p (fam n) -> ~ In p B) /\
    (forall w, In w S -> ~ In w B) /\
    (forall n p, In n R -> In p (fam n) -> In p C -> In p Z) /\
    (forall n p, In n C -> In p (fam n) -> In p R -> In p Z).
  Proof.
    assert (WG := net_wg m D F vt H). assert (AC := net_ac m D F vt H). assert (WD := net_wd m D F vt H).
    assert (NN := net_nodes m D F vt H).
    destruct (barren_removal_ok g S WG AC) as (h & _ & Wh & Nh & Ah).
    destruct (remove_outgoing_ok h Z Wh) as (Nk & Wk & Ak). set (k := remove_outgoing_edges h Z) in *.
    assert (An : forall x y, arc g x y -> In y (nodes h) -> In x (nodes h)).
    { intros x y A Jy. apply Nh in Jy as [_ Jy]. apply Nh. split; [apply (proj2 (proj2 WG) x y A)|]. eapply anc_up; eauto. }
    assert (Ok : forall x y, arc k x y <-> open x y).
    { intros x y. rewrite Ak, Ah. unfold open_arc. split.
      - intros ((A & _ & B) & C). apply Nh in B as [_ B]. auto.
      - intros (A & B & C). assert (Jy : In y (nodes h)) by (apply Nh; split; [apply (proj2 (proj2 WG) x y A)|auto]).
        split; [split; [auto|split; [eapply An; eauto|auto]]|auto]. }
    assert (Sh : forall x, In x S -> In x (nodes h)).
    { intros x J. apply Nh. split; [|now apply anc_self]. apply in_app_or in J as [J|J]; [auto|]. apply in_app_or in J as [J|J]; auto. }
    assert (Dec : forall x y, In x (nodes h) -> linked open x y \/ ~ linked open x y).
    { intros x y J. destruct (component_ok k x Wk) as (c & _ & _ & _ & Hc); [now rewrite Nk|].
      destruct (in_dec string_dec y c) as [I|I]; [left|right]; [|intros L; apply I]; rewrite Hc in *.
      - eapply linked_ext; [|exact I]. intros a b; apply Ok.
      - eapply linked_ext; [|exact L]. intros a b; apply Ok. }
    assert (Col : forall xs, incl xs X -> exists R, NoDup R /\ incl R (nodes h) /\ forall y, In y R <-> exists x, In x xs /\ linked open x y).
    { induction xs as [|x xs IH]; intros I; [exists []; split; [constructor|]; split; [intros y []|]; intros y; split; [intros []|intros (x & [] & _)]|].
      destruct IH as (R & NR & IR & HR); [intros y J; apply I; now right|].
      assert (Jx : In x (nodes h)) by (apply Sh, in_or_app; left; apply I; now left).
      destruct (component_ok k x Wk) as (c & _ & Nc & Ic & Hc); [now rewrite Nk|].
      exists (nodup string_dec (c ++ R)). split; [apply NoDup_nodup|]. split.
      - intros y J. apply nodup_In in J. apply in_app_or in J as [J|J]; [|auto]. rewrite <- Nk. now apply Ic.
      - intros y. rewrite nodup_In, in_app_iff, HR, Hc. split.
        + intros [L|(x' & J & L)]; [exists x; split; [now left|]|exists x'; split; [now right|auto]].
          eapply linked_ext; [|exact L]. intros a b; apply Ok.
        + intros (x' & [<- | J] & L); [left|right; eauto]. eapply linked_ext; [|exact L]. intros a b; apply Ok. }
    destruct (Col X (incl_refl _)) as (R & NR & Rh & HR).
    assert (Ih : forall x, In x (nodes h) -> In x (keys D)) by (intros x J; apply NN; now apply Nh in J).
    exists R, (minus (keys D) (nodes h)), (minus (nodes h) R). split; [auto|].
    split; [intros x J; apply HR; exists x; split; [auto|constructor]|].
    split; [intros y J Jy; apply HR in J as (x & Jx & L); apply (Sep x y Jx Jy L)|].
    split; [intros x J; auto|]. split; [|split; [|split; [|split]]].
    - apply NoDup_Permutation.
      + apply WD.
      + apply NoDup_app_intro; [apply NoDup_app_intro; [auto|apply NoDup_minus, Wh|]|apply NoDup_minus, WD|].
        * intros x J J2. apply minus_In in J2. tauto.
        * intros x J J2. apply minus_In in J2 as [_ J2]. apply J2. apply in_app_or in J as [J|J]; [auto|]. now apply minus_In in J.
      + intros x. rewrite !in_app_iff, !minus_In. split.
        * intros J. destruct (in_dec string_dec x (nodes h)) as [A|A]; [|auto]. destruct (in_dec string_dec x R); auto.
        * intros [[J|[J _]]|[J _]]; auto.
    - intros n p Jn Jp J. apply minus_In in J as [_ J]. apply J.
      assert (Nn : In n (nodes h)) by (apply in_app_or in Jn as [Jn|Jn]; [auto|now apply minus_In in Jn]).
      apply (fam_In m D F vt H n p (Ih n Nn)) in Jp as [-> | A]; [auto|]. eapply An; eauto.
    - intros w Jw J. apply minus_In in J as [_ J]. auto.
    - intros n p Jn Jp J. apply minus_In in J as [Jh J]. destruct (in_dec string_dec p Z) as [A|A]; [auto|]. exfalso. apply J.
      apply (fam_In m D F vt H n p (Ih n (Rh n Jn))) in Jp as [-> | Ar]; [auto|]. apply HR. assert (Jn' := Jn). apply HR in Jn as (x & Jx & L).
      exists x. split; [auto|]. eapply linked_snoc_bwd; [exact L|]. split; [auto|]. split; [auto|]. apply Rh, Nh in Jn'. apply Jn'.
    - intros n p Jn Jp J. apply minus_In in Jn as [Jh Jn]. destruct (in_dec string_dec p Z) as [A|A]; [auto|]. exfalso. apply Jn.
      apply (fam_In m D F vt H n p (Ih n Jh)) in Jp as [-> | Ar]; [auto|]. apply HR. apply HR in J as (x & Jx & L).
      exists x. split; [auto|]. eapply linked_snoc_fwd; [exact L|]. split; [auto|]. split; [auto|]. apply Nh in Jh. apply Jh.
  Qed.

  Lemma independent tx ty tz : assigns D X tx -> assigns D Y ty -> assigns D Z tz ->
    (mass D F (tx ++ ty ++ tz) * mass D F tz = mass D F (tx ++ tz) * mass D F (ty ++ tz))%Qc.
  Proof.
    intros Ax Ay Az. destruct parts as (R & B & C & NR & XR & RY & IR & Pm & Hb & Hs & Hrc & Hcr).
    assert (Kz : Spec.known D tz) by exact (assigns_known D Z tz Az).
    assert (Ky : Spec.known D ty) by exact (assigns_known D Y ty Ay).
    assert (Kyz : Spec.known D (ty ++ tz)).
    { intros v l s J Q. rewrite dget_app in Q. destruct (dget v ty) eqn:E; [injection Q as <-; eapply Ky; eauto|eapply Kz; eauto]. }
    assert (Kk : keys (ty ++ tz) = Y ++ Z) by (unfold keys; rewrite map_app; f_equal; [apply Ay|apply Az]).
    assert (XY : forall v, In v X -> ~ In v Y) by (intros v J; apply RY; auto).
    apply (same_part (ty ++ tz) tz X R B C tx); auto.
    - intros x J. rewrite Kk, in_app_iff. intros [J1|J1]; [apply (XY x J J1)|apply (XZ x J J1)].
    - intros x J. rewrite (proj1 Az). auto.
    - split; [auto|]. split; [auto|]. split; [auto|]. rewrite Kk. split; [intros w J; apply Hs, in_or_app; auto|].
      split; intros n p Jn Jp Jc; apply in_or_app; right; eauto.
    - split; [auto|]. split; [auto|]. split; [auto|]. rewrite (proj1 Az). split; [intros w J; apply Hs, in_or_app; right; apply in_or_app; auto|].
      split; eauto.
    - intros n p Jn Jp. rewrite dget_app. destruct (dget p ty) as [s|] eqn:E; [|auto]. exfalso.
      assert (Jy : In p Y) by (rewrite <- (proj1 Ay); apply dget_keys; eauto).
      assert (Jd : In p (keys D)) by (apply (net_nodes m D F vt H); auto).
      apply (Permutation_in _ Pm) in Jd. rewrite !in_app_iff in Jd. destruct Jd as [[J|J]|J].
      + apply (RY p J Jy).
      + apply (YZ p Jy). apply (Hrc n p Jn Jp J).
      + apply (Hs p); [|auto]. apply in_or_app. right. apply in_or_app. auto.
  Qed.
End Markov.
