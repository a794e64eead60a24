(** Proofs about the fusion of models at common roots (C65): distributions. *)

From Coq Require Import String Bool Arith ZArith QArith Qcanon Permutation Lia List.
From Verif Require Import PyBase PyFacts Num DomainModel NdArray StoreModel NumStore FactorModel GraphModel ModelModel InferModel CausalModel
  Spec StoreSpec FactorSpec GraphSpec ModelSpec NetSpec CausalSpec SepSpec FusionSpec
  BigSum FactorSem NetSem NetFacts GraphFacts FactorFacts VeFacts4 CausalFacts CfFacts SepFacts1 SepFacts3 FusionFacts.
Import ListNotations.
Local Open Scope nat_scope.
Local Arguments eqd : simpl never.

Section Distributions.
  Variables (vt : vtype) (on : list var) (p0 : part) (ps : list part).
  Hypothesis H : fusable vt on p0 ps.
  Notation parts := (p0 :: ps).
  Variables (m : pgm) (D : domain) (F : var -> mfactor).
  Hypothesis N : network m D F vt.
  Hypothesis U : united on p0 ps m D F.

  Lemma u_arc x y : arc (m_graph m) x y <-> exists p, In p parts /\ p_arc p x y.
  Proof. apply U. Qed.
  Lemma u_node p x : In p parts -> p_node p x -> In x (nodes (m_graph m)).
  Proof.
    intros I J. apply (net_nodes m D F vt N). apply (f_keys vt on p0 ps H p x I) in J. apply keys_In in J as (l & J). apply keys_In.
    exists l. apply U. eauto.
  Qed.
  Lemma u_root x y : In y on -> ~ arc (m_graph m) x y.
  Proof. intros I A. apply u_arc in A as (p & J & A). exact (proj2 (f_on vt on p0 ps H p y J I) x A). Qed.
  Lemma u_same p q x : In p parts -> In q parts -> p_node p x -> p_node q x -> ~ In x on -> p = q.
  Proof. exact (f_apart vt on p0 ps H p q x). Qed.
  Lemma u_edge p q x y : In p parts -> In q parts -> p_node p x -> ~ In x on -> (p_arc q x y \/ p_arc q y x) -> p_arc p x y \/ p_arc p y x.
  Proof.
    intros I J K L A. assert (p_node q x). { destruct A as [A|A]; apply (f_arc vt on p0 ps H q) in A; tauto. }
    now rewrite (u_same p q x I J K).
  Qed.

  Lemma trail_stays p x d y : In p parts -> p_node p x -> ~ In x on -> active (m_graph m) on x d y -> p_node p y /\ (In y on -> d <> Into).
  Proof.
    intros I J K A. induction A as [|d y z A IH M B|d y z A IH Q M B|y z A IH (s & S & R) B].
    - split; [auto|]. discriminate.
    - destruct IH as [IH _]. split; [|intros L; exfalso; exact (u_root y z L B)].
      apply u_arc in B as (q & Iq & B). destruct (u_edge p q y z I Iq IH M (or_introl B)) as [C|C]; apply (f_arc vt on p0 ps H p) in C; tauto.
    - destruct IH as [IH _]. split; [|discriminate].
      apply u_arc in B as (q & Iq & B). destruct (u_edge p q y z I Iq IH M (or_intror B)) as [C|C]; apply (f_arc vt on p0 ps H p) in C; tauto.
    - exfalso. destruct R as [<-|R]; [exact (proj2 IH S eq_refl)|].
      assert (exists w, arc (m_graph m) w s) as (w & W) by (clear - R; induction R; eauto). exact (u_root w s S W).
  Qed.

  Lemma parts_independent p q X Y : In p parts -> In q parts ->
    (forall x, In x X -> p_node p x /\ ~ p_node q x) -> (forall y, In y Y -> p_node q y /\ ~ p_node p y) ->
    independent_in D F X Y on.
  Proof.
    intros Ip Iq HX HY. assert (Xo : forall x, In x X -> ~ In x on).
    { intros x I J. apply (proj2 (HX x I)). now apply (f_on vt on p0 ps H q x Iq). }
    assert (Yo : forall y, In y Y -> ~ In y on).
    { intros y I J. apply (proj2 (HY y I)). now apply (f_on vt on p0 ps H p y Ip). }
    assert (Dj : forall v, In v (X ++ Y) -> ~ In v on) by (intros v I; apply in_app_or in I as [I|I]; auto).
    apply (separated_independent m D F vt X Y on N Dj).
    destruct (d_separated_trails (m_graph m) X Y on) as (b & E & B); auto; [apply N|apply N| |].
    - intros v I. apply in_app_or in I as [I|I]; [now apply (u_node p), HX|]. apply in_app_or in I as [I|I]; [now apply (u_node q), HY|].
      apply (u_node p0); [now left|]. apply (f_on vt on p0 ps H p0 v (or_introl eq_refl) I).
    - rewrite E. destruct b; [reflexivity|]. exfalso. destruct (proj1 B eq_refl) as (x & y & Ix & Iy & (d & A)).
      apply (trail_stays p x d y Ip) in A; [|apply HX; auto|auto]. destruct (HY y Iy). tauto.
  Qed.

  (** ** Marginals *)
  Section Marginal.
    Variable p : part.
    Hypothesis Ip : In p parts.
    Notation G := (with_roots on p0 p).
    Notation g := (m_graph (p_model p)).

    Lemma G_F x : p_node p x -> F x = G x.
    Proof.
      intros I. unfold with_roots. destruct (mem x on) eqn:M; [apply mem_In in M; now apply (proj1 (proj2 (proj2 U)))|apply mem_nIn in M; now apply (proj2 (proj2 (proj2 U)))].
    Qed.
    Lemma p_arcs x y : p_node p y -> (arc (m_graph m) x y <-> p_arc p x y).
    Proof.
      intros J. split; [|intros A; apply u_arc; eauto]. intros A. assert (K : ~ In y on) by (intros K; exact (u_root x y K A)).
      apply u_arc in A as (q & Iq & A). rewrite (u_same p q y Ip Iq J); auto. now apply (f_arc vt on p0 ps H q) in A.
    Qed.
    (** the model [p] with these tables *)
    Definition pm : pgm := mkPgm g (map (fun x => (x, Some (FM (G x)))) (nodes g)) [] true KBn.
    Lemma pm_net : network pm (p_dom p) G vt.
    Proof.
      destruct (f_net vt on p0 ps H p Ip) as (W & A & Wd & K & _).
      split; [exact W|]. split; [exact A|]. split; [exact Wd|]. split; [exact K|]. cbn [m_graph pm m_factors].
      assert (Ek : keys (map (fun x => (x, Some (FM (G x)))) (nodes g)) = nodes g) by (unfold keys; rewrite map_map; apply map_id).
      rewrite Ek. split; [apply W|]. split; [intros x; tauto|]. intros x I. split.
      - unfold stored. cbn [m_factors pm]. apply In_dget; [now rewrite Ek; apply W|]. apply in_map_iff. eauto.
      - rewrite <- G_F by auto. assert (C := net_cpt m D F vt N x (proj2 (net_nodes m D F vt N x) (u_node p x Ip I))).
        destruct C as (c1 & c2 & c3 & c4 & c5 & c6). split; [auto|]. split; [auto|]. split; [auto|]. split; [|split; [|exact c6]].
        + intros y. rewrite (c4 y), !in_preds. now apply p_arcs.
        + intros w l J. assert (Wn : p_node p w).
          { assert (Jk : In w (keys (mf_domain (F x)))) by (apply keys_In; eauto).
            apply (fam_In m D F vt N) in Jk; [|apply (net_nodes m D F vt N); now apply (u_node p)].
            destruct Jk as [->|Jk]; [exact I|]. apply p_arcs in Jk; [|exact I]. now apply (f_arc vt on p0 ps H p) in Jk. }
          apply (f_keys vt on p0 ps H p w Ip) in Wn. apply keys_In in Wn as (l' & Wn). assert (Jd := c5 w l J).
          assert (Jd' : In (w, l') D) by (apply U; eauto).
          assert (ND : NoDup (keys D)) by apply (net_wd m D F vt N).
          apply (In_dget w) in Jd; [|auto]. apply (In_dget w) in Jd'; [|auto]. congruence.
    Qed.

    Lemma marginal o : Spec.known (p_dom p) o -> incl (keys o) (keys (p_dom p)) -> mass D F o = mass (p_dom p) G o.
    Proof.
      intros Ko Io. assert (WD := net_wd m D F vt N). assert (WP := net_wd _ _ _ _ pm_net).
      assert (Sub : forall x l, In (x, l) (p_dom p) -> In (x, l) D) by (intros x l I; apply U; eauto).
      assert (Pk : forall x, In x (keys (p_dom p)) -> In x (keys D)).
      { intros x I. apply keys_In in I as (l & I). apply keys_In. eauto. }
      assert (Ko' : Spec.known D o).
      { intros v l s I E. assert (Iv : In v (keys (p_dom p))) by (apply Io, dget_keys; eauto). apply keys_In in Iv as (l' & Iv).
        assert (I' := Sub v l' Iv). apply (In_dget v) in I; [|apply WD]. apply (In_dget v) in I'; [|apply WD].
        replace l with l' by congruence. eapply Ko; eauto. }
      destruct (some_valid D WD) as (a & Va). assert (Va' : valid (p_dom p) a) by (intros v l I; now apply Va, Sub).
      set (A := keys (p_dom p)). set (B := minus (keys D) A).
      assert (Pm : Permutation (keys D) ((A ++ []) ++ B)).
      { apply NoDup_Permutation; [apply WD| |].
        - rewrite app_nil_r. apply NoDup_app_iff. split; [apply WP|]. split; [apply NoDup_filter, WD|]. intros x I J. apply minus_In in J. tauto.
        - intros x. rewrite app_nil_r, in_app_iff. unfold B. rewrite minus_In. split; [|intros [I|I]; [auto|tauto]].
          intros I. destruct (in_dec eqd x A); auto. }
      assert (Nd : forall x, In x A -> p_node p x) by (intros x; apply (f_keys vt on p0 ps H p x Ip)).
      rewrite (mass_split m D F vt N A B [] o a Ko' Va Pm).
      2:{ intros n q I J. rewrite app_nil_r in I. intros K. unfold B in K. apply minus_In in K as [_ K]. apply K.
          apply (fam_In m D F vt N) in J; [|now apply Pk]. destruct J as [->|J]; [auto|]. apply p_arcs in J; [|auto].
          apply (f_keys vt on p0 ps H p q Ip). now apply (f_arc vt on p0 ps H p) in J. }
      2:{ intros v I J. unfold B in J. apply minus_In in J as [_ J]. apply J. now apply Io. }
      2:{ intros n q _ _ []. }
      2:{ intros n q []. }
      rewrite (mass_sm _ _ _ _ pm_net o a Ko Va').
      assert (E0 : sm D (minus [] (keys o)) (prods (P F) []) (over o a) = 1%Qc).
      { change (minus [] (keys o)) with (@nil var). rewrite sm_nil; [reflexivity|]. intros b c Q. reflexivity. }
      rewrite E0, Qcmult_1_r. fold A. unfold NetSem.sm.
      transitivity (sumdom 0%Qc Qcplus (pick (minus A (keys o)) (p_dom p)) (prods (P F) A) (over o a)).
      - apply (sumdom_perm 0%Qc Qcplus Qcplus_comm Qcplus_assoc Qcplus_0_l); [apply (prods_ext' m D F vt N); intros x I; now apply Pk| |].
        + apply wf_pick'. apply WD.
        + apply NoDup_Permutation.
          * apply NoDup_filter. exact (NoDup_map_inv fst D (proj1 WD)).
          * apply NoDup_filter. exact (NoDup_map_inv fst (p_dom p) (proj1 WP)).
          * intros [x l]. unfold pick. rewrite !filter_In. cbn [fst]. rewrite mem_In, minus_In. split; intros [I [J K]]; (split; [|auto]); [|auto].
            apply keys_In in J as (l' & J). assert (I' := Sub x l' J). apply (In_dget x) in I; [|apply WD]. apply (In_dget x) in I'; [|apply WD].
            replace l with l' by congruence. exact J.
      - assert (Ep : forall b, prods (P F) A b = prods (P G) A b).
        { intros b. unfold prods. f_equal. apply map_ext_in. intros x I. unfold P. now rewrite G_F by auto. }
        apply sumdom_ext. intros; apply Ep.
    Qed.
  End Marginal.
End Distributions.
