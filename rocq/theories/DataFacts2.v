(** What the samples are: their support, and which draws give which row. *)

From Coq Require Import String Bool Arith ZArith QArith Qcanon Lia List Permutation.
From Verif Require Import PyBase Num DomainModel NdArray StoreModel NumStore PyFacts Spec DomainFacts StoreSpec StoreFacts NumFacts
  FactorModel FactorSpec FactorFacts FactorFacts2 FactorFacts3 PropFacts1 GraphModel GraphSpec GraphFacts ModelModel ModelSpec NetSem NetSpec FactorSem InferModel NetFacts VeFacts4
  CausalSpec CausalFacts LearnModel DataModel DataSpec DataFacts.
Import ListNotations.
Local Open Scope nat_scope.
Local Arguments eqd : simpl never.

(** ** Parts of the interval *)

Section Parts.
  Variable g : state -> Qc.
  Lemma before_nonneg l s : (forall x, In x l -> (0 <= g x)%Qc) -> (0 <= total (map g (before s l)))%Qc.
  Proof.
    induction l as [|x k IH]; intros P; cbn [before]; [apply Qcle_refl|]. destruct (eqd x s) as [-> | Ne]; [apply Qcle_refl|].
    cbn [map total fold_right]. fold (total (map g (before s k))). assert (A := IH (fun y J => P y (or_intror J))). assert (B := P x (or_introl eq_refl)). qclra.
  Qed.
  Lemma parts_unique l s s' u : (forall x, In x l -> (0 <= g x)%Qc) -> In s l -> In s' l ->
    (total (map g (before s l)) <= u)%Qc -> (u < total (map g (before s l)) + g s)%Qc ->
    (total (map g (before s' l)) <= u)%Qc -> (u < total (map g (before s' l)) + g s')%Qc -> s = s'.
  Proof.
    revert u. induction l as [|x k IH]; intros u P J J' A B A' B'; [destruct J|]. cbn [before] in *.
    destruct (eqd x s) as [Ex | Ne]; destruct (eqd x s') as [Ex' | Ne']; [congruence| | |].
    - subst s. exfalso. cbn [map total fold_right] in *. fold (total (map g (before s' k))) in *.
      assert (Z := before_nonneg k s' (fun y Jy => P y (or_intror Jy))). qclra.
    - subst s'. exfalso. cbn [map total fold_right] in *. fold (total (map g (before s k))) in *.
      assert (Z := before_nonneg k s (fun y Jy => P y (or_intror Jy))). qclra.
    - cbn [map total fold_right] in *. fold (total (map g (before s k))) in *. fold (total (map g (before s' k))) in *.
      apply (IH (u - g x)%Qc); [intros y Jy; apply P; now right|destruct J; congruence|destruct J'; congruence| | | |]; qclra.
  Qed.
  Lemma before_le l s : (forall x, In x l -> (0 <= g x)%Qc) -> In s l -> (total (map g (before s l)) + g s <= total (map g l))%Qc.
  Proof.
    induction l as [|x k IH]; intros P J; [destruct J|]. cbn [before map total fold_right]. fold (total (map g k)).
    destruct (eqd x s) as [-> | Ne].
    - assert (0 <= total (map g k))%Qc. { clear - P. induction k as [|y k IH]; [apply Qcle_refl|]. cbn [map total fold_right]. fold (total (map g k)).
        assert (A := P y (or_intror (or_introl eq_refl))). assert (0 <= total (map g k))%Qc; [|qclra]. apply IH. intros z [<-|Jz]; apply P; [now left|right; now right]. }
      cbn [map total fold_right]. qclra.
    - cbn [map total fold_right]. fold (total (map g (before s k))). assert (total (map g (before s k)) + g s <= total (map g k))%Qc; [|qclra].
      apply IH; [intros y Jy; apply P; now right|destruct J; congruence].
  Qed.
End Parts.

Lemma product_pos l : (forall q, In q l -> (0 < q)%Qc) -> (0 < product_of l)%Qc.
Proof.
  induction l as [|x k IH]; intros P; [reflexivity|]. cbn [product_of fold_right]. fold (product_of k).
  assert (A := P x (or_introl eq_refl)). assert (B := IH (fun y J => P y (or_intror J))). 
  replace 0%Qc with (0 * product_of k)%Qc by ring. now apply Qcmult_lt_compat_r.
Qed.

Lemma same_row : forall (r : obs) order (r' : obs), NoDup order -> (forall w, In w order -> dget w r = dget w r') -> keys r = order -> keys r' = order -> r = r'.
Proof.
  induction r as [|[v s] r IH]; intros order r' ND Q Kr Kr'.
  - destruct r' as [|p r']; [reflexivity|]. cbn in Kr. rewrite <- Kr in Kr'. discriminate Kr'.
  - destruct r' as [|[v' s'] r']; [cbn in Kr'; rewrite <- Kr' in Kr; discriminate Kr|]. cbn [keys map fst] in Kr, Kr'. destruct order as [|w order]; [discriminate|].
    injection Kr as -> Kr. injection Kr' as -> Kr'. assert (E := Q w (or_introl eq_refl)). cbn [dget] in E. rewrite !eqd_refl in E. injection E as ->.
    f_equal. apply NoDup_cons_iff in ND as (Nw & ND). apply (IH order); auto. intros x Jx. assert (E := Q x (or_intror Jx)). cbn [dget] in E.
    rewrite !(eqd_neq x w) in E by (intros ->; contradiction). exact E.
Qed.

Section Support.
  Variables (m : pgm) (D : domain) (F : var -> mfactor) (vt : vtype).
  Hypothesis H : network m D F vt.
  Hypothesis NN : nonnegative D F.
  Variable order : list var.
  Hypothesis To : topological (m_graph m) order.

  Lemma order_keys v : In v order <-> In v (keys D).
  Proof. destruct To as (_ & E & _). rewrite (net_nodes _ _ _ _ H v). apply E. Qed.

  Lemma selected_full u r : selected D F u order r -> full D r.
  Proof.
    intros (K & S) v l J. assert (Kv : In v order) by (apply order_keys; apply keys_In; eauto). destruct (S v l Kv J) as (s & E & Js & _). eauto.
  Qed.
  Lemma selected_entry u r v : selected D F u order r -> In v (keys D) -> (0 < entry (F v) r)%Qc.
  Proof.
    intros S Kv. destruct S as (_ & S). assert (Jv := proj2 (order_keys v) Kv). apply keys_In in Kv as (l & Jl).
    destruct (S v l Jv Jl) as (s & _ & _ & A & B). qclra.
  Qed.
  Lemma selected_joint u r : selected D F u order r -> (0 < joint F (keys D) r)%Qc.
  Proof.
    intros S. unfold joint. apply product_pos. intros q J. apply in_map_iff in J as (v & <- & Kv). now apply (selected_entry u).
  Qed.

  Lemma fam_full v r : In v (keys D) -> full D r -> full (mf_domain (F v)) r.
  Proof. intros Kv Fu w l J. apply Fu. apply (net_cpt _ _ _ _ H v Kv). exact J. Qed.

  (** two rows selected by the same numbers are the same row *)
  Lemma selected_unique u r r' : selected D F u order r -> selected D F u order r' -> r = r'.
  Proof.
    intros S S'. assert (ND : NoDup order) by apply To. assert (Fr := selected_full _ _ S). assert (Fr' := selected_full _ _ S').
    assert (G : forall l2 l1, order = l1 ++ l2 -> (forall w, In w l1 -> dget w r = dget w r') -> forall w, In w order -> dget w r = dget w r').
    { induction l2 as [|v l2 IH]; intros l1 E A; [rewrite app_nil_r in E; subst l1; exact A|].
      apply (IH (l1 ++ [v])); [rewrite E, <- app_assoc; reflexivity|]. intros w Jw. apply in_app_or in Jw as [Jw|[<-|[]]]; [auto|].
      assert (Jv : In v order) by (rewrite E; apply in_or_app; right; now left). assert (Kv := proj1 (order_keys v) Jv).
      assert (Kv' := Kv). apply keys_In in Kv' as (l & Jl). 
      destruct (proj2 S v l Jv Jl) as (s & Es & Js & X & Y). destruct (proj2 S' v l Jv Jl) as (s' & Es' & Js' & X' & Y').
      assert (Pa : forall w, In w (preds (m_graph m) v) -> dget w r = dget w r').
      { intros w Jw. apply A. destruct To as (_ & _ & T). apply in_preds in Jw. eapply T; eauto. }
      assert (Eg : forall x, In x l -> entry (F v) ((v, x) :: r) = entry (F v) ((v, x) :: r')).
      { intros x Jx. apply (entry_agree m D F vt H v); [exact Kv| |].
        - intros w k J. cbn [dget]. destruct (eqd w v) as [-> | Nw].
          + exists x. split; [reflexivity|]. assert (k = l) as ->; [|exact Jx]. eapply (dom_unique D); eauto; [apply (net_wd _ _ _ _ H)|].
            apply (net_cpt _ _ _ _ H v Kv). exact J.
          + apply (fam_full v r' Kv Fr'). exact J.
        - intros w Jw. cbn [dget]. destruct (eqd w v) as [-> | Nw]; [reflexivity|]. apply Pa.
          apply (cpt_vars D vt v _ (F v) w (net_cpt _ _ _ _ H v Kv)) in Jw as [->|Jw]; [congruence|exact Jw]. }
      assert (Self : forall o x, full D o -> dget v o = Some x -> entry (F v) o = entry (F v) ((v, x) :: o)).
      { intros o x Fo Ex. symmetry. apply (entry_agree m D F vt H v); [exact Kv|now apply fam_full|]. intros w _. cbn [dget]. destruct (eqd w v) as [-> | Nw]; auto. }
      rewrite Es, Es'. f_equal. apply (parts_unique (fun x => entry (F v) ((v, x) :: r)) l s s' (u v)); auto.
      - intros x Jx. apply NN; [exact Kv|]. intros w k J. cbn [dget]. destruct (eqd w v) as [-> | Nw].
          + exists x. split; [reflexivity|]. assert (k = l) as ->; [|exact Jx]. eapply (dom_unique D); eauto; [apply (net_wd _ _ _ _ H)|].
            apply (net_cpt _ _ _ _ H v Kv). exact J.
          + apply (fam_full v r Kv Fr). exact J.
      - rewrite (Self r s Fr Es) in Y. exact Y.
      - replace (total _) with (below (F v) v l s' r'); [exact X'|]. unfold below. f_equal. apply map_ext_in. intros x Jx. symmetry. apply Eg. now apply before_In in Jx.
      - replace (total _) with (below (F v) v l s' r').
        + rewrite (Self r' s' Fr' Es') in Y'. rewrite (Eg s' Js'). exact Y'.
        + unfold below. f_equal. apply map_ext_in. intros x Jx. symmetry. apply Eg. now apply before_In in Jx. }
    assert (Q := G order [] eq_refl (fun w (J : In w []) => match J with end)).
    exact (same_row r order r' ND Q (proj1 S) (proj1 S')).
  Qed.

  Lemma column_one v l o : In (v, l) D -> full D o -> total (map (fun x => entry (F v) ((v, x) :: o)) l) = 1%Qc.
  Proof.
    intros Jv Fo. assert (Kv : In v (keys D)) by (apply keys_In; eauto). assert (WD := net_wd _ _ _ _ H).
    assert (Vs : forall w, In w (mf_vars (F v)) <-> w = v \/ In w (preds (m_graph m) v)) by (intros w; eapply cpt_vars; eauto; apply (net_cpt _ _ _ _ H v Kv)).
    destruct (net_cpt _ _ _ _ H v Kv) as (W & Tv & Lv & Rv & Dv & Fi & No).
    assert (Jf : In (v, l) (mf_domain (F v))).
    { assert (J : In v (mf_vars (F v))) by (apply Vs; auto). apply keys_In in J as (k & J). assert (J' := Dv _ _ J).
      assert (k = l) as <- by (eapply (dom_unique D); eauto; apply WD). exact J. }
    assert (Nf : NoDup (keys (mf_domain (F v)))) by apply W.
    assert (Dr : drop (mf_right (F v)) (mf_domain (F v)) = [(v, l)]).
    { assert (Pt := wf_mf_partitioned _ W). destruct Pt as (_ & _ & _ & Pt & Dj).
      apply filter_single; auto; cbn [fst].
      - apply negb_true_iff. apply mem_nIn. intros J. apply (Dj v). split; [apply Lv; now left|exact J].
      - intros w k J N. apply negb_false_iff. apply mem_In. destruct (proj1 (Pt w)) as [J'|J']; [apply keys_In; eauto| |exact J'].
        apply Lv in J'. destruct J' as [<-|[]]. congruence. }
    assert (Va : forall s, In s l -> mf_get_value (F v) ((v, s) :: o) = Ok (Fin (entry (F v) ((v, s) :: o)))).
    { intros s Js. destruct (Fi ((v, s) :: o)) as (q & E).
      - intros w k J. cbn [dget]. destruct (eqd w v) as [-> | N].
        + assert (k = l) as -> by (eapply (dom_unique (mf_domain (F v))); eauto). eauto.
        + apply Fo, Dv, J.
      - unfold entry. now rewrite E. }
    destruct (No o) as (xs & Fx & Sx).
    { intros w k J. unfold pick in J. apply filter_In in J as [J M]. apply Fo, Dv, J. }
    rewrite Dr, all_one in Fx.
    assert (Ex : xs = map Fin (map (fun s => entry (F v) ((v, s) :: o)) l)).
    { clear - Fx Va. revert xs Fx Va. induction l as [|s k IH]; intros xs Fx Va; inversion Fx; subst; [reflexivity|]. cbn [map].
      f_equal; [|apply IH; [assumption|intros; apply Va; now right]]. cbn [app] in H1. rewrite (Va s (or_introl eq_refl)) in H1. congruence. }
    rewrite Ex, nsum_Fin in Sx. rewrite total_qsum. unfold n1 in Sx. now injection Sx as ->.
  Qed.

  (** every row of positive probability is selected by some numbers *)
  Lemma reachable o : keys o = order -> full D o -> (forall v, In v (keys D) -> (0 < entry (F v) o)%Qc) ->
    exists u, (forall v, (0 <= u v)%Qc /\ (u v < 1)%Qc) /\ selected D F u order o.
  Proof.
    intros K Fo P. set (u := fun v => match dget v D, dget v o with Some l, Some s => below (F v) v l s o | _, _ => 0%Qc end).
    assert (U : forall v l, In (v, l) D -> exists s, dget v o = Some s /\ In s l /\ u v = below (F v) v l s o).
    { intros v l J. destruct (Fo v l J) as (s & E & Js). exists s. split; [exact E|]. split; [exact Js|]. unfold u. rewrite (In_dget _ _ _ (proj1 (net_wd _ _ _ _ H)) J), E. reflexivity. }
    exists u. split.
    - intros v. destruct (in_dec eqd v (keys D)) as [Kv | Nv].
      + assert (Kv' := Kv). apply keys_In in Kv' as (l & Jl). destruct (U v l Jl) as (s & Es & Js & ->).
        assert (Pf : forall x, In x l -> full (mf_domain (F v)) ((v, x) :: o)).
        { intros x Jx w k J. cbn [dget]. destruct (eqd w v) as [-> | Nw].
          + exists x. split; [reflexivity|]. assert (k = l) as ->; [|exact Jx]. eapply (dom_unique D); eauto; [apply (net_wd _ _ _ _ H)|].
            apply (net_cpt _ _ _ _ H v Kv). exact J.
          + apply (fam_full v o Kv Fo). exact J. }
        assert (Nn : forall x, In x l -> (0 <= entry (F v) ((v, x) :: o))%Qc) by (intros x Jx; apply NN; auto).
        split; [apply (before_nonneg (fun x => entry (F v) ((v, x) :: o))); exact Nn|].
        assert (L := before_le (fun x => entry (F v) ((v, x) :: o)) l s Nn Js).
        assert (T : total (map (fun x => entry (F v) ((v, x) :: o)) l) = 1%Qc).
        { exact (column_one v l o Jl Fo). }
        assert (E : entry (F v) ((v, s) :: o) = entry (F v) o).
        { apply (entry_agree m D F vt H v); [exact Kv|now apply fam_full|]. intros w _. cbn [dget]. destruct (eqd w v) as [-> | Nw]; auto. }
        assert (Q := P v Kv). rewrite <- E in Q. unfold below. rewrite T in L. qclra.
      + unfold u. rewrite (proj2 (dget_None v D) Nv). split; [apply Qcle_refl|reflexivity].
    - split; [exact K|]. intros v l _ J. destruct (U v l J) as (s & Es & Js & ->). exists s. split; [exact Es|]. split; [exact Js|]. split; [apply Qcle_refl|].
      assert (Kv : In v (keys D)) by (apply keys_In; eauto). assert (Q := P v Kv). qclra.
  Qed.
End Support.

Lemma product_pos_inv l : (forall q, In q l -> (0 <= q)%Qc) -> (0 < product_of l)%Qc -> forall q, In q l -> (0 < q)%Qc.
Proof.
  induction l as [|x k IH]; intros Nn P q J; [destruct J|]. cbn [product_of fold_right] in P. fold (product_of k) in P.
  assert (Zx := Nn x (or_introl eq_refl)).
  assert (Zk : (0 <= product_of k)%Qc). { clear - Nn. induction k as [|y k IH]; [discriminate|]. cbn [product_of fold_right]. fold (product_of k).
    assert (A := Nn y (or_intror (or_introl eq_refl))). assert (B : (0 <= product_of k)%Qc). { apply IH. intros z [<-|Jz]; apply Nn; [now left|right; now right]. }
    replace 0%Qc with (0 * product_of k)%Qc by ring. now apply Qcmult_le_compat_r. }
  assert (Px : (0 < x)%Qc). { destruct (Qcle_lt_or_eq _ _ Zx) as [L|E]; [exact L|]. exfalso. rewrite <- E in P. replace (0 * product_of k)%Qc with 0%Qc in P by ring. now apply (Qclt_not_eq _ _ P). }
  assert (Pk : (0 < product_of k)%Qc). { destruct (Qcle_lt_or_eq _ _ Zk) as [L|E]; [exact L|]. exfalso. rewrite <- E in P. replace (x * 0)%Qc with 0%Qc in P by ring. now apply (Qclt_not_eq _ _ P). }
  destruct J as [<-|J]; [exact Px|]. apply IH; auto. intros y Jy. apply Nn. now right.
Qed.

Section Sample.
  Variables (m : pgm) (D : domain) (F : var -> mfactor) (vt : vtype).
  Hypothesis H : network m D F vt.
  Hypothesis NN : nonnegative D F.
  Variable order : list var.
  Hypothesis To : topological (m_graph m) order.
  Hypothesis Ne : nodes (m_graph m) <> [].
  Variable n : Z.
  Hypothesis Hn : (1 <= n)%Z.

  Lemma order_ne : order <> [].
  Proof.
    intros ->. destruct (nodes (m_graph m)) as [|v vs] eqn:E; [congruence|]. destruct To as (_ & X & _). apply (X v). rewrite E. now left.
  Qed.

  Lemma sample_rows u : uniform u -> exists rows, forward_sampling order m n u = Ok rows /\ length rows = Z.to_nat n /\
    (forall i r, nth_error rows i = Some r -> keys r = order /\ full D r /\ (0 < joint F (keys D) r)%Qc) /\
    (forall i r, i < Z.to_nat n -> (nth_error rows i = Some r <-> selected D F (fun v => u v i) order r)).
  Proof.
    intros Hu. destruct (forward_ok m D F vt H NN u Hu n Hn order To order_ne) as (rows & E & L & S). exists rows. split; [exact E|]. split; [exact L|].
    split.
    - intros i r Er. specialize (S i r Er). split; [apply S|]. split; [eapply selected_full; eauto|eapply selected_joint; eauto].
    - intros i r Li. split; [apply S|]. intros Sr. destruct (nth_error rows i) as [r'|] eqn:Er; [|apply nth_error_None in Er; lia].
      f_equal. eapply selected_unique; eauto.
  Qed.

  Lemma joint_entries o : full D o -> (0 < joint F (keys D) o)%Qc -> forall v, In v (keys D) -> (0 < entry (F v) o)%Qc.
  Proof.
    intros Fo P v Kv. apply (product_pos_inv (map (fun v => entry (F v) o) (keys D))); [|exact P|now apply (in_map (fun v => entry (F v) o))].
    intros q J. apply in_map_iff in J as (w & <- & Kw). apply NN; [exact Kw|]. eapply fam_full; eauto.
  Qed.

  Lemma sample_reaches o : keys o = order -> full D o -> (0 < joint F (keys D) o)%Qc ->
    exists u, uniform u /\ forward_sampling order m n u = Ok (repeat o (Z.to_nat n)).
  Proof.
    intros K Fo P. destruct (reachable m D F vt H NN order o K Fo (joint_entries o Fo P)) as (u & U & S).
    exists (fun v _ => u v). assert (Un : uniform (fun v _ => u v)) by (intros v _; apply U). split; [exact Un|].
    destruct (sample_rows _ Un) as (rows & E & L & _ & X). rewrite E. apply (f_equal Ok).
    assert (Q : forall r, In r rows -> r = o). { intros r J. apply In_nth_error in J as (i & Ei).
      assert (Li : i < Z.to_nat n) by (rewrite <- L; exact (at_lt _ _ _ Ei)). assert (E2 := proj2 (X i o Li) S). congruence. }
    rewrite <- L. clear - Q. induction rows as [|r rows IH]; [reflexivity|]. cbn [length repeat]. rewrite (Q r (or_introl eq_refl)). f_equal. apply IH. intros; apply Q; now right.
  Qed.
End Sample.

Lemma size_raises m D F vt order n u : network m D F vt -> topological (m_graph m) order -> nodes (m_graph m) <> [] -> (n < 1)%Z ->
  forward_sampling order m n u = Raise ValueError.
Proof.
  intros H To Ne Hn. destruct order as [|v order]; [exfalso; now apply (order_ne m [] To Ne)|].
  assert (Jv : In v (nodes (m_graph m))) by (apply To; now left).
  unfold forward_sampling. cbn [foldM]. unfold forward_step at 1. assert (St := proj1 (proj2 (proj2 (proj2 (proj2 (proj2 (proj2 H))))) v Jv)). unfold stored in St. rewrite St.
  cbn [bind]. destruct (preds (m_graph m) v) as [|p ps] eqn:Ep.
  - unfold fo_sample, mf_sample. assert (E : (n <? 1)%Z = true) by (now apply Z.ltb_lt). now rewrite E.
  - exfalso. assert (J : In p (preds (m_graph m) v)) by (rewrite Ep; now left). apply in_preds in J. destruct To as (_ & _ & T). apply (T p v [] order eq_refl J).
Qed.

(** ** Causal models *)

Lemma equations m D F vt endo cast order n u rows : causal m D F vt endo cast -> (forall v f, stored m v f -> exists g, f = FM g) -> nonnegative D F ->
  topological (m_graph m) order -> nodes (m_graph m) <> [] -> (1 <= n)%Z -> uniform u -> forward_sampling order m n u = Ok rows ->
  forall r v, In r rows -> In v endo -> In v (nodes (m_graph m)) -> entry (F v) r = 1%Qc.
Proof.
  intros C Pl NN To Ne Hn Hu E r v Jr Jv Kn.
  assert (Net : network m D F vt).
  { eapply causal_network; [exact C|]. intros w Jw. destruct C as (_ & _ & _ & _ & _ & _ & _ & Hv & _). destruct (Hv w Jw) as (f & Sf & Tf & _).
    destruct (Pl w f Sf) as (g & ->). cbn in Tf. now subst g. }
  destruct (sample_rows m D F vt Net NN order To Ne n Hn u Hu) as (rows' & E' & _ & X & _). rewrite E in E'. injection E' as <-.
  apply In_nth_error in Jr as (i & Ei). destruct (X i r Ei) as (_ & Fr & P).
  assert (Kv : In v (keys D)) by (now apply (net_nodes _ _ _ _ Net)).
  assert (Pe := joint_entries m D F vt Net NN r Fr P v Kv).
  destruct C as (_ & _ & _ & _ & _ & _ & _ & Hv & _). destruct (Hv v Kn) as (f & _ & _ & _ & Zo). destruct (Zo Jv) as (Z & _).
  destruct (Z r (fam_full m D F vt Net v r Kv Fr)) as [Q|Q]; unfold entry in *; rewrite Q in *; cbn in *; [|reflexivity].
  exfalso. now apply (Qclt_not_eq _ _ Pe).
Qed.

Lemma endogenous m D F vt endo cast order n u : causal m D F vt endo cast -> (forall v f, stored m v f -> exists g, f = FM g) -> nonnegative D F ->
  topological (m_graph m) order -> nodes (m_graph m) <> [] -> incl endo (nodes (m_graph m)) -> (1 <= n)%Z -> uniform u ->
  exists rows full_rows, forward_sampling order m n u = Ok full_rows /\ sample_endogenous order m n u true = Ok rows /\
    Forall2 (fun r o => keys r = endo /\ forall v, In v endo -> dget v r = dget v o) rows full_rows.
Proof.
  intros C Pl NN To Ne Ie Hn Hu. assert (Net : network m D F vt).
  { eapply causal_network; [exact C|]. intros w Jw. destruct C as (_ & _ & _ & _ & _ & _ & _ & Hv & _). destruct (Hv w Jw) as (f & Sf & Tf & _).
    destruct (Pl w f Sf) as (g & ->). cbn in Tf. now subst g. }
  destruct (sample_rows m D F vt Net NN order To Ne n Hn u Hu) as (rows & E & _ & X & _).
  unfold sample_endogenous. rewrite (proj1 C), E. cbn [bind].
  destruct (mapM_all (fun r => mapM (fun v => let* s := dlook v r in Ok (v, s)) endo) (fun o r => keys r = endo /\ forall v, In v endo -> dget v r = dget v o) rows) as (out & Eo & Fo).
  { intros r Jr. apply In_nth_error in Jr as (i & Ei). destruct (X i r Ei) as (Kr & _). 
    assert (Q : forall v, In v endo -> exists s, dget v r = Some s). { intros v Jv. apply dget_keys. rewrite Kr. apply To. now apply Ie. }
    clear - Q. induction endo as [|v vs IH]; [exists []; split; [reflexivity|split; [reflexivity|intros v []]]|].
    destruct IH as (y & Ey & Ky & Gy); [intros; apply Q; now right|]. destruct (Q v (or_introl eq_refl)) as (s & Es).
    exists ((v, s) :: y). cbn [mapM]. unfold dlook at 1. rewrite Es. cbn [bind]. rewrite Ey. split; [reflexivity|]. split; [cbn [keys map fst]; f_equal; exact Ky|].
    intros w Jw. cbn [dget]. destruct (eqd w v) as [-> | N]; [now rewrite Es|]. apply Gy. destruct Jw; congruence. }
  exists out, rows. split; [reflexivity|]. split; [exact Eo|]. clear - Fo. induction Fo; constructor; auto.
Qed.

(** the model with the tables instead of the functions *)
Definition tabulated (m : pgm) (F : var -> mfactor) : pgm :=
  mkPgm (m_graph m) (map (fun v => (v, Some (FM (F v)))) (keys (m_factors m))) (m_domains m) (m_check m) (m_kind m).

Lemma dget_table (F : var -> mfactor) vs v : In v vs -> dget v (map (fun v => (v, Some (FM (F v)))) vs) = Some (Some (FM (F v))).
Proof.
  induction vs as [|w vs IH]; intros J; [destruct J|]. cbn [map dget]. destruct (eqd v w) as [-> | N]; [reflexivity|]. apply IH. destruct J; congruence.
Qed.

Lemma tabulated_network m D F vt endo cast : causal m D F vt endo cast -> network (tabulated m F) D F vt.
Proof.
  intros (_ & Wg & Ac & WD & SD & NF & SF & Hv & _). unfold network. cbn [tabulated m_graph m_factors].
  assert (K : keys (map (fun v => (v, Some (FM (F v)))) (keys (m_factors m))) = keys (m_factors m)) by (unfold keys; rewrite map_map; apply map_id).
  rewrite K. do 6 (split; [assumption|]). intros v Jv. split.
  - unfold stored. cbn [tabulated m_factors]. apply dget_table. now apply SF.
  - destruct (Hv v Jv) as (f & _ & _ & Cp & _). exact Cp.
Qed.

Lemma deterministic_raises m D F vt endo cast order n u v d : causal m D F vt endo cast -> nonnegative D F ->
  topological (m_graph m) order -> (1 <= n)%Z -> uniform u -> In v (nodes (m_graph m)) -> stored m v (FD d) ->
  forward_sampling order m n u = Raise TypeError.
Proof.
  intros C NN To Hn Hu Jv Sv. assert (Net := tabulated_network _ _ _ _ _ _ C).
  assert (Ne : nodes (m_graph m) <> []) by (intros E; rewrite E in Jv; destruct Jv).
  destruct (sample_rows (tabulated m F) D F vt Net NN order To Ne n Hn u Hu) as (rows & E & _).
  assert (Jo : In v order) by (now apply To).
  assert (Hv : forall w, In w order -> stored m w (FM (F w)) \/ exists d, stored m w (FD d)).
  { intros w Jw. apply To in Jw. destruct C as (_ & _ & _ & _ & _ & _ & _ & Hv & _). destruct (Hv w Jw) as (f & Sf & Tf & _).
    destruct f as [g|g|]; cbn in Tf; [left; now subst g|right; eauto|destruct Tf]. }
  assert (Kf : forall w, In w order -> In w (keys (m_factors m))).
  { intros w Jw. apply To in Jw. destruct C as (_ & _ & _ & _ & _ & _ & SF & _). now apply SF. }
  unfold forward_sampling in *. generalize dependent (@nil obs). clear - Jo Hv Kf Sv.
  induction order as [|w order IH]; [destruct Jo|]. intros data E. cbn [foldM] in *.
  destruct (Hv w (or_introl eq_refl)) as [Sw|(d' & Sw)].
  - assert (Es : forward_step m n u data w = forward_step (tabulated m F) n u data w).
    { unfold forward_step. unfold stored in Sw. rewrite Sw. cbn [tabulated m_factors m_graph]. rewrite (dget_table F _ w) by (apply Kf; now left). reflexivity. }
    rewrite Es. destruct (forward_step (tabulated m F) n u data w) as [data'|er]; [|discriminate E]. cbn [bind] in *.
    apply IH; auto; [|intros; apply Hv; now right|intros; apply Kf; now right].
    destruct Jo as [->|J]; [|exact J]. exfalso. unfold stored in *. congruence.
  - unfold forward_step. unfold stored in Sw. rewrite Sw. cbn [bind]. destruct (preds (m_graph m) w); reflexivity.
Qed.
