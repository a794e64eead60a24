(** The identities and bounds of Tian and Pearl, assembled. *)

From Coq Require Import String Bool Arith Lia ZArith QArith Qcanon Permutation List.
From Verif Require Import PyBase Num NumFacts DomainModel NdArray StoreModel NumStore FactorModel GraphModel ModelModel InferModel CausalModel
  PyFacts Spec StoreSpec StoreFacts FactorSpec FactorFacts FactorFacts2 GraphSpec GraphFacts ModelSpec ModelFacts NetSpec NetFacts NetSem FactorSem
  BigSum BuildFacts BuildFacts2 VeFacts4 CausalSpec CausalFacts CausalFacts2 CfFacts CfFacts2 CfFacts3 PropFacts1 PropFacts4 PropFacts5 EmMath BTreeFacts4 LawSpec LawFacts LawFacts2.
Import ListNotations.
Local Open Scope nat_scope.
Local Arguments eqd : simpl never.

Lemma div_le a b p : (0 < p)%Qc -> (a <= b)%Qc -> (a / p <= b / p)%Qc.
Proof. intros P L. unfold Qcdiv. apply Qcmult_le_compat_r; [auto|]. now apply Qclt_le_weak, Qcinv_pos. Qed.

Section Bounds3.
  Variables (m : pgm) (D : domain) (F : var -> mfactor) (vt : vtype) (endo : list var) (cast : bool).
  Hypothesis H : causal m D F vt endo cast.
  Hypothesis PR : plain_roots m.
  Notation g := (m_graph m).
  Variable X : list var.
  Hypothesis HX : roots g X.
  Variables (heur : digraph -> list var -> dict var nat -> res (list var)) (so : list (list var) -> list var).
  Hypothesis Hh : is_heuristic heur.
  Hypothesis Hs : is_set_order so.
  Notation U := (all_assignments (pick X D)).
  Notation wt := (joint F (keys (pick X D))).
  Notation hap := (happens D F X).
  Notation cf := (cf_mass D F X).
  Notation Sm := (S_of U wt).

  Variables (cause effect : var) (tfc tfe : option (state * state)) (tc fc te fe : state).
  Hypothesis Hc : truth_states D cause tfc tc fc.
  Hypothesis He : truth_states D effect tfe te fe.
  Hypothesis Ne : cause <> effect.
  Hypothesis Nc : ~ In cause X.
  Hypothesis Nf : ~ In effect X.
  Hypothesis Ch : exists w, arc g cause w.
  Hypothesis Fr : fresh_names g X [[(cause, fc)]; [(cause, tc)]].

  Notation b1 := (fun u => hap u [(cause, tc)] [(effect, te)]).
  Notation b0 := (fun u => hap u [(cause, fc)] [(effect, te)]).
  Notation b0' := (fun u => hap u [(cause, fc)] [(effect, fe)]).
  Notation pnsb := (fun u => hap u [(cause, fc)] [(effect, fe)] && hap u [(cause, tc)] [(effect, te)]).
  Notation see x y := (fun u => hap u [] [(cause, x); (effect, y)]).

  Lemma S_true : Sm (fun _ => true) = 1%Qc.
  Proof. rewrite <- (all_units m D F vt endo cast H PR X HX). rewrite cf_sum. reflexivity. Qed.
  Lemma nn u : nonnegative D F -> In u U -> (0 <= wt u)%Qc.
  Proof. intros N I. now apply (wt_nonneg m D F vt endo cast H). Qed.
  Lemma mass_S x y : mass D F [(cause, x); (effect, y)] = Sm (see x y).
  Proof.
    rewrite (mass_law m D F vt endo cast H PR X HX), cf_sum. unfold S_of. f_equal. apply map_ext_in. intros u _. cbn [forallb fst snd]. now rewrite andb_true_r.
  Qed.
  Lemma S_nn p : nonnegative D F -> (0 <= Sm p)%Qc.
  Proof.
    intros N. assert (A : (0 <= comb U wt [(1%Qc, p)])%Qc).
    { apply comb_nonneg; [intros u I; now apply nn|]. intros u _. cbn [pointw]. destruct (p u); discriminate. }
    cbn [comb] in A. replace (Sm p) with (1 * Sm p + 0)%Qc by ring. exact A.
  Qed.

  Lemma frechet : nonnegative D F -> exists m1 pns y1 y0, cve_init m = Ok m1 /\
    prob_necessity_sufficiency heur so m1 cause effect tfc tfe = Ok (Fin pns) /\
    answer (causal_query heur so m1 [effect] (DoDict [(cause, tc)]) []) [(effect, te)] y1 /\
    answer (causal_query heur so m1 [effect] (DoDict [(cause, fc)]) []) [(effect, fe)] y0 /\
    (0 <= pns)%Qc /\ (pns <= y1)%Qc /\ (pns <= y0)%Qc /\ (y1 + y0 - 1 <= pns)%Qc.
  Proof.
    intros N. destruct (pns_S m D F vt endo cast H PR X HX heur so Hh Hs cause effect tfc tfe tc fc te fe Hc He Ne Nc Nf Ch Fr) as (m1 & E & V).
    exists m1, (Sm pnsb), (Sm b1), (Sm b0'). do 2 (split; [auto|]).
    split; [eapply ask_do; eauto|]. split; [eapply ask_do; eauto|]. split; [now apply S_nn|].
    assert (A1 : (0 <= comb U wt [(1, b1); (-(1), pnsb)]%Qc)%Qc).
    { apply comb_nonneg; [intros u I; now apply nn|]. intros u _. cbn [pointw]. destruct (hap u [(cause, tc)] [(effect, te)]), (hap u [(cause, fc)] [(effect, fe)]); discriminate. }
    assert (A2 : (0 <= comb U wt [(1, b0'); (-(1), pnsb)]%Qc)%Qc).
    { apply comb_nonneg; [intros u I; now apply nn|]. intros u _. cbn [pointw]. destruct (hap u [(cause, tc)] [(effect, te)]), (hap u [(cause, fc)] [(effect, fe)]); discriminate. }
    assert (A3 : (0 <= comb U wt [(1, pnsb); (-(1), b1); (-(1), b0'); (1, fun _ => true)]%Qc)%Qc).
    { apply comb_nonneg; [intros u I; now apply nn|]. intros u _. cbn [pointw]. destruct (hap u [(cause, tc)] [(effect, te)]), (hap u [(cause, fc)] [(effect, fe)]); discriminate. }
    cbn [comb] in A1, A2, A3. rewrite S_true in A3. split; [qclra|]. split; qclra.
  Qed.

  Lemma pn_parts : tc <> fc -> forall u, In u U ->
    (hap u [] [(cause, tc)] = true -> hap u [] [(cause, fc)] = false) /\ (hap u [] [(cause, fc)] = true -> hap u [] [(cause, tc)] = false).
  Proof.
    intros N u I. destruct Hc as (l & Il & _). split; intros E; (eapply (excludes m D F vt endo cast H PR X HX); [apply known_nil|constructor|exact Il| |exact I|exact E]; auto).
  Qed.

  Lemma identity : mass D F [(cause, tc); (effect, te)] <> 0%Qc -> mass D F [(cause, fc); (effect, fe)] <> 0%Qc ->
    exists m1 pns pn ps p11 p00, cve_init m = Ok m1 /\
    prob_necessity_sufficiency heur so m1 cause effect tfc tfe = Ok (Fin pns) /\
    prob_necessity heur so m1 cause effect tfc tfe = Ok (Fin pn) /\ prob_sufficiency heur so m1 cause effect tfc tfe = Ok (Fin ps) /\
    answer (causal_query heur so m1 [cause; effect] (DoDict []) []) [(cause, tc); (effect, te)] p11 /\
    answer (causal_query heur so m1 [cause; effect] (DoDict []) []) [(cause, fc); (effect, fe)] p00 /\
    (two_states D cause tc fc -> pns = p11 * pn + p00 * ps)%Qc /\
    (tc <> fc -> nonnegative D F -> p11 * pn + p00 * ps <= pns)%Qc.
  Proof.
    rewrite !mass_S. intros P1 P0.
    destruct (pns_S m D F vt endo cast H PR X HX heur so Hh Hs cause effect tfc tfe tc fc te fe Hc He Ne Nc Nf Ch Fr) as (m1 & E & V).
    exists m1, (Sm pnsb). eexists _, _, (Sm (see tc te)), (Sm (see fc fe)). do 2 (split; [auto|]).
    split; [eapply pn_S; eauto|]. split; [eapply ps_S; eauto|].
    assert (Ic : In cause (nodes g)) by (eapply (node_of m D F vt endo cast); eauto).
    assert (Ie : In effect (nodes g)) by (eapply (node_of m D F vt endo cast); eauto).
    assert (NT : NoDup [cause; effect]) by (repeat constructor; cbn; intros I; repeat destruct I as [I|I]; auto).
    assert (IT : incl [cause; effect] (nodes g)) by (intros v [<-|[<-|[]]]; auto).
    split; [eapply ask_see; eauto; [discriminate|]; eapply assigns_both; eauto|].
    split; [eapply ask_see; eauto; [discriminate|]; eapply assigns_both; eauto|].
    set (n1 := fun u => hap u [] [(cause, tc); (effect, te)] && hap u [(cause, fc)] [(effect, fe)]).
    set (n0 := fun u => hap u [] [(cause, fc); (effect, fe)] && hap u [(cause, tc)] [(effect, te)]).
    replace (Sm (see tc te) * (Sm n1 / Sm (see tc te)) + Sm (see fc fe) * (Sm n0 / Sm (see fc fe)))%Qc with (Sm n1 + Sm n0)%Qc by (field; auto).
    assert (C1 : forall u, In u U -> hap u [] [(cause, tc)] = true -> hap u [(cause, tc)] [(effect, te)] = hap u [] [(effect, te)]).
    { intros u I. eapply (consist m D F vt endo cast); eauto. }
    assert (C0 : forall u, In u U -> hap u [] [(cause, fc)] = true -> hap u [(cause, fc)] [(effect, fe)] = hap u [] [(effect, fe)]).
    { intros u I. eapply (consist m D F vt endo cast); eauto. }
    split.
    - intros T. assert (A : comb U wt [(1, pnsb); (-(1), n1); (-(1), n0)]%Qc = 0%Qc).
      { apply comb_zero. intros u I. cbn [pointw]. unfold n1, n0. rewrite !(pair_see m D F vt endo cast H PR X HX cause effect Ne u) by auto.
        assert (Fl := flips m D F vt endo cast H PR X HX [] cause tc fc u (known_nil D) ltac:(constructor) T I). specialize (C1 u I). specialize (C0 u I).
        destruct (hap u [] [(cause, tc)]); rewrite Fl in *; cbn [negb] in *.
        + rewrite <- C1 by auto. destruct (hap u [(cause, tc)] [(effect, te)]), (hap u [(cause, fc)] [(effect, fe)]); vm_compute; apply Qc_is_canon; reflexivity.
        + rewrite <- C0 by auto. destruct (hap u [(cause, tc)] [(effect, te)]), (hap u [(cause, fc)] [(effect, fe)]); vm_compute; apply Qc_is_canon; reflexivity. }
      cbn [comb] in A. replace (Sm pnsb) with (1 * Sm pnsb + (- (1) * Sm n1 + (- (1) * Sm n0 + 0)) + (Sm n1 + Sm n0))%Qc by ring. rewrite A. ring.
    - intros T N. assert (A : (0 <= comb U wt [(1, pnsb); (-(1), n1); (-(1), n0)]%Qc)%Qc).
      { apply comb_nonneg; [intros u I; now apply nn|]. intros u I. cbn [pointw]. unfold n1, n0. rewrite !(pair_see m D F vt endo cast H PR X HX cause effect Ne u) by auto.
        destruct (pn_parts T u I) as [Q1 Q0]. specialize (C1 u I). specialize (C0 u I).
        destruct (hap u [] [(cause, tc)]), (hap u [] [(cause, fc)]); try (specialize (Q1 eq_refl); discriminate Q1).
        + rewrite <- C1 by auto. destruct (hap u [(cause, tc)] [(effect, te)]), (hap u [(cause, fc)] [(effect, fe)]); discriminate.
        + rewrite <- C0 by auto. destruct (hap u [(cause, tc)] [(effect, te)]), (hap u [(cause, fc)] [(effect, fe)]); discriminate.
        + destruct (hap u [(cause, tc)] [(effect, te)]), (hap u [(cause, fc)] [(effect, fe)]); discriminate. }
      cbn [comb] in A. qclra.
  Qed.

  Hypothesis Bc : two_states D cause tc fc.
  Hypothesis Be : two_states D effect te fe.

  (** the eight joint cases of a unit: what is seen, and what the two interventions do *)
  Lemma unit_cases u : In u U ->
    let a := hap u [] [(cause, tc)] in let y1 := hap u [(cause, tc)] [(effect, te)] in let y0 := hap u [(cause, fc)] [(effect, te)] in
    hap u [(cause, fc)] [(effect, fe)] = negb y0 /\ hap u [(cause, tc)] [(effect, fe)] = negb y1 /\ hap u [] [(effect, te)] = (if a then y1 else y0) /\
    hap u [] [(cause, tc); (effect, te)] = a && y1 /\ hap u [] [(cause, tc); (effect, fe)] = a && negb y1 /\
    hap u [] [(cause, fc); (effect, te)] = negb a && y0 /\ hap u [] [(cause, fc); (effect, fe)] = negb a && negb y0.
  Proof.
    intros I a y1 y0.
    assert (K1 := known_c m D F vt endo cast H cause tfc tc fc Hc tc (or_introl eq_refl)).
    assert (K0 := known_c m D F vt endo cast H cause tfc tc fc Hc fc (or_intror eq_refl)).
    assert (F0 := flips m D F vt endo cast H PR X HX [(cause, fc)] effect te fe u K0 (nodup_c cause fc) Be I).
    assert (F1 := flips m D F vt endo cast H PR X HX [(cause, tc)] effect te fe u K1 (nodup_c cause tc) Be I).
    assert (Fy := flips m D F vt endo cast H PR X HX [] effect te fe u (known_nil D) ltac:(constructor) Be I).
    assert (Fa := flips m D F vt endo cast H PR X HX [] cause tc fc u (known_nil D) ltac:(constructor) Bc I).
    assert (Y : hap u [] [(effect, te)] = if a then y1 else y0).
    { unfold a, y1, y0. destruct (hap u [] [(cause, tc)]) eqn:Ea.
      - symmetry. now apply (consist m D F vt endo cast H PR X HX cause tfc tc fc Hc); auto.
      - try rewrite Ea in Fa. cbn [negb] in Fa. symmetry. now apply (consist m D F vt endo cast H PR X HX cause tfc tc fc Hc); auto. }
    rewrite !(pair_see m D F vt endo cast H PR X HX cause effect Ne u) by auto.
    split; [exact F0|]. split; [exact F1|]. split; [exact Y|]. rewrite Fy, Fa, Y. fold a. destruct a, y1, y0; repeat split; reflexivity.
  Qed.
  Ltac unit_by u I :=
    cbn [pointw]; let K := fresh in assert (K := unit_cases u I); cbv zeta in K;
    let a1 := fresh in let a2 := fresh in let a3 := fresh in let a4 := fresh in let a5 := fresh in let a6 := fresh in let a7 := fresh in
    destruct K as (a1 & a2 & a3 & a4 & a5 & a6 & a7); rewrite ?a1, ?a2, ?a3, ?a4, ?a5, ?a6, ?a7; clear a1 a2 a3 a4 a5 a6 a7;
    destruct (hap u [] [(cause, tc)]), (hap u [(cause, tc)] [(effect, te)]), (hap u [(cause, fc)] [(effect, te)]).
  Ltac nonneg_by N := apply comb_nonneg; [let u := fresh in let I := fresh in intros u I; exact (nn u N I)|];
    let u := fresh "u" in let I := fresh in intros u I; unit_by u I; discriminate.
  Ltac zero_by := apply comb_zero; let u := fresh "u" in let I := fresh in intros u I; unit_by u I; vm_compute; apply Qc_is_canon; reflexivity.

  Notation yb := (fun u => hap u [] [(effect, te)]).
  Notation prevb := (fun u => hap u [(cause, fc)] [(effect, te)] && hap u [(cause, tc)] [(effect, fe)]).

  (** what the six observational and interventional queries answer *)
  Lemma asks m1 : cve_init m = Ok m1 ->
    answer (causal_query heur so m1 [effect] (DoDict [(cause, tc)]) []) [(effect, te)] (Sm b1) /\
    answer (causal_query heur so m1 [effect] (DoDict [(cause, fc)]) []) [(effect, te)] (Sm b0) /\
    answer (causal_query heur so m1 [effect] (DoDict []) []) [(effect, te)] (Sm yb) /\
    (forall x y, x = tc \/ x = fc -> y = te \/ y = fe ->
      answer (causal_query heur so m1 [cause; effect] (DoDict []) []) [(cause, x); (effect, y)] (Sm (see x y))).
  Proof.
    intros E. assert (Ic : In cause (nodes g)) by (eapply (node_of m D F vt endo cast); eauto).
    assert (Ie : In effect (nodes g)) by (eapply (node_of m D F vt endo cast); eauto).
    assert (NT : NoDup [cause; effect]) by (repeat constructor; cbn; intros I; repeat destruct I as [I|I]; auto).
    assert (IT : incl [cause; effect] (nodes g)) by (intros v [<-|[<-|[]]]; auto).
    split; [eapply ask_do; eauto|]. split; [eapply ask_do; eauto|]. split.
    - eapply ask_see; eauto; [repeat constructor; intros []|discriminate|intros v [<-|[]]; auto|]. eapply assigns_one; eauto.
    - intros x y Hx Hy. eapply ask_see; eauto; [discriminate|]. eapply assigns_both; eauto.
  Qed.

  Lemma tian_pearl : nonnegative D F -> exists m1 pns y1 y0 y p11 p10 p01 p00, cve_init m = Ok m1 /\
    prob_necessity_sufficiency heur so m1 cause effect tfc tfe = Ok (Fin pns) /\
    answer (causal_query heur so m1 [effect] (DoDict [(cause, tc)]) []) [(effect, te)] y1 /\
    answer (causal_query heur so m1 [effect] (DoDict [(cause, fc)]) []) [(effect, te)] y0 /\
    answer (causal_query heur so m1 [effect] (DoDict []) []) [(effect, te)] y /\
    answer (causal_query heur so m1 [cause; effect] (DoDict []) []) [(cause, tc); (effect, te)] p11 /\
    answer (causal_query heur so m1 [cause; effect] (DoDict []) []) [(cause, tc); (effect, fe)] p10 /\
    answer (causal_query heur so m1 [cause; effect] (DoDict []) []) [(cause, fc); (effect, te)] p01 /\
    answer (causal_query heur so m1 [cause; effect] (DoDict []) []) [(cause, fc); (effect, fe)] p00 /\
    (0 <= pns /\ y1 - y0 <= pns /\ y - y0 <= pns /\ y1 - y <= pns /\
     pns <= y1 /\ pns <= 1 - y0 /\ pns <= p11 + p00 /\ pns <= y1 - y0 + p10 + p01)%Qc /\
    (p11 <> 0 -> exists pn, prob_necessity heur so m1 cause effect tfc tfe = Ok (Fin pn) /\
      0 <= pn /\ (y - y0) / p11 <= pn /\ pn <= 1 /\ pn <= (1 - y0 - p00) / p11)%Qc /\
    (p00 <> 0 -> exists ps, prob_sufficiency heur so m1 cause effect tfc tfe = Ok (Fin ps) /\
      0 <= ps /\ (y1 - y) / p00 <= ps /\ ps <= 1 /\ ps <= (y1 - p11) / p00)%Qc.
  Proof.
    intros N. destruct (pns_S m D F vt endo cast H PR X HX heur so Hh Hs cause effect tfc tfe tc fc te fe Hc He Ne Nc Nf Ch Fr) as (m1 & E & V).
    destruct (asks m1 E) as (Q1 & Q0 & Q & Qs).
    exists m1, (Sm pnsb), (Sm b1), (Sm b0), (Sm yb), (Sm (see tc te)), (Sm (see tc fe)), (Sm (see fc te)), (Sm (see fc fe)).
    do 5 (split; [auto|]). do 4 (split; [apply Qs; auto|]).
    assert (A1 : (0 <= comb U wt [(1, pnsb); (-(1), b1); (1, b0)]%Qc)%Qc) by nonneg_by N.
    assert (A2 : (0 <= comb U wt [(1, pnsb); (-(1), yb); (1, b0)]%Qc)%Qc) by nonneg_by N.
    assert (A3 : (0 <= comb U wt [(1, pnsb); (-(1), b1); (1, yb)]%Qc)%Qc) by nonneg_by N.
    assert (A4 : (0 <= comb U wt [(-(1), pnsb); (1, b1)]%Qc)%Qc) by nonneg_by N.
    assert (A5 : (0 <= comb U wt [(-(1), pnsb); (-(1), b0); (1, fun _ => true)]%Qc)%Qc) by nonneg_by N.
    assert (A6 : (0 <= comb U wt [(-(1), pnsb); (1, see tc te); (1, see fc fe)]%Qc)%Qc) by nonneg_by N.
    assert (A7 : (0 <= comb U wt [(-(1), pnsb); (1, b1); (-(1), b0); (1, see tc fe); (1, see fc te)]%Qc)%Qc) by nonneg_by N.
    set (n1 := fun u => hap u [] [(cause, tc); (effect, te)] && hap u [(cause, fc)] [(effect, fe)]).
    set (n0 := fun u => hap u [] [(cause, fc); (effect, fe)] && hap u [(cause, tc)] [(effect, te)]).
    assert (B1 : (0 <= comb U wt [(1, n1); (-(1), yb); (1, b0)]%Qc)%Qc) by (unfold n1; nonneg_by N).
    assert (B2 : (0 <= comb U wt [(-(1), n1); (1, see tc te)]%Qc)%Qc) by (unfold n1; nonneg_by N).
    assert (B3 : (0 <= comb U wt [(-(1), n1); (1, fun _ => true); (-(1), b0); (-(1), see fc fe)]%Qc)%Qc) by (unfold n1; nonneg_by N).
    assert (C1 : (0 <= comb U wt [(1, n0); (-(1), b1); (1, yb)]%Qc)%Qc) by (unfold n0; nonneg_by N).
    assert (C2 : (0 <= comb U wt [(-(1), n0); (1, see fc fe)]%Qc)%Qc) by (unfold n0; nonneg_by N).
    assert (C3 : (0 <= comb U wt [(-(1), n0); (1, b1); (-(1), see tc te)]%Qc)%Qc) by (unfold n0; nonneg_by N).
    cbn [comb] in *. rewrite S_true in *. assert (P0 := S_nn pnsb N).
    split. { split; [auto|]. split; [qclra|]. split; [qclra|]. split; [qclra|]. split; [qclra|]. split; [qclra|]. split; qclra. }
    split.
    - intros P. exists (Sm n1 / Sm (see tc te))%Qc. split; [eapply pn_S; eauto|].
      assert (Pp : (0 < Sm (see tc te))%Qc).
      { destruct (Qcle_lt_or_eq _ _ (S_nn (see tc te) N)) as [L|L]; [auto|]. now symmetry in L. }
      assert (P1 := S_nn n1 N). split; [|split; [|split]].
      + replace 0%Qc with (0 / Sm (see tc te))%Qc by (field; auto). now apply div_le.
      + apply div_le; [auto|qclra].
      + replace 1%Qc with (Sm (see tc te) / Sm (see tc te))%Qc by (field; auto). apply div_le; [auto|qclra].
      + apply div_le; [auto|qclra].
    - intros P. exists (Sm n0 / Sm (see fc fe))%Qc. split; [eapply ps_S; eauto|].
      assert (Pp : (0 < Sm (see fc fe))%Qc).
      { destruct (Qcle_lt_or_eq _ _ (S_nn (see fc fe) N)) as [L|L]; [auto|]. now symmetry in L. }
      assert (P1 := S_nn n0 N). split; [|split; [|split]].
      + replace 0%Qc with (0 / Sm (see fc fe))%Qc by (field; auto). now apply div_le.
      + apply div_le; [auto|qclra].
      + replace 1%Qc with (Sm (see fc fe) / Sm (see fc fe))%Qc by (field; auto). apply div_le; [auto|qclra].
      + apply div_le; [auto|qclra].
  Qed.
  Lemma difference : exists m1 pns prev y1 y0, cve_init m = Ok m1 /\
    prob_necessity_sufficiency heur so m1 cause effect tfc tfe = Ok (Fin pns) /\
    prob_necessity_sufficiency heur so m1 cause effect (Some (tc, fc)) (Some (fe, te)) = Ok (Fin prev) /\
    answer (causal_query heur so m1 [effect] (DoDict [(cause, tc)]) []) [(effect, te)] y1 /\
    answer (causal_query heur so m1 [effect] (DoDict [(cause, fc)]) []) [(effect, te)] y0 /\
    (pns - prev = y1 - y0)%Qc.
  Proof.
    destruct (pns_S m D F vt endo cast H PR X HX heur so Hh Hs cause effect tfc tfe tc fc te fe Hc He Ne Nc Nf Ch Fr) as (m1 & E & V).
    assert (Hc' : truth_states D cause (Some (tc, fc)) tc fc) by (destruct Hc as (l & ? & ? & ? & _); exists l; auto).
    assert (He' : truth_states D effect (Some (fe, te)) fe te) by (destruct He as (l & ? & ? & ? & _); exists l; auto).
    destruct (pns_S m D F vt endo cast H PR X HX heur so Hh Hs cause effect _ _ tc fc fe te Hc' He' Ne Nc Nf Ch Fr) as (m1' & E' & V').
    assert (m1' = m1) as -> by congruence. destruct (asks m1 E) as (Q1 & Q0 & _ & _).
    exists m1, (Sm pnsb), (Sm prevb), (Sm b1), (Sm b0). do 5 (split; [auto|]).
    assert (A : comb U wt [(1, pnsb); (-(1), prevb); (-(1), b1); (1, b0)]%Qc = 0%Qc) by zero_by. cbn [comb] in A.
    apply (f_equal (fun x => x + (Sm b1 - Sm b0))%Qc) in A. ring_simplify in A. rewrite <- A. ring.
  Qed.

  Lemma monotone : nonnegative D F -> cf [([(cause, fc)], [(effect, te)]); ([(cause, tc)], [(effect, fe)])] = 0%Qc ->
    exists m1 y1 y0 y p11 p00, cve_init m = Ok m1 /\
    answer (causal_query heur so m1 [effect] (DoDict [(cause, tc)]) []) [(effect, te)] y1 /\
    answer (causal_query heur so m1 [effect] (DoDict [(cause, fc)]) []) [(effect, te)] y0 /\
    answer (causal_query heur so m1 [effect] (DoDict []) []) [(effect, te)] y /\
    answer (causal_query heur so m1 [cause; effect] (DoDict []) []) [(cause, tc); (effect, te)] p11 /\
    answer (causal_query heur so m1 [cause; effect] (DoDict []) []) [(cause, fc); (effect, fe)] p00 /\
    prob_necessity_sufficiency heur so m1 cause effect tfc tfe = Ok (Fin (y1 - y0)%Qc) /\
    (p11 <> 0%Qc -> prob_necessity heur so m1 cause effect tfc tfe = Ok (Fin ((y - y0) / p11)%Qc)) /\
    (p00 <> 0%Qc -> prob_sufficiency heur so m1 cause effect tfc tfe = Ok (Fin ((y1 - y) / p00)%Qc)).
  Proof.
    intros N Z. destruct (pns_S m D F vt endo cast H PR X HX heur so Hh Hs cause effect tfc tfe tc fc te fe Hc He Ne Nc Nf Ch Fr) as (m1 & E & V).
    destruct (asks m1 E) as (Q1 & Q0 & Q & Qs).
    assert (Z' : Sm prevb = 0%Qc).
    { rewrite <- Z, cf_sum. unfold S_of. f_equal. apply map_ext_in. intros u _. cbn [forallb fst snd]. now rewrite andb_true_r. }
    exists m1, (Sm b1), (Sm b0), (Sm yb), (Sm (see tc te)), (Sm (see fc fe)). do 4 (split; [auto|]). do 2 (split; [apply Qs; auto|]).
    set (n1 := fun u => hap u [] [(cause, tc); (effect, te)] && hap u [(cause, fc)] [(effect, fe)]).
    set (n0 := fun u => hap u [] [(cause, fc); (effect, fe)] && hap u [(cause, tc)] [(effect, te)]).
    assert (A : comb U wt [(1, pnsb); (-(1), prevb); (-(1), b1); (1, b0)]%Qc = 0%Qc) by zero_by.
    assert (B1 : (0 <= comb U wt [(1, n1); (-(1), yb); (1, b0)]%Qc)%Qc) by (unfold n1; nonneg_by N).
    assert (B2 : (0 <= comb U wt [(-(1), n1); (1, yb); (-(1), b0); (1, prevb)]%Qc)%Qc) by (unfold n1; nonneg_by N).
    assert (C1 : (0 <= comb U wt [(1, n0); (-(1), b1); (1, yb)]%Qc)%Qc) by (unfold n0; nonneg_by N).
    assert (C2 : (0 <= comb U wt [(-(1), n0); (1, b1); (-(1), yb); (1, prevb)]%Qc)%Qc) by (unfold n0; nonneg_by N).
    cbn [comb] in *. rewrite Z' in *. split; [|split].
    - rewrite V. f_equal. f_equal. apply (f_equal (fun x => x + (Sm b1 - Sm b0))%Qc) in A. ring_simplify in A. rewrite A. ring.
    - intros P. assert (L : Sm n1 = (Sm yb - Sm b0)%Qc) by (apply Qcle_antisym; qclra). rewrite <- L. eapply pn_S; eauto.
    - intros P. assert (L : Sm n0 = (Sm b1 - Sm yb)%Qc) by (apply Qcle_antisym; qclra). rewrite <- L. eapply ps_S; eauto.
  Qed.
End Bounds3.

(** naming the true states the false ones exchanges necessity and sufficiency *)
Lemma duality heur so m cause effect tc fc te fe :
  prob_necessity heur so m cause effect (Some (fc, tc)) (Some (fe, te)) = prob_sufficiency heur so m cause effect (Some (tc, fc)) (Some (te, fe)) /\
  prob_sufficiency heur so m cause effect (Some (fc, tc)) (Some (fe, te)) = prob_necessity heur so m cause effect (Some (tc, fc)) (Some (te, fe)).
Proof. split; reflexivity. Qed.
