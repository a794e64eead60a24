(** Frequencies in large samples, and the answers of LaplaceInference. *)

From Coq Require Import String Bool Arith Lia ZArith QArith Qround Qcanon Lqa Permutation List.
From Verif Require Import PyBase PyFacts Num NumFacts DomainModel NdArray StoreModel NumStore FactorModel Spec StoreSpec DomainFacts StoreFacts
  PropFacts1 FactorSpec FactorFacts FactorFacts3 BigSum GraphModel GraphSpec GraphFacts ModelModel ModelSpec LearnModel InferModel CausalModel DataModel
  NetSpec NetSem NetFacts VeFacts4 EmMath OrderSpec DataSpec DataFacts DataFacts2 DataFacts4 CoherFacts SampleSpec SampleMath SampleFacts.
From Coq Require Import List.
Import ListNotations.
Local Open Scope nat_scope.
Local Arguments eqd : simpl never.

Lemma above (x : Qc) : exists N, forall n, N <= n -> (x <= qn n)%Qc.
Proof.
  exists (Z.to_nat (Qceiling x)). intros n L. unfold Qcle, qn. cbn [this Q2Qc]. rewrite Qred_correct.
  apply Qle_trans with (inject_Z (Qceiling x)); [apply Qle_ceiling|]. rewrite <- Zle_Qle. lia.
Qed.

Lemma combine_row (r : obs) : combine (keys r) (map (fun vs => Some (snd vs)) r) = map (fun vs => (fst vs, Some (snd vs))) r.
Proof. unfold keys. induction r as [|[v s] r IH]; [reflexivity|]. cbn. now rewrite IH. Qed.

Lemma shows_row D r rows v s : keys r = keys D -> NoDup (keys D) ->
  shows (frame_of D rows) (map (fun vs => Some (snd vs)) r) v s = true <-> dget v r = Some s.
Proof.
  intros K N. unfold shows, frame_of. cbn [f_cols]. rewrite <- K, combine_row, existsb_exists. split.
  - intros ([w c] & J & E). apply in_map_iff in J as ([w' s'] & Q & J). cbn [fst snd] in Q. injection Q as <- <-.
    destruct (eqd _ _) as [Q|]; [|discriminate]. injection Q as -> ->. apply In_dget; [now rewrite K|exact J].
  - intros E. exists (v, Some s). split; [apply in_map_iff; exists (v, s); split; [reflexivity|now apply dget_In]|].
    destruct (eqd _ _); congruence.
Qed.

Lemma matching D r rows o : keys r = keys D -> NoDup (keys D) -> NoDup (keys o) -> incl (keys o) (keys D) ->
  forallb (fun vs => shows (frame_of D rows) (map (fun vs => Some (snd vs)) r) (fst vs) (snd vs)) o = consistent o r.
Proof.
  intros K N No I. apply Bool.eq_iff_eq_true. unfold consistent. rewrite !forallb_forall. split; intros X [v s] J; cbn [fst snd].
  - destruct (dget v o) as [s'|] eqn:E; [|reflexivity]. apply dget_In in E. apply X in E. cbn [fst snd] in E.
    apply shows_row in E; auto. assert (dget v r = Some s) by (apply In_dget; [now rewrite K|exact J]). destruct (eqd s' s); congruence.
  - apply shows_row; auto. assert (Jv : In v (keys r)) by (rewrite K; apply I; apply keys_In; eauto). apply keys_In in Jv as (s' & J').
    assert (Y := X _ J'). cbn [fst snd] in Y. rewrite (In_dget _ _ _ No J) in Y. destruct (eqd s s') as [-> |]; [|discriminate].
    apply In_dget; [now rewrite K|exact J'].
Qed.

Lemma count_frame D rows o : NoDup (keys D) -> (forall r, In r rows -> keys r = keys D) -> NoDup (keys o) -> incl (keys o) (keys D) ->
  count (frame_of D rows) o = length (filter (consistent o) rows).
Proof.
  intros N K No I. unfold count. cbn [frame_of f_rows]. 
  assert (G : forall l, (forall r, In r l -> keys r = keys D) ->
    length (filter (fun r => forallb (fun vs => shows (frame_of D rows) r (fst vs) (snd vs)) o) (map (fun r => map (fun vs => Some (snd vs)) r) l)) =
    length (filter (consistent o) l)).
  { induction l as [|r l IH]; intros Kl; [reflexivity|]. cbn [map filter]. rewrite matching by (auto; apply Kl; now left).
    assert (E := IH (fun x Jx => Kl x (or_intror Jx))). destruct (consistent o r); cbn [length]; now rewrite E. }
  now apply G.
Qed.

Local Open Scope Qc_scope.
Lemma half_way a b x y d eps : 0 <= a -> a <= 1 -> 0 < b -> b <= 1 -> apart d x a = false -> apart d y b = false ->
  0 < d -> 0 < eps -> (1 + 1) * d <= b -> (1 + 1 + 1 + 1) * d <= eps * (b * b) -> 0 < y /\ apart eps (x / y) (a / b) = false.
Proof.
  intros A0 A1 B0 B1 X Y Hd He D1 D2. apply apart_false in X as [X1 X2]. apply apart_false in Y as [Y1 Y2].
  assert (Yb : b < (1 + 1) * y) by qclra. assert (Y0 : 0 < y) by qclra. split; [exact Y0|].
  assert (N0 : y <> 0) by (intros ->; discriminate). assert (Nb : b <> 0) by (intros ->; discriminate).
  assert (YB : 0 < y * b) by (clear - Y0 B0; qcnra).
  assert (EB : 0 < eps * b) by (clear - He B0; qcnra).
  assert (Z : (1 + 1) * d <= eps * b * y).
  { assert (eps * (b * b) <= (1 + 1) * (eps * b * y)).
    { replace (eps * (b * b)) with (b * (eps * b)) by ring. replace ((1 + 1) * (eps * b * y)) with ((1 + 1) * y * (eps * b)) by ring.
      apply Qcmult_le_compat_r; apply Qclt_le_weak; assumption. }
    clear - D2 H. set (u := eps * (b * b)) in *. set (w := eps * b * y) in *. clearbody u w. qclra. }
  apply apart_false. split.
  - assert (T : (x - a) * b + a * (b - y) < eps * b * y).
    { assert ((x - a) * b < d) by (clear - X1 B0 B1 Hd; set (k := x - a) in *; clearbody k; qcnra).
      assert (a * (b - y) <= d) by (clear - Y2 A0 A1 Hd; set (k := b - y) in *; clearbody k; qcnra).
      set (u := (x - a) * b) in *. set (w := a * (b - y)) in *. set (z := eps * b * y) in *. clearbody u w z. clear - H H0 Z. qclra. }
    apply (Qclt_minus_iff) . apply Qclt_minus_iff in T.
    replace (eps + - (x / y - a / b)) with ((eps * b * y + - ((x - a) * b + a * (b - y))) * / (y * b)) by (field; auto).
    set (g := eps * b * y + - ((x - a) * b + a * (b - y))) in *. assert (P : 0 < / (y * b)).
    { destruct (Qclt_le_dec 0 (/ (y * b))) as [L|L]; [exact L|]. exfalso. assert (E : y * b * / (y * b) = 1) by (apply Qcmult_inv_r; intros Q; rewrite Q in YB; discriminate).
      set (i := / (y * b)) in *. clearbody i. set (k := y * b) in *. clearbody k. clear - YB L E. qcnra. }
    set (i := / (y * b)) in *. clearbody i g. clear - T P. qcnra.
  - assert (T : (a - x) * b + a * (y - b) < eps * b * y).
    { assert ((a - x) * b < d) by (clear - X2 B0 B1 Hd; set (k := a - x) in *; clearbody k; qcnra).
      assert (a * (y - b) <= d) by (clear - Y1 A0 A1 Hd; set (k := y - b) in *; clearbody k; qcnra).
      set (u := (a - x) * b) in *. set (w := a * (y - b)) in *. set (z := eps * b * y) in *. clearbody u w z. clear - H H0 Z. qclra. }
    apply (Qclt_minus_iff) . apply Qclt_minus_iff in T.
    replace (eps + - (a / b - x / y)) with ((eps * b * y + - ((a - x) * b + a * (y - b))) * / (y * b)) by (field; auto).
    set (g := eps * b * y + - ((a - x) * b + a * (y - b))) in *. assert (P : 0 < / (y * b)).
    { destruct (Qclt_le_dec 0 (/ (y * b))) as [L|L]; [exact L|]. exfalso. assert (E : y * b * / (y * b) = 1) by (apply Qcmult_inv_r; intros Q; rewrite Q in YB; discriminate).
      set (i := / (y * b)) in *. clearbody i. set (k := y * b) in *. clearbody k. clear - YB L E. qcnra. }
    set (i := / (y * b)) in *. clearbody i g. clear - T P. qcnra.
Qed.
(** a number below two positive ones *)
Lemma small b c : 0 < b -> 0 < c -> exists d, 0 < d /\ (1 + 1) * d <= b /\ (1 + 1 + 1 + 1) * d <= c.
Proof.
  intros B C. set (q := / (1 + 1 + 1 + 1)). assert (Q : 0 < q) by reflexivity. assert (E : (1 + 1 + 1 + 1) * q = 1) by (apply Qcmult_inv_r; discriminate). clearbody q.
  destruct (Qclt_le_dec b c) as [L|L]; [exists (b * q)|exists (c * q)].
  - replace ((1 + 1 + 1 + 1) * (b * q)) with (b * ((1 + 1 + 1 + 1) * q)) by ring. replace ((1 + 1) * (b * q)) with (b * ((1 + 1) * q)) by ring.
    assert ((1 + 1) * q <= 1) by qclra. rewrite E. repeat split; qcnra.
  - replace ((1 + 1 + 1 + 1) * (c * q)) with (c * ((1 + 1 + 1 + 1) * q)) by ring. replace ((1 + 1) * (c * q)) with (c * ((1 + 1) * q)) by ring.
    assert ((1 + 1) * q <= 1) by qclra. rewrite E. repeat split; qcnra.
Qed.
Local Close Scope Qc_scope.

Section Limits.
  Variables (m : pgm) (D : domain) (F : var -> mfactor) (vt : vtype).
  Hypothesis H : network m D F vt.
  Hypothesis NN : nonnegative D F.
  Let WD : wf_dom D := net_wd m D F vt H.

  Lemma limit t eps delta : (0 < eps)%Qc -> (0 < delta)%Qc ->
    exists N, forall n, N <= n -> (chance D F n (fun rows => apart eps (frequency t rows) (mass D F t)) <= delta)%Qc.
  Proof.
    intros He Hd. destruct (above (1 / (eps * eps * delta))) as (N & HN). exists (S N). intros n Ln.
    assert (Hn : n <> 0) by lia. apply Qcle_trans with (1 := large_numbers m D F vt H NN t n eps Hn He).
    assert (Q := HN n ltac:(lia)). assert (Qn : (0 < qn n)%Qc) by (apply qn_pos; lia).
    destruct (p_le (all_assignments D) (joint F (keys D)) (consistent t) (joint_one m D F vt H) (joint_nn m D F vt H NN)) as [P0 P1].
    rewrite <- mass_p in P0, P1. clear - He Hd Q Qn P0 P1. generalize dependent (mass D F t). intros p P0 P1. generalize dependent (qn n). intros q Q Qn.
    assert (X : (0 < eps * eps)%Qc) by qcnra. generalize dependent (eps * eps)%Qc. intros x Q X.
    assert (X0 : x <> 0%Qc) by (intros ->; discriminate). assert (Q0 : q <> 0%Qc) by (intros ->; discriminate). assert (D0 : delta <> 0%Qc) by (intros ->; discriminate).
    assert (XD : (0 < x * delta)%Qc) by qcnra. assert (XQ : (0 < q * x)%Qc) by qcnra.
    apply Qcmult_lt_0_le_reg_r with (q * x)%Qc; [exact XQ|].
    replace (p * (1 - p) / (q * x) * (q * x))%Qc with (p * (1 - p))%Qc by (field; auto).
    assert (Q2 : (1 <= q * (x * delta))%Qc).
    { replace 1%Qc with (1 / (x * delta) * (x * delta))%Qc at 1 by (field; auto). apply Qcmult_le_compat_r; [exact Q|]. qclra. }
    assert (P2 : (p * (1 - p) <= 1)%Qc) by qcnra.
    replace (delta * (q * x))%Qc with (q * (x * delta))%Qc by ring. qclra.
  Qed.

  Lemma mass_range t : (0 <= mass D F t)%Qc /\ (mass D F t <= 1)%Qc.
  Proof.
    rewrite mass_p. apply p_le; [exact (joint_one m D F vt H)|exact (joint_nn m D F vt H NN)].
  Qed.

  Section Laplace.
    Hypothesis U : usable D.
    Variables (heur : digraph -> list var -> dict var nat -> res (list var)) (so : list (list var) -> list var).
    Hypothesis Hh : is_heuristic heur.
    Hypothesis Hs : is_set_order so.
    Variables (dflt : vtype) (pre : bool).

    Lemma laplace_value n rows e T t : n <> 0 -> In rows (samples D n) ->
      NoDup T -> T <> [] -> incl T (keys D) -> NoDup (keys e) -> incl (keys e) (keys D) -> (forall v, In v T -> ~ In v (keys e)) ->
      assigns D T t -> (0 < frequency e rows)%Qc ->
      exists f, laplace_query so dflt (frame_of D rows) D pre T None e = Ok f /\
        mf_get_value f t = Ok (Fin (frequency (t ++ e) rows / frequency e rows)%Qc).
    Proof.
      intros Hn J NT T0 IT Ne Ie Dj At Pe. rewrite samples_seqs in J. assert (L := seqs_len _ _ _ J).
      assert (K : forall r, In r rows -> keys r = keys D /\ full D r) by (intros r Jr; apply (assignment m D F vt H); eapply seqs_in; eauto).
      assert (K1 : forall r, In r rows -> keys r = keys D) by (intros r Jr; now apply K).
      assert (Nte : NoDup (keys (t ++ e))).
      { unfold keys. rewrite map_app. fold (keys t) (keys e). destruct At as [-> _]. apply NoDup_app_intro; auto. }
      assert (Ite : incl (keys (t ++ e)) (keys D)).
      { unfold keys. rewrite map_app. fold (keys t) (keys e). destruct At as [-> _]. apply incl_app; auto. }
      assert (Wf : wf_frame (frame_of D rows)).
      { split; [apply WD|]. intros r Jr. cbn [frame_of f_rows f_cols] in *. apply in_map_iff in Jr as (o & <- & Jo). rewrite map_length.
        rewrite <- (K1 o Jo). unfold keys. now rewrite map_length. }
      assert (Cp : complete (frame_of D rows) D T).
      { intros r v c Jr Jv Jc. cbn [frame_of f_rows f_cols] in *. apply in_map_iff in Jr as (o & <- & Jo). destruct (K o Jo) as [Ko Fo].
        rewrite <- Ko, combine_row in Jc. apply in_map_iff in Jc as ([w s] & Q & Jw). cbn [fst snd] in Q. injection Q as <- <-.
        assert (Jk := IT _ Jv). apply keys_In in Jk as (l & Jl). exists l. destruct (Fo _ _ Jl) as (s' & E & Js).
        assert (E' : dget w o = Some s) by (apply In_dget; [rewrite Ko; apply WD|exact Jw]). exists s. split; [exact Jl|]. split; [congruence|reflexivity]. }
      assert (Ce := count_frame D rows e (proj1 WD) K1 Ne Ie). assert (Cte := count_frame D rows (t ++ e) (proj1 WD) K1 Nte Ite).
      assert (C0 : count (frame_of D rows) e <> 0).
      { rewrite Ce. intros Z. unfold frequency in Pe. rewrite Z in Pe. unfold ratio in Pe. change (Q2Qc (inject_Z (Z.of_nat 0))) with 0%Qc in Pe.
        unfold Qcdiv in Pe. rewrite Qcmult_0_l in Pe. discriminate. }
      destruct (query_ok so Hs dflt (frame_of D rows) D pre e U Wf Ie T NT T0 IT IT Dj Cp C0) as (f & Ef & _ & _ & _ & _ & X).
      exists f. split; [exact Ef|]. rewrite (X t At). do 2 f_equal. rewrite Ce in *. rewrite Cte. unfold frequency, ratio. rewrite L.
      change (fun k => Q2Qc (inject_Z (Z.of_nat k))) with qn.
      change (Q2Qc (inject_Z (Z.of_nat n))) with (qn n). change (Q2Qc (inject_Z (Z.of_nat (length (filter (consistent (t ++ e)) rows))))) with (qn (length (filter (consistent (t ++ e)) rows))).
      change (Q2Qc (inject_Z (Z.of_nat (length (filter (consistent e) rows))))) with (qn (length (filter (consistent e) rows))).
      assert (Q1 : qn n <> 0%Qc) by (intros Z; apply qn_inj_0 in Z; lia).
      assert (Q2 : qn (length (filter (consistent e) rows)) <> 0%Qc) by (intros Z; apply qn_inj_0 in Z; lia).
      field. split; assumption.
    Qed.

    Lemma laplace_limit e T t eps delta : NoDup T -> T <> [] -> incl T (nodes (m_graph m)) -> NoDup (keys e) -> incl (keys e) (nodes (m_graph m)) ->
      (forall v, In v T -> ~ In v (keys e)) -> mass D F e <> 0%Qc -> assigns D T t -> (0 < eps)%Qc -> (0 < delta)%Qc ->
      exists N, forall n, N <= n ->
        (chance D F n (fun rows => differ eps (laplace_query so dflt (frame_of D rows) D pre T None e) (ve_query heur so m T None e) t) <= delta)%Qc.
    Proof.
      intros NT T0 IT Ne Ie Dj M At He Hd.
      assert (IT' : incl T (keys D)) by (intros v J; apply (net_nodes _ _ _ _ H v); auto).
      assert (Ie' : incl (keys e) (keys D)) by (intros v J; apply (net_nodes _ _ _ _ H v); auto).
      destruct (asks m D F vt H heur so Hh Hs e T NT T0 IT Ie Dj M) as (r & Er & _ & _ & _ & _ & X). specialize (X t At).
      destruct (mass_range e) as [E0 E1]. destruct (mass_range (t ++ e)) as [A0 A1].
      assert (B0 : (0 < mass D F e)%Qc) by (destruct (Qcle_lt_or_eq _ _ E0); [assumption|congruence]).
      assert (C0 : (0 < eps * (mass D F e * mass D F e))%Qc).
      { clear - He B0. generalize dependent (mass D F e). intros b B0. assert (0 < b * b)%Qc by qcnra. set (k := (b * b)%Qc) in *. clearbody k. qcnra. }
      destruct (small _ _ B0 C0) as (d & D0 & D1 & D2).
      assert (Hd2 : (0 < delta * / (1 + 1))%Qc) by (assert (0 < / (1 + 1))%Qc by reflexivity; generalize dependent (/ (1 + 1))%Qc; intros; qcnra).
      destruct (limit (t ++ e) d _ D0 Hd2) as (N1 & L1). destruct (limit e d _ D0 Hd2) as (N2 & L2).
      exists (S (N1 + N2)). intros n Ln. specialize (L1 n ltac:(lia)). specialize (L2 n ltac:(lia)).
      eapply Qcle_trans; [apply (chance_le m D F vt H NN n _ (fun rows => apart d (frequency (t ++ e) rows) (mass D F (t ++ e)) || apart d (frequency e rows) (mass D F e)))|].
      - intros rows J Df. destruct (apart d (frequency (t ++ e) rows) _) eqn:F1; [reflexivity|]. destruct (apart d (frequency e rows) _) eqn:F2; [reflexivity|].
        exfalso. destruct (half_way _ _ _ _ _ _ A0 A1 B0 E1 F1 F2 D0 He D1 D2) as [Y0 Ap].
        destruct (laplace_value n rows e T t ltac:(lia) J NT T0 IT' Ne Ie' Dj At Y0) as (f & Ef & Vf).
        unfold differ in Df. rewrite Ef, Er, Vf, X, Ap in Df. discriminate.
      - eapply Qcle_trans; [apply (chance_or m D F vt H NN)|]. 
        replace delta with (delta * / (1 + 1) + delta * / (1 + 1))%Qc.
        + apply Qcplus_le_compat; assumption.
        + rewrite <- Qcmult_plus_distr_r. replace (/ (1 + 1) + / (1 + 1))%Qc with 1%Qc by (field; discriminate). ring.
    Qed.
  End Laplace.
End Limits.
