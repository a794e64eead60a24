(** The objective of the gradient learner, and the likelihood of a causal model
    as a product over the exogenous variables. *)

From Coq Require Import String Bool Arith ZArith QArith Qcanon Lia Permutation List.
From Verif Require Import PyBase PyFacts Num DomainModel DomainFacts NdArray StoreModel NumStore FactorModel GraphModel ModelModel InferModel
  LearnModel UaiModel GradModel Spec StoreSpec FactorSpec GraphSpec ModelSpec NetSpec EmSpec QSpec GradSpec
  StoreFacts FactorFacts NumFacts BigSum FactorSem NetSem NetFacts GraphFacts GraphFacts2 PropFacts1 EmMath EmFacts2 QFacts5 QFacts6 GradFacts1.
Import ListNotations.
Local Open Scope nat_scope.
Local Arguments eqd : simpl never.

(** Counting the rows by their keys. *)
Lemma counted_prod {A B} (dec : forall x y : A, {x = y} + {x <> y}) (ks : list A) (key : B -> A) (b : A -> B -> bool) (s : A -> Qc) rows :
  NoDup ks -> (forall r, In r rows -> In (key r) ks) ->
  (forall k r, In k ks -> In r rows -> (b k r = true <-> key r = k)) ->
  qprod (map (fun k => pw (s k) (length (filter (b k) rows))) ks) = qprod (map (fun r => s (key r)) rows).
Proof.
  intros N. induction rows as [|r rows IH]; intros Hk Hb.
  - cbn [map filter length pw qprod]. apply qprod_ones. reflexivity.
  - cbn [map qprod]. rewrite <- IH; [|intros; apply Hk; now right|intros; apply Hb; [auto|now right]].
    transitivity (qprod (map (fun k => (if dec (key r) k then s k else 1) * pw (s k) (length (filter (b k) rows)))%Qc ks)).
    + f_equal. apply map_ext_in. intros k J. cbn [filter]. specialize (Hb k r J (or_introl eq_refl)).
      destruct (b k r), (dec (key r) k) as [Q|Q]; cbn [length pw]; try ring; exfalso; [now apply Q, Hb|]. apply Hb in Q. discriminate.
    + rewrite qprod_mul. f_equal. specialize (Hk r (or_introl eq_refl)). clear - N Hk.
      induction N as [|k ks Nk _ IH]; [destruct Hk|]. cbn [map qprod]. destruct (dec (key r) k) as [Q|Q].
      * rewrite qprod_ones; [rewrite Q; ring|]. intros k' J. destruct (dec (key r) k') as [Q'|Q']; [|reflexivity]. congruence.
      * destruct Hk as [Hk | Hk]; [congruence|]. rewrite IH by auto. ring.
Qed.

Section Objective.
  Context {L : Type} (l0 : L) (ladd : L -> L -> L) (lopp : L -> L) (lg : Qc -> L) (lnan : L).
  Hypothesis LG : logarithm l0 ladd lg.

  Lemma times_log n x : (0 < x)%Qc -> times L l0 ladd n (np_log L lg lnan x) = lg (pw x n).
  Proof.
    intros X. destruct LG as (_ & _ & _ & L1 & LM). induction n as [|n IH]; cbn [times pw]; [symmetry; apply L1|].
    rewrite IH. unfold np_log. destruct (Qclt_le_dec 0 x) as [_ | C]; [|exfalso; exact (Qclt_not_le _ _ X C)].
    symmetry. apply LM; [exact X|now apply pw_pos].
  Qed.

  (** the loop over the keys *)
  Lemma nll_ok (theta : list Qc) (st : dict (obs * obs) (nat * dict state nat)) (s : obs * obs -> Qc) : forall acc,
    (forall k N P, In (k, (N, P)) st -> sum_lkh P theta = Ok (s k) /\ (0 <= s k)%Qc) ->
    nll_loop L l0 ladd lopp lg lnan st theta acc =
    Ok (if Qc_eq_dec (qprod (map (fun kp => pw (s (fst kp)) (fst (snd kp))) st)) 0 then None
        else Some (lopp (ladd acc (lg (qprod (map (fun kp => pw (s (fst kp)) (fst (snd kp))) st)))))).
  Proof.
    destruct LG as (LA & LC & L0 & L1 & LM).
    induction st as [|[k [N P]] st IH]; intros acc Hs; cbn [nll_loop map qprod fst snd].
    - destruct (Qc_eq_dec 1 0) as [Q | _]; [discriminate Q|]. now rewrite L1, LC, L0.
    - destruct (Hs k N P (or_introl eq_refl)) as [Es Ns]. assert (Hs' : forall k N P, In (k, (N, P)) st -> sum_lkh P theta = Ok (s k) /\ (0 <= s k)%Qc)
        by (intros; eapply Hs; right; eauto).
      destruct (N =? 0)%nat eqn:EN.
      + apply Nat.eqb_eq in EN as ->. rewrite IH by auto. cbn [pw]. now rewrite Qcmult_1_l.
      + apply Nat.eqb_neq in EN. rewrite Es. cbn [bind]. destruct (Qc_eq_dec (s k) 0) as [Z | NZ].
        * rewrite Z, pw_0 by lia. rewrite Qcmult_0_l. destruct (Qc_eq_dec 0 0) as [_ | X]; [reflexivity|congruence].
        * assert (Ps : (0 < s k)%Qc) by (apply Qcle_lt_or_eq in Ns as [X | X]; [exact X|congruence]).
          rewrite IH by auto. set (w := qprod (map (fun kp => pw (s (fst kp)) (fst (snd kp))) st)).
          assert (Pp : (0 < pw (s k) N)%Qc) by now apply pw_pos.
          assert (Nw : (0 <= w)%Qc).
          { apply qprod_nonneg. intros x J. apply in_map_iff in J as ([k' [N' P']] & <- & J). cbn [fst snd]. apply pw_nonneg.
            now apply (Hs' k' N' P'). }
          destruct (Qc_eq_dec w 0) as [-> | NZw].
          { replace (pw (s k) N * 0)%Qc with 0%Qc by ring. destruct (Qc_eq_dec 0 0) as [_ | X]; [reflexivity|congruence]. }
          assert (Pw : (0 < w)%Qc) by (apply Qcle_lt_or_eq in Nw as [X | X]; [exact X|congruence]).
          destruct (Qc_eq_dec (pw (s k) N * w) 0) as [X | _].
          { exfalso. apply Qcmult_integral in X as [X | X]; [rewrite X in Pp; discriminate Pp|congruence]. }
          rewrite times_log by auto. rewrite LM by auto. now rewrite LA.
  Qed.
End Objective.

Section ObjectiveOfModel.
  Context {L : Type} (l0 : L) (ladd : L -> L -> L) (lopp : L -> L) (lg : Qc -> L) (lnan : L).
  Hypothesis LG : logarithm l0 ladd lg.
  Variables (m : pgm) (D : domain) (F : var -> mfactor) (vt : vtype) (endo : list var).
  Hypothesis HC : causal_tables m D F vt endo.
  Hypothesis Dp : describes D m.
  Variable U : var.
  Hypothesis HU : sole_cause (m_graph m) F endo U.
  Variables (data : frame) (E : list var).
  Hypothesis OD : observes D data E.
  Hypothesis IE : incl endo E.
  Hypothesis Ic : incl endo (f_cols data).
  Notation g := (m_graph m).
  Let H : network m D F vt := proj1 HC.
  Let WD : wf_dom D := net_wd m D F vt H.

  Theorem objective_ok : exists stats, statistics m data U = Ok stats /\
    forall theta, length theta = length (states_of D U) -> (forall x, In x theta -> 0 <= x)%Qc ->
      negative_log_likelihood L l0 ladd lopp lg lnan stats theta =
      Ok (match succs g U with [] => Some (lopp l0) | _ => cost lopp lg (mixtures D F g U theta data) end).
  Proof.
    destruct (children_ok m D F vt endo HC U HU) as (bmV & EV & NV & IV & PV).
    destruct (bmY_ok m D F vt endo HC U bmV IV) as (bmY & EY & IY).
    destruct (domains_ok m D F vt endo HC Dp U bmV) as (dv & Edv & Wv & Kv & Sv).
    { intros v J. apply IV, (arc_endo m D F vt endo HC) in J. now apply (endo_keys m D F vt endo HC). }
    destruct (domains_ok m D F vt endo HC Dp U bmY) as (dy & Edy & Wy & Ky & Sy).
    { intros v J. apply IY in J. now apply (endo_keys m D F vt endo HC). }
    destruct (exists_valid D (fun _ => SInt 0) WD) as (a0 & Va0 & _).
    unfold statistics. rewrite (kind_ok m D F vt endo HC). cbn [bind]. rewrite EV. cbn [bind]. rewrite EY. cbn [bind].
    eexists. split.
    { apply (compute_ok m D F vt endo HC Dp U HU data Ic bmV bmY dv dy IV IY Wv Wy Kv Ky Sv Sy a0 Va0); auto. }
    intros theta Lt Pt. unfold negative_log_likelihood.
    rewrite (nll_ok l0 ladd lopp lg lnan LG theta _ (fun xy => sh D F U bmV theta (A a0 xy))).
    2:{ intros k N P J. apply in_map_iff in J as (xy & Q & J). injection Q as <- <- <-.
        destruct xy as [x y]. assert (Va : valid D (A a0 (x, y))) by (apply (pair_asg m D F vt endo HC bmV bmY dv dy IY Wv Wy Kv Ky Sv Sy a0 Va0 x y J)).
        split; [|].
        - apply (sum_ok m D F vt endo HC U HU bmV bmY dv dy IV IY Kv Ky); auto.
        - apply (sh_nonneg m D F vt endo HC U HU bmV bmY dv dy IV IY Kv Ky); auto. }
    rewrite map_map. cbn [fst snd].
    destruct LG as (LA & LC & L0 & L1 & LM).
    destruct (succs g U) as [|c cs] eqn:Es.
    - assert (bmV = []) as -> by (apply Permutation_nil; now symmetry).
      rewrite qprod_ones.
      + destruct (Qc_eq_dec 1 0) as [Q | _]; [discriminate Q|]. now rewrite L1, L0.
      + intros [x y] J. unfold cnt. cbn [fst]. apply pairs_In in J as [J _].
        destruct dv as [|[v l] dv]; [|exfalso; apply (Kv v); left; reflexivity]. destruct J as [<- | []]. reflexivity.
    - unfold cost. set (w := qprod _). assert (Ew : w = mixtures D F g U theta data).
      { unfold w, mixtures. etransitivity; [|symmetry; apply product_qprod].
        transitivity (qprod (map (fun xy => pw (sh D F U bmV theta (A a0 xy)) (length (filter (hit data xy) (f_rows data)))) (pairs dv dy))).
        { f_equal. apply map_ext_in. intros [x y] J. unfold cnt. cbn [fst]. apply pairs_In in J as [J _].
          destruct x; [exfalso|reflexivity]. apply (all_assignments_In_full _ _ (proj1 Wv)) in J as [J _]. cbn in J.
          assert (K : In c bmV) by (apply (Permutation_in _ (Permutation_sym PV)); now left).
          apply Kv in K. rewrite <- J in K. exact K. }
        rewrite (counted_prod eqd (pairs dv dy) (row_key data dv dy a0)).
        - f_equal. apply map_ext_in. intros r J. 
          etransitivity; [apply (sh_key m D F vt endo HC U HU data E OD bmV bmY dv dy IV IY Wv Wy Kv Ky Sv Sy a0 Va0 theta r _ J eq_refl)|].
          symmetry. apply (share_row m D F vt endo HC U HU data E OD IE bmV IV a0 Va0); [now rewrite Es|exact J].
        - now apply pairs_NoDup.
        - intros r J. apply (row_key_In D data E OD dv dy Wv Wy Sv Sy a0 Va0 r J).
        - intros xy r J K. apply (hit_key m D F vt endo HC U data E OD IE bmV bmY dv dy IV IY Wv Wy Kv Ky Sv Sy a0 Va0); auto. }
      rewrite <- Ew. destruct (Qc_eq_dec w 0); [reflexivity|]. now rewrite L0.
  Qed.

  Lemma mixtures_leaf theta : succs g U = [] -> distribution (length (states_of D U)) theta -> mixtures D F g U theta data = 1%Qc.
  Proof.
    intros Es (Lt & _ & Tt). unfold mixtures. etransitivity; [apply product_qprod|]. apply qprod_ones. intros r _.
    unfold mixture. rewrite Es. rewrite <- Tt. f_equal. clear - Lt. revert theta Lt. induction (states_of D U) as [|s l IH]; intros [|t theta] Q; try discriminate; [reflexivity|].
    cbn [combine map fst snd product_of fold_right]. f_equal; [ring|]. apply IH. now injection Q.
  Qed.
  Theorem objective_distribution : exists stats, statistics m data U = Ok stats /\
    forall theta, distribution (length (states_of D U)) theta ->
      negative_log_likelihood L l0 ladd lopp lg lnan stats theta = Ok (cost lopp lg (mixtures D F g U theta data)).
  Proof.
    destruct objective_ok as (st & E1 & E2). exists st. split; [exact E1|]. intros theta HT. rewrite (E2 theta) by apply HT.
    destruct (succs g U) as [|c cs] eqn:Es; [|reflexivity]. rewrite (mixtures_leaf theta Es HT). unfold cost.
    destruct (Qc_eq_dec 1 0) as [Q | _]; [discriminate Q|]. destruct LG as (_ & _ & _ & L1 & _). now rewrite L1.
  Qed.
End ObjectiveOfModel.
