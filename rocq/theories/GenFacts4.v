(** Interval factors of tables with undefined entries. *)

From Coq Require Import String Bool Arith ZArith QArith Qcanon Lia List.
From Verif Require Import PyBase Num DomainModel NdArray StoreModel NumStore FactorModel GenModel Spec StoreSpec FactorSpec GenSpec
  PyFacts DomainFacts StoreFacts FactorFacts FactorFacts2 FactorFacts3 PropFacts1 GenFacts GenFacts2 GenFacts3 ModelFacts CausalFacts.
From Coq Require Import List.
Import ListNotations.
Local Open Scope nat_scope.
Local Open Scope list_scope.
Local Arguments eqd : simpl never.

Lemma fold_nan (op : num -> num -> num) : (forall x, op NaN x = NaN) -> (forall x, op x NaN = NaN) ->
  forall l x, In NaN (x :: l) -> fold_left op l x = NaN.
Proof.
  intros H1 H2. assert (S : forall l, fold_left op l NaN = NaN) by (induction l as [|y l IH]; [reflexivity|]; cbn; now rewrite H1).
  induction l as [|y l IH]; intros x J.
  - destruct J as [-> | []]. reflexivity.
  - cbn. destruct J as [-> | [-> | J]]; [now rewrite H1|now rewrite H2|]. apply IH. now right.
Qed.
Lemma np_min2_nan x : np_min2 x NaN = NaN. Proof. destruct x; reflexivity. Qed.
Lemma np_max_nan x : np_max x NaN = NaN. Proof. destruct x; reflexivity. Qed.

Lemma mapM_get fs o : (forall f : mfactor, In f fs -> exists x, mf_get_value f o = Ok x) ->
  exists xs, mapM (fun f => mf_get_value f o) fs = Ok xs /\ Forall2 (fun f x => mf_get_value f o = Ok x) fs xs.
Proof.
  induction fs as [|f fs IH]; intros H; [exists []; split; [reflexivity|constructor]|].
  destruct (H f (or_introl eq_refl)) as (x & E). destruct IH as (xs & E' & F); [intros g J; apply H; now right|].
  exists (x :: xs). split; [|constructor; auto]. cbn [mapM]. rewrite E. cbn [bind]. now rewrite E'.
Qed.

Lemma from_precise_nan dflt fs f0 : In f0 fs -> (forall f, In f fs -> wf_mf f /\ mf_domain f = mf_domain f0) ->
  exists g, from_precise dflt fs = Ok g /\ if_domain g = mf_domain f0 /\
    forall o f, full (mf_domain f0) o -> In f fs -> mf_get_value f o = Ok NaN ->
      exists sl su, store_low g = Ok sl /\ store_up g = Ok su /\ get_value sl o = Ok NaN /\ get_value su o = Ok NaN.
Proof.
  intros I0 H. destruct fs as [|f1 fs]; [destruct I0|]. unfold from_precise.
  destruct (H f0 I0) as (Wf0 & _). set (dom := mf_domain f0) in *.
  assert (D1 : mf_domain f1 = dom) by (apply H; left; auto). rewrite D1.
  assert (U : usable dom) by apply Wf0. assert (W := usable_wf _ U).
  assert (Ea : forallb (fun f => if eqd dom (mf_domain f) then true else false) (f1 :: fs) = true).
  { apply forallb_forall. intros f J. destruct (H f J) as (_ & ->). destruct (eqd dom dom); congruence. }
  rewrite Ea. rewrite assignment_space_all.
  set (L := all_assignments dom).
  assert (FL : forall o, In o L -> full dom o) by (intros o J; apply all_assignments_In_full in J; [apply J|apply W]).
  assert (Hrow : forall o, In o L -> exists x0 xs, mapM (fun f => mf_get_value f o) (f1 :: fs) = Ok (x0 :: xs) /\
            Forall2 (fun f x => mf_get_value f o = Ok x) (f1 :: fs) (x0 :: xs)).
  { intros o J. destruct (mapM_get (f1 :: fs) o) as (xs & E & F).
    - intros f Jf. destruct (H f Jf) as (Wf & Df). apply get_full_mf; auto. rewrite Df. auto.
    - destruct xs as [|x0 xs]; [inversion F|]. eauto. }
  assert (Hall : exists rows los his, mapM (fun o => mapM (fun f => mf_get_value f o) (f1 :: fs)) L = Ok rows /\
            mapM red_npmin rows = Ok los /\ mapM red_npmax rows = Ok his /\ length los = length L /\ length his = length L /\
            forall i o f, nth_error L i = Some o -> In f (f1 :: fs) -> mf_get_value f o = Ok NaN ->
              nth_error los i = Some NaN /\ nth_error his i = Some NaN).
  { clear -Hrow. induction L as [|o L IH].
    - exists [], [], []. repeat (split; [reflexivity|]). intros [|i] o f E; discriminate E.
    - destruct IH as (rows & los & his & E1 & E2 & E3 & L1 & L2 & HI); [intros o' J; apply Hrow; right; auto|].
      destruct (Hrow o (or_introl eq_refl)) as (x0 & xs & Er & Fr).
      exists ((x0 :: xs) :: rows), (fold_left np_min2 xs x0 :: los), (fold_left np_max xs x0 :: his).
      split; [|split; [|split; [|split; [|split]]]].
      + change (mapM (fun o => mapM (fun f => mf_get_value f o) (f1 :: fs)) (o :: L)) with
          (let* y := mapM (fun f => mf_get_value f o) (f1 :: fs) in
           let* r := mapM (fun o => mapM (fun f => mf_get_value f o) (f1 :: fs)) L in Ok (y :: r)).
        rewrite Er. cbn [bind]. rewrite E1. reflexivity.
      + cbn [mapM red_npmin bind]. rewrite E2. reflexivity.
      + cbn [mapM red_npmax bind]. rewrite E3. reflexivity.
      + simpl. congruence.
      + simpl. congruence.
      + intros [|i] o' f E Jf G; [|apply (HI i o' f E Jf G)]. injection E as <-.
        assert (J : In NaN (x0 :: xs)).
        { clear -Fr Jf G. induction Fr as [|f' x fs' xs' E Fr IH]; [destruct Jf|]. destruct Jf as [-> | Jf]; [left; congruence|right; auto]. }
        cbn [nth_error]. split; f_equal; apply fold_nan; auto using np_min2_nan, np_max_nan. }
  destruct Hall as (rows & los & his & E1 & E2 & E3 & L1 & L2 & HI).
  rewrite E1. cbn [bind]. rewrite E2. cbn [bind]. rewrite E3. cbn [bind].
  assert (LL : length L = size dom) by (unfold L; rewrite all_assignments_length, size_prodl; reflexivity).
  destruct (if_init_ok dom (flist los) (flist his) los his (mf_left f1) dflt U) as (g & Eg & Wg & Dg & Tg & Rg & Hlo & Hhi);
    [congruence|congruence|apply process_flist; congruence|apply process_flist; congruence|].
  exists g. split; [exact Eg|].
  split; [unfold if_domain; rewrite Dg; apply visible_bound; auto|].
  intros o f F Jf G.
  assert (Eo : exists o', nth_error L (rowpos dom o) = Some o' /\ forall f, wf_mf f -> mf_domain f = dom -> mf_get_value f o' = mf_get_value f o).
  { exists (obs_of (keys dom) (asg_of o)). split.
    - rewrite rowpos_ravel by auto. apply all_assignments_nth, full_valid; auto.
    - intros f' Wf Df. apply get_value_agree; [apply Wf|unfold mf_domain in Df; rewrite Df; auto|].
      unfold mf_domain in Df. rewrite Df. intros v J. rewrite obs_of_get by auto. symmetry. apply full_agrees with (d := dom); auto. }
  destruct Eo as (o' & No & Ho'). destruct (HI _ _ f No Jf) as (Nl & Nh); [rewrite Ho'; auto; apply H; auto|].
  destruct (Hlo o F) as (x & Gx & Nx). destruct (Hhi o F) as (y & Gy & Ny).
  assert (Hb : forall b, In b [low; up] -> exists s, st_restrict (if_store g) [(bound_var, b)] = Ok s /\
            exists x, get_value s o = Ok x /\ get_value (if_store g) ((bound_var, b) :: o) = Ok x).
  { intros b I. destruct (restrict_obs (if_store g) [(bound_var, b)] Wg) as (s & Es & _ & _ & _ & Hs).
    - intros v l z J E. cbn [dget] in E. destruct (eqd v bound_var) as [->|]; [|discriminate]. injection E as <-.
      rewrite Dg in J. destruct J as [J|J]; [injection J as <-; auto|]. exfalso. apply (bound_not_in dom U). apply keys_In; eauto.
    - exists s. split; [auto|]. apply Hs. rewrite Dg. intros v l J. apply (F v l).
      apply filter_In in J as [[J|J] Jn]; [|auto]. injection J as <- <-. discriminate Jn. }
  destruct (Hb low (or_introl eq_refl)) as (sl & El & x' & Hl1 & Hl2). destruct (Hb up (or_intror (or_introl eq_refl))) as (su & Eu & y' & Hu1 & Hu2).
  exists sl, su. split; [exact El|]. split; [exact Eu|]. split; congruence.
Qed.
