(** Checkers and sample factors for the non-vacuity examples about factors. *)

From Coq Require Import String Ascii Bool Arith ZArith QArith Qcanon Lia List.
From Verif Require Import PyBase Num DomainModel NdArray StoreModel NumStore FactorModel PyFacts Spec DomainFacts
  StoreSpec StoreFacts NumFacts PropFacts1 FactorSpec FactorFacts FactorFacts3 Checks.
Import ListNotations.
Local Open Scope nat_scope.

Definition usableb (d : domain) : bool :=
  wf_domb d && match check_domain d with Ok _ => true | Raise _ => false end.
Lemma usableb_sound d : usableb d = true -> usable d.
Proof.
  intros B. apply andb_true_iff in B as [B1 B2]. apply wf_domb_sound in B1. split; [auto|].
  destruct (check_domain d) as [[]|] eqn:C; [|discriminate].
  apply (check_domain_spec d (proj1 B1)) in C as [C1 C2]. split; auto.
  intros v l x y I. apply (C1 v l I).
Qed.

(** The factor with the given row-major entries and right variables. *)
Definition fac (vt : vtype) (d : domain) (l : list Q) (r : list var) : mfactor := MkM (tab vt d l) r.
Lemma fac_wf vt d l r : usableb d && (length l =? size d) && nodupb r && inclb r (keys d) = true ->
  wf_mf (fac vt d l r) /\ mf_domain (fac vt d l r) = d /\ mf_vtype (fac vt d l r) = vt.
Proof.
  rewrite !andb_true_iff, Nat.eqb_eq. intros [[[U L] N] I]. assert (Wb := U).
  apply andb_true_iff in Wb as [Wb _]. apply usableb_sound in U.
  destruct (tab_wf vt d l) as (W & D & T); auto.
  split; [|split; auto]. split; [auto|]. unfold mf_vars, mf_domain. cbn [mf_store fac]. rewrite D. split; auto.
  split; [apply nodupb_sound; auto|apply inclb_sound; auto].
Qed.

(** Domain, left and right variables and values of a result. *)
Definition view (r : res mfactor) : res (domain * list var * list var * list num) :=
  let* f := r in let* l := mf_values f in Ok (mf_domain f, mf_left f, mf_right f, l).
Definition view_eqb (r : res mfactor) (d : domain) (lv rv : list var) (l : list num) : bool :=
  match view r with
  | Ok (d', lv', rv', l') =>
      (if eqd d d' then true else false) && (if eqd lv lv' then true else false) &&
      (if eqd rv rv' then true else false) && nums_eqb l' l
  | Raise _ => false
  end.
Lemma view_ok r d lv rv l : view_eqb r d lv rv l = true -> view r = Ok (d, lv, rv, l).
Proof.
  unfold view_eqb. destruct (view r) as [[[[d' lv'] rv'] l']|]; [|discriminate].
  destruct (eqd d d'), (eqd lv lv'), (eqd rv rv'); try discriminate. intros E. apply nums_eqb_sound in E. congruence.
Qed.

(** A deterministic factor with the given function values. *)
Definition dfac (vt : vtype) (d : domain) (v : var) (xs : list state) : dfactor :=
  match df_init d (mkNd [length xs] xs) (Some [v]) None vt with Ok f => f | Raise _ => MkD [] [] (StList [] []) end.
Lemma dfac_wf vt d v l xs : wf_domb d && (length xs =? size (drop [v] d)) = true -> In (v, l) d ->
  wf_df (dfac vt d v xs) v l /\ df_domain (dfac vt d v xs) = d /\ df_vtype (dfac vt d v xs) = vt.
Proof.
  rewrite andb_true_iff, Nat.eqb_eq. intros [W L] I. apply wf_domb_sound in W.
  destruct (df_init_ok d v l xs vt W I L) as (f & E & Wf & D & T & _). unfold dfac. rewrite E. auto.
Qed.
