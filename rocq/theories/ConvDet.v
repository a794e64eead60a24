(** Facts about `has_deterministic` of causal models. *)

From Coq Require Import String Bool Arith List.
From Verif Require Import PyBase Num DomainModel NdArray StoreModel NumStore FactorModel GraphModel ModelModel
  Spec ModelSpec.
Import ListNotations.

Lemma has_deterministic_ok m endo cast : m_kind m = KScm endo cast ->
  (forall v, In v endo -> exists f, dget v (m_factors m) = Some f) ->
  exists b, scm_has_deterministic m = Ok b /\ (b = true <-> exists v f, In v endo /\ stored m v (FD f)).
Proof.
  intros K. unfold scm_has_deterministic, scm_endogenous, get_factors, stored. rewrite K. clear K.
  induction endo as [|v r IH]; intros H.
  - exists false. split; [reflexivity|]. split; [discriminate|]. intros (v & f & [] & _).
  - destruct IH as (b & E & B); [intros w I; apply H; now right|].
    destruct (H v) as [f Ef]; [now left|]. cbn [mapM]. unfold dlook at 1. rewrite Ef. cbn [bind].
    destruct (mapM (fun v => dlook v (m_factors m)) r) as [fs|e]; [|discriminate]. cbn [bind] in *.
    injection E as E. eexists. split; [reflexivity|]. cbn [existsb]. rewrite E, orb_true_iff, B. split.
    + intros [Hf|(w & g & I & S)]; [|exists w, g; split; [now right|exact S]].
      destruct f as [[g|g|]|]; try discriminate. exists v, g. split; [now left|exact Ef].
    + intros (w & g & [<-|I] & S); [left|right; eauto]. rewrite S in Ef. injection Ef as <-. reflexivity.
Qed.

Lemma has_deterministic_raises m endo cast v : m_kind m = KScm endo cast -> In v endo ->
  dget v (m_factors m) = None -> scm_has_deterministic m = Raise KeyError.
Proof.
  intros K I N. unfold scm_has_deterministic, scm_endogenous, get_factors. rewrite K. clear K.
  assert (E : mapM (fun v => dlook v (m_factors m)) endo = Raise KeyError); [|now rewrite E].
  induction endo as [|w r IH]; [destruct I|]. cbn [mapM].
  destruct I as [->|I]; [unfold dlook at 1; now rewrite N|].
  unfold dlook at 1. destruct (dget w (m_factors m)); [|reflexivity]. cbn [bind]. now rewrite (IH I).
Qed.
