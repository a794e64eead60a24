(** Canonical equations: every distribution of response functions, and every
    conditional table, comes from a distribution of the exogenous variable. *)

From Coq Require Import String Bool Arith ZArith QArith Qcanon Lia Permutation List.
From Verif Require Import PyBase Num DomainModel NdArray StoreModel NumStore FactorModel GenModel GraphModel Spec StoreSpec FactorSpec GraphSpec GenSpec NetSpec CanonSpec
  NumFacts PyFacts BigSum StoreFacts FactorFacts FactorFacts2 FactorFacts3 PropFacts1 NetSem EmMath GenFacts2 GenFacts3 NetFacts CanonFacts1.
From Coq Require Import List.
Import ListNotations.
Local Open Scope nat_scope.
Local Open Scope list_scope.

Section Canonical.
  Variables (dom : domain) (x exo : var) (endo : list var) (l lu : list state) (vt : vtype).
  Hypothesis CV : canon_vars dom x exo endo l lu.
  Hypothesis NP : vt = VNumpy -> length endo = 1.
  Hypothesis Card : length lu = length l ^ size (order_dom dom endo).
  Let pdom := order_dom dom endo.
  Let A := all_assignments pdom.

  Lemma cv_pdom : wf_dom pdom.
  Proof. destruct CV as (W & _ & _ & N & I & _). inversion N; subst. now apply order_dom_wf. Qed.
  Lemma cv_lu : NoDup lu. Proof. destruct CV as (W & _ & I & _). apply (proj2 W exo lu I). Qed.
  Lemma cv_l : NoDup l. Proof. destruct CV as (W & I & _). apply (proj2 W x l I). Qed.
  Lemma cv_A : NoDup A. Proof. apply all_assignments_NoDup. intros v k J. apply (proj2 cv_pdom v k J). Qed.
  Lemma cv_len : length A = size pdom. Proof. unfold A. now rewrite all_assignments_length, size_prodl. Qed.

  Lemma cv_unique (val : state -> obs -> state) f : canonical_deterministic dom exo endo vt = Ok f ->
    (forall u p, In u lu -> In p A -> get_value (df_store f) ((exo, u) :: p) = Ok (val u p)) ->
    (forall u p, In u lu -> In p A -> In (val u p) l) /\
    (forall u u', In u lu -> In u' lu -> (forall p, In p A -> val u p = val u' p) -> u = u') /\
    (forall k : obs -> state, (forall p, In p A -> In (k p) l) -> exists u, In u lu /\ forall p, In p A -> val u p = k p).
  Proof.
    intros E V. destruct (canonical_ok dom x exo endo l lu vt CV NP Card) as (f' & E' & _ & _ & _ & _ & G & H).
    rewrite E in E'. injection E' as <-. fold pdom A in G, H.
    assert (VI : forall u p, In u lu -> In p A -> In (val u p) l).
    { intros u p Iu Ip. destruct (G u p Iu Ip) as (y & Ey & Iy). rewrite (V u p Iu Ip) in Ey. injection Ey as ->. assumption. }
    split; [assumption|]. split.
    - intros u u' Iu Iu' Eq. destruct (H (val u)) as (u0 & I0 & _ & Un); [auto|].
      rewrite (Un u Iu), (Un u' Iu'); [reflexivity| |auto]. intros p Ip. rewrite Eq by assumption. auto.
    - intros k Hk. destruct (H k Hk) as (u & Iu & Eu & _). exists u. split; [assumption|]. intros p Ip.
      assert (Q := Eu p Ip). rewrite (V u p Iu Ip) in Q. now injection Q.
  Qed.

  Lemma val_exists f : canonical_deterministic dom exo endo vt = Ok f -> exists val : state -> obs -> state,
    forall u p, In u lu -> In p A -> get_value (df_store f) ((exo, u) :: p) = Ok (val u p).
  Proof.
    intros E. destruct (canonical_ok dom x exo endo l lu vt CV NP Card) as (f' & E' & _ & _ & _ & _ & G & _).
    rewrite E in E'. injection E' as <-. fold pdom A in G.
    exists (fun u p => match get_value (df_store f) ((exo, u) :: p) with Ok s => s | Raise _ => u end).
    intros u p Iu Ip. destruct (G u p Iu Ip) as (y & -> & _). reflexivity.
  Qed.

  Lemma responses_ok : exists f (val : state -> obs -> state), canonical_deterministic dom exo endo vt = Ok f /\
    (forall u p, In u lu -> In p A -> get_value (df_store f) ((exo, u) :: p) = Ok (val u p)) /\
    forall (W : Type) (others : list W) (r : W -> Qc) (h : W -> obs -> state), distribution others r ->
      (forall w p, In w others -> In p A -> In (h w p) l) ->
      exists q, distribution lu q /\
        forall event : (obs -> state) -> bool, (forall k k', (forall p, In p A -> k p = k' p) -> event k = event k') ->
          chance lu q (fun u => event (val u)) = chance others r (fun w => event (h w)).
  Proof.
    destruct (canonical_ok dom x exo endo l lu vt CV NP Card) as (f & E & _). destruct (val_exists f E) as (val & V).
    exists f, val. split; [assumption|]. split; [assumption|]. intros W others r h (Rn & Rt) Hh.
    destruct (cv_unique val f E V) as (VI & VJ & VS).
    assert (PE := fun e => @push_event state obs state (fun a b => eqd a b) lu A l val cv_lu VJ W others r h Hh VS e).
    exists (push (fun a b => eqd a b) A val others r h). split.
    - split.
      + intros u Iu. now apply push_nonneg.
      + rewrite total_qsum. etransitivity; [exact (PE (fun _ => true) (fun _ _ _ => eq_refl))|].
        rewrite total_qsum in Rt. exact Rt.
    - intros e He. rewrite !chance_qsum. now apply PE.
  Qed.
End Canonical.
