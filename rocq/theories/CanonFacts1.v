(** Sums over all functions from a list of arguments to a list of states. *)

From Coq Require Import String Bool Arith ZArith QArith Qcanon Lia Permutation List.
From Verif Require Import PyBase Num DomainModel NumFacts PyFacts FactorFacts2 NetSem EmMath GenFacts3 NetSpec NetFacts CanonSpec.
From Coq Require Import List.
Import ListNotations.
Local Open Scope Qc_scope.

(** the product of the weights of the values of one function *)
Fixpoint pathw {A B} (W : A -> B -> Qc) (ps : list A) (row : list B) : Qc :=
  match ps, row with
  | p :: ps, s :: row => W p s * pathw W ps row
  | _, _ => 1
  end.

Lemma pathw_sum {A B} (W : A -> B -> Qc) (l : list B) ps :
  qsum (map (pathw W ps) (product (repeat l (length ps)))) = qprod (map (fun p => qsum (map (W p) l)) ps).
Proof.
  induction ps as [|p ps IH]; [cbn; ring|]. cbn [length repeat product map qprod]. rewrite <- IH. clear IH.
  generalize (product (repeat l (length ps))) as rows. intros rows. induction l as [|s l IH]; cbn [flat_map map qsum]; [ring|].
  rewrite map_app, qsum_app, IH, map_map. cbn [pathw]. rewrite qsum_scale. ring.
Qed.

Lemma pathw_map {A B} (W : A -> B -> Qc) ps (k : A -> B) : pathw W ps (map k ps) = qprod (map (fun p => W p (k p)) ps).
Proof. induction ps as [|p ps IH]; [reflexivity|]. cbn. now rewrite IH. Qed.

Section Functions.
  Context {U A B : Type}.
  Variables (eqB : forall x y : B, {x = y} + {x <> y}) (eqA : forall x y : A, {x = y} + {x <> y}).
  Variables (us : list U) (ps : list A) (l : list B) (val : U -> A -> B).
  Hypothesis Nu : NoDup us.
  Hypothesis Np : NoDup ps.
  Hypothesis Nl : NoDup l.
  Hypothesis Count : (length us = length l ^ length ps)%nat.
  Hypothesis In_l : forall u p, In u us -> In p ps -> In (val u p) l.
  Hypothesis Inj : forall u u', In u us -> In u' us -> (forall p, In p ps -> val u p = val u' p) -> u = u'.

  Definition row (u : U) : list B := map (val u) ps.

  Lemma rows_perm : Permutation (map row us) (product (repeat l (length ps))).
  Proof.
    apply NoDup_Permutation_bis.
    - apply FactorFacts2.NoDup_map_inj; [|assumption]. intros u u' I I' E. apply Inj; auto. intros p Ip.
      unfold row in E. clear - E Ip. induction ps as [|p' r IH]; [destruct Ip|]. cbn in E. injection E as E1 E2.
      destruct Ip as [<- | Ip]; auto.
    - rewrite rows_length, map_length. lia.
    - intros r I. apply in_map_iff in I as (u & <- & Iu). apply product_repeat_In. unfold row. rewrite map_length.
      split; [reflexivity|]. intros x J. apply in_map_iff in J as (p & <- & Ip). now apply In_l.
  Qed.

  Lemma sum_rows (G : list B -> Qc) : qsum (map (fun u => G (row u)) us) = qsum (map G (product (repeat l (length ps)))).
  Proof. rewrite <- (map_map row G). apply qsum_perm, Permutation_map, rows_perm. Qed.

  Lemma sum_product (W : A -> B -> Qc) :
    qsum (map (fun u => qprod (map (fun p => W p (val u p)) ps)) us) = qprod (map (fun p => qsum (map (W p) l)) ps).
  Proof.
    rewrite <- (pathw_sum W l ps), <- (sum_rows (pathw W ps)). apply (f_equal qsum), map_ext. intros u. unfold row.
    now rewrite pathw_map.
  Qed.

  Lemma select_one (h : B -> Qc) s (m : list B) : NoDup m -> In s m -> qsum (map (fun x => if eqB x s then h x else 0) m) = h s.
  Proof.
    intros N I. induction N as [|x m Nx N IH]; [destruct I|]. cbn. destruct (eqB x s) as [-> | Ne].
    - rewrite qsum_zeros; [ring|]. intros y J. destruct (eqB y s) as [-> | _]; [contradiction|reflexivity].
    - destruct I as [-> | I]; [congruence|]. rewrite IH by assumption. ring.
  Qed.

  (** the weights of the functions with the value [s] at [p0] *)
  Lemma sum_at (w : A -> B -> Qc) p0 s : In p0 ps -> In s l -> (forall p, In p ps -> qsum (map (w p) l) = 1) ->
    qsum (map (fun u => if eqB (val u p0) s then qprod (map (fun p => w p (val u p)) ps) else 0) us) = w p0 s.
  Proof.
    intros Ip Is H.
    set (W := fun p x => if eqA p p0 then (if eqB x s then w p x else 0) else w p x).
    transitivity (qsum (map (fun u => qprod (map (fun p => W p (val u p)) ps)) us)).
    { apply (f_equal qsum), map_ext. intros u. destruct (eqB (val u p0) s) as [E | N].
      - apply (f_equal qprod), map_ext. intros p. unfold W. destruct (eqA p p0) as [-> | _]; [|reflexivity].
        destruct (eqB (val u p0) s); [reflexivity|contradiction].
      - symmetry. apply qprod_zero. apply in_map_iff. exists p0. split; [|assumption]. unfold W.
        destruct (eqA p0 p0); [|congruence]. destruct (eqB (val u p0) s); [contradiction|reflexivity]. }
    rewrite sum_product. clear - Np Nl Ip Is H. induction Np as [|p r Npr Nr IH]; [destruct Ip|].
    cbn [map qprod]. destruct Ip as [-> | Ip].
    - replace (qsum (map (W p0) l)) with (w p0 s).
      2: { symmetry. unfold W. transitivity (qsum (map (fun x => if eqB x s then w p0 x else 0) l)).
           - apply (f_equal qsum), map_ext. intros x. destruct (eqA p0 p0); [reflexivity|congruence].
           - now apply (select_one (w p0)). }
      rewrite qprod_ones; [ring|]. intros p J. unfold W. destruct (eqA p p0) as [-> | _]; [contradiction|]. apply H. now right.
    - replace (qsum (map (W p) l)) with 1.
      2: { symmetry. unfold W. destruct (eqA p p0) as [-> | _]; [contradiction|]. apply (H p). now left. }
      rewrite IH; try assumption; [ring|]. intros p' J. apply H. now right.
  Qed.

  (** the distribution that another family of functions induces *)
  Section Push.
    Context {V : Type}.
    Variables (vs : list V) (r : V -> Qc) (h : V -> A -> B).
    Hypothesis h_l : forall v p, In v vs -> In p ps -> In (h v p) l.
    Hypothesis Surj : forall k : A -> B, (forall p, In p ps -> In (k p) l) -> exists u, In u us /\ forall p, In p ps -> val u p = k p.
    Definition sameb (u : U) (v : V) : bool := forallb (fun p => if eqB (val u p) (h v p) then true else false) ps.
    Definition push (u : U) : Qc := qsum (map (fun v => if sameb u v then r v else 0) vs).

    Lemma sameb_true u v : sameb u v = true <-> forall p, In p ps -> val u p = h v p.
    Proof.
      unfold sameb. rewrite forallb_forall. split; intros H p I; specialize (H p I); destruct (eqB (val u p) (h v p)); congruence.
    Qed.

    Lemma push_nonneg u : (forall v, In v vs -> 0 <= r v) -> 0 <= push u.
    Proof.
      intros H. apply qsum_nn. intros x I. apply in_map_iff in I as (v & <- & Iv). destruct (sameb u v); [now apply H|apply Qcle_refl].
    Qed.

    Lemma push_event (e : (A -> B) -> bool) : (forall k k', (forall p, In p ps -> k p = k' p) -> e k = e k') ->
      qsum (map (fun u => if e (val u) then push u else 0) us) = qsum (map (fun v => if e (h v) then r v else 0) vs).
    Proof.
      intros E. transitivity (qsum (map (fun u => qsum (map (fun v => if sameb u v then (if e (h v) then r v else 0) else 0) vs)) us)).
      { apply (f_equal qsum), map_ext. intros u. unfold push. destruct (e (val u)) eqn:Eu.
        - apply (f_equal qsum), map_ext. intros v. destruct (sameb u v) eqn:Sb; [|reflexivity].
          rewrite <- (E (val u) (h v)), Eu; [reflexivity|]. now apply sameb_true.
        - symmetry. apply qsum_zeros. intros v _. destruct (sameb u v) eqn:Sb; [|reflexivity].
          rewrite <- (E (val u) (h v)), Eu; [reflexivity|]. now apply sameb_true. }
      rewrite qsum_swap. apply (f_equal qsum), map_ext_in. intros v Iv.
      destruct (Surj (h v)) as (u0 & Iu & Hu); [intros p Ip; now apply h_l|].
      assert (G : forall c m, NoDup m -> In u0 m -> incl m us -> qsum (map (fun u => if sameb u v then c else 0) m) = c).
      { intros c m N. induction N as [|u m Nx N IH]; intros I J; [destruct I|]. cbn. destruct (sameb u v) eqn:Sb.
        - assert (u = u0).
          { apply Inj; [apply J; now left|assumption|]. intros p Ip. rewrite Hu by assumption. now apply (proj1 (sameb_true u v) Sb). }
          subst u. rewrite qsum_zeros; [ring|]. intros y Jy. destruct (sameb y v) eqn:Sy; [|reflexivity]. exfalso. apply Nx.
          replace u0 with y; [assumption|]. apply Inj; [apply J; now right|assumption|]. intros p Ip. rewrite Hu by assumption.
          now apply (proj1 (sameb_true y v) Sy).
        - destruct I as [-> | I].
          + exfalso. assert (sameb u0 v = true) by (apply sameb_true; auto). congruence.
          + rewrite IH; [ring|assumption|]. intros y Jy. apply J. now right. }
      apply (G _ us); auto. intros y; auto.
    Qed.
  End Push.
End Functions.

Lemma chance_qsum {A} (us : list A) p e : chance us p e = qsum (map (fun u => if e u then p u else 0) us).
Proof.
  unfold chance. rewrite total_qsum. induction us as [|u us IH]; [reflexivity|]. cbn. destruct (e u); cbn; rewrite IH; ring.
Qed.
