(** Sums over the units of two models whose exogenous variables correspond. *)

From Coq Require Import String Bool Arith ZArith QArith Qcanon Lia Permutation List.
From Verif Require Import PyBase Num DomainModel Spec NetSpec PyFacts BigSum StoreFacts PropFacts1 NumFacts NetSem EmMath.
From Coq Require Import List.
Import ListNotations.
Local Open Scope Qc_scope.
Local Open Scope list_scope.
Local Arguments eqd : simpl never.

Lemma choose_dec {K A} (dec : forall a b : K, {a = b} + {a <> b}) (x0 : A) (R : K -> A -> Prop) (L : list K) :
  (forall v, In v L -> exists x, R v x) -> exists h, forall v, In v L -> R v (h v).
Proof.
  induction L as [|v L IH]; intros Hx; [exists (fun _ => x0); intros v []|].
  destruct IH as (h & Hh); [intros w J; apply Hx; now right|]. destruct (Hx v (or_introl eq_refl)) as (x & Rx).
  exists (fun w => if dec w v then x else h w). intros w J. destruct (dec w v) as [-> | N]; [assumption|].
  destruct J as [-> | J]; [congruence|]. now apply Hh.
Qed.

Lemma qsum_flat_map {A B} (f : B -> Qc) (h : A -> list B) l : qsum (map f (flat_map h l)) = qsum (map (fun x => qsum (map f (h x))) l).
Proof. induction l as [|x l IH]; [reflexivity|]. cbn [flat_map map]. rewrite map_app, qsum_app, IH. reflexivity. Qed.

(** the weight of the states that [phi] sends to [t] *)
Definition moved (phi : state -> state) (w : state -> Qc) (l : list state) (t : state) : Qc :=
  qsum (map (fun s => if eqd (phi s) t then w s else 0) l).

Lemma moved_nonneg phi w l t : (forall s, In s l -> 0 <= w s) -> 0 <= moved phi w l t.
Proof.
  intros N. apply qsum_nn. intros x J. apply in_map_iff in J as (s & <- & J). destruct (eqd (phi s) t); [now apply N|apply Qcle_refl].
Qed.

Lemma moved_sum (G : state -> Qc) phi w l m : NoDup m -> (forall s, In s l -> In (phi s) m) ->
  qsum (map (fun t => moved phi w l t * G t) m) = qsum (map (fun s => w s * G (phi s)) l).
Proof.
  intros N I. unfold moved. induction l as [|s l IH].
  - cbn [map]. apply qsum_zeros. intros t _. cbn. ring.
  - cbn [map]. change (qsum (w s * G (phi s) :: map (fun s => w s * G (phi s)) l)) with (w s * G (phi s) + qsum (map (fun s => w s * G (phi s)) l)).
    rewrite <- IH by (intros z J; apply I; now right).
    transitivity (qsum (map (fun t => (if eqd (phi s) t then w s * G t else 0) + qsum (map (fun s => if eqd (phi s) t then w s else 0) l) * G t) m)).
    { apply (f_equal qsum), map_ext. intros t. cbn [qsum]. destruct (eqd (phi s) t); change (qsum (?a :: ?r)) with (a + qsum r); ring. }
    rewrite qsum_add. f_equal. clear IH. specialize (I s (or_introl eq_refl)). induction N as [|t m Nt N IH]; [destruct I|].
    cbn [map]. change (qsum (?a :: ?r)) with (a + qsum r). destruct (eqd (phi s) t) as [<- | Ne].
    + rewrite qsum_zeros; [ring|]. intros z J. destruct (eqd (phi s) z) as [<- | _]; [contradiction|reflexivity].
    + destruct I as [-> | I]; [congruence|]. rewrite IH by assumption. ring.
Qed.

(** the product of the weights of the states of a unit *)
Definition unit_weight (w : var -> state -> Qc) (u : obs) : Qc := qprod (map (fun xs => w (fst xs) (snd xs)) u).
Definition unit_map (phi : var -> state -> state) (u : obs) : obs := map (fun xs => (fst xs, phi (fst xs) (snd xs))) u.

Lemma moved_units (P : domain) (lu : var -> list state) phi w q : forall (G : obs -> Qc),
  (forall x l, In (x, l) P -> NoDup (lu x) /\ (forall s, In s l -> In (phi x s) (lu x)) /\
     forall t, In t (lu x) -> q x t = moved (phi x) (w x) l t) ->
  qsum (map (fun u => unit_weight q u * G u) (all_assignments (map (fun xl => (fst xl, lu (fst xl))) P))) =
  qsum (map (fun u => unit_weight w u * G (unit_map phi u)) (all_assignments P)).
Proof.
  induction P as [|[x l] P IH]; intros G Hp; [reflexivity|]. cbn [map all_assignments fst]. rewrite !qsum_flat_map.
  destruct (Hp x l (or_introl eq_refl)) as (N & I & Eq).
  transitivity (qsum (map (fun t => moved (phi x) (w x) l t * qsum (map (fun u => unit_weight w u * G ((x, t) :: unit_map phi u)) (all_assignments P))) (lu x))).
  - apply (f_equal qsum), map_ext_in. intros t J. rewrite <- (IH (fun u => G ((x, t) :: u))) by (intros y k Jy; apply Hp; now right).
    rewrite map_map, <- qsum_scale. apply (f_equal qsum), map_ext. intros u. unfold unit_weight. cbn [map qprod fst snd].
    change (qprod (?a :: ?r)) with (a * qprod r). rewrite (Eq t J). ring.
  - rewrite (moved_sum (fun t => qsum (map (fun u => unit_weight w u * G ((x, t) :: unit_map phi u)) (all_assignments P))) (phi x) (w x) l (lu x) N I).
    apply (f_equal qsum), map_ext. intros s. rewrite map_map, <- qsum_scale. apply (f_equal qsum), map_ext. intros u.
    unfold unit_weight. cbn [map fst snd]. change (qprod (?a :: ?r)) with (a * qprod r). unfold unit_map. cbn [map fst snd]. ring.
Qed.
