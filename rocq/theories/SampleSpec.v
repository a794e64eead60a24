(** Vocabulary of the statements about the distribution of samples. *)

From Coq Require Import Bool Arith ZArith QArith Qcanon List.
From Verif Require Import PyBase Num DomainModel FactorModel LearnModel Spec NetSpec DataSpec.
Import ListNotations.

(** The samples of [n] rows over the domain. *)
Fixpoint samples (D : domain) (n : nat) : list (list obs) :=
  match n with
  | O => [[]]
  | S k => flat_map (fun o => map (cons o) (samples D k)) (all_assignments D)
  end.
(** The probability of [n] independent rows with the distribution of the model. *)
Definition likelihood (D : domain) (F : var -> mfactor) (rows : list obs) : Qc := product_of (map (joint F (keys D)) rows).
(** The probability that a sample of [n] rows satisfies [E]. *)
Definition chance (D : domain) (F : var -> mfactor) (n : nat) (E : list obs -> bool) : Qc :=
  total (map (likelihood D F) (filter E (samples D n))).

(** The region of the numbers drawn, given by an interval for each variable and
    row, and its volume. *)
Definition inside (vs : list var) (n : nat) (lo hi u : var -> nat -> Qc) : Prop :=
  forall v i, In v vs -> (i < n)%nat -> (lo v i <= u v i)%Qc /\ (u v i < hi v i)%Qc.
Definition volume (vs : list var) (n : nat) (lo hi : var -> nat -> Qc) : Qc :=
  product_of (map (fun i => product_of (map (fun v => (hi v i - lo v i)%Qc) vs)) (seq 0 n)).

(** The part of the rows that agree with [t]. *)
Definition frequency (t : obs) (rows : list obs) : Qc := ratio (length (filter (consistent t) rows)) (length rows).
(** [x] and [y] differ by [eps] or more. *)
Definition apart (eps x y : Qc) : bool :=
  if Qclt_le_dec (x - y) eps then if Qclt_le_dec (y - x) eps then false else true else true.

(** The sample as a data frame. *)
Definition frame_of (D : domain) (rows : list obs) : frame := mkF (keys D) (map (fun r => map (fun vs => Some (snd vs)) r) rows).
(** Two answers about [t]: both are numbers, less than [eps] apart, or they
    differ. *)
Definition differ (eps : Qc) (a b : res mfactor) (t : obs) : bool :=
  match a, b with
  | Ok f, Ok g => match mf_get_value f t, mf_get_value g t with Ok (Fin x), Ok (Fin y) => apart eps x y | _, _ => true end
  | _, _ => true
  end.

(** The first row agrees with the first observation, and so on. *)
Fixpoint all_match (ts : list obs) (rows : list obs) : bool :=
  match ts, rows with
  | [], [] => true
  | t :: ts, r :: rows => consistent t r && all_match ts rows
  | _, _ => false
  end.
(** The mean of [g] over all samples of [n] rows. *)
Definition mean_of (D : domain) (F : var -> mfactor) (n : nat) (g : list obs -> Qc) : Qc :=
  total (map (fun rows => (likelihood D F rows * g rows)%Qc) (samples D n)).

(** The columns [vs] of a row. *)
Definition columns (vs : list var) (r : obs) : obs := flat_map (fun v => match dget v r with Some s => [(v, s)] | None => [] end) vs.
(** The columns [vs] of the rows are [ts]. *)
Definition columns_are (vs : list var) (ts rows : list obs) : bool := if eqd (map (columns vs) rows) ts then true else false.
