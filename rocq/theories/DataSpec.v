(** Vocabulary of the statements about samples and frequencies. *)

From Coq Require Import String Bool Arith ZArith QArith Qcanon List.
From Verif Require Import PyBase Num DomainModel NdArray StoreModel NumStore FactorModel GraphModel ModelModel LearnModel
  Spec StoreSpec FactorSpec GraphSpec ModelSpec NetSpec.
Import ListNotations.
Local Open Scope nat_scope.

(** ** Samples *)

(** The states before [s] in the list. *)
Fixpoint before (s : state) (l : list state) : list state :=
  match l with [] => [] | x :: r => if eqd x s then [] else x :: before s r end.
(** The probability, given the parents' states in [o], of the states of [v]
    before [s]. *)
Definition below (f : mfactor) (v : var) (l : list state) (s : state) (o : obs) : Qc :=
  total (map (fun x => entry f ((v, x) :: o)) (before s l)).
(** The assignment [o] of the variables [vs] is the one selected by the numbers
    [u v]: for every variable, the state that covers [u v] when the states
    divide the interval from 0 to 1 in parts as long as their probabilities
    given the parents. *)
Definition selected (D : domain) (F : var -> mfactor) (u : var -> Qc) (vs : list var) (o : obs) : Prop :=
  keys o = vs /\
  forall v l, In v vs -> In (v, l) D -> exists s, dget v o = Some s /\ In s l /\
    (below (F v) v l s o <= u v)%Qc /\ (u v < below (F v) v l s o + entry (F v) o)%Qc.

(** Numbers the random generator can return. *)
Definition uniform (u : var -> nat -> Qc) : Prop := forall v i, (0 <= u v i)%Qc /\ (u v i < 1)%Qc.

(** ** Frequencies *)

(** A data frame with distinct columns whose rows have one cell per column. *)
Definition wf_frame (data : frame) : Prop :=
  NoDup (f_cols data) /\ forall r, In r (f_rows data) -> length r = length (f_cols data).
(** The row [r] has the state [s] in the column [v]. *)
Definition shows (data : frame) (r : list (option state)) (v : var) (s : state) : bool :=
  existsb (fun vc => if eqd vc (v, Some s) then true else false) (combine (f_cols data) r).
(** The number of rows that agree with [o]. *)
Definition count (data : frame) (o : obs) : nat :=
  length (filter (fun r => forallb (fun vs => shows data r (fst vs) (snd vs)) o) (f_rows data)).
(** The columns [vs] have no missing values, and only states of the domain. *)
Definition complete (data : frame) (D : domain) (vs : list var) : Prop :=
  forall r v c, In r (f_rows data) -> In v vs -> In (v, c) (combine (f_cols data) r) ->
    exists l s, In (v, l) D /\ In s l /\ c = Some s.
(** The ratio of two counts. *)
Definition ratio (a b : nat) : Qc := (Q2Qc (inject_Z (Z.of_nat a)) / Q2Qc (inject_Z (Z.of_nat b)))%Qc.
