(** Vocabulary of the statements about the gradient learner. *)

From Coq Require Import String ZArith QArith Qcanon List.
From Verif Require Import PyBase Num DomainModel NdArray StoreModel FactorModel GraphModel ModelModel Spec FactorSpec GraphSpec ModelSpec NetSpec LearnModel EmSpec.
Import ListNotations.

(** The states of [U] in [D]. *)
Definition states_of (D : domain) (U : var) : list state := match dget U D with Some l => l | None => [] end.
(** The probability of the states of the children of [U] in [o], given the
    states of their other parents in [o], if the states of [U] have the
    probabilities [theta]. *)
Definition mixture (D : domain) (F : var -> mfactor) (g : digraph) (U : var) (theta : list Qc) (o : obs) : Qc :=
  total (map (fun st => (snd st * product_of (map (fun v => entry (F v) ((U, fst st) :: o)) (succs g U)))%Qc)
             (combine (states_of D U) theta)).
(** ... of all rows of the data. *)
Definition mixtures (D : domain) (F : var -> mfactor) (g : digraph) (U : var) (theta : list Qc) (data : frame) : Qc :=
  product_of (map (fun r => mixture D F g U theta (row_obs data r)) (f_rows data)).

(** The numbers in the table of a variable without parents. *)
Definition params (D : domain) (F : var -> mfactor) (U : var) : list Qc :=
  map (fun s => entry (F U) [(U, s)]) (states_of D U).
(** A distribution over [n] states. *)
Definition distribution (n : nat) (theta : list Qc) : Prop :=
  length theta = n /\ (forall x, In x theta -> (0 <= x)%Qc) /\ total theta = 1%Qc.
(** [U] is the only exogenous parent of each of its children, whose tables are
    deterministic. *)
Definition sole_cause (g : digraph) (F : var -> mfactor) (endo : list var) (U : var) : Prop :=
  In U (nodes g) /\ ~ In U endo /\
  (forall v w, arc g U v -> arc g w v -> ~ In w endo -> w = U) /\ (forall v, arc g U v -> zero_one (F v)).
(** No name of a variable is part of the name [U], except [U] itself. *)
Definition name_apart (m : pgm) (U : var) : Prop :=
  forall w a b, In w (keys (m_domains m)) -> U = (a ++ w ++ b)%string -> w = U.

(** The value of the objective at parameters that give the data the probability
    [p]: infinite for 0. *)
Definition cost {L : Type} (lopp : L -> L) (lg : Qc -> L) (p : Qc) : option L :=
  if Qc_eq_dec p 0 then None else Some (lopp (lg p)).
(** Comparing values of the objective, None being infinity. *)
Definition no_worse {L : Type} (lle : L -> L -> Prop) (x y : option L) : Prop :=
  match x, y with
  | _, None => True
  | None, Some _ => False
  | Some a, Some b => lle a b
  end.
(** An order of logarithms: a smaller negative logarithm is that of a larger
    number. *)
Definition orders {L : Type} (lopp : L -> L) (lg : Qc -> L) (lle : L -> L -> Prop) : Prop :=
  forall a b, (0 < a)%Qc -> (0 < b)%Qc -> lle (lopp (lg a)) (lopp (lg b)) -> (b <= a)%Qc.
(** An optimiser that, from a distribution at which the objective is defined,
    returns a distribution. *)
Definition stays_feasible {L : Type} (minimize : option Z -> (list Qc -> res (option L)) -> list num -> res (list Qc)) : Prop :=
  forall k f n theta, distribution n theta -> (forall t, distribution n t -> exists c, f t = Ok c) ->
    exists theta', minimize k f (map Fin theta) = Ok theta' /\ distribution n theta'.
(** ... at which the objective is not larger than at the start. *)
Definition descends {L : Type} (lle : L -> L -> Prop)
    (minimize : option Z -> (list Qc -> res (option L)) -> list num -> res (list Qc)) : Prop :=
  forall k f n theta theta' c c', distribution n theta -> minimize k f (map Fin theta) = Ok theta' ->
    f theta = Ok c -> f theta' = Ok c' -> no_worse lle c' c.

(** The tables [F'] are those of [F], except that the table of each variable
    trained has become what the optimiser returns from the old one.  On
    distributions its objective is the negative logarithm of the probability of
    the children of the variable in the data. *)
Definition fitted {L : Type} (lopp : L -> L) (lg : Qc -> L)
    (minimize : option Z -> (list Qc -> res (option L)) -> list num -> res (list Qc)) (k : option Z)
    (D : domain) (g : digraph) (data : frame) (trained : var -> Prop) (F F' : var -> mfactor) : Prop :=
  (forall v, ~ trained v -> F' v = F v) /\
  forall U, trained U -> exists objective,
    (forall t, distribution (length (states_of D U)) t -> objective t = Ok (cost lopp lg (mixtures D F g U t data))) /\
    minimize k objective (map Fin (params D F U)) = Ok (params D F' U).
