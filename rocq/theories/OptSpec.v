(** Vocabulary of the statements about the tables at which EM stops. *)

From Coq Require Import String Bool Arith ZArith QArith Qcanon List.
From Verif Require Import PyBase Num DomainModel StoreModel FactorModel GraphModel ModelModel LearnModel
  Spec FactorSpec GraphSpec ModelSpec NetSpec EmSpec.
Import ListNotations.
Local Open Scope nat_scope.

(** The table of [v] rules nothing out: a complete assignment that agrees with a
    row of the data and that the other tables allow is allowed by it, too. *)
Definition rules_nothing_out (D : domain) (F : var -> mfactor) (data : frame) (v : var) : Prop :=
  forall r p, In r (f_rows data) -> In p (all_assignments D) -> consistent (row_obs data r) p = true ->
    (forall w, In w (keys D) -> w <> v -> entry (F w) p <> 0%Qc) -> entry (F v) p <> 0%Qc.
(** The tables [G] are those of [F] except for the one of [v], which is any
    conditional probability table. *)
Definition retabled (D : domain) (vt : vtype) (g : digraph) (F : var -> mfactor) (v : var) (G : var -> mfactor) : Prop :=
  (forall w, w <> v -> G w = F w) /\ cpt D vt v (preds g v) (G v) /\
  forall o, full (mf_domain (G v)) o -> (0 <= entry (G v) o)%Qc.
(** No other table of [v] makes the data more likely. *)
Definition best_table (D : domain) (vt : vtype) (g : digraph) (data : frame) (F : var -> mfactor) (v : var) : Prop :=
  forall G, retabled D vt g F v G -> (likelihood D G data <= likelihood D F data)%Qc.
(** The [n]-th power. *)
Definition power (x : Qc) (n : nat) : Qc := product_of (repeat x n).
