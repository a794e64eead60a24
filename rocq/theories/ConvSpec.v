(** What conversions between models preserve, and what filling a model with
    random tables needs. *)

From Coq Require Import String Bool Arith ZArith QArith Qcanon Permutation List.
From Verif Require Import PyBase Num DomainModel NdArray StoreModel NumStore FactorModel GraphModel ModelModel
  Spec StoreSpec FactorSpec GraphSpec ModelSpec NetSpec.
Import ListNotations.
Local Open Scope nat_scope.

(** The tables [F'] and [F] agree on all assignments. *)
Definition same_tables (D : domain) (F F' : var -> mfactor) : Prop :=
  forall v o, In v (keys D) -> full D o -> entry (F' v) o = entry (F v) o.
(** The tables of the model [m] are the ones of the model [m']. *)
Definition keeps_tables (m m' : pgm) : Prop := forall v f, stored m v (FM f) -> stored m' v (FM f).
(** [endo] are the variables with parents. *)
Definition children_of (g : digraph) (endo : list var) : Prop := forall v, In v endo <-> exists x, arc g x v.

(** A model whose tables may be missing: the domains recorded so far are the
    ones of [D]. *)
Definition prepared (D : domain) (m : pgm) : Prop :=
  wf_graph (m_graph m) /\ acyclic (m_graph m) /\
  keys (m_factors m) = nodes (m_graph m) /\ keys (m_domains m) = nodes (m_graph m) /\
  forall v, In v (nodes (m_graph m)) ->
    (dget v (m_factors m) = Some None /\ dget v (m_domains m) = Some None) \/
    (exists f l, stored m v f /\ has_domain m v l /\ In (v, l) D).

(** The array [xs] drawn for a table over [dom] conditional on [r]: no negative
    number (without zeros: before the sign is changed, only negative numbers), in
    every column a positive one. *)
Definition drawn_for (dom : domain) (r : list var) (allow_zero : bool) (xs : list num) : Prop :=
  length xs = size dom /\
  (forall x, In x xs -> exists q, x = Fin q /\ if allow_zero then (0 <= q)%Qc else (q < 0)%Qc) /\
  (allow_zero = true -> forall o, full (pick r dom) o -> exists p q, In p (all_assignments (drop r dom)) /\
     nth_error xs (rowpos dom (p ++ o)) = Some (Fin q) /\ (0 < q)%Qc).
