(** The tables that variable elimination creates (used by C75). *)

From Coq Require Import String Bool Arith List.
From Verif Require Import PyBase Num DomainModel StoreModel FactorModel GraphModel ModelModel InferModel GraphSpec Spec OrderSpec.
Import ListNotations.
Local Open Scope nat_scope.

(** Eliminating the variables [gone] from the tables [fs0], one after the other,
    and then multiplying the tables with [v] creates the table [t], which is the
    largest one of the round of [v]. *)
Definition creates (fs0 : list mfactor) (gone : list var) (v : var) (t : mfactor) : Prop :=
  exists fs, foldM ve_step gone fs0 = Ok fs /\ product_all (filter (fun f => mem v (mf_vars f)) fs) = Ok t.

(** [sizes] gives the number of states of every variable of [D]. *)
Definition sizes_of (D : domain) (sizes : dict var nat) : Prop :=
  forall v l, In (v, l) D -> dget v sizes = Some (length l).

(** Each of the variables [vs] is an ancestor of a variable that is not one of
    them. *)
Definition all_used (g : digraph) (vs : list var) : Prop :=
  forall v, In v vs -> exists w, walk g v w /\ ~ In w vs.
