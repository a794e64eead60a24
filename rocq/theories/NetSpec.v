(** What a discrete network is, and what its tables say about assignments. *)

From Coq Require Import String Bool Arith ZArith QArith Qcanon Permutation List.
From Verif Require Import PyBase Num DomainModel NdArray StoreModel NumStore FactorModel GraphModel ModelModel
  Spec StoreSpec FactorSpec GraphSpec ModelSpec.
Import ListNotations.
Local Open Scope nat_scope.

(** Sum and product of a list of numbers. *)
Definition total (l : list Qc) : Qc := fold_right Qcplus 0%Qc l.
Definition product_of (l : list Qc) : Qc := fold_right Qcmult 1%Qc l.

(** [f] is a conditional probability table of [v] given [ps], with finite
    values, over variables with the states [D], kept in a store of kind [vt]. *)
Definition cpt (D : domain) (vt : vtype) (v : var) (ps : list var) (f : mfactor) : Prop :=
  wf_mf f /\ mf_vtype f = vt /\ same_set (mf_left f) [v] /\ same_set (mf_right f) ps /\
  (forall w l, In (w, l) (mf_domain f) -> In (w, l) D) /\
  (forall o, full (mf_domain f) o -> exists q, mf_get_value f o = Ok (Fin q)) /\
  normalised f.

(** The model [m] is a network over the variables and states [D] whose tables
    are given by [F]: its graph is acyclic and every node has a normalised
    table conditional on its parents. *)
Definition network (m : pgm) (D : domain) (F : var -> mfactor) (vt : vtype) : Prop :=
  wf_graph (m_graph m) /\ acyclic (m_graph m) /\ wf_dom D /\
  same_set (keys D) (nodes (m_graph m)) /\
  NoDup (keys (m_factors m)) /\ same_set (keys (m_factors m)) (nodes (m_graph m)) /\
  (forall v, In v (nodes (m_graph m)) -> stored m v (FM (F v)) /\ cpt D vt v (preds (m_graph m) v) (F v)).

(** The value of a finite table at an observation. *)
Definition entry (f : mfactor) (o : obs) : Qc :=
  match mf_get_value f o with Ok (Fin q) => q | _ => 0%Qc end.

(** The product of the tables of the variables [vs] at an assignment. *)
Definition joint (F : var -> mfactor) (vs : list var) (o : obs) : Qc := product_of (map (fun v => entry (F v) o) vs).

(** The total of the joint over all assignments that agree with [o]: the
    (unnormalised) probability of [o]. *)
Definition mass (D : domain) (F : var -> mfactor) (o : obs) : Qc :=
  total (map (joint F (keys D)) (filter (consistent o) (all_assignments D))).

(** [o] gives a state of [D] to each of the variables [vs], and nothing else. *)
Definition assigns (D : domain) (vs : list var) (o : obs) : Prop := keys o = vs /\ full (pick vs D) o.

(** An iteration order of a set given as a union of lists. *)
Definition is_set_order (order : list (list var) -> list var) : Prop :=
  forall ls, NoDup (order ls) /\ same_set (order ls) (concat ls).

(** A heuristic: it succeeds on every acyclic graph and returns the variables
    to remove in some order. *)
Definition is_heuristic (heur : digraph -> list var -> dict var nat -> res (list var)) : Prop :=
  forall dag vs sizes, wf_graph dag -> acyclic dag -> NoDup vs -> incl vs (nodes dag) ->
    (forall v, In v (nodes dag) -> exists n, dget v sizes = Some n) ->
    exists order, heur dag vs sizes = Ok order /\ Permutation order vs.

(** The tables have no negative entries. *)
Definition nonnegative (D : domain) (F : var -> mfactor) : Prop :=
  forall v o, In v (keys D) -> full (mf_domain (F v)) o -> (0 <= entry (F v) o)%Qc.
