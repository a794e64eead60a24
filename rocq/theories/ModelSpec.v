(** Vocabulary of the statements about model objects. *)

From Coq Require Import String Ascii Bool Arith ZArith QArith Qcanon List.
From Verif Require Import PyBase Num DomainModel NdArray StoreModel NumStore FactorModel GraphModel ModelModel
  Spec StoreSpec FactorSpec GraphSpec.
Import ListNotations.
Local Open Scope nat_scope.

(** Two lists with the same elements. *)
Definition same_set {A} (l1 l2 : list A) : Prop := forall x, In x l1 <-> In x l2.

(** A model after a sequence of set_factor calls, whether they raise or not. *)
Definition run_calls (m : pgm) (calls : list (var * fobj)) : pgm :=
  fold_left (fun m vf => fst (set_factor m (fst vf) (snd vf))) calls m.

(** A model that was just created without factors. *)
Definition is_fresh (m : pgm) : Prop :=
  (forall v, In v (nodes (m_graph m)) -> dget v (m_factors m) = Some None /\ dget v (m_domains m) = Some None) /\
  (forall v, In v (keys (m_factors m)) -> In v (nodes (m_graph m))) /\
  (forall v, In v (keys (m_domains m)) -> In v (nodes (m_graph m))).

(** The object [f] is a factor with domain [d], left variables [l] and right
    variables [r]. *)
Definition is_factor (f : fobj) (d : domain) (l r : list var) : Prop :=
  fo_domain f = Ok d /\ fo_left f = Ok l /\ fo_right f = Ok r.

(** The factor stored for [v], if any. *)
Definition stored (m : pgm) (v : var) (f : fobj) : Prop := dget v (m_factors m) = Some (Some f).
(** The domain recorded for [v], if any. *)
Definition has_domain (m : pgm) (v : var) (l : list state) : Prop := dget v (m_domains m) = Some (Some l).

(** The calls set each variable only after the domains of its parents are
    recorded. *)
Fixpoint parents_first (m : pgm) (calls : list (var * fobj)) : Prop :=
  match calls with
  | [] => True
  | (v, f) :: r => (forall p, arc (m_graph m) p v -> exists l, has_domain m p l) /\
                   parents_first (fst (set_factor m v f)) r
  end.

(** Factor objects as the constructors make them. *)
Definition wf_fobj (f : fobj) : Prop :=
  match f with
  | FM f => wf_mf f
  | FD f => (exists v l, wf_df f v l) /\ usable (df_domain f)
  | FObj => True
  end.
(** All table values are 0 or 1. *)
Definition zero_one (f : mfactor) : Prop :=
  forall o, full (mf_domain f) o -> mf_get_value f o = Ok n0 \/ mf_get_value f o = Ok n1.

(** None of the calls raises. *)
Fixpoint all_succeed (m : pgm) (calls : list (var * fobj)) : Prop :=
  match calls with
  | [] => True
  | (v, f) :: r => snd (set_factor m v f) = None /\ all_succeed (fst (set_factor m v f)) r
  end.
