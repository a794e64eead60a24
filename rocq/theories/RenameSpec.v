(** What it means to rename the variables of a model (C72). *)

From Coq Require Import String Ascii Bool Arith List.
From Verif Require Import PyBase Num DomainModel FactorModel Spec FactorSpec GraphModel GraphSpec ModelModel.
Import ListNotations.

(** The domain with its variables renamed. *)
Definition rename_dom (r : dict var var) (d : domain) : domain := map (fun vl => (rename1 r (fst vl), snd vl)) d.

(** Different variables get different names, and no name that the library
    reserves.  Variables outside the mapping keep their names. *)
Definition good_names (r : dict var var) (vs : list var) : Prop :=
  (forall x y, In x vs -> In y vs -> rename1 r x = rename1 r y -> x = y) /\
  (forall v s, In v vs -> rename1 r v <> String "_"%char s).

(** [g'] is [g] with other names. *)
Definition renamed_graph (r : dict var var) (g g' : digraph) : Prop :=
  (forall x, In x (nodes g') <-> exists v, In v (nodes g) /\ x = rename1 r v) /\
  (forall x y, arc g' x y <-> exists v w, arc g v w /\ x = rename1 r v /\ y = rename1 r w).

(** The table [f'] is [f] with other names. *)
Definition renamed_table (r : dict var var) (f f' : mfactor) : Prop :=
  mf_domain f' = rename_dom r (mf_domain f) /\ mf_right f' = map (rename1 r) (mf_right f) /\
  forall o, full (mf_domain f) o -> incl (keys o) (mf_vars f) ->
    exists x, mf_get_value f o = Ok x /\ mf_get_value f' (rename_obs r o) = Ok x.

(** An intervention and an event with other names. *)
Definition rename_pair (r : dict var var) (dt : obs * obs) : obs * obs := (rename_obs r (fst dt), rename_obs r (snd dt)).
