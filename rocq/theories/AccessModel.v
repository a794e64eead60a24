(** Model of the accessors of causal models in bcause/models/cmodel.py:47-60
    and bcause/models/info.py:20-25.  [g] is the graph of the model and [endo]
    its endogenous variables. *)

From Coq Require Import String Bool List.
From Verif Require Import PyBase GraphModel.
Import ListNotations.

(** cmodel.py:47-51 [is_endogenous], [is_exogenous] *)
Definition is_endogenous (endo : list var) (x : var) : bool := mem x endo.
(** cmodel.py:50-51 [is_exogenous] *)
Definition is_exogenous (endo : list var) (x : var) : bool := negb (mem x endo).
(** cmodel.py:57-60 [get_exogenous_parents], [get_exogenous_children]
    (get_edogenous_children is in GradModel) *)
Definition exo_parents (g : digraph) (endo : list var) (v : var) : res (list var) :=
  let* p := get_parents g [v] in Ok (filter (is_exogenous endo) p).
(** cmodel.py:59-60 [get_exogenous_children] *)
Definition exo_children (g : digraph) (endo : list var) (v : var) : res (list var) :=
  let* p := get_children g [v] in Ok (filter (is_exogenous endo) p).
(** info.py:20-21 [get_exo_ccomponent], cmodel.py:112-118 *)
Definition get_exo_ccomponent (g : digraph) (endo : list var) (v : var) : res (list var) :=
  let* c := get_ccomponent g endo v in
  match c with
  | Some c => Ok (filter (fun x => mem x (exogenous g endo)) c)
  | None => Raise Unmodelled
  end.
