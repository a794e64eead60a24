(** graphutils.markov_blanket with hidden variables. *)

From Coq Require Import String Bool List.
From Verif Require Import PyBase DomainModel GraphModel LearnModel.
Import ListNotations.
Local Open Scope list_scope.

(** graphutils.py:103-115 [markov_blanket]; [None] and an empty [hidden] give
    the usual blanket (lines 106-110, [GraphModel.markov_blanket]), otherwise
    lines 113-114 *)
Definition markov_blanket_hidden (g : digraph) (v : var) (hidden : option (list var)) : res (list var) :=
  match hidden with
  | None | Some [] => markov_blanket g v
  | Some h =>
      let observed := filter (fun x => negb (mem x (h ++ [v]))) (nodes g) in
      dcon_nodes g v observed
  end.
