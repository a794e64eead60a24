(** A set_value that raises after it has written. *)

From Coq Require Import String Bool Arith QArith Qcanon List.
From Verif Require Import PyBase Num DomainModel NdArray StoreModel NumStore Spec StoreSpec
  HeapModel HeapSpec HeapChecks Checks.
Import ListNotations.
Local Open Scope nat_scope.
Local Open Scope string_scope.

(** the second dictionary of Y lacks the state y1 *)
Definition gap_heap : heap :=
  [CNode "Y" [(hy0, HNum (qn 1)); (hy1, HNum (qn 2))];
   CNode "Y" [(hy0, HNum (qn 3))];
   CNode "X" [(hx0, HRef 0); (hx1, HRef 1)]].
Definition gap_tree (y : num) : store num :=
  StTree hdom (Node "X" [(hx0, Node "Y" [(hy0, Leaf (qn 1)); (hy1, Leaf y)]); (hx1, Node "Y" [(hy0, Leaf (qn 3))])]).

Lemma failed_set_value : exists h s p F x o h' p' F' ob y y',
  holds h s p F /\ NoDup F /\ hs_set_value 9 s x o h = (Raise KeyError, h') /\
  holds h' s p' F' /\ get_value p ob = Ok y /\ get_value p' ob = Ok y' /\ y <> y'.
Proof.
  exists gap_heap, (mkHS VTree hdom (HRef 2)), (gap_tree (qn 2)), [2; 0; 1], (qn 9), [("Y", hy1)],
    [CNode "Y" [(hy0, HNum (qn 1)); (hy1, HNum (qn 9))]; CNode "Y" [(hy0, HNum (qn 3))]; CNode "X" [(hx0, HRef 0); (hx1, HRef 1)]],
    (gap_tree (qn 9)), [2; 0; 1], [("X", hx0); ("Y", hy1)], (qn 2), (qn 9).
  split; [hold|]. split; [apply nodupb_sound; reflexivity|]. split; [vm_compute; reflexivity|]. split; [hold|].
  split; [vm_compute; reflexivity|]. split; [vm_compute; reflexivity|]. apply qn_neq. discriminate.
Qed.
