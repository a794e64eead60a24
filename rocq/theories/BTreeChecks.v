(** Concrete tables for the binary tree theorems. *)

From Coq Require Import String Bool Arith ZArith QArith Qcanon Lia List.
From Verif Require Import PyBase Num DomainModel NdArray StoreModel NumStore PyFacts Spec DomainFacts
  StoreSpec StoreFacts NumFacts PropFacts1 BTreeModel BTreeSpec BTreeFacts BTreeFacts2 BTreeFacts3 BTreeFacts4
  BTreeFacts5 Checks.
Import ListNotations.
Local Open Scope nat_scope.
Local Open Scope string_scope.

Definition bA : list state := [SStr "a1"; SStr "a2"].
Definition bB : list state := [SStr "b1"; SStr "b2"; SStr "b3"; SStr "b4"].
(** btreestore.py:200-206 *)
Definition bdom : domain := [("A", bA); ("B", bB)].
Definition bvals : list num := map q [1#5; 1#5; 1#2; 1#10; 1#5; 1#5; 3#5; 0#1]%Q.
Definition btab : nd num := mkNd [2; 4] bvals.

(** The tree: B is cut from the right, A when only one state of B is left. *)
Definition btr : btree :=
  BNode "B" bB 3
    (BNode "B" [SStr "b1"; SStr "b2"; SStr "b3"] 2
       (BLeaf (q (1#5)%Q))
       (BNode "A" bA 1 (BLeaf (q (1#2)%Q)) (BLeaf (q (3#5)%Q))))
    (BNode "A" bA 1 (BLeaf (q (1#10)%Q)) (BLeaf (q (0#1)%Q))).

Lemma bdom_wf : wf_dom bdom.
Proof.
  split.
  - repeat constructor; cbn; intros H; repeat destruct H as [H|H]; try discriminate; auto.
  - intros v l [E|[E|[]]]; injection E as <- <-; split; try discriminate;
      repeat constructor; cbn; intros H; repeat destruct H as [H|H]; try discriminate; auto.
Qed.

Lemma btree_case lg : bt_init lg bdom (BArr btab) = Ok (MkB bdom (BGiven btr)).
Proof. vm_compute. reflexivity. Qed.

(** Entries 1, -1: no mass; entries 1, -2: negative mass. *)
Definition bsign (x : Q) : nd num := mkNd [2] [q 1; q x].
Lemma bsign_zero lg : bt_init lg [("A", bA)] (BArr (bsign (-1#1)%Q)) = Raise NameError.
Proof. vm_compute. reflexivity. Qed.
Lemma bsign_negative lg : bt_init lg [("A", bA)] (BArr (bsign (-2#1)%Q)) = Raise ValueError.
Proof. vm_compute. reflexivity. Qed.

Lemma states_case : exists s, st_restrict_ext (StNumpy bdom btab)
    [("B", Many [SStr "b2"; SStr "b4"])] = Ok s /\
  st_domain s = [("A", bA); ("B", [SStr "b2"; SStr "b4"])] /\
  get_value s [("A", SStr "a1"); ("B", SStr "b4")] = Ok (q (1 # 10)).
Proof. eexists. split; [vm_compute; reflexivity|]. split; [reflexivity|]. vm_compute. reflexivity. Qed.
