(** Concrete models for C72. *)

From Coq Require Import String Ascii Bool Arith ZArith QArith Qcanon List.
From Verif Require Import PyBase PyFacts Num DomainModel NdArray StoreModel NumStore FactorModel Spec StoreSpec FactorSpec GraphModel GraphSpec
  ModelModel ModelSpec NetSpec InferModel CausalModel CausalSpec Checks FactorChecks GraphChecks InferChecks CausalChecks RenameSpec.
Import ListNotations.
Local Open Scope nat_scope.

Definition good_namesb (r : dict var var) (vs : list var) : bool :=
  nodupb (map (rename1 r) (nodup eqd vs)) && negb (existsb (fun v => underscored (rename1 r v)) vs).

Lemma NoDup_map_back {A B} (f : A -> B) l : NoDup (map f l) -> forall x y, In x l -> In y l -> f x = f y -> x = y.
Proof.
  induction l as [|a l IH]; intros N x y Ix Iy E; [destruct Ix|]. cbn [map] in N. inversion N as [|? ? Na Nl]; subst.
  destruct Ix as [->|Ix], Iy as [->|Iy]; auto.
  - exfalso. apply Na. rewrite E. now apply in_map.
  - exfalso. apply Na. rewrite <- E. now apply in_map.
Qed.
Lemma good_namesb_sound r vs : good_namesb r vs = true -> good_names r vs.
Proof.
  unfold good_namesb. rewrite andb_true_iff, negb_true_iff. intros [N U]. apply nodupb_sound in N. split.
  - intros x y Ix Iy. apply (NoDup_map_back _ _ N); now apply nodup_In.
  - intros v s I E. assert (T : existsb (fun v => underscored (rename1 r v)) vs = true); [|congruence].
    apply existsb_exists. exists v. split; [auto|]. rewrite E. reflexivity.
Qed.

(** Two independent variables that get the same name. *)
Definition g_apart : digraph := mkG ["A"; "B"]%string [].
Definition D_apart : domain := [("A", [SInt 0; SInt 1]); ("B", [SInt 0; SInt 1])]%string.
Definition ts_apart : tables :=
  [("A", ([("A", [SInt 0; SInt 1])], [1#2; 1#2]%Q, [])); ("B", ([("B", [SInt 0; SInt 1])], [1#4; 3#4]%Q, []))]%string.

Lemma collision : forall vt, exists m D F r m', network m D F vt /\ m_kind m = KBn /\ length (nodes (m_graph m)) = 2 /\
  m_rename m r = Ok m' /\ nodes (m_graph m') = ["C"%string].
Proof.
  intros vt. exists (bn_of vt g_apart ts_apart), D_apart, (table_of vt ts_apart), [("A", "C"); ("B", "C")]%string.
  assert (E : nodes (m_graph (bn_of vt g_apart ts_apart)) = ["A"; "B"]%string) by (destruct vt; vm_compute; reflexivity).
  assert (N : network (bn_of vt g_apart ts_apart) D_apart (table_of vt ts_apart) vt).
  { apply network_check; [destruct vt; vm_compute; reflexivity|].
    intros v I. rewrite E in I. repeat (destruct I as [<-|I]; [destruct vt; vm_compute; reflexivity|]). destruct I. }
  destruct vt; eexists; (split; [exact N|]); repeat (split; [vm_compute; reflexivity|]); vm_compute; reflexivity.
Qed.
