(** Vocabulary of the binary tree properties.  Nothing here models code, except
    that [follow] asks each node on which side a state is. *)

From Coq Require Import String Bool Arith ZArith QArith Qcanon List.
From Verif Require Import PyBase Num DomainModel NdArray StoreModel NumStore BTreeModel Spec StoreSpec.
Import ListNotations.
Local Open Scope nat_scope.

(** The leaf reached by an observation: at each node look up the state of its
    variable and ask the node for the side. *)
Fixpoint follow (t : btree) (o : obs) : res num :=
  match t with
  | BLeaf x => Ok x
  | BNode v _ _ l r =>
      let* s := dlook v o in
      let* b := is_on_left t s in
      if b then follow l o else follow r o
  end.

(** The tree gives every full observation the value the table has there. *)
Definition represents (t : btree) (table : store num) : Prop :=
  forall o, full (st_domain table) o ->
    exists x, get_value table o = Ok x /\ follow t o = Ok x.

(** A numpy table as the constructors produce it. *)
Definition is_table (T : store num) : Prop := wf_store T /\ st_type T = VNumpy.

(** All entries of the table are the same number (NaN is not equal to itself,
    but a table of one entry is constant). *)
Definition constant (T : store num) : Prop :=
  exists x, (x <> NaN \/ size (st_domain T) = 1) /\
    forall o, full (st_domain T) o -> get_value T o = Ok x.

(** The two halves of a table: the states of one variable are cut in two
    non-empty parts and each side keeps the entries of its states. *)
Definition halves (T : store num) (sp : split) : Prop :=
  let '(v, lefts, rights, TL, TR) := sp in
  exists l, In (v, l) (st_domain T) /\ lefts <> [] /\ rights <> [] /\ l = lefts ++ rights /\
    st_restrict_ext T [(v, Many lefts)] = Ok TL /\
    st_restrict_ext T [(v, Many rights)] = Ok TR.

(** A rule that always cuts a table in two halves (whichever). *)
Definition lawful (choose : store num -> res split) : Prop :=
  forall T sp, is_table T -> choose T = Ok sp -> halves T sp.

(** Entries and mass of a table of finite numbers. *)
Definition entries (T : store num) (qs : list Qc) : Prop :=
  Forall2 (fun o q => get_value T o = Ok (Fin q)) (all_assignments (st_domain T)) qs.
Definition positive_mass (T : store num) : Prop :=
  exists qs, entries T qs /\ (0 < fold_right Qcplus 0 qs)%Qc.

(** The sub-tables that the construction looks at. *)
Inductive visited (choose : store num -> res split) : store num -> store num -> Prop :=
| v_here T : visited choose T T
| v_left T v a b TL TR T' : ~ constant T -> choose T = Ok (v, a, b, TL, TR) ->
    visited choose TL T' -> visited choose T T'
| v_right T v a b TL TR T' : ~ constant T -> choose T = Ok (v, a, b, TL, TR) ->
    visited choose TR T' -> visited choose T T'.

(** The last cut of the last variable that has more than one state. *)
Definition last_cut (d : domain) (v : var) (lefts rights : list state) : Prop :=
  exists d1 x d2, d = d1 ++ (v, lefts ++ [x]) :: d2 /\ lefts <> [] /\ rights = [x] /\
    forall w m, In (w, m) d2 -> length m = 1.

(** A table of numbers none of which is negative. *)
Definition nonnegative_table (T : store num) : Prop :=
  forall o, full (st_domain T) o -> exists q, get_value T o = Ok (Fin q) /\ (0 <= q)%Qc.
(** A table of finite numbers. *)
Definition finite_table (T : store num) : Prop :=
  forall o, full (st_domain T) o -> exists q, get_value T o = Ok (Fin q).

(** The tree gives every full observation of [dom] the number at its row-major
    position in [fl]. *)
Definition tree_of (t : btree) (dom : domain) (fl : list num) : Prop :=
  forall o, full dom o -> exists x, nth_error fl (rowpos dom o) = Some x /\ follow t o = Ok x.
