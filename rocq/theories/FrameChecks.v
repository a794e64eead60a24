(** Decidable forms of the hypotheses about data frames and the tables of the
    examples. *)

From Coq Require Import String Bool Arith ZArith List.
From Verif Require Import PyBase PyFacts DomainModel NdArray StoreModel FactorModel LearnModel FrameModel Spec FactorSpec GenSpec FrameSpec
  DomainFacts FrameFacts.
Import ListNotations.
Local Open Scope nat_scope.

Section Table.
  Variables (D : domain) (cols : list var) (v : var) (rs : list (list state)).
  Definition distinct_rows : bool :=
    (fix go l := match l with [] => true | r :: l => negb (existsb (fun x => if list_eq_dec eqd x r then true else false) l) && go l end) (map (@removelast state) rs).
  Definition function_tableb : bool :=
    distinct_rows &&
    forallb (fun r => existsb (fun x => if list_eq_dec eqd x r then true else false) (product (map (column_states D) (cols ++ [v])))) rs &&
    forallb (fun xs => existsb (fun r => if list_eq_dec eqd (removelast r) xs then true else false) rs) (product (map (column_states D) cols)).
  Lemma distinct_rows_sound : distinct_rows = true -> NoDup (map (@removelast state) rs).
  Proof.
    unfold distinct_rows. generalize (map (@removelast state) rs) as l. induction l as [|r l IH]; [constructor|].
    intros H. apply andb_prop in H as (H1 & H2). constructor; [|now apply IH]. intros I. apply negb_true_iff in H1.
    assert (X : existsb (fun x => if list_eq_dec eqd x r then true else false) l = true); [|congruence].
    apply existsb_exists. exists r. split; [exact I|]. destruct (list_eq_dec eqd r r); congruence.
  Qed.
  Lemma function_tableb_sound : function_tableb = true -> function_table D cols v rs.
  Proof.
    intros H. apply andb_prop in H as (H & H3). apply andb_prop in H as (H1 & H2). apply distinct_rows_sound in H1.
    assert (Hr : forall r, In r rs -> exists xs y, r = xs ++ [y] /\ configuration D cols xs /\ cell D v y).
    { intros r I. rewrite forallb_forall in H2. specialize (H2 r I). apply existsb_exists in H2 as (x & Ix & E). destruct (list_eq_dec eqd x r) as [->|]; [|discriminate].
      apply configuration_product in Ix. apply Forall2_app_inv_l in Ix as (xs & ys & C & Cy & ->). inversion Cy as [|? y ? ? Hy Hn]; subst. inversion Hn; subst. eauto. }
    split; [now apply NoDup_map_inv in H1|]. split; [exact Hr|].
    intros xs C. apply configuration_product in C. rewrite forallb_forall in H3. specialize (H3 xs C). apply existsb_exists in H3 as (r & Ir & E).
    destruct (list_eq_dec eqd (removelast r) xs) as [<-|]; [|discriminate]. destruct (Hr r Ir) as (xs & y & -> & _). rewrite removelast_last. exists y.
    split; [exact Ir|]. intros y' I'. clear -H1 Ir I'.
    assert (G : forall l, NoDup (map (@removelast state) l) -> forall a b, In a l -> In b l -> removelast a = removelast b -> a = b).
    { induction l as [|z l IH]; [intros _ ? ? []|]. intros N a b [<-|Ia] [<-|Ib] E; auto; cbn [map] in N; inversion N as [|? ? Nz Nl]; subst.
      - exfalso. apply Nz. rewrite E. now apply in_map.
      - exfalso. apply Nz. rewrite <- E. now apply in_map.
      - now apply IH. }
    assert (X := G rs H1 _ _ I' Ir). rewrite !removelast_last in X. specialize (X eq_refl). now apply app_inj_tail in X.
  Qed.
End Table.

Definition known_columnsb (D : domain) (cols : list var) : bool :=
  forallb (fun v => match dget v D with Some l => distinct l && negb (length l =? 0) | None => false end) cols.
Lemma known_columnsb_sound D cols : NoDup (keys D) -> NoDup cols -> known_columnsb D cols = true -> known_columns D cols.
Proof.
  intros N Nc H. split; [exact N|]. split; [exact Nc|]. intros v I. unfold known_columnsb in H. rewrite forallb_forall in H. specialize (H v I).
  destruct (dget v D) as [l|]; [|discriminate]. apply andb_prop in H as (H1 & H2). exists l. split; [reflexivity|]. split; [|intros ->; discriminate].
  clear -H1. induction l as [|x l IH]; [constructor|]. cbn [distinct] in H1. apply andb_prop in H1 as (H1 & H2). constructor; [|now apply IH].
  apply mem_nIn. now apply negb_true_iff.
Qed.
Definition no_partb (cols : list var) (v : var) : bool := forallb (fun w => negb (UaiModel.substr_of w v)) cols.
Lemma no_partb_sound cols v : no_partb cols v = true -> no_part cols v.
Proof.
  intros H w a b I E. unfold no_partb in H. rewrite forallb_forall in H. specialize (H w I). apply negb_true_iff in H.
  assert (X : UaiModel.substr_of w v = true) by (apply part_spec; eauto). congruence.
Qed.

Local Open Scope string_scope.
(** The function X of A and U. *)
Definition D_frame : domain := [("U", [SStr "u0"; SStr "u1"]); ("A", [SInt 3%Z; SInt 1%Z]); ("X", [SStr "x0"; SStr "x1"])].
Definition rows_frame : list (list state) :=
  [[SInt 1%Z; SStr "u1"; SStr "x0"]; [SInt 3%Z; SStr "u0"; SStr "x1"]; [SInt 1%Z; SStr "u0"; SStr "x1"]; [SInt 3%Z; SStr "u1"; SStr "x1"]].
(** The function X of U. *)
Definition rows_xu : list (list state) := [[SStr "u0"; SStr "x1"]; [SStr "u1"; SStr "x0"]].

(** Read a frame and look a value up. *)
Definition read_value (r : frame * res dfactor) (o : obs) : res state := let* f := snd r in get_value (df_store f) o.
