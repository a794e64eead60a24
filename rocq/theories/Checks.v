(** Boolean checkers used by the non-vacuity examples, and their soundness.
    Nothing here models code. *)

From Coq Require Import String Bool Arith ZArith QArith Qcanon Lia List.
From Verif Require Import PyBase Num DomainModel NdArray StoreModel NumStore PyFacts Spec DomainFacts
  StoreSpec StoreFacts NumFacts PropFacts1.
Import ListNotations.
Local Open Scope nat_scope.

Lemma nodupb_sound {K} `{EqD K} (l : list K) : nodupb l = true -> NoDup l.
Proof.
  induction l as [|x l IH]; intros B; [constructor|]. simpl in B. apply andb_true_iff in B as [B1 B2].
  constructor; auto. apply mem_nIn. destruct (mem x l); auto; discriminate.
Qed.

Definition wf_domb (d : domain) : bool :=
  nodupb (keys d) && forallb (fun vl => nodupb (snd vl) && negb (length (snd vl) =? 0)) d.
Lemma wf_domb_sound d : wf_domb d = true -> wf_dom d.
Proof.
  intros B. apply andb_true_iff in B as [B1 B2]. split; [apply nodupb_sound; auto|].
  rewrite forallb_forall in B2. intros v l I. apply B2 in I. simpl in I. apply andb_true_iff in I as [I1 I2].
  split; [apply nodupb_sound; auto|]. intros ->. discriminate.
Qed.

Definition compatibleb (d1 d2 : domain) : bool :=
  forallb (fun vl => forallb (fun wm => negb (if eqd (fst vl) (fst wm) then true else false)
                                        || (if eqd (snd vl) (snd wm) then true else false)) d2) d1.
Lemma compatibleb_sound d1 d2 : compatibleb d1 d2 = true -> compatible d1 d2.
Proof.
  intros B v l1 l2 I1 I2. unfold compatibleb in B. rewrite forallb_forall in B.
  apply B in I1. rewrite forallb_forall in I1. apply I1 in I2. cbn [fst snd] in I2. rewrite eqd_refl in I2.
  destruct (eqd l1 l2); auto; discriminate.
Qed.

Definition fullb (d : domain) (o : obs) : bool :=
  forallb (fun vl => match dget (fst vl) o with Some s => mem s (snd vl) | None => false end) d.
Lemma fullb_sound d o : fullb d o = true -> full d o.
Proof.
  intros B v l I. unfold fullb in B. rewrite forallb_forall in B. apply B in I. cbn [fst snd] in I.
  destruct (dget v o) as [s|]; [|discriminate]. exists s. split; auto. apply mem_In; auto.
Qed.

Definition inclb {K} `{EqD K} (l1 l2 : list K) : bool := forallb (fun x => mem x l2) l1.
Lemma inclb_sound {K} `{EqD K} (l1 l2 : list K) : inclb l1 l2 = true -> incl l1 l2.
Proof. intros B x I. unfold inclb in B. rewrite forallb_forall in B. apply mem_In. auto. Qed.

(** A finite number by its rational. *)
Definition q (x : Q) : num := Fin (Q2Qc x).

Definition num_eqb (x y : num) : bool :=
  match x, y with
  | Fin a, Fin b => Qeq_bool a b
  | NaN, NaN | PInf, PInf | NInf, NInf => true
  | _, _ => false
  end.
Lemma num_eqb_sound x y : num_eqb x y = true -> x = y.
Proof.
  destruct x, y; simpl; try discriminate; auto. intros E. apply Qeq_bool_iff in E. f_equal.
  apply Qc_is_canon. auto.
Qed.

Definition okb (r : res num) (x : num) : bool := match r with Ok y => num_eqb y x | Raise _ => false end.
Lemma okb_sound r x : okb r x = true -> r = Ok x.
Proof. destruct r; simpl; try discriminate. intros E. f_equal. apply num_eqb_sound; auto. Qed.

Fixpoint nums_eqb (l1 l2 : list num) : bool :=
  match l1, l2 with
  | [], [] => true
  | x :: r1, y :: r2 => num_eqb x y && nums_eqb r1 r2
  | _, _ => false
  end.
Lemma nums_eqb_sound l1 l2 : nums_eqb l1 l2 = true -> l1 = l2.
Proof.
  revert l2; induction l1; intros [|]; simpl; try discriminate; auto. intros B.
  apply andb_true_iff in B as [B1 B2]. f_equal; auto. apply num_eqb_sound; auto.
Qed.

(** The table with the given row-major entries. *)
Definition tab (vt : vtype) (d : domain) (l : list Q) : store num :=
  match st_init vt d (DArr (mkNd (card d) (map q l))) with Ok s => s | Raise _ => StList [] [] end.
Lemma tab_wf vt d l : wf_domb d = true -> length l = size d ->
  wf_store (tab vt d l) /\ st_domain (tab vt d l) = d /\ st_type (tab vt d l) = vt.
Proof.
  intros B L. destruct (st_init_flat vt d (map q l)) as (s & E & W & D & T & _).
  - apply wf_domb_sound; auto.
  - rewrite map_length, L. apply size_prodl.
  - unfold tab. rewrite E. auto.
Qed.

(** All values of a result store in row-major order of its domain. *)
Definition listing (r : res (store num)) : res (list num) := let* s := r in values_list s.
Definition listing_okb (r : res (store num)) (l : list num) : bool :=
  match listing r with Ok l' => nums_eqb l' l | Raise _ => false end.
Lemma listing_ok r l : listing_okb r l = true -> listing r = Ok l.
Proof. unfold listing_okb. destruct (listing r); try discriminate. intros E. f_equal. apply nums_eqb_sound; auto. Qed.

(** Two small domains used by the examples. *)
Definition dA : domain := [("A", [SStr "a0"; SStr "a1"])]%string.
Definition dAB : domain := [("A", [SStr "a0"; SStr "a1"]); ("B", [SInt 0; SInt 1; SInt 2])]%string.
Definition dBC : domain := [("B", [SInt 0; SInt 1; SInt 2]); ("C", [SBool false; SBool true])]%string.
