(** Sums over all assignments of a domain, in an arbitrary commutative monoid. *)

From Coq Require Import String Bool Arith ZArith Lia List Permutation.
From Verif Require Import PyBase PyFacts DomainModel Spec DomainFacts TreeFacts TreeFacts2.
Import ListNotations.

(** Functions of an assignment that depend only on the states. *)
Definition ext_fun {M} (g : asg -> M) : Prop := forall a b, (forall w, a w = b w) -> g a = g b.

(** Functions that depend only on the listed variables. *)
Definition dep {M} (vs : list var) (g : asg -> M) : Prop :=
  forall a b, (forall w, In w vs -> a w = b w) -> g a = g b.

Lemma dep_ext {M} vs (g : asg -> M) : dep vs g -> ext_fun g.
Proof. intros D a b E. apply D. auto. Qed.

Lemma dep_incl {M} vs ws (g : asg -> M) : incl vs ws -> dep vs g -> dep ws g.
Proof. intros I D a b E. apply D. auto. Qed.

Lemma upd_same a v x : upd a v x v = x.
Proof. unfold upd. apply eqd_refl. Qed.
Lemma upd_other a v x w : w <> v -> upd a v x w = a w.
Proof. intros. unfold upd. apply eqd_neq; auto. Qed.

Lemma over_cons v s o a w : ~ In v (keys o) -> over ((v, s) :: o) a w = over o (upd a v s) w.
Proof.
  intros N. unfold over. cbn [dget]. destruct (eqd w v) as [->|N'].
  - apply dget_None in N. rewrite N, upd_same. auto.
  - destruct (dget w o); auto. rewrite upd_other; auto.
Qed.

Lemma over_nil a w : over [] a w = a w.
Proof. reflexivity. Qed.

Lemma all_assignments_keys d o : In o (all_assignments d) -> keys o = keys d.
Proof.
  revert o. induction d as [|[v l] d IH]; intros o I; simpl in I.
  - destruct I as [<-|[]]. auto.
  - apply in_flat_map in I as (s & Is & I). apply in_map_iff in I as (o' & <- & I).
    simpl. f_equal. apply IH; auto.
Qed.

Section Big.
  Context {M : Type} (z : M) (add : M -> M -> M).
  Context (add_comm : forall x y, add x y = add y x)
          (add_assoc : forall x y w, add x (add y w) = add (add x y) w)
          (add_z : forall x, add z x = x).

  Fixpoint bsum (l : list M) : M := match l with [] => z | x :: r => add x (bsum r) end.

  Lemma bsum_app l1 l2 : bsum (l1 ++ l2) = add (bsum l1) (bsum l2).
  Proof. induction l1; simpl; [auto|]. rewrite IHl1. auto. Qed.

  Lemma bsum_perm l1 l2 : Permutation l1 l2 -> bsum l1 = bsum l2.
  Proof. induction 1; simpl; congruence. Qed.

  Lemma bsum_flat_map {A} (f : A -> list M) l : bsum (flat_map f l) = bsum (map (fun x => bsum (f x)) l).
  Proof. induction l; simpl; auto. rewrite bsum_app, IHl. auto. Qed.

  Lemma bsum_add {A} (f g : A -> M) l :
    bsum (map (fun x => add (f x) (g x)) l) = add (bsum (map f l)) (bsum (map g l)).
  Proof.
    induction l as [|x l IH]; simpl; auto. rewrite IH, <- !add_assoc. f_equal.
    rewrite !add_assoc. f_equal. auto.
  Qed.

  Lemma bsum_z {A} (l : list A) : bsum (map (fun _ => z) l) = z.
  Proof. induction l; simpl; auto. rewrite IHl. auto. Qed.

  Lemma bsum_swap {A B} (f : A -> B -> M) l1 l2 :
    bsum (map (fun x => bsum (map (f x) l2)) l1) = bsum (map (fun y => bsum (map (fun x => f x y) l1)) l2).
  Proof.
    induction l1 as [|x l1 IH]; simpl.
    - rewrite bsum_z. auto.
    - rewrite IH, bsum_add. auto.
  Qed.

  (** The sum of [g] over the variables of the domain [D], the other variables
      being read from [a]. *)
  Definition sumdom (D : domain) (g : asg -> M) (a : asg) : M :=
    bsum (map (fun o => g (over o a)) (all_assignments D)).

  Lemma sumdom_nil g a : ext_fun g -> sumdom [] g a = g a.
  Proof. intros E. unfold sumdom. simpl. rewrite add_comm, add_z. apply E. auto. Qed.

  Lemma sumdom_cons v l D g a : ext_fun g -> ~ In v (keys D) ->
    sumdom ((v, l) :: D) g a = bsum (map (fun s => sumdom D g (upd a v s)) l).
  Proof.
    intros E N. unfold sumdom. cbn [all_assignments].
    assert (FM : forall (h : obs -> M) (k : state -> list obs),
       map h (flat_map k l) = flat_map (fun s => map h (k s)) l).
    { intros h k. induction l as [|s l IH]; simpl; auto. rewrite map_app, IH. auto. }
    rewrite FM, bsum_flat_map. f_equal. apply map_ext. intros s.
    f_equal. rewrite map_map. apply map_ext_in. intros o I. apply E. intros w. apply over_cons.
    rewrite (all_assignments_keys _ _ I). auto.
  Qed.

  Lemma sumdom_ext D g h a : (forall o, In o (all_assignments D) -> g (over o a) = h (over o a)) ->
    sumdom D g a = sumdom D h a.
  Proof. intros E. unfold sumdom. f_equal. apply map_ext_in. auto. Qed.

  Lemma over_ext o a b : (forall w, a w = b w) -> forall w, over o a w = over o b w.
  Proof. intros E w. unfold over. destruct (dget w o); auto. Qed.

  Lemma sumdom_ext_fun D g : ext_fun g -> ext_fun (sumdom D g).
  Proof.
    intros E a b H. unfold sumdom. f_equal. apply map_ext. intros o. apply E. apply over_ext; auto.
  Qed.

  Lemma sumdom_dep D g vs : dep vs g -> dep (filter (fun v => negb (mem v (keys D))) vs) (sumdom D g).
  Proof.
    intros E a b H. unfold sumdom. f_equal. apply map_ext_in. intros o I. apply E. intros w Iw.
    unfold over. destruct (dget w o) eqn:G; auto. apply H. apply filter_In. split; auto.
    apply dget_None in G. rewrite (all_assignments_keys _ _ I) in G. apply negb_true_iff, mem_nIn; auto.
  Qed.

  Lemma sumdom_add D g h a : sumdom D (fun a => add (g a) (h a)) a = add (sumdom D g a) (sumdom D h a).
  Proof. unfold sumdom. rewrite bsum_add. auto. Qed.

  Lemma upd_comm a v x w y : v <> w -> forall u, upd (upd a v x) w y u = upd (upd a w y) v x u.
  Proof. intros N u. unfold upd. destruct (eqd u w) as [->|]; auto. rewrite eqd_neq; auto. Qed.

  (** Pull any variable out of the sum. *)
  Lemma sumdom_pull v l D g a : ext_fun g -> NoDup (keys D) -> In (v, l) D ->
    sumdom D g a = bsum (map (fun s => sumdom (dremove v D) g (upd a v s)) l).
  Proof.
    intros E. revert a. induction D as [|[w m] D IH]; intros a ND I; [destruct I|].
    simpl in ND. inversion ND; subst. unfold dremove. cbn [dfilter filter fst].
    destruct I as [I|I].
    - injection I as -> ->. rewrite eqd_refl. rewrite sumdom_cons by auto.
      change (filter _ D) with (dremove v D).
      replace (dremove v D) with D; auto. symmetry. unfold dremove. apply dfilter_true.
      intros k Ik. rewrite eqd_neq; auto. intros ->. auto.
    - assert (N : w <> v). { intros ->. apply H1, keys_In. eauto. }
      rewrite (eqd_neq w v) by auto. change (filter _ D) with (dremove v D).
      rewrite sumdom_cons by auto.
      erewrite map_ext; [|intros s; apply (IH (upd a w s) H2 I)].
      rewrite bsum_swap. f_equal. apply map_ext. intros s.
      rewrite sumdom_cons; auto.
      + f_equal. apply map_ext. intros t. apply sumdom_ext_fun; auto. apply upd_comm; auto.
      + unfold dremove. rewrite keys_dfilter. intros J. apply filter_In in J. tauto.
  Qed.

  Lemma sumdom_app D1 D2 g a : ext_fun g -> NoDup (keys (D1 ++ D2)) ->
    sumdom (D1 ++ D2) g a = sumdom D1 (sumdom D2 g) a.
  Proof.
    intros E. revert a. induction D1 as [|[v l] D1 IH]; intros a ND; cbn [app].
    - rewrite sumdom_nil by (apply sumdom_ext_fun; auto). auto.
    - simpl in ND. inversion ND; subst.
      assert (N : ~ In v (keys D1)).
      { intros I. apply H1. unfold keys. rewrite map_app. apply in_app_iff. auto. }
      rewrite !sumdom_cons; auto using sumdom_ext_fun. f_equal. apply map_ext. intros s. auto.
  Qed.

  (** The sum does not depend on the order of the variables. *)
  Lemma sumdom_perm D1 D2 g a : ext_fun g -> NoDup (keys D1) -> Permutation D1 D2 ->
    sumdom D1 g a = sumdom D2 g a.
  Proof.
    intros E ND P. revert a ND. induction P as [|[v l] D1 D2 P IH|[v l] [w m] l0|D1 D2 D3 P1 IHP1 P2 IHP2]; intros a ND; auto.
    - simpl in ND. inversion ND; subst.
      rewrite !sumdom_cons; auto.
      + f_equal. apply map_ext. intros s. auto.
      + intros I. apply H1. unfold keys. eapply Permutation_in; [|exact I].
        apply Permutation_map. symmetry. auto.
    - simpl in ND. inversion ND; subst. inversion H2; subst.
      simpl in H1.
      rewrite (sumdom_cons w m) by (auto; simpl; tauto).
      rewrite (sumdom_cons v l ((w, m) :: l0)) by (auto; simpl; intros [->|]; tauto).
      erewrite map_ext; [|intros s; apply (sumdom_cons v l l0 g); auto].
      erewrite (map_ext _ _ (fun s => sumdom_cons w m l0 g (upd a v s) E ltac:(tauto))).
      rewrite bsum_swap. f_equal. apply map_ext. intros s. f_equal. apply map_ext. intros t.
      apply sumdom_ext_fun; auto. apply upd_comm. intros ->. apply H1. auto.
    - rewrite IHP1 by auto. apply IHP2. eapply Permutation_NoDup; [|exact ND].
      apply Permutation_map. auto.
  Qed.
End Big.
