(** Basic facts about the python primitives. *)

From Coq Require Import String Bool Arith Lia List Permutation.
From Verif Require Import PyBase.
Import ListNotations.

Lemma Forall2_length {A B} (P : A -> B -> Prop) l1 l2 : Forall2 P l1 l2 -> length l1 = length l2.
Proof. induction 1; simpl; auto. Qed.

Lemma NoDup_app_iff {A} (l1 l2 : list A) :
  NoDup (l1 ++ l2) <-> NoDup l1 /\ NoDup l2 /\ (forall x, In x l1 -> ~ In x l2).
Proof.
  induction l1 as [|a l1 IH]; simpl.
  - split; [intros; repeat split; auto; constructor|tauto].
  - split.
    + intros ND. inversion ND; subst. apply IH in H2 as (N1 & N2 & D).
      rewrite in_app_iff in H1. repeat split; auto.
      * constructor; tauto.
      * intros x [<-|I]; [tauto|auto].
    + intros (N1 & N2 & D). inversion N1; subst. constructor.
      * rewrite in_app_iff. intros [|I]; [auto|]. apply (D a); auto.
      * apply IH. repeat split; auto.
Qed.

Lemma Forall2_impl {A B} (P Q : A -> B -> Prop) l1 l2 :
  (forall x y, P x y -> Q x y) -> Forall2 P l1 l2 -> Forall2 Q l1 l2.
Proof. intros H. induction 1; constructor; auto. Qed.

(** ** res monad *)

Lemma bind_ok {A B} (m : res A) (k : A -> res B) b :
  bind m k = Ok b <-> exists a, m = Ok a /\ k a = Ok b.
Proof.
  destruct m; simpl; split; intros H; eauto.
  - destruct H as (a' & E & H). congruence.
  - discriminate.
  - destruct H as (a' & E & H). discriminate.
Qed.

Lemma bind_assoc {A B C} (m : res A) (k : A -> res B) (h : B -> res C) :
  bind (bind m k) h = bind m (fun a => bind (k a) h).
Proof. destruct m; reflexivity. Qed.

Lemma bind_ext {A B} (m : res A) (k k' : A -> res B) :
  (forall a, k a = k' a) -> bind m k = bind m k'.
Proof. intros E. destruct m; simpl; auto. Qed.

Lemma mapM_ok {A B} (f : A -> res B) l ys :
  mapM f l = Ok ys <-> Forall2 (fun x y => f x = Ok y) l ys.
Proof.
  revert ys. induction l as [|x l IH]; intros ys; simpl.
  - split; intros H.
    + injection H as <-. constructor.
    + inversion H; subst; auto.
  - split; intros H.
    + apply bind_ok in H as (y & E & H). apply bind_ok in H as (ys' & E' & H).
      injection H as <-. constructor; auto. apply IH; auto.
    + inversion H; subst. rewrite H2. simpl.
      apply IH in H4. rewrite H4. reflexivity.
Qed.

Lemma mapM_map_ok {A B} (f : A -> res B) (g : A -> B) l :
  (forall x, In x l -> f x = Ok (g x)) -> mapM f l = Ok (map g l).
Proof.
  induction l as [|x l IH]; intros H; simpl; auto.
  rewrite H by (left; auto). simpl. rewrite IH by (intros; apply H; right; auto). reflexivity.
Qed.

Lemma mapM_ext {A B} (f g : A -> res B) l :
  (forall x, In x l -> f x = g x) -> mapM f l = mapM g l.
Proof.
  induction l as [|x l IH]; intros H; simpl; auto.
  rewrite H by (left; auto). destruct (g x); simpl; auto.
  rewrite IH by (intros; apply H; right; auto). reflexivity.
Qed.

Lemma mapM_map {A B C} (f : B -> res C) (g : A -> B) l :
  mapM f (map g l) = mapM (fun x => f (g x)) l.
Proof. induction l as [|x l IH]; simpl; auto. rewrite IH. auto. Qed.

Lemma mapM_app {A B} (f : A -> res B) l1 l2 :
  mapM f (l1 ++ l2) = (let* x := mapM f l1 in let* y := mapM f l2 in Ok (x ++ y)).
Proof.
  induction l1 as [|a l1 IH]; simpl.
  - destruct (mapM f l2); auto.
  - destruct (f a); simpl; auto. rewrite IH. destruct (mapM f l1); simpl; auto.
    destruct (mapM f l2); auto.
Qed.

Lemma mapM_length {A B} (f : A -> res B) l ys : mapM f l = Ok ys -> length ys = length l.
Proof. intros H. apply mapM_ok in H. symmetry. eapply Forall2_length; eauto. Qed.

Lemma mapM_nth {A B} (f : A -> res B) l ys i x :
  mapM f l = Ok ys -> nth_error l i = Some x ->
  exists y, nth_error ys i = Some y /\ f x = Ok y.
Proof.
  intros H. apply mapM_ok in H. revert i. induction H; intros i E.
  - destruct i; discriminate.
  - destruct i; simpl in *.
    + injection E as <-. eauto.
    + eauto.
Qed.

Lemma mapM_raise_or {A B} (f : A -> res B) l :
  (exists ys, mapM f l = Ok ys) \/ (exists x e, In x l /\ f x = Raise e /\ mapM f l = Raise e).
Proof.
  induction l as [|x l IH]; simpl; eauto.
  destruct (f x) eqn:E; simpl.
  - destruct IH as [(ys & ->)|(x' & e & I & E' & ->)]; simpl; eauto.
    right. exists x', e. auto.
  - right. exists x, e. auto.
Qed.

Lemma mapM_total {A B} (f : A -> res B) l :
  (forall x, In x l -> exists y, f x = Ok y) -> exists ys, mapM f l = Ok ys.
Proof.
  intros H. destruct (mapM_raise_or f l) as [|(x & e & I & E & _)]; auto.
  destruct (H x I) as (y & E'). congruence.
Qed.

Lemma py_nth_ok {A} (l : list A) i x : py_nth l i = Ok x <-> nth_error l i = Some x.
Proof. unfold py_nth. destruct (nth_error l i); split; congruence. Qed.

(** ** mem, index_of *)

Lemma mem_In {K} `{EqD K} (x : K) l : mem x l = true <-> In x l.
Proof.
  unfold mem. rewrite existsb_exists. split.
  - intros (y & I & E). destruct (eqd x y); congruence.
  - intros I. exists x. split; auto. destruct (eqd x x); congruence.
Qed.

Lemma mem_nIn {K} `{EqD K} (x : K) l : mem x l = false <-> ~ In x l.
Proof.
  rewrite <- mem_In. destruct (mem x l); split; try congruence; auto; intros []; auto.
Qed.

Lemma eqd_refl {K} `{EqD K} (x : K) {B} (a b : B) : (if eqd x x then a else b) = a.
Proof. destruct (eqd x x); congruence. Qed.

Lemma eqd_neq {K} `{EqD K} (x y : K) {B} (a b : B) : x <> y -> (if eqd x y then a else b) = b.
Proof. destruct (eqd x y); congruence. Qed.

Lemma index_of_Some {K} `{EqD K} (x : K) l i :
  index_of x l = Some i -> nth_error l i = Some x /\ i < length l.
Proof.
  revert i. induction l as [|y l IH]; intros i E; simpl in *; try discriminate.
  destruct (eqd x y).
  - injection E as <-. subst. split; auto. lia.
  - destruct (index_of x l) eqn:E'; try discriminate. injection E as <-.
    destruct (IH _ eq_refl). simpl. split; auto. lia.
Qed.

Lemma index_of_In {K} `{EqD K} (x : K) l : In x l -> exists i, index_of x l = Some i.
Proof.
  induction l as [|y l IH]; simpl; [tauto|]. intros I.
  destruct (eqd x y); eauto. destruct I as [->|I]; [congruence|].
  destruct (IH I) as (i & ->). eauto.
Qed.

Lemma index_of_None {K} `{EqD K} (x : K) l : index_of x l = None <-> ~ In x l.
Proof.
  split.
  - intros E I. destruct (index_of_In x l I). congruence.
  - intros N. destruct (index_of x l) eqn:E; auto. exfalso. apply N.
    apply index_of_Some in E as [E _]. eapply nth_error_In; eauto.
Qed.

Lemma index_of_nth {K} `{EqD K} (l : list K) i x :
  NoDup l -> nth_error l i = Some x -> index_of x l = Some i.
Proof.
  intros ND. revert i. induction ND as [|y l N ND IH]; intros i E; destruct i; simpl in *; try discriminate.
  - injection E as ->. destruct (eqd x x); congruence.
  - destruct (eqd x y) as [->|].
    + exfalso. apply N. eapply nth_error_In; eauto.
    + rewrite (IH i E). auto.
Qed.

Lemma index_of_inj {K} `{EqD K} (x y : K) l i :
  index_of x l = Some i -> index_of y l = Some i -> x = y.
Proof.
  intros E1 E2. apply index_of_Some in E1 as [E1 _]. apply index_of_Some in E2 as [E2 _]. congruence.
Qed.

Lemma index_of_app {K} `{EqD K} (x : K) l1 l2 :
  index_of x (l1 ++ l2) =
  match index_of x l1 with
  | Some i => Some i
  | None => match index_of x l2 with Some i => Some (length l1 + i) | None => None end
  end.
Proof.
  induction l1 as [|y l1 IH]; simpl.
  - destruct (index_of x l2); auto.
  - destruct (eqd x y); auto. rewrite IH.
    destruct (index_of x l1); auto. destruct (index_of x l2); auto.
Qed.

(** ** dictionaries *)

Section DictFacts.
  Context {K V : Type} `{EqD K}.
  Implicit Types d : dict K V.

  Lemma dget_In k v d : dget k d = Some v -> In (k, v) d.
  Proof.
    induction d as [|[k' v'] d IH]; simpl; try discriminate.
    destruct (eqd k k'); intros E.
    - injection E as ->. subst. auto.
    - auto.
  Qed.

  Lemma In_dget k v d : NoDup (keys d) -> In (k, v) d -> dget k d = Some v.
  Proof.
    induction d as [|[k' v'] d IH]; simpl; [tauto|]. intros ND I.
    inversion ND; subst. destruct (eqd k k') as [->|N].
    - destruct I as [I|I]; [congruence|]. exfalso. apply H2.
      apply (in_map fst) in I. auto.
    - destruct I as [I|I]; [congruence|]. auto.
  Qed.

  Lemma dget_keys k d : In k (keys d) <-> exists v, dget k d = Some v.
  Proof.
    induction d as [|[k' v'] d IH]; simpl.
    - split; [tauto|]. intros (v & E). discriminate.
    - destruct (eqd k k') as [->|N].
      + split; eauto.
      + rewrite <- IH. split; [intros [|]; congruence || auto|auto].
  Qed.

  Lemma dget_None k d : dget k d = None <-> ~ In k (keys d).
  Proof.
    rewrite dget_keys. destruct (dget k d); split; try congruence.
    - intros N. exfalso. eauto.
    - intros _ (v & E). congruence.
  Qed.

  Lemma dmem_In k d : dmem k d = true <-> In k (keys d).
  Proof. apply mem_In. Qed.

  Lemma dmem_false k d : dmem k d = false <-> dget k d = None.
  Proof. unfold dmem. rewrite mem_nIn, dget_None. tauto. Qed.

  Lemma dget_dset k k' v d :
    dget k (dset k' v d) = if eqd k k' then Some v else dget k d.
  Proof.
    induction d as [|[k1 v1] d IH]; simpl.
    - destruct (eqd k k'); auto.
    - destruct (eqd k' k1) as [->|N]; simpl.
      + destruct (eqd k k1); auto.
      + destruct (eqd k k1) as [->|N'].
        * destruct (eqd k1 k'); congruence.
        * apply IH.
  Qed.

  Lemma keys_dset k v d :
    keys (dset k v d) = if mem k (keys d) then keys d else keys d ++ [k].
  Proof.
    induction d as [|[k1 v1] d IH]; simpl; auto.
    unfold mem. simpl. destruct (eqd k k1) as [->|N]; simpl; auto.
    rewrite IH. unfold mem. destruct (existsb _ (keys d)); auto.
  Qed.

  Lemma NoDup_dset k v d : NoDup (keys d) -> NoDup (keys (dset k v d)).
  Proof.
    intros ND. rewrite keys_dset. destruct (mem k (keys d)) eqn:E; auto.
    apply mem_nIn in E. rewrite <- rev_involutive. apply NoDup_rev. rewrite rev_app_distr. simpl.
    constructor; [rewrite <- in_rev; auto|apply NoDup_rev; auto].
  Qed.

  Lemma dget_app k d1 d2 :
    dget k (d1 ++ d2) = match dget k d1 with Some v => Some v | None => dget k d2 end.
  Proof.
    induction d1 as [|[k1 v1] d1 IH]; simpl; auto. destruct (eqd k k1); auto.
  Qed.

  Lemma dmerge_app d1 d2 d3 : dmerge d1 (d2 ++ d3) = dmerge (dmerge d1 d2) d3.
  Proof. unfold dmerge. apply fold_left_app. Qed.

  Lemma NoDup_dmerge d1 d2 : NoDup (keys d1) -> NoDup (keys (dmerge d1 d2)).
  Proof.
    revert d1. induction d2 as [|[k v] d2 IH]; simpl; intros d1 ND; auto.
    apply IH. apply NoDup_dset; auto.
  Qed.

  Lemma dget_dmerge k d1 d2 : NoDup (keys d2) ->
    dget k (dmerge d1 d2) = match dget k d2 with Some v => Some v | None => dget k d1 end.
  Proof.
    revert d1. induction d2 as [|[k' v] d2 IH]; simpl; intros d1 ND; auto.
    inversion ND; subst. rewrite IH by auto. rewrite dget_dset.
    destruct (eqd k k') as [->|N]; auto.
    destruct (dget k' d2) eqn:E; auto. exfalso. apply H2. apply dget_keys. eauto.
  Qed.

  Lemma keys_dmerge_In k d1 d2 : In k (keys (dmerge d1 d2)) <-> In k (keys d1) \/ In k (keys d2).
  Proof.
    revert d1. induction d2 as [|[k' v] d2 IH]; simpl; intros d1; [tauto|].
    rewrite IH, keys_dset. destruct (mem k' (keys d1)) eqn:E.
    - apply mem_In in E. intuition (subst; auto).
    - rewrite in_app_iff. simpl. intuition.
  Qed.

  Lemma dget_dfilter p k d : dget k (dfilter p d) = if p k then dget k d else None.
  Proof.
    induction d as [|[k1 v1] d IH]; simpl.
    - destruct (p k); auto.
    - destruct (p k1) eqn:E; simpl.
      + destruct (eqd k k1) as [->|]; auto. rewrite E. auto.
      + destruct (eqd k k1) as [->|]; auto. rewrite E in *. auto.
  Qed.

  Lemma keys_dfilter p d : keys (dfilter p d) = filter p (keys d).
  Proof.
    induction d as [|[k1 v1] d IH]; simpl; auto. destruct (p k1); simpl; congruence.
  Qed.

  Lemma NoDup_dfilter p d : NoDup (keys d) -> NoDup (keys (dfilter p d)).
  Proof. intros ND. rewrite keys_dfilter. apply NoDup_filter; auto. Qed.

  Lemma dget_dremove k k' d : dget k (dremove k' d) = if eqd k k' then None else dget k d.
  Proof. unfold dremove. rewrite dget_dfilter. destruct (eqd k k'); auto. Qed.

  Lemma dfilter_ext p q d : (forall k, In k (keys d) -> p k = q k) -> dfilter p d = dfilter q d.
  Proof.
    intros E. induction d as [|[k v] d IH]; simpl; auto.
    rewrite (E k) by (simpl; auto). rewrite IH; auto. intros; apply E; simpl; auto.
  Qed.

  Lemma dfilter_true p d : (forall k, In k (keys d) -> p k = true) -> dfilter p d = d.
  Proof.
    intros E. induction d as [|[k v] d IH]; simpl; auto.
    rewrite (E k) by (simpl; auto). rewrite IH; auto. intros; apply E; simpl; auto.
  Qed.

  Lemma dfilter_dfilter p q d : dfilter p (dfilter q d) = dfilter (fun k => q k && p k) d.
  Proof.
    induction d as [|[k v] d IH]; simpl; auto.
    destruct (q k); simpl; [destruct (p k); simpl|]; congruence.
  Qed.

  Lemma dmerge_disjoint d1 d2 : NoDup (keys d2) ->
    (forall k, In k (keys d2) -> ~ In k (keys d1)) -> dmerge d1 d2 = d1 ++ d2.
  Proof.
    revert d1. induction d2 as [|[k v] d2 IH]; simpl; intros d1 ND D.
    - symmetry. apply app_nil_r.
    - inversion ND; subst.
      assert (E : dset k v d1 = d1 ++ [(k, v)]).
      { clear - D. assert (N : ~ In k (keys d1)) by auto. clear D.
        induction d1 as [|[k1 v1] d1 IH]; simpl; auto.
        simpl in N. destruct (eqd k k1) as [->|]; [tauto|]. rewrite IH; auto. }
      rewrite E, IH; auto.
      + rewrite <- app_assoc. auto.
      + intros k' I. unfold keys. rewrite map_app, in_app_iff. simpl.
        intros [I'|[<-|[]]]; [|contradiction]. apply (D k'); auto.
  Qed.

  Lemma dict_of_id d : NoDup (keys d) -> dict_of d = d.
  Proof. intros ND. unfold dict_of. rewrite dmerge_disjoint; auto. Qed.

  (** A merge whose second argument repeats entries of the first. *)
  Lemma dset_same k v d : dget k d = Some v -> dset k v d = d.
  Proof.
    induction d as [|[k1 v1] d IH]; simpl; try discriminate.
    destruct (eqd k k1) as [->|]; intros E.
    - congruence.
    - rewrite IH; auto.
  Qed.

  Lemma dset_new k v d : ~ In k (keys d) -> dset k v d = d ++ [(k, v)].
  Proof.
    induction d as [|[k1 v1] d IH]; simpl; auto. intros N.
    destruct (eqd k k1) as [->|]; [tauto|]. rewrite IH; auto.
  Qed.

  (** Merge of dictionaries that agree on shared keys: the first followed by the
      new entries of the second. *)
  Lemma dmerge_agree d1 d2 : NoDup (keys d2) ->
    (forall k v v', dget k d1 = Some v -> dget k d2 = Some v' -> v = v') ->
    dmerge d1 d2 = d1 ++ dfilter (fun k => negb (dmem k d1)) d2.
  Proof.
    revert d1. induction d2 as [|[k v] d2 IH]; simpl; intros d1 ND A.
    - symmetry. apply app_nil_r.
    - inversion ND; subst.
      destruct (dmem k d1) eqn:M; simpl.
      + apply dmem_In, dget_keys in M as (v' & E).
        assert (v' = v). { apply (A k); auto. rewrite eqd_refl. auto. }
        subst v'. rewrite dset_same by auto. apply IH; auto.
        intros k' w w' E1 E2. apply (A k'); auto.
        destruct (eqd k' k) as [->|]; auto. exfalso. apply H2. apply dget_keys; eauto.
      + apply dmem_false in M. rewrite dset_new by (apply dget_None; auto).
        rewrite IH; auto.
        * rewrite <- app_assoc. simpl. f_equal. f_equal.
          apply dfilter_ext. intros k' I. f_equal.
          unfold dmem, mem, keys. rewrite map_app, existsb_app. simpl.
          destruct (eqd k' k) as [->|]; [exfalso; auto|]. rewrite !orb_false_r. auto.
        * intros k' w w' E1 E2. rewrite dget_app in E1.
          destruct (dget k' d1) eqn:E3.
          { injection E1 as ->. apply (A k'); auto.
            destruct (eqd k' k) as [->|]; auto. congruence. }
          simpl in E1. destruct (eqd k' k) as [->|]; try discriminate.
          exfalso. apply H2. apply dget_keys; eauto.
  Qed.

  Lemma NoDup_keys_app_inv d1 d2 : NoDup (keys (d1 ++ d2)) -> NoDup (keys d1) /\ NoDup (keys d2).
  Proof.
    unfold keys. rewrite map_app. intros ND. apply NoDup_app_iff in ND. tauto.
  Qed.

  Lemma vals_In d v : In v (vals d) <-> exists k, In (k, v) d.
  Proof.
    unfold vals. rewrite in_map_iff. split.
    - intros ((k & v') & <- & I). eauto.
    - intros (k & I). exists (k, v). auto.
  Qed.

  Lemma keys_In d k : In k (keys d) <-> exists v, In (k, v) d.
  Proof.
    unfold keys. rewrite in_map_iff. split.
    - intros ((k' & v') & <- & I). eauto.
    - intros (v & I). exists (k, v). auto.
  Qed.
End DictFacts.

Lemma Forall2_impl_in {A B} (P Q : A -> B -> Prop) l1 l2 :
  (forall x y, In x l1 -> P x y -> Q x y) -> Forall2 P l1 l2 -> Forall2 Q l1 l2.
Proof.
  intros H F. induction F; constructor; auto.
  - apply H; simpl; auto.
  - apply IHF. intros; apply H; simpl; auto.
Qed.
