(** The store-level properties in the vocabulary of observations. *)

From Coq Require Import String Bool Arith ZArith QArith Qcanon Lia Permutation List.
From Verif Require Import PyBase Num DomainModel NdArray StoreModel NumStore PyFacts Spec DomainFacts
  StoreSpec TreeFacts StoreFacts NumFacts StoreOps BigSum StoreMarg StoreMarg2.
Import ListNotations.
Local Open Scope nat_scope.

Lemma size_prodl d : size d = prodl (card d).
Proof. induction d as [|[v l] d IH]; cbn [size]; [reflexivity|]. rewrite card_cons, prodl_cons. congruence. Qed.

Lemma rowpos_ravel d o : full d o -> rowpos d o = ravel (card d) (coords d (asg_of o)).
Proof.
  induction d as [|[v l] d IH]; intros F; [reflexivity|].
  rewrite card_cons. cbn [rowpos coords map ravel fst snd]. fold (coords d (asg_of o)).
  rewrite IH by (intros w m I; apply F; right; auto). rewrite size_prodl. f_equal. f_equal.
  destruct (F v l (or_introl eq_refl)) as (s & G & I). unfold asg_of, over. rewrite G. reflexivity.
Qed.

(** ** C01 *)

Lemma all_assignments_In_full d o : NoDup (keys d) ->
  (In o (all_assignments d) <-> keys o = keys d /\ full d o).
Proof.
  revert o; induction d as [|[v l] d IH]; intros o ND; cbn [all_assignments].
  - split.
    + intros [<-|[]]. split; [reflexivity|]. intros ? ? [].
    + intros [K _]. destruct o; [left; auto|discriminate].
  - inversion_clear ND as [|? ? N1 N2]. rewrite in_flat_map. split.
    + intros (s & Is & Im). apply in_map_iff in Im as (o' & <- & Io). apply IH in Io as [K F]; auto.
      split; [simpl; congruence|]. intros w m [E|I].
      * injection E as <- <-. exists s. simpl. rewrite eqd_refl. auto.
      * simpl. destruct (eqd w v) as [->|N].
        { exfalso. apply N1. apply keys_In. eauto. }
        apply F; auto.
    + intros [K F]. destruct o as [|[w s] o]; [discriminate|]. simpl in K. injection K as -> K.
      destruct (F v l (or_introl eq_refl)) as (s' & G & I). simpl in G. rewrite eqd_refl in G.
      injection G as <-. exists s. split; auto. apply in_map_iff. exists o. split; auto.
      apply IH; auto. split; auto. intros w m Iw. destruct (F w m (or_intror Iw)) as (s' & G & I').
      simpl in G. rewrite eqd_neq in G by (intros ->; apply N1; apply keys_In; eauto). eauto.
Qed.

Lemma all_assignments_NoDup d : (forall v l, In (v, l) d -> NoDup l) -> NoDup (all_assignments d).
Proof.
  induction d as [|[v l] d IH]; intros H; cbn [all_assignments].
  - repeat constructor. intros [].
  - assert (Nl : NoDup l) by (eapply H; left; eauto).
    assert (Nd : NoDup (all_assignments d)) by (apply IH; intros; eapply H; right; eauto). clear H IH.
    induction Nl as [|s l I Nl IH]; simpl; [constructor|]. apply NoDup_app_iff. split; [|split; auto].
    + apply FinFun.Injective_map_NoDup; auto. intros x y E. congruence.
    + intros x Ix. apply in_map_iff in Ix as (y & <- & _). rewrite in_flat_map. intros (s' & Is & Im).
      apply in_map_iff in Im as (z & E & _). congruence.
Qed.

Lemma asg_of_keys (o : obs) (d : domain) : NoDup (keys d) -> keys o = keys d -> obs_of (keys d) (asg_of o) = o.
Proof.
  intros N K. rewrite <- K in *. clear K. induction o as [|[v s] o IH]; [reflexivity|].
  inversion_clear N as [|? ? N1 N2]. cbn [keys map obs_of]. fold (keys o).
  unfold obs_of. cbn [map fst]. f_equal.
  - unfold asg_of, over. simpl. rewrite eqd_refl. reflexivity.
  - rewrite <- IH at 2 by auto. apply map_ext_in. intros w I. unfold asg_of, over. simpl.
    rewrite eqd_neq; auto. intros ->. auto.
Qed.

Lemma enumeration_ok d : NoDup (keys d) ->
  length (assignment_space d) = size d /\
  (forall o, In o (assignment_space d) <-> keys o = keys d /\ full d o) /\
  ((forall v l, In (v, l) d -> NoDup l) -> NoDup (assignment_space d)) /\
  (forall o, keys o = keys d -> full d o -> nth_error (assignment_space d) (rowpos d o) = Some o) /\
  state_space d = map vals (assignment_space d).
Proof.
  intros N. rewrite assignment_space_all, size_prodl. split; [apply all_assignments_length|].
  split; [intros; apply all_assignments_In_full; auto|]. split; [apply all_assignments_NoDup|]. split.
  - intros o K F. rewrite rowpos_ravel, all_assignments_nth by (auto using full_valid).
    f_equal. apply asg_of_keys; auto.
  - rewrite <- assignment_space_all. unfold assignment_space. rewrite map_map.
    rewrite <- map_id at 1. apply map_ext_in. intros r I. unfold state_space in I.
    apply product_In in I. apply Forall2_length in I. unfold vals, keys in *. rewrite map_length in I.
    clear -I. revert r I. induction d as [|[v l] d IH]; intros [|x r] I; simpl in *; try discriminate; auto.
    f_equal. apply IH. lia.
Qed.

(** ** C02 *)

Lemma positions_app {A} (p : A -> bool) l1 l2 n :
  positions p (l1 ++ l2) n = positions p l1 n ++ positions p l2 (n + length l1).
Proof.
  revert n; induction l1 as [|x l1 IH]; intros n; simpl.
  - f_equal. lia.
  - rewrite IH. replace (S n + length l1) with (n + S (length l1)) by lia. destruct (p x); reflexivity.
Qed.

Lemma positions_map {A B} (f : A -> B) (p : B -> bool) l n :
  positions p (map f l) n = positions (fun x => p (f x)) l n.
Proof. revert n; induction l as [|x l IH]; intros n; simpl; auto. rewrite IH. destruct (p (f x)); auto. Qed.

Lemma positions_ext {A} (p q : A -> bool) l n : (forall x, In x l -> p x = q x) -> positions p l n = positions q l n.
Proof.
  revert n; induction l as [|x l IH]; intros n H; simpl; auto.
  rewrite IH, H; [reflexivity|left; auto|intros; apply H; right; auto].
Qed.

Lemma positions_shift {A} (p : A -> bool) l n k : positions p l (k + n) = map (Nat.add k) (positions p l n).
Proof.
  revert n; induction l as [|x l IH]; intros n; simpl; auto.
  rewrite <- Nat.add_succ_r, IH. destruct (p x); reflexivity.
Qed.

Lemma positions_false {A} (p : A -> bool) l n : (forall x, In x l -> p x = false) -> positions p l n = [].
Proof.
  revert n; induction l as [|x l IH]; intros n H; simpl; auto.
  rewrite H by (left; auto). apply IH. intros; apply H; right; auto.
Qed.

Lemma positions_blocks {A B} (p : B -> bool) (f : A -> list B) m q l n :
  (forall x, In x l -> length (f x) = m) ->
  (forall x, In x l -> positions p (f x) 0 = q x) ->
  positions p (flat_map f l) n =
  flat_map (fun ix => map (Nat.add (n + fst ix * m)) (q (snd ix))) (combine (seq 0 (length l)) l).
Proof.
  intros Hl Hq.
  enough (G : forall k, positions p (flat_map f l) (n + k * m) =
     flat_map (fun ix => map (Nat.add (n + fst ix * m)) (q (snd ix))) (combine (seq k (length l)) l)).
  { specialize (G 0). rewrite Nat.mul_0_l, Nat.add_0_r in G. exact G. }
  induction l as [|x l IH]; intros k; [reflexivity|].
  cbn [flat_map length seq combine fst snd]. rewrite positions_app.
  rewrite (Hl x (or_introl eq_refl)).
  rewrite <- (Nat.add_0_r (n + k * m)) at 1. rewrite positions_shift, Hq by (left; auto). f_equal.
  replace (n + k * m + m) with (n + S k * m) by lia. apply IH; intros; [apply Hl|apply Hq]; right; auto.
Qed.

Lemma flat_map_single {A B} (f : nat * A -> list B) l : forall k i x,
  nth_error l i = Some x -> (forall j y, nth_error l j = Some y -> j <> i -> f (k + j, y) = []) ->
  flat_map f (combine (seq k (length l)) l) = f (k + i, x).
Proof.
  induction l as [|y l IH]; intros k i x E H; [destruct i; discriminate|].
  cbn [length seq combine flat_map]. destruct i.
  - simpl in E. injection E as ->. rewrite Nat.add_0_r.
    assert (Z : flat_map f (combine (seq (S k) (length l)) l) = []).
    { assert (H' : forall j y, nth_error l j = Some y -> f (S k + j, y) = []).
      { intros j z Ej. replace (S k + j) with (k + S j) by lia. apply (H (S j)); auto. }
      clear -H'. revert k H'. induction l as [|z l IH]; intros k H'; [reflexivity|].
      cbn [length seq combine flat_map]. specialize (H' 0 z eq_refl) as Hz. rewrite Nat.add_0_r in Hz. rewrite Hz.
      apply IH. intros j w Ej. replace (S (S k) + j) with (S k + S j) by lia. apply (H' (S j)); auto. }
    rewrite Z, app_nil_r. reflexivity.
  - assert (Hy := H 0 y eq_refl ltac:(lia)). rewrite Nat.add_0_r in Hy. rewrite Hy. simpl app.
    replace (k + S i) with (S k + i) by lia. apply IH; auto.
    intros j z Ej Nj. replace (S k + j) with (k + S j) by lia. apply (H (S j)); auto; lia.
Qed.

Lemma map_flat_map' {A B C} (g : B -> C) (f : A -> list B) l :
  map g (flat_map f l) = flat_map (fun x => map g (f x)) l.
Proof. induction l; simpl; auto. rewrite map_app. congruence. Qed.

Lemma flat_map_seq_combine {A B} (f : nat -> list B) (l : list A) k :
  flat_map f (seq k (length l)) = flat_map (fun ix => f (fst ix)) (combine (seq k (length l)) l).
Proof. revert k; induction l as [|x l IH]; intros k; simpl; auto. rewrite IH. reflexivity. Qed.

Lemma positions_sel d o : NoDup (keys d) -> (forall v l, In (v, l) d -> NoDup l) -> known d o ->
  positions (consistent o) (all_assignments d) 0 = map (ravel (card d)) (product (sel d o)).
Proof.
  induction d as [|[v l] d IH]; intros ND NS K; [reflexivity|].
  inversion_clear ND as [|? ? N1 N2].
  assert (Kd : known d o) by (intros w m s I; apply K; right; auto).
  specialize (IH N2 (fun w m I => NS w m (or_intror I)) Kd).
  cbn [all_assignments sel map fst snd product]. fold (sel d o). rewrite card_cons.
  rewrite map_flat_map'.
  assert (Hlen : forall s, In s l -> length (map (cons (v, s)) (all_assignments d)) = prodl (card d)).
  { intros. rewrite map_length. apply all_assignments_length. }
  assert (Hr : forall i, map (ravel (length l :: card d)) (map (cons i) (product (sel d o))) =
     map (Nat.add (i * prodl (card d))) (map (ravel (card d)) (product (sel d o)))).
  { intros. rewrite !map_map. reflexivity. }
  destruct (dget v o) as [s0|] eqn:G.
  - assert (I0 : In s0 l) by (eapply K; eauto; left; auto).
    rewrite (positions_blocks _ _ (prodl (card d))
       (fun s => if eqd s0 s then map (ravel (card d)) (product (sel d o)) else [])); auto.
    + rewrite (flat_map_single _ l 0 (pos s0 l) s0).
      * cbn [fst snd flat_map]. rewrite eqd_refl, app_nil_r, Hr. reflexivity.
      * apply pos_nth; auto.
      * intros j y Ej Nj. cbn [snd]. rewrite eqd_neq; [reflexivity|]. intros ->. apply Nj.
        assert (X := index_of_nth l j y (NS v l (or_introl eq_refl)) Ej). unfold pos. rewrite X. auto.
    + intros s Is. rewrite positions_map. unfold consistent. cbn [forallb fst snd]. rewrite G.
      destruct (eqd s0 s) as [->|N].
      * rewrite <- IH. apply positions_ext. reflexivity.
      * apply positions_false. reflexivity.
  - rewrite (positions_blocks _ _ (prodl (card d))
       (fun s => map (ravel (card d)) (product (sel d o)))); auto.
    + rewrite flat_map_seq_combine. apply flat_map_ext. intros [i s]. cbn [fst snd].
      rewrite Hr. reflexivity.
    + intros s Is. rewrite positions_map. unfold consistent. cbn [forallb fst snd]. rewrite G.
      rewrite <- IH. apply positions_ext. reflexivity.
Qed.

Lemma index_list_positions d o : NoDup (keys d) -> (forall v l, In (v, l) d -> NoDup l) ->
  (forall v l s, In (v, l) d -> dget v o = Some s -> In s l) ->
  index_list d o = Ok (positions (consistent o) (assignment_space d) 0).
Proof.
  intros ND NS K. rewrite index_list_sel, assignment_space_all, positions_sel; auto.
Qed.

Lemma index_list_single d o : wf_dom d -> full d o -> index_list d o = Ok [rowpos d o].
Proof.
  intros W F. rewrite (index_list_full d o (asg_of o)); auto using full_valid, full_agrees.
  rewrite rowpos_ravel; auto.
Qed.

(** ** observations and assignments *)

Lemma get_full {V} (s : store V) o : wf_store s -> full (st_domain s) o ->
  exists x, look s (asg_of o) = Some x /\ get_value s o = Ok x.
Proof. apply get_value_full. Qed.

Lemma get_look {V} (s : store V) o x : wf_store s -> full (st_domain s) o ->
  (get_value s o = Ok x <-> look s (asg_of o) = Some x).
Proof. intros W F. destruct (get_full s o W F) as (y & -> & ->). split; congruence. Qed.

Lemma asg_of_app p o w : asg_of (p ++ o) w = over p (asg_of o) w.
Proof. unfold asg_of, over. rewrite dget_app. destruct (dget w p); auto. Qed.

Lemma full_incl d d' o : (forall v l, In (v, l) d' -> In (v, l) d) -> full d o -> full d' o.
Proof. intros H F v l I. apply F; auto. Qed.

Lemma wf_pick vs d : wf_dom d -> wf_dom (pick vs d).
Proof. apply (wf_dom_filter (fun v => mem v vs)). Qed.
Lemma wf_drop vs d : wf_dom d -> wf_dom (drop vs d).
Proof. apply (wf_dom_filter (fun v => negb (mem v vs))). Qed.

Lemma full_app_within vs d p o : wf_dom d -> In p (all_assignments (pick vs d)) -> full (drop vs d) o ->
  full d (p ++ o).
Proof.
  intros W I F v l Iv. rewrite dget_app.
  apply all_assignments_In_full in I as [K Fp]; [|apply wf_pick; auto].
  destruct (mem v vs) eqn:M.
  - destruct (Fp v l) as (s & G & Is); [apply filter_In; auto|]. rewrite G. eauto.
  - destruct (dget v p) as [s|] eqn:G.
    + exfalso. assert (X : In v (keys p)) by (apply dget_keys; eauto). rewrite K in X.
      unfold pick in X. apply keys_In in X as (m & X). apply filter_In in X as [_ X]. simpl in X. congruence.
    + apply F. apply filter_In. simpl. rewrite M. auto.
Qed.

Lemma join_dmerge d1 d2 : wf_dom d1 -> wf_dom d2 -> compatible d1 d2 -> dmerge d1 d2 = join d1 d2.
Proof.
  intros W1 W2 C. rewrite dmerge_agree; [reflexivity|apply W2|].
  intros k x y A B. eapply C; apply dget_In; eauto.
Qed.

Lemma full_join_l d1 d2 o : full (join d1 d2) o -> full d1 o.
Proof. intros F v l I. apply F. apply in_or_app; auto. Qed.

Lemma full_join_r d1 d2 o : compatible d1 d2 -> full (join d1 d2) o -> full d2 o.
Proof.
  intros C F v l I. destruct (mem v (keys d1)) eqn:M.
  - apply mem_In in M. apply keys_In in M as (m & M). assert (X := C v m l M I). subst m. apply F. apply in_or_app. auto.
  - apply F. apply in_or_app. right. apply filter_In. simpl. rewrite M. auto.
Qed.

(** ** C04 *)

Lemma set_value_obs {V} (s : store V) x o : wf_store s -> full (st_domain s) o ->
  exists s', st_set_value s x o = Ok s' /\ wf_store s' /\
    st_domain s' = st_domain s /\ st_type s' = st_type s /\
    forall o', full (st_domain s) o' ->
      ((forall v, In v (keys (st_domain s)) -> dget v o' = dget v o) -> get_value s' o' = Ok x) /\
      ((exists v, In v (keys (st_domain s)) /\ dget v o' <> dget v o) ->
         get_value s' o' = get_value s o').
Proof.
  intros W F. destruct (st_set_value_ok s x o (asg_of o)) as (s' & E & W' & T & D & L1 & L2);
    auto using full_valid, full_agrees.
  exists s'. split; [auto|]. split; [auto|]. split; [auto|]. split; [auto|]. intros o' F'. split.
  - intros Eq. apply get_look; auto; [rewrite D; auto|]. rewrite <- L1. apply look_ext; auto.
    intros v I. rewrite D in I. unfold asg_of, over. rewrite Eq; auto.
  - intros (v & Iv & N).
    destruct (get_full s o' W F') as (y & Ly & Gy). rewrite Gy. apply get_look; auto; [rewrite D; auto|].
    rewrite <- Ly. apply L2; [apply full_valid; auto|]. exists v. split; auto.
    apply keys_In in Iv as (l & Iv). destruct (F v l Iv) as (a & Ga & _), (F' v l Iv) as (b & Gb & _).
    unfold asg_of, over. rewrite Ga, Gb in *. congruence.
Qed.

(** ** C05 *)

Lemma restrict_obs {V} (s : store V) o : wf_store s ->
  (forall v l x, In (v, l) (st_domain s) -> dget v o = Some x -> In x l) ->
  exists s', st_restrict s o = Ok s' /\ wf_store s' /\ st_type s' = st_type s /\
    st_domain s' = drop (keys o) (st_domain s) /\
    forall o', full (drop (keys o) (st_domain s)) o' -> 
      exists x, get_value s' o' = Ok x /\ get_value s (o ++ o') = Ok x.
Proof.
  intros W K. destruct (st_restrict_ok s o W K) as (s' & E & W' & T & D & L).
  exists s'. split; [auto|]. split; [auto|]. split; [auto|]. split; [exact D|]. intros o' F.
  assert (F' : full (st_domain s') o') by (rewrite D; exact F).
  destruct (get_full s' o' W' F') as (x & Lx & Gx). exists x. split; auto.
  assert (Ff : full (st_domain s) (o ++ o')).
  { intros v l I. rewrite dget_app. destruct (dget v o) as [y|] eqn:G; [eauto|].
    apply F. apply filter_In. split; auto. simpl. apply dget_None in G. apply mem_nIn in G. rewrite G. auto. }
  apply get_look; auto. rewrite <- Lx, L by (apply full_valid; auto).
  apply look_ext; auto. intros. apply asg_of_app.
Qed.

(** ** C06, C07 *)

Lemma combine_obs {V} zero op (s1 s2 : store V) : wf_store s1 -> wf_store s2 ->
  st_type s1 = st_type s2 -> compatible (st_domain s1) (st_domain s2) ->
  exists s, st_combine zero op s1 s2 = Ok s /\ wf_store s /\ st_type s = st_type s1 /\
    st_domain s = join (st_domain s1) (st_domain s2) /\
    forall o, full (join (st_domain s1) (st_domain s2)) o ->
      exists x y, get_value s1 o = Ok x /\ get_value s2 o = Ok y /\ get_value s o = Ok (op x y).
Proof.
  intros W1 W2 T C. destruct (st_combine_ok zero op s1 s2 W1 W2 T C) as (s & E & W & Ty & D & L).
  exists s. split; [auto|]. split; [auto|]. split; [auto|].
  assert (J := join_dmerge _ _ (proj1 W1) (proj1 W2) C).
  split; [rewrite D; auto|]. intros o F.
  destruct (get_full s1 o W1 (full_join_l _ _ _ F)) as (x & Lx & Gx).
  destruct (get_full s2 o W2 (full_join_r _ _ _ C F)) as (y & Ly & Gy).
  exists x, y. split; [auto|]. split; [auto|]. apply get_look; auto; [rewrite D, J; auto|].
  apply L; auto. rewrite J. apply full_valid; auto.
Qed.

(** ** C08, C09 *)

Lemma Forall2_map_in {A B} (P : A -> B -> Prop) (f : A -> B) l :
  (forall x, In x l -> P x (f x)) -> Forall2 P l (map f l).
Proof. induction l; simpl; intros H; constructor; [apply H; left; auto|apply IHl; intros; apply H; right; auto]. Qed.

Lemma marginalize_obs s vs : wf_store s -> NoDup vs -> incl vs (keys (st_domain s)) ->
  exists s', st_marginalize s vs = Ok s' /\ wf_store s' /\ st_type s' = st_type s /\
    st_domain s' = drop vs (st_domain s) /\
    forall o, full (drop vs (st_domain s)) o ->
      exists xs, Forall2 (fun p x => get_value s (p ++ o) = Ok x) (all_assignments (pick vs (st_domain s))) xs /\
                 get_value s' o = Ok (nsum xs).
Proof.
  intros W N I. destruct (st_marginalize_ok s vs W N I) as (s' & E & W' & T & D & L).
  exists s'. split; [auto|]. split; [auto|]. split; [auto|]. split; [exact D|]. intros o F.
  exists (map (fun p => val s (over p (asg_of o))) (all_assignments (pick vs (st_domain s)))). split.
  - apply Forall2_map_in. intros p Ip.
    assert (Fp := full_app_within vs _ p o (proj1 W) Ip F). apply get_look; auto.
    rewrite val_look by (auto using full_valid). f_equal. apply (val_ext s W).
    intros. apply asg_of_app.
  - apply get_look; auto; [rewrite D; exact F|]. rewrite L by (apply full_valid; exact F).
    rewrite nsum_bsum. reflexivity.
Qed.

Lemma finite_obs s : wf_store s ->
  (forall o, full (st_domain s) o -> exists q, get_value s o = Ok (Fin q)) -> finite s.
Proof.
  intros W H a Va.
  assert (Ag := agrees_obs_of (keys (st_domain s)) a).
  assert (Fa := valid_full _ _ _ Va Ag). destruct (H _ Fa) as (q & G). exists q.
  destruct (get_value_look s _ a W Va Ag) as (x & Lx & Gx). congruence.
Qed.

Lemma maxmarginalize_obs s vs : wf_store s ->
  (forall o, full (st_domain s) o -> exists q, get_value s o = Ok (Fin q)) ->
  NoDup vs -> incl vs (keys (st_domain s)) -> st_type s <> VNumpy1D ->
  exists s', st_maxmarginalize s vs = Ok s' /\ wf_store s' /\ st_type s' = st_type s /\
    st_domain s' = drop vs (st_domain s) /\
    forall o, full (drop vs (st_domain s)) o ->
      exists q, get_value s' o = Ok (Fin q) /\
        (exists p, In p (all_assignments (pick vs (st_domain s))) /\ get_value s (p ++ o) = Ok (Fin q)) /\
        (forall p q', In p (all_assignments (pick vs (st_domain s))) ->
           get_value s (p ++ o) = Ok (Fin q') -> (q' <= q)%Qc).
Proof.
  intros W Fi N I T1. destruct (st_maxmarginalize_ok s vs W (finite_obs s W Fi) N I T1) as (s' & E & W' & T & D & L).
  exists s'. split; [auto|]. split; [auto|]. split; [auto|]. split; [exact D|]. intros o F.
  destruct (L (asg_of o)) as (q & Lq & (b & Vb & Ob & Gb) & Mx); [apply full_valid; exact F|].
  exists q. split; [apply get_look; auto; rewrite D; exact F|].
  assert (OV : forall b p, p = obs_of (keys (pick vs (st_domain s))) b -> valid (st_domain s) b ->
      (forall w, ~ In w vs -> b w = asg_of o w) -> 
      In p (all_assignments (pick vs (st_domain s))) /\
      forall w, In w (keys (st_domain s)) -> asg_of (p ++ o) w = b w).
  { intros b' p -> Vb' Hb'. split.
    - apply all_assignments_In_full; [apply wf_pick, W|]. split.
      + unfold obs_of, keys at 1. rewrite map_map. simpl. apply map_id.
      + eapply valid_full; [|apply agrees_obs_of]. intros v l J. apply Vb'. apply filter_In in J. apply J.
    - intros w Iw. rewrite asg_of_app, over_obs_of. destruct (mem w (keys (pick vs (st_domain s)))) eqn:M; auto.
      rewrite Hb'; auto. intros Iv. apply mem_nIn in M. apply M.
      apply keys_In in Iw as (l & Iw). apply keys_In. exists l. apply filter_In. split; auto.
      apply mem_In; auto. }
  split.
  - destruct (OV b _ eq_refl Vb Ob) as [Ip Hp].
    eexists. split; [exact Ip|]. apply get_look; auto; [eapply full_app_within; eauto; apply W|].
    rewrite <- Gb. apply look_ext; auto.
  - intros p q' Ip G. assert (Fp := full_app_within vs _ p o (proj1 W) Ip F).
    apply get_look in G; auto. eapply (Mx (asg_of (p ++ o))); eauto; [apply full_valid; auto|].
    intros w Nw. rewrite asg_of_app. apply over_outside with (d := st_domain s) (vs := vs); auto.
Qed.
