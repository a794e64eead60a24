(** Proofs about the utilities. *)

From Coq Require Import String Ascii DecimalString Bool Arith ZArith Permutation Lia List.
From Verif Require Import PyBase DomainModel NdArray CausalModel UaiModel UtilModel PyFacts Spec DomainFacts StoreSpec StoreFacts FactorSpec
  PropFacts1 FactorFacts2 UaiSpec UaiFacts4 CfFacts2 UtilSpec.
Import ListNotations.
Local Open Scope nat_scope.
Local Arguments eqd : simpl never.

(** ** Subsets *)

Lemma combinations_In {A} (l : list A) : forall r s, In s (combinations l r) <-> sublist s l /\ length s = r.
Proof.
  induction l as [|x l IH]; intros [|r] s; cbn [combinations].
  - split.
    + intros [<- | []]. split; [constructor|reflexivity].
    + intros [Sb L]. destruct s; [now left|discriminate].
  - split; [intros []|]. intros [Sb L]. inversion Sb; subst; discriminate.
  - split.
    + intros [<- | []]. split; [|reflexivity]. clear IH. constructor. induction l; constructor; auto.
    + intros [Sb L]. destruct s; [now left|discriminate].
  - rewrite in_app_iff, in_map_iff. split.
    + intros [(t & <- & I) | I].
      * apply IH in I as [Sb L]. split; [now constructor|cbn; now f_equal].
      * apply IH in I as [Sb L]. split; [now constructor|assumption].
    + intros [Sb L]. inversion Sb; subst.
      * left. exists s0. split; [reflexivity|]. apply IH. split; [assumption|]. cbn in L. congruence.
      * right. apply IH. split; assumption.
Qed.

Lemma sublist_incl {A} (s l : list A) : sublist s l -> incl s l.
Proof.
  induction 1; intros y I; [destruct I| |right; auto]. destruct I as [-> | I]; [now left|right; auto].
Qed.
Lemma sublist_length {A} (s l : list A) : sublist s l -> length s <= length l.
Proof. induction 1; cbn; lia. Qed.

Lemma combinations_NoDup {A} (l : list A) : NoDup l -> forall r, NoDup (combinations l r).
Proof.
  induction 1 as [|x l N ND IH]; intros [|r]; cbn [combinations]; try (repeat constructor; simpl; tauto).
  apply NoDup_app_iff. repeat split.
  - apply FinFun.Injective_map_NoDup; [intros a b E; congruence|apply IH].
  - apply IH.
  - intros s I J. apply in_map_iff in I as (t & <- & I). apply combinations_In in J as [Sb _].
    apply N, (sublist_incl _ _ Sb). now left.
Qed.

Lemma powerset_In {A} (l : list A) s : In s (powerset l) <-> sublist s l.
Proof.
  unfold powerset. rewrite in_flat_map. split.
  - intros (r & _ & I). now apply combinations_In in I as [I _].
  - intros Sb. exists (length s). split; [|now apply combinations_In]. apply in_seq.
    pose proof (sublist_length _ _ Sb). lia.
Qed.

Lemma NoDup_flat_map_len {A} (f : nat -> list (list A)) : (forall r, NoDup (f r)) -> (forall r s, In s (f r) -> length s = r) ->
  forall ks, NoDup ks -> NoDup (flat_map f ks).
Proof.
  intros H1 H2 ks. induction 1 as [|k ks N ND IH]; cbn; [constructor|]. apply NoDup_app_iff. repeat split; auto.
  intros s I J. apply in_flat_map in J as (k' & K & J). apply H2 in I. apply H2 in J. congruence.
Qed.

Lemma powerset_NoDup {A} (l : list A) : NoDup l -> NoDup (powerset l).
Proof.
  intros ND. apply NoDup_flat_map_len; [now apply combinations_NoDup| |apply seq_NoDup].
  intros r s I. now apply combinations_In in I.
Qed.

Lemma sum_ext (f g : nat -> nat) ks : (forall k, In k ks -> f k = g k) -> list_sum (map f ks) = list_sum (map g ks).
Proof. intros H. f_equal. now apply map_ext_in. Qed.
Lemma length_flat_map_sum {A B} (f : A -> list B) l : length (flat_map f l) = list_sum (map (fun x => length (f x)) l).
Proof. induction l; cbn; [reflexivity|]. rewrite app_length. now f_equal. Qed.
Lemma list_sum_add (f g : nat -> nat) ks : list_sum (map (fun k => f k + g k) ks) = list_sum (map f ks) + list_sum (map g ks).
Proof. unfold list_sum. induction ks as [|k ks IH]; cbn [map fold_right]; lia. Qed.

Lemma sum_first (f : nat -> nat) m : list_sum (map f (seq 0 (S m))) = f 0 + list_sum (map (fun k => f (S k)) (seq 0 m)).
Proof. cbn [seq]. rewrite <- seq_shift. cbn [map]. rewrite map_map. reflexivity. Qed.
Lemma combinations_total {A} (l : list A) : forall m, length l < m ->
  list_sum (map (fun k => length (combinations l k)) (seq 0 m)) = 2 ^ length l.
Proof.
  induction l as [|x l IH]; intros [|m] L; cbn in L; try lia.
  - rewrite sum_first. cbn [combinations length]. clear L. unfold list_sum.
    generalize (seq 0 m). intros ks. induction ks; cbn in *; lia.
  - rewrite sum_first.
    assert (E := IH (S m) ltac:(lia)). rewrite sum_first in E. assert (E' := IH m ltac:(lia)).
    rewrite (sum_ext _ (fun k => length (combinations l k) + length (combinations l (S k)))).
    2:{ intros k _. cbn [combinations]. now rewrite app_length, map_length. }
    rewrite list_sum_add, E'. cbn [length Nat.pow]. destruct l; cbn [combinations length] in *; lia.
Qed.
Lemma powerset_length {A} (l : list A) : length (powerset l) = 2 ^ length l.
Proof. unfold powerset. rewrite length_flat_map_sum. apply combinations_total. lia. Qed.

Lemma flat_map_sorted {A} (f : nat -> list (list A)) : (forall r s, In s (f r) -> length s = r) ->
  forall n k i j s t, nth_error (flat_map f (seq k n)) i = Some s -> nth_error (flat_map f (seq k n)) j = Some t -> i <= j -> length s <= length t.
Proof.
  intros H n. induction n as [|n IH]; intros k i j s t E1 E2 L; [destruct i; discriminate|]. cbn [seq flat_map] in E1, E2.
  destruct (Nat.lt_ge_cases i (length (f k))) as [L1 | L1], (Nat.lt_ge_cases j (length (f k))) as [L2 | L2]; try lia.
  - rewrite nth_error_app1 in E1 by assumption. rewrite nth_error_app1 in E2 by assumption.
    apply nth_error_In, H in E1. apply nth_error_In, H in E2. lia.
  - rewrite nth_error_app1 in E1 by assumption. rewrite nth_error_app2 in E2 by assumption.
    apply nth_error_In, H in E1. apply nth_error_In, in_flat_map in E2 as (r & I & E2). apply H in E2. apply in_seq in I. lia.
  - rewrite nth_error_app2 in E1 by assumption. rewrite nth_error_app2 in E2 by assumption.
    apply (IH _ _ _ _ _ E1 E2). lia.
Qed.

Lemma powerset_sorted {A} (l : list A) i j s t : nth_error (powerset l) i = Some s -> nth_error (powerset l) j = Some t ->
  i <= j -> length s <= length t.
Proof.
  unfold powerset. apply flat_map_sorted. intros r u I. now apply combinations_In in I.
Qed.

(** ** Strides *)

Lemma index_pos l s i : index_of s l = Some i -> i = match index_of s l with Some j => j | None => 0 end.
Proof. now intros ->. Qed.

Lemma steps_sum d o : NoDup (keys d) ->
  list_sum (map (fun vk => digit d o (fst vk) * snd vk) (steps_dict d)) = rowpos d o.
Proof.
  intros ND.
  assert (G : forall d' : domain, NoDup (keys d') -> (forall v, In v (keys d') -> dget v d = dget v d') ->
    list_sum (map (fun vk => digit d o (fst vk) * snd vk) (steps_dict d')) = rowpos d' o).
  { clear ND. induction d' as [|[v l] d' IH]; intros ND H; [reflexivity|].
    unfold steps_dict. rewrite steps_cons. cbn [keys map fst combine list_sum fold_right snd rowpos].
    inversion_clear ND as [|? ? N1 N2]. rewrite size_prodl. f_equal.
    - unfold digit. rewrite (H v) by now left. cbn [dget]. rewrite eqd_refl. destruct (dget v o); reflexivity.
    - apply IH; [assumption|]. intros w I. rewrite H by now right. cbn [dget]. rewrite eqd_neq; [reflexivity|]. intros ->. contradiction. }
  now apply G.
Qed.

Lemma steps_dict_keys {A} (d : dict var (list A)) : keys (steps_dict d) = keys d.
Proof.
  unfold steps_dict. induction d as [|[v l] d IH]; [reflexivity|]. rewrite steps_cons. cbn [keys map combine fst]. f_equal. exact IH.
Qed.

(** ** Numeric assignments *)

Definition reads (d : domain) (o : obs) (c : dict var nat) : Prop :=
  keys c = keys d /\ forall v l, In (v, l) d -> exists s i, dget v o = Some s /\ dget v c = Some i /\ nth_error l i = Some s.

Lemma Forall2_flat {A B C D} (R : C -> D -> Prop) (f : A -> list C) (g : B -> list D) l m :
  Forall2 (fun x y => Forall2 R (f x) (g y)) l m -> Forall2 R (flat_map f l) (flat_map g m).
Proof. induction 1; cbn; [constructor|]. now apply Forall2_app. Qed.
Lemma Forall2_seq {A} (l : list A) : Forall2 (fun x i => nth_error l i = Some x) l (seq 0 (length l)).
Proof.
  assert (G : forall a b : list A, l = a ++ b -> Forall2 (fun x i => nth_error l i = Some x) b (seq (length a) (length b))).
  { intros a b. revert a. induction b as [|x b IH]; intros a E; cbn; constructor.
    - subst l. rewrite nth_error_app2, Nat.sub_diag by lia. reflexivity.
    - specialize (IH (a ++ [x])). rewrite app_length in IH. cbn in IH. rewrite Nat.add_1_r in IH. apply IH. subst l. now rewrite <- app_assoc. }
  now apply (G []).
Qed.
Lemma Forall2_maps {A B C D} (R : C -> D -> Prop) (f : A -> C) (g : B -> D) l m :
  Forall2 (fun x y => R (f x) (g y)) l m -> Forall2 R (map f l) (map g m).
Proof. induction 1; cbn; constructor; auto. Qed.
Lemma Forall2_weak {A B} (P R : A -> B -> Prop) l m : (forall x y, P x y -> R x y) -> Forall2 P l m -> Forall2 R l m.
Proof. intros H. induction 1; constructor; auto. Qed.

Lemma numeric_space d : NoDup (keys d) -> Forall2 (reads d) (all_assignments d) (numeric_assignment_space d).
Proof.
  unfold numeric_assignment_space, assignment_space, state_space. induction d as [|[v l] d IH]; intros ND.
  - cbn. constructor; [|constructor]. split; [reflexivity|]. intros ? ? [].
  - inversion_clear ND as [|? ? N1 N2]. specialize (IH N2).
    assert (K : keys (to_numeric_domains ((v, l) :: d)) = v :: keys (to_numeric_domains d)) by reflexivity. rewrite K.
    change (vals (to_numeric_domains ((v, l) :: d))) with (seq 0 (length l) :: vals (to_numeric_domains d)).
    cbn [all_assignments product].
    assert (E : forall (ks : list var) (w : var) (xs : list nat) (rows : list (list nat)),
      map (fun s => combine (w :: ks) s) (flat_map (fun x => map (cons x) rows) xs) =
      flat_map (fun x => map (cons (w, x)) (map (fun s => combine ks s) rows)) xs).
    { intros ks w xs rows. induction xs as [|x xs IHx]; cbn [flat_map map]; [reflexivity|].
      rewrite map_app, IHx, !map_map. reflexivity. }
    rewrite E. apply Forall2_flat. apply (Forall2_weak (fun x i => nth_error l i = Some x)); [|apply Forall2_seq].
    intros s i Hs. apply Forall2_maps. apply (Forall2_weak (reads d)); [|exact IH]. intros o c [Hk H]. split.
    + unfold keys in *. cbn [map fst]. f_equal. exact Hk.
    + intros w m [Em | I].
      * injection Em as <- <-. exists s, i. cbn [dget]. rewrite !eqd_refl. auto.
      * destruct (H _ _ I) as (s' & i' & A1 & A2 & A3). exists s', i'. cbn [dget].
        assert (w <> v) by (intros ->; apply N1; exact (in_map fst _ _ I)).
        rewrite !eqd_neq by assumption. auto.
Qed.

(** ** Reordering *)

Lemma cells_prodl sh : cells sh = prodl sh.
Proof. induction sh as [|n sh IH]; [reflexivity|]. cbn [cells fold_right]. rewrite prodl_cons. unfold cells in IH. now rewrite IH. Qed.
Lemma last_fastest_ravel sh : forall idx, last_fastest sh idx = ravel sh idx.
Proof. induction sh as [|n sh IH]; intros [|i idx]; cbn [last_fastest ravel]; try reflexivity. now rewrite IH, cells_prodl. Qed.
Lemma inside_bounds sh idx : inside sh idx <-> in_bounds sh idx = true.
Proof.
  revert idx. induction sh as [|n sh IH]; intros [|i idx]; cbn [in_bounds]; split; intros H; try discriminate; try constructor; try (inversion H; fail); auto.
  - inversion H; subst. apply andb_true_iff. split; [now apply Nat.ltb_lt|]. now apply IH.
  - apply andb_true_iff in H as [H _]. now apply Nat.ltb_lt.
  - apply andb_true_iff in H as [_ H]. now apply IH.
Qed.
Lemma last_fastest_snoc sh : forall n idx i, length sh = length idx ->
  last_fastest (sh ++ [n]) (idx ++ [i]) = last_fastest sh idx * n + i.
Proof.
  induction sh as [|m sh IH]; intros n [|j idx] i L; cbn in L; try discriminate.
  - cbn. lia.
  - cbn [app last_fastest]. rewrite IH by lia.
    assert (C : cells (sh ++ [n]) = cells sh * n).
    { clear. induction sh as [|m sh IH]; cbn; [lia|]. unfold cells in *. rewrite IH. lia. }
    rewrite C. lia.
Qed.
Lemma first_fastest_ravel sh : forall idx, length sh = length idx -> first_fastest sh idx = ravel_f sh idx.
Proof.
  unfold first_fastest. induction sh as [|n sh IH]; intros [|i idx] L; cbn in L; try discriminate; [reflexivity|].
  cbn [rev ravel_f]. rewrite last_fastest_snoc by (rewrite !rev_length; lia). rewrite IH by lia. lia.
Qed.
Lemma inside_rev sh idx : inside sh idx -> inside (rev sh) (rev idx).
Proof.
  unfold inside. induction 1; cbn; [constructor|]. apply Forall2_app; [assumption|]. constructor; [assumption|constructor].
Qed.
Lemma prodl_rev sh : prodl (rev sh) = prodl sh.
Proof.
  rewrite <- !cells_prodl. induction sh as [|n sh IH]; [reflexivity|]. cbn [rev cells fold_right].
  assert (C : forall a b, cells (a ++ b) = cells a * cells b).
  { intros a b. clear. induction a as [|m a IH]; cbn; [unfold cells; lia|]. unfold cells in *. rewrite IH. lia. }
  rewrite C, IH. unfold cells. cbn. lia.
Qed.
Lemma first_fastest_lt sh idx : inside sh idx -> first_fastest sh idx < prodl sh.
Proof.
  intros H. unfold first_fastest. rewrite last_fastest_ravel, <- prodl_rev. apply ravel_lt, inside_bounds. now apply inside_rev.
Qed.
Lemma first_fastest_inj sh i j : inside sh i -> inside sh j -> first_fastest sh i = first_fastest sh j -> i = j.
Proof.
  unfold first_fastest. intros H1 H2 E. rewrite !last_fastest_ravel in E. rewrite <- (rev_involutive i), <- (rev_involutive j). f_equal.
  apply (ravel_inj (rev sh)); auto; apply inside_bounds; now apply inside_rev.
Qed.

Lemma inside_length sh idx : inside sh idx -> length sh = length idx.
Proof. unfold inside. induction 1; cbn; auto. Qed.
Lemma mapM_nths {A B} (f : A -> res B) l : (forall x, In x l -> exists y, f x = Ok y) ->
  exists ys, mapM f l = Ok ys /\ Forall2 (fun x y => f x = Ok y) l ys.
Proof.
  induction l as [|x l IH]; intros H; [exists []; split; [reflexivity|constructor]|].
  destruct (H x (or_introl eq_refl)) as (y & E). destruct IH as (ys & E' & F); [intros; apply H; now right|].
  exists (y :: ys). cbn [mapM]. rewrite E. cbn [bind]. rewrite E'. split; [reflexivity|]. constructor; auto.
Qed.
Lemma Forall2_at {A B} (R : A -> B -> Prop) l m i x : Forall2 R l m -> nth_error l i = Some x -> exists y, nth_error m i = Some y /\ R x y.
Proof.
  intros F. revert i. induction F; intros [|i] E; try discriminate.
  - injection E as <-. exists y. split; auto.
  - destruct (IHF i E) as (z & Ez & Hz). exists z. split; auto.
Qed.

Lemma py_nth_some {A} (l : list A) i x : nth_error l i = Some x -> py_nth l i = Ok x.
Proof. unfold py_nth. now intros ->. Qed.

Lemma reorder_ok {A} (values : list A) sh : length values = cells sh ->
  exists ys, change_shape_order values sh = Ok ys /\ length ys = length values /\
    forall idx, inside sh idx -> nth_error ys (last_fastest sh idx) = nth_error values (first_fastest sh idx).
Proof.
  intros L. rewrite cells_prodl in L. unfold change_shape_order. rewrite L, Nat.eqb_refl.
  assert (P : forall idx, inside sh idx -> exists y, nth_error values (ravel_f sh idx) = Some y).
  { intros idx H. destruct (nth_error values (ravel_f sh idx)) eqn:E; [eauto|]. apply nth_error_None in E.
    rewrite <- first_fastest_ravel in E by now apply inside_length. pose proof (first_fastest_lt _ _ H). lia. }
  destruct (mapM_nths (fun idx => py_nth values (ravel_f sh idx)) (indices sh)) as (ys & E & F).
  { intros idx I. apply indices_In, inside_bounds in I. destruct (P _ I) as (y & Ey). exists y. now apply py_nth_some. }
  exists ys. split; [exact E|]. split.
  - apply Forall2_length in F. now rewrite <- F, indices_length.
  - intros idx H. rewrite last_fastest_ravel.
    destruct (Forall2_at _ _ _ _ _ F (indices_nth sh idx (proj1 (inside_bounds _ _) H))) as (y & E1 & E2).
    rewrite E1. destruct (P _ H) as (z & Ez). rewrite first_fastest_ravel by now apply inside_length. rewrite Ez.
    rewrite (py_nth_some _ _ _ Ez) in E2. congruence.
Qed.
Lemma reorder_raises {A} (values : list A) sh : length values <> cells sh -> change_shape_order values sh = Raise ValueError.
Proof.
  intros L. rewrite cells_prodl in L. unfold change_shape_order. apply Nat.eqb_neq in L. now rewrite L.
Qed.

(** ** Domains from sizes *)

Definition made (first : Z) (named : bool) (vs : var * Z) : var * list state :=
  (fst vs, map (fun s => if named then SStr (append (lower (fst vs)) (z_str s)) else SInt s) (py_range first (snd vs))).

Lemma create_ok sizes first named : sizes <> [] -> NoDup (keys sizes) ->
  create_domain sizes first named = Ok (map (made first named) sizes).
Proof.
  intros N ND. unfold create_domain. destruct sizes as [|p sizes]; [congruence|]. cbn [py_nth nth_error bind]. f_equal.
  assert (G : forall l acc, NoDup (keys acc ++ keys l) ->
    fold_left (fun dom vs => dset (fst vs) (map (fun s => if named then SStr (append (lower (fst vs)) (z_str s)) else SInt s) (py_range first (snd vs))) dom) l acc
    = acc ++ map (made first named) l).
  { induction l as [|[v n] l IH]; intros acc H; cbn [fold_left map]; [now rewrite app_nil_r|].
    assert (Nv : ~ In v (keys acc)).
    { intros I. cbn [keys map] in H. apply NoDup_remove_2 in H. apply H. apply in_or_app. now left. }
    rewrite IH.
    - cbn [fst snd]. rewrite dset_new by assumption. now rewrite <- app_assoc.
    - cbn [fst snd]. rewrite dset_new by assumption. unfold keys in *. rewrite map_app. cbn [map fst]. rewrite <- app_assoc. exact H. }
  apply (G (p :: sizes) []). exact ND.
Qed.

Lemma z_str_inj a b : z_str a = z_str b -> a = b.
Proof.
  assert (H : forall n s, nat_str n <> String "-" s).
  { intros n s E. unfold nat_str in E. apply (f_equal NilEmpty.uint_of_string) in E. rewrite NilEmpty.usu in E. cbn in E. destruct (NilEmpty.uint_of_string s); discriminate. }
  unfold z_str. destruct (Z.ltb_spec a 0) as [La | La], (Z.ltb_spec b 0) as [Lb | Lb]; intros E.
  - injection E as E. apply nat_str_inj in E. lia.
  - symmetry in E. now apply H in E.
  - now apply H in E.
  - apply nat_str_inj in E. lia.
Qed.
Lemma append_inj p s t : append p s = append p t -> s = t.
Proof. induction p; cbn; intros E; [assumption|]. injection E as E. auto. Qed.
Lemma py_range_NoDup first n : NoDup (py_range first n).
Proof. unfold py_range. apply FinFun.Injective_map_NoDup; [intros i j E; lia|apply seq_NoDup]. Qed.

Lemma create_usable sizes first named : sizes <> [] -> NoDup (keys sizes) ->
  (forall v n, In (v, n) sizes -> (1 <= n)%Z) -> (forall v s, In v (keys sizes) -> v <> String "_"%char s) ->
  usable (map (made first named) sizes).
Proof.
  intros N ND H U. assert (K : keys (map (made first named) sizes) = keys sizes) by (unfold keys; rewrite map_map; reflexivity).
  split; [|split].
  - split; [now rewrite K|]. intros v l I. apply in_map_iff in I as ([w n] & E & I). injection E as <- <-. cbn [fst snd]. split.
    + apply FinFun.Injective_map_NoDup; [|apply py_range_NoDup]. intros a b E. destruct named.
      * injection E as E. now apply z_str_inj, (append_inj (lower w)).
      * congruence.
    + specialize (H _ _ I). intros E. apply (f_equal (@length _)) in E. unfold py_range in E. rewrite !map_length, seq_length in E. cbn in E. lia.
  - intros v l x y I Ix Iy. apply in_map_iff in I as ([w n] & E & I). injection E as <- <-. cbn [fst snd] in *.
    apply in_map_iff in Ix as (a & <- & _). apply in_map_iff in Iy as (b & <- & _). now destruct named.
  - rewrite K. exact U.
Qed.

Lemma made_nth first named v n i : i < Z.to_nat n ->
  nth_error (snd (made first named (v, n))) i =
  Some (if named then SStr (append (lower v) (z_str (first + Z.of_nat i))) else SInt (first + Z.of_nat i)).
Proof.
  intros L. unfold made. cbn [fst snd]. unfold py_range. rewrite !nth_error_map.
  rewrite (nth_error_nth' _ 0) by (rewrite seq_length; assumption). rewrite seq_nth by assumption. reflexivity.
Qed.

Lemma map_nth_seq {A} (d : A) (l : list A) : map (fun i => nth i l d) (seq 0 (length l)) = l.
Proof.
  induction l as [|x l IH]; [reflexivity|]. cbn [length seq map nth]. f_equal. rewrite <- seq_shift, map_map. exact IH.
Qed.

Lemma reorder_perm {A} (values ys : list A) sh : change_shape_order values sh = Ok ys -> Permutation ys values.
Proof.
  unfold change_shape_order. destruct (Nat.eqb_spec (length values) (prodl sh)) as [L | L]; [|discriminate]. intros E.
  destruct values as [|d values'] eqn:V.
  - cbn in L. assert (I : indices sh = []) by (apply length_zero_iff_nil; rewrite indices_length; auto).
    rewrite I in E. injection E as <-. constructor.
  - rewrite <- V in *. clear V values'.
    assert (Ey : ys = map (fun idx => nth (ravel_f sh idx) values d) (indices sh)).
    { clear L. revert ys E. generalize (indices sh) as l. induction l as [|x l IH]; cbn [mapM map]; intros ys E; [now injection E as <-|].
      unfold py_nth at 1 in E. destruct (nth_error values (ravel_f sh x)) as [y|] eqn:Ex; [|discriminate]. cbn [bind] in E.
      destruct (mapM _ l) as [zs|]; [|discriminate]. injection E as <-. f_equal; [|now apply IH]. symmetry. now apply nth_error_nth. }
    subst ys. rewrite <- (map_map (ravel_f sh) (fun i => nth i values d)).
    apply (Permutation_trans (l' := map (fun i => nth i values d) (seq 0 (length values)))); [|now rewrite map_nth_seq].
    apply Permutation_map.
    assert (N : NoDup (map (ravel_f sh) (indices sh))).
    { apply FactorFacts2.NoDup_map_inj.
      - intros i j I J Eq. apply indices_In, inside_bounds in I. apply indices_In, inside_bounds in J.
        apply (first_fastest_inj sh); auto. rewrite !first_fastest_ravel; auto; now apply inside_length.
      - unfold indices. apply product_NoDup. intros l I. apply in_map_iff in I as (n & <- & _). apply seq_NoDup. }
    apply NoDup_Permutation_bis; [exact N| |].
    + rewrite map_length, indices_length, seq_length. lia.
    + intros k I. apply in_map_iff in I as (idx & <- & I). apply indices_In, inside_bounds in I. apply in_seq.
      rewrite <- first_fastest_ravel by now apply inside_length. pose proof (first_fastest_lt _ _ I). lia.
Qed.

Lemma create_domain_ok sizes first named : sizes <> [] -> NoDup (keys sizes) ->
  (forall v n, In (v, n) sizes -> (1 <= n)%Z) -> (forall v s, In v (keys sizes) -> v <> String "_"%char s) ->
  exists D, create_domain sizes first named = Ok D /\ usable D /\ keys D = keys sizes /\
    forall v n, In (v, n) sizes -> exists l, dget v D = Some l /\ length l = Z.to_nat n /\
      forall i, i < Z.to_nat n -> nth_error l i =
        Some (if named then SStr (append (lower v) (z_str (first + Z.of_nat i))) else SInt (first + Z.of_nat i)).
Proof.
  intros N ND H U. exists (map (made first named) sizes). split; [now apply create_ok|]. split; [now apply create_usable|].
  assert (K : keys (map (made first named) sizes) = keys sizes) by (unfold keys; rewrite map_map; reflexivity).
  split; [exact K|]. intros v n I. exists (snd (made first named (v, n))). split; [|split].
  - apply In_dget; [exact (eq_ind_r (@NoDup _) ND K)|]. apply (in_map (made first named)) in I. exact I.
  - cbn. unfold py_range. now rewrite !map_length, seq_length.
  - intros i L. now apply made_nth.
Qed.

Lemma numeric_digits d : wf_dom d -> Forall2 (fun o c => keys c = keys d /\ forall v, In v (keys d) -> dget v c = Some (digit d o v))
  (all_assignments d) (numeric_assignment_space d).
Proof.
  intros W. apply (Forall2_weak (reads d)); [|apply numeric_space, W]. intros o c [K H]. split; [exact K|].
  intros v I. apply in_map_iff in I as ([w l] & E & I). cbn in E. subst w. destruct (H _ _ I) as (s & i & A1 & A2 & A3).
  rewrite A2. f_equal. unfold digit. rewrite (In_dget v l d (proj1 W) I), A1.
  destruct (proj2 W _ _ I) as [NDl _]. rewrite (index_of_nth l i s NDl A3). reflexivity.
Qed.


Lemma create_empty_raises first named : create_domain [] first named = Raise IndexError.
Proof. reflexivity. Qed.
Lemma create_no_states sizes first named v n : NoDup (keys sizes) -> In (v, n) sizes -> (n <= 0)%Z ->
  exists D, create_domain sizes first named = Ok D /\ dget v D = Some [].
Proof.
  intros ND I L. exists (map (made first named) sizes). split; [apply create_ok; [intros ->; destruct I|assumption]|].
  assert (K : keys (map (made first named) sizes) = keys sizes) by (unfold keys; rewrite map_map; reflexivity).
  apply In_dget; [exact (eq_ind_r (@NoDup _) ND K)|]. apply (in_map (made first named)) in I. unfold made at 1 in I. cbn [fst snd] in I.
  unfold py_range in I. replace (Z.to_nat n) with 0 in I by lia. exact I.
Qed.

Lemma numeric_rows (d : domain) : numeric_state_space d = map vals (numeric_assignment_space d).
Proof.
  unfold numeric_assignment_space, numeric_state_space, assignment_space. rewrite map_map.
  rewrite <- (map_id (state_space (to_numeric_domains d))) at 1. apply map_ext_in. intros row I.
  unfold state_space in I. apply product_In, Forall2_length in I. unfold vals in *. rewrite map_length in I.
  assert (L : length row = length (keys (to_numeric_domains d))) by (unfold keys; rewrite map_length; auto).
  symmetry. clear I. revert row L. generalize (keys (to_numeric_domains d)) as ks. induction ks as [|k ks IH]; intros [|x row] L; try discriminate; [reflexivity|].
  cbn [combine map snd]. f_equal. apply IH. now injection L.
Qed.

Lemma reorder_both {A} (values : list A) sh : length values = cells sh ->
  exists ys, change_shape_order values sh = Ok ys /\ Permutation ys values /\
    forall idx, inside sh idx -> nth_error ys (last_fastest sh idx) = nth_error values (first_fastest sh idx).
Proof.
  intros L. destruct (reorder_ok values sh L) as (ys & E & _ & H). exists ys. repeat split; auto. now apply (reorder_perm values ys sh).
Qed.

Lemma as_lists_spec s l a b r :
  as_lists [OneName s] = Ok (inl [s]) /\ as_lists [ManyNames l] = Ok (inl l) /\
  (exists q, as_lists (a :: b :: r) = Ok (inr q) /\
     Forall2 (fun x y => match x with OneName s' => y = [s'] | ManyNames l' => y = l' end) (a :: b :: r) q) /\
  as_lists [] = Raise IndexError.
Proof.
  repeat split. exists (map as_list (a :: b :: r)). split; [reflexivity|]. generalize (a :: b :: r) as xs.
  induction xs as [|x xs IH]; cbn; constructor; auto. now destruct x.
Qed.
