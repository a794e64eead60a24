(** Facts about enumeration, row-major offsets and flat indices. *)

From Coq Require Import String Bool Arith Lia List.
From Verif Require Import PyBase PyFacts DomainModel NdArray Spec.
Import ListNotations.

(** ** products *)

Lemma fold_mul_acc l x : fold_left Nat.mul l x = x * fold_left Nat.mul l 1.
Proof.
  revert x. induction l as [|y l IH]; intros x; simpl; [lia|].
  rewrite (IH (x * y)), (IH (y + 0)). lia.
Qed.

#[global] Arguments prodl : simpl never.

Lemma prodl_nil : prodl [] = 1. Proof. reflexivity. Qed.
Lemma prodl_cons x l : prodl (x :: l) = x * prodl l.
Proof. unfold prodl. simpl. rewrite fold_mul_acc. lia. Qed.

Lemma prodl_app l1 l2 : prodl (l1 ++ l2) = prodl l1 * prodl l2.
Proof.
  induction l1 as [|x l1 IH]; [cbn [app]; rewrite prodl_nil; lia|cbn [app]].
  rewrite !prodl_cons, IH. lia.
Qed.

Lemma prodl_pos l : Forall (fun n => 0 < n) l -> 0 < prodl l.
Proof.
  induction 1; [rewrite prodl_nil; lia|]. rewrite prodl_cons. nia.
Qed.

Lemma length_flat_map_uniform {A B} (f : A -> list B) l m :
  (forall x, In x l -> length (f x) = m) -> length (flat_map f l) = length l * m.
Proof.
  induction l as [|x l IH]; simpl; auto. intros E.
  rewrite app_length, E, IH by auto. lia.
Qed.

Lemma nth_flat_map_uniform {A B} (f : A -> list B) l m i j x :
  (forall x, In x l -> length (f x) = m) -> nth_error l i = Some x -> j < m ->
  nth_error (flat_map f l) (i * m + j) = nth_error (f x) j.
Proof.
  revert i. induction l as [|y l IH]; intros i E N L; [destruct i; discriminate|].
  simpl. destruct i; simpl in *.
  - injection N as ->. rewrite nth_error_app1; auto. rewrite E; auto.
  - rewrite nth_error_app2; rewrite E by auto; [|lia].
    replace (m + i * m + j - m) with (i * m + j) by lia. auto.
Qed.

Lemma product_length {A} (ls : list (list A)) :
  length (product ls) = prodl (map (@length A) ls).
Proof.
  induction ls as [|l ls IH]; auto. cbn [product map]. rewrite prodl_cons.
  rewrite length_flat_map_uniform with (m := length (product ls)).
  - rewrite IH. auto.
  - intros. apply map_length.
Qed.

Lemma product_In {A} (ls : list (list A)) row :
  In row (product ls) <-> Forall2 (fun l x => In x l) ls row.
Proof.
  revert row. induction ls as [|l ls IH]; intros row; simpl.
  - split; [intros [<-|[]]; constructor|]. inversion 1; auto.
  - rewrite in_flat_map. split.
    + intros (x & I & M). apply in_map_iff in M as (r & <- & M).
      constructor; auto. apply IH; auto.
    + inversion 1; subst. exists y. split; auto. apply in_map, IH; auto.
Qed.

Lemma NoDup_flat_map_cons {A} (l : list A) (rows : list (list A)) :
  NoDup l -> NoDup rows -> NoDup (flat_map (fun x => map (cons x) rows) l).
Proof.
  intros ND NR. induction ND as [|x l N ND IH]; simpl; [constructor|].
  apply NoDup_app_iff. repeat split; auto.
  - apply FinFun.Injective_map_NoDup; auto. intros a b E. congruence.
  - intros r I1 I2. apply in_map_iff in I1 as (r' & <- & _).
    apply in_flat_map in I2 as (y & I & M). apply in_map_iff in M as (r'' & E & _).
    congruence.
Qed.

Lemma product_NoDup {A} (ls : list (list A)) :
  (forall l, In l ls -> NoDup l) -> NoDup (product ls).
Proof.
  induction ls as [|l ls IH]; intros H; simpl.
  - repeat constructor. simpl; tauto.
  - apply NoDup_flat_map_cons; [apply H; simpl; auto|]. apply IH. intros; apply H; simpl; auto.
Qed.

(** ** row-major offsets *)

Lemma in_bounds_length sh idx : in_bounds sh idx = true -> length idx = length sh.
Proof.
  revert idx. induction sh as [|n sh IH]; intros [|i idx]; simpl; try congruence.
  intros E. apply andb_prop in E as [_ E]. f_equal; auto.
Qed.

Lemma in_bounds_cons n sh i idx :
  in_bounds (n :: sh) (i :: idx) = true <-> i < n /\ in_bounds sh idx = true.
Proof. simpl. rewrite andb_true_iff, Nat.ltb_lt. tauto. Qed.

Lemma ravel_lt sh idx : in_bounds sh idx = true -> ravel sh idx < prodl sh.
Proof.
  revert idx. induction sh as [|n sh IH]; intros [|i idx]; simpl; try congruence.
  - rewrite prodl_nil. lia.
  - rewrite andb_true_iff, Nat.ltb_lt. intros [L E]. rewrite prodl_cons.
    specialize (IH _ E). nia.
Qed.

Lemma ravel_inj sh i j :
  in_bounds sh i = true -> in_bounds sh j = true -> ravel sh i = ravel sh j -> i = j.
Proof.
  revert i j. induction sh as [|n sh IH]; intros [|i is] [|j js]; simpl; try congruence.
  rewrite !andb_true_iff, !Nat.ltb_lt. intros [L1 E1] [L2 E2] E.
  pose proof (ravel_lt _ _ E1). pose proof (ravel_lt _ _ E2).
  assert (i = j) by nia. subst. f_equal. apply IH; auto. lia.
Qed.

(** Offsets and entries of a cartesian product. *)
Lemma product_nth {A} (ls : list (list A)) idx row :
  length idx = length ls ->
  Forall2 (fun li x => nth_error (fst li) (snd li) = Some x) (combine ls idx) row ->
  nth_error (product ls) (ravel (map (@length A) ls) idx) = Some row.
Proof.
  revert idx row. induction ls as [|l ls IH]; intros [|i idx] row L F; simpl in *; try discriminate.
  - inversion F; auto.
  - inversion F; subst. simpl in H1.
    replace (prodl (map (@length A) ls)) with (length (product ls)) by apply product_length.
    assert (E : nth_error (product ls) (ravel (map (@length A) ls) idx) = Some l') by (apply IH; auto).
    rewrite nth_flat_map_uniform with (m := length (product ls)) (x := y); auto.
    + rewrite nth_error_map, E. auto.
    + intros. apply map_length.
    + apply nth_error_Some. congruence.
Qed.

Lemma indices_nth sh idx : in_bounds sh idx = true ->
  nth_error (indices sh) (ravel sh idx) = Some idx.
Proof.
  intros B. unfold indices.
  replace sh with (map (@length nat) (map (seq 0) sh)) at 2.
  2:{ rewrite map_map. erewrite map_ext; [apply map_id|]. intros; apply seq_length. }
  apply product_nth.
  - rewrite map_length. apply in_bounds_length; auto.
  - revert idx B. induction sh as [|n sh IH]; intros [|i idx]; simpl; try congruence; intros B.
    + constructor.
    + apply andb_prop in B as [B1 B2]. apply Nat.ltb_lt in B1. constructor; auto. simpl.
      rewrite (nth_error_nth' _ 0) by (rewrite seq_length; auto). rewrite seq_nth; auto.
Qed.

Lemma indices_length sh : length (indices sh) = prodl sh.
Proof.
  unfold indices. rewrite product_length, map_map. f_equal.
  erewrite map_ext; [apply map_id|]. intros; apply seq_length.
Qed.

Lemma indices_In sh idx : In idx (indices sh) <-> in_bounds sh idx = true.
Proof.
  unfold indices. rewrite product_In. revert idx. induction sh as [|n sh IH]; intros idx; simpl.
  - split; [inversion 1; auto|]. destruct idx; [constructor|discriminate].
  - split.
    + inversion 1; subst. rewrite in_seq in H2. simpl.
      rewrite andb_true_iff, Nat.ltb_lt. split; [lia|]. apply IH; auto.
    + destruct idx as [|i idx]; try discriminate. rewrite andb_true_iff, Nat.ltb_lt.
      intros [L B]. constructor; [apply in_seq; lia|]. apply IH; auto.
Qed.

Lemma unravel sh k : k < prodl sh -> exists idx, in_bounds sh idx = true /\ ravel sh idx = k.
Proof.
  intros L. rewrite <- indices_length in L.
  destruct (nth_error (indices sh) k) as [idx|] eqn:E.
  2:{ apply nth_error_None in E. lia. }
  exists idx. assert (B : in_bounds sh idx = true) by (apply indices_In; eapply nth_error_In; eauto).
  split; auto. pose proof (indices_nth _ _ B) as E'.
  assert (ND : NoDup (indices sh)).
  { apply product_NoDup. intros l I. apply in_map_iff in I as (n & <- & _). apply seq_NoDup. }
  rewrite NoDup_nth_error in ND. symmetry. apply ND; [auto|congruence].
Qed.

(** ** arrays built elementwise *)

Definition nd_wf {V} (a : nd V) : Prop := length (flat a) = prodl (shape a).

Lemma nd_build_ok {V} sh (f : list nat -> res V) a :
  nd_build sh f = Ok a ->
  shape a = sh /\ nd_wf a /\
  forall idx, in_bounds sh idx = true -> nd_get a idx = f idx.
Proof.
  unfold nd_build, nd_wf. intros E. apply bind_ok in E as (l & E & E'). injection E' as <-. simpl.
  split; auto. split.
  - rewrite (mapM_length _ _ _ E). apply indices_length.
  - intros idx B. unfold nd_get. simpl. rewrite B.
    destruct (mapM_nth _ _ _ _ _ E (indices_nth _ _ B)) as (y & N & F).
    unfold py_nth. rewrite N. auto.
Qed.

Lemma nd_build_total {V} sh (f : list nat -> res V) :
  (forall idx, in_bounds sh idx = true -> exists y, f idx = Ok y) ->
  exists a, nd_build sh f = Ok a.
Proof.
  intros H. unfold nd_build. destruct (mapM_total f (indices sh)) as (l & E).
  - intros x I. apply H, indices_In; auto.
  - rewrite E. simpl. eauto.
Qed.

Lemma nd_get_total {V} (a : nd V) idx : nd_wf a -> in_bounds (shape a) idx = true ->
  exists x, nd_get a idx = Ok x.
Proof.
  intros W B. unfold nd_get. rewrite B. unfold py_nth.
  pose proof (ravel_lt _ _ B). rewrite <- W in H.
  apply nth_error_Some in H. destruct (nth_error _ _); [eauto|congruence].
Qed.

Lemma nd_get_flat {V} (a : nd V) idx x : in_bounds (shape a) idx = true ->
  (nd_get a idx = Ok x <-> nth_error (flat a) (ravel (shape a) idx) = Some x).
Proof. intros B. unfold nd_get. rewrite B. apply py_nth_ok. Qed.

(** ** assignments and coordinates *)

Definition pos {K} `{EqD K} (x : K) (l : list K) : nat :=
  match index_of x l with Some i => i | None => 0 end.

Definition coords (d : domain) (a : asg) : list nat :=
  map (fun vl => pos (a (fst vl)) (snd vl)) d.

Lemma pos_lt {K} `{EqD K} (x : K) l : In x l -> pos x l < length l.
Proof.
  intros I. unfold pos. destruct (index_of_In x l I) as (i & E). rewrite E.
  apply index_of_Some in E. tauto.
Qed.

Lemma pos_nth {K} `{EqD K} (x : K) l : In x l -> nth_error l (pos x l) = Some x.
Proof.
  intros I. unfold pos. destruct (index_of_In x l I) as (i & E). rewrite E.
  apply index_of_Some in E. tauto.
Qed.

Lemma pos_where {A} `{EqD A} (x : A) l : In x l -> np_where_first l x = Ok (pos x l).
Proof.
  intros I. unfold np_where_first, pos. destruct (index_of_In x l I) as (i & ->). auto.
Qed.

Lemma pos_inj {K} `{EqD K} (x y : K) l : In x l -> In y l -> pos x l = pos y l -> x = y.
Proof.
  intros I1 I2 E. apply pos_nth in I1. apply pos_nth in I2. congruence.
Qed.

Lemma valid_cons v l d a : valid ((v, l) :: d) a <-> In (a v) l /\ valid d a.
Proof.
  unfold valid. simpl. split.
  - intros H. split; auto.
  - intros [H1 H2] v' l' [E|I]; auto. congruence.
Qed.

Lemma valid_ext d a b : (forall v, In v (keys d) -> a v = b v) -> valid d a -> valid d b.
Proof.
  intros E H v l I. rewrite <- E; [auto|]. apply keys_In. eauto.
Qed.

Lemma valid_incl d d' a : incl d' d -> valid d a -> valid d' a.
Proof. intros I H v l I'. auto. Qed.

Lemma coords_ext d a b : (forall v, In v (keys d) -> a v = b v) -> coords d a = coords d b.
Proof.
  intros E. unfold coords. apply map_ext_in. intros [v l] I. simpl. rewrite E; auto.
  apply keys_In. eauto.
Qed.

Lemma card_cons {A} v (l : list A) d : card ((v, l) :: d) = length l :: card d.
Proof. reflexivity. Qed.

Lemma coords_bounds d a : valid d a -> in_bounds (card d) (coords d a) = true.
Proof.
  induction d as [|[v l] d IH]; intros H; auto. rewrite card_cons. simpl.
  apply valid_cons in H as [H1 H2]. rewrite andb_true_iff, Nat.ltb_lt. split; auto.
  apply pos_lt; auto.
Qed.

Lemma wf_dom_cons v l d : wf_dom ((v, l) :: d) <->
  ~ In v (keys d) /\ NoDup l /\ l <> [] /\ wf_dom d.
Proof.
  unfold wf_dom. simpl. split.
  - intros [ND H]. inversion ND; subst. destruct (H v l (or_introl eq_refl)).
    repeat split; auto; eapply H; eauto.
  - intros (N & NL & NE & ND & H). split; [constructor; auto|].
    intros v' l' [E|I]; [injection E as <- <-; auto|eauto].
Qed.

(** Every in-range multi-index is the coordinate vector of an assignment. *)
Lemma coords_surj d idx (b : asg) : wf_dom d -> in_bounds (card d) idx = true ->
  exists a, valid d a /\ coords d a = idx /\ (forall v, ~ In v (keys d) -> a v = b v).
Proof.
  revert idx. induction d as [|[v l] d IH]; intros idx W B.
  - destruct idx; try discriminate. exists b. repeat split; auto. intros ? ? [].
  - apply wf_dom_cons in W as (N & NL & NE & W).
    destruct idx as [|i idx]; try discriminate. rewrite card_cons in B.
    apply in_bounds_cons in B as [L B].
    destruct (IH idx W B) as (a & Va & C & O).
    destruct (nth_error l i) as [x|] eqn:E; [|apply nth_error_None in E; lia].
    exists (upd a v x). split; [|split].
    + apply valid_cons. split.
      * unfold upd. rewrite eqd_refl. eapply nth_error_In; eauto.
      * eapply valid_ext; [|exact Va]. intros w I. unfold upd.
        rewrite eqd_neq; auto. intros ->. auto.
    + simpl. f_equal.
      * unfold upd. rewrite eqd_refl. unfold pos. rewrite (index_of_nth l i x); auto.
      * rewrite <- C. apply coords_ext. intros w I. unfold upd. rewrite eqd_neq; auto.
        intros ->. auto.
    + simpl. intros w Nw. unfold upd. rewrite eqd_neq; auto.
Qed.

Lemma coords_inj d a b : valid d a -> valid d b -> coords d a = coords d b ->
  forall v, In v (keys d) -> a v = b v.
Proof.
  induction d as [|[v l] d IH]; intros Va Vb E w I; [destruct I|].
  apply valid_cons in Va as [A1 A2]. apply valid_cons in Vb as [B1 B2].
  simpl in E. injection E as E1 E2. destruct I as [<-|I].
  - eapply pos_inj; eauto.
  - apply IH; auto.
Qed.

Lemma exists_valid d (b : asg) : wf_dom d ->
  exists a, valid d a /\ (forall v, ~ In v (keys d) -> a v = b v).
Proof.
  intros W. assert (P : 0 < prodl (card d)).
  { apply prodl_pos. unfold card, vals. rewrite map_map. apply Forall_forall. intros n I.
    apply in_map_iff in I as ([v l] & <- & I). simpl. apply W in I as [_ I].
    destruct l; [congruence|simpl; lia]. }
  destruct (unravel _ _ P) as (idx & B & _).
  destruct (coords_surj d idx b W B) as (a & V & _ & O). eauto.
Qed.

Lemma wf_dom_filter p d : wf_dom d -> wf_dom (dfilter p d).
Proof.
  intros [ND H]. split; [apply NoDup_dfilter; auto|].
  intros v l I. apply filter_In in I as [I _]. eauto.
Qed.

Lemma card_pos d : wf_dom d -> 0 < prodl (card d).
Proof.
  intros W. apply prodl_pos. unfold card, vals. rewrite map_map. apply Forall_forall. intros n I.
  apply in_map_iff in I as ([v l] & <- & I). simpl. apply W in I as [_ I].
  destruct l; [congruence|simpl; lia].
Qed.

(** ** index_list *)

Lemma steps_cons {A} v (l : list A) d : steps ((v, l) :: d) = prodl (card d) :: steps d.
Proof.
  unfold steps. rewrite card_cons. cbn [length seq map]. f_equal.
  rewrite <- seq_shift, map_map. auto.
Qed.

Lemma fold_add_acc l x : fold_left Nat.add l x = x + fold_left Nat.add l 0.
Proof.
  revert x. induction l as [|y l IH]; intros x; simpl; [lia|].
  rewrite (IH (x + y)), (IH y). lia.
Qed.

Lemma dot_cons x s y c : dot (x :: s) (y :: c) = x * y + dot s c.
Proof. unfold dot. simpl. rewrite fold_add_acc. reflexivity. Qed.

Lemma dot_steps {A} (d : dict var (list A)) c : length c = length d -> dot (steps d) c = ravel (card d) c.
Proof.
  revert c. induction d as [|[v l] d IH]; intros [|i c] L; simpl in L; try discriminate; auto.
  rewrite steps_cons, card_cons, dot_cons. cbn [ravel]. rewrite IH by lia. lia.
Qed.

(** The coordinate lists selected by an observation. *)
Definition sel (d : domain) (o : obs) : list (list nat) :=
  map (fun vl => match dget (fst vl) o with
                 | Some s => [pos s (snd vl)]
                 | None => seq 0 (length (snd vl))
                 end) d.

Lemma obs_in_order_keys_sub d o v : In v (keys (obs_in_order d o)) -> In v (keys d).
Proof.
  unfold obs_in_order. intros I. apply keys_In in I as (s & I).
  apply in_flat_map in I as (w & I & J). destruct (dget w o); [|destruct J].
  destruct J as [E|[]]. injection E as <- <-. auto.
Qed.

Lemma obs_in_order_get d o v : NoDup (keys d) ->
  dget v (obs_in_order d o) = if mem v (keys d) then dget v o else None.
Proof.
  unfold obs_in_order. induction (keys d) as [|w ks IH]; intros ND; auto.
  inversion ND; subst. cbn [flat_map]. rewrite dget_app, IH by auto.
  unfold mem. cbn [existsb]. destruct (eqd v w) as [->|N].
  - simpl. destruct (dget w o) eqn:E; simpl; [rewrite eqd_refl; auto|].
    destruct (existsb _ ks); auto.
  - simpl. destruct (dget w o); simpl; auto. destruct (eqd v w); [congruence|auto].
Qed.

Lemma obs_in_order_NoDup d o : NoDup (keys d) -> NoDup (keys (obs_in_order d o)).
Proof.
  unfold obs_in_order. intros ND. unfold keys in *. induction (map fst d) as [|w ks IH]; simpl; [constructor|].
  inversion ND; subst. rewrite map_app. destruct (dget w o); simpl; auto.
  constructor; auto. intros I. apply H1. clear - I.
  apply in_map_iff in I as ([v s'] & <- & I). apply in_flat_map in I as (u & I & J).
  destruct (dget u o); [|destruct J]. destruct J as [E|[]]. injection E as <- <-. auto.
Qed.

Lemma restrict_domain_map {A} (d : dict var (list A)) (c : dict var A) :
  NoDup (keys d) -> NoDup (keys c) -> incl (keys c) (keys d) ->
  restrict_domain d c =
  map (fun vl => (fst vl, match dget (fst vl) c with Some i => [i] | None => snd vl end)) d.
Proof.
  unfold restrict_domain. revert d. induction c as [|[v i] c IH]; intros d ND NC I; simpl.
  - symmetry. erewrite map_ext; [apply map_id|]. intros []; auto.
  - inversion NC; subst.
    assert (IV : In v (keys d)) by (apply I; simpl; auto).
    assert (KE : keys (dset v [i] d) = keys d).
    { rewrite keys_dset. apply mem_In in IV. rewrite IV. auto. }
    rewrite IH; auto.
    + clear - ND IV H1. induction d as [|[w l] d IH]; [destruct IV|]. simpl.
      simpl in ND. inversion ND; subst. destruct (eqd v w) as [<-|N].
      * cbn [map fst snd]. rewrite eqd_refl. apply dget_None in H1. rewrite H1. f_equal.
        apply map_ext_in. intros [u l'] I'. simpl. rewrite (eqd_neq u v); auto.
        intros ->. apply H2. apply keys_In; eauto.
      * cbn [map fst snd]. rewrite (eqd_neq w v) by congruence. f_equal. apply IH; auto.
        simpl in IV; destruct IV; [congruence|auto].
    + rewrite KE. auto.
    + rewrite KE. intros x Ix. apply I. simpl; auto.
Qed.

Lemma values_to_coord_ok d o : NoDup (keys d) -> NoDup (keys o) -> incl (keys o) (keys d) ->
  known d o ->
  values_to_coord d o = Ok (map (fun vs => (fst vs, pos (snd vs)
     (match dget (fst vs) d with Some l => l | None => [] end))) o).
Proof.
  intros ND NO I K. unfold values_to_coord. rewrite dfilter_true.
  2:{ intros k Ik. apply dmem_In. auto. }
  apply mapM_map_ok. intros [v s] Iv. simpl.
  assert (In v (keys d)) as Id by (apply I; apply keys_In; eauto).
  apply dget_keys in Id as (l & E). rewrite E. rewrite pos_where; auto.
  apply (K v l s); [apply dget_In; auto|]. apply In_dget; auto.
Qed.

Lemma dget_map_snd {K A B} `{EqD K} (f : K -> A -> B) (d : dict K A) k :
  dget k (map (fun kv => (fst kv, f (fst kv) (snd kv))) d) =
  match dget k d with Some x => Some (f k x) | None => None end.
Proof.
  induction d as [|[k' v] d IH]; simpl; auto. destruct (eqd k k') as [->|]; auto.
Qed.

Lemma keys_map_snd {K A B} (f : K -> A -> B) (d : dict K A) :
  keys (map (fun kv => (fst kv, f (fst kv) (snd kv))) d) = keys d.
Proof. unfold keys. rewrite map_map. apply map_ext. auto. Qed.

Lemma keys_numeric {A} (d : dict var (list A)) : keys (to_numeric_domains d) = keys d.
Proof. unfold to_numeric_domains, keys. rewrite map_map. apply map_ext. auto. Qed.

Lemma index_list_sel d o : NoDup (keys d) -> known d o ->
  index_list d o = Ok (map (ravel (card d)) (product (sel d o))).
Proof.
  intros ND K. unfold index_list.
  set (o' := obs_in_order d o).
  assert (NO : NoDup (keys o')) by (apply obs_in_order_NoDup; auto).
  assert (I : incl (keys o') (keys d)) by (intros v Iv; eapply obs_in_order_keys_sub; eauto).
  assert (K' : known d o').
  { intros v l s Iv E. unfold o' in E. rewrite obs_in_order_get in E by auto.
    destruct (mem v (keys d)); [|discriminate]. eapply K; eauto. }
  rewrite values_to_coord_ok by auto. cbn [bind].
  set (f := fun (v : var) (s : state) => pos s (match dget v d with Some l => l | None => [] end)).
  change (map (fun vs => (fst vs, pos (snd vs)
     (match dget (fst vs) d with Some l => l | None => [] end))) o')
    with (map (fun vs => (fst vs, f (fst vs) (snd vs))) o').
  rewrite restrict_domain_map.
  2:{ rewrite keys_numeric. auto. }
  2:{ rewrite keys_map_snd. auto. }
  2:{ rewrite keys_map_snd, keys_numeric. auto. }
  f_equal.
  assert (E : state_space (map (fun vl => (fst vl,
      match dget (fst vl) (map (fun vs => (fst vs, f (fst vs) (snd vs))) o') with
      | Some i => [i] | None => snd vl end)) (to_numeric_domains d)) = product (sel d o)).
  { unfold state_space. f_equal. unfold vals, to_numeric_domains, sel. rewrite !map_map.
    apply map_ext_in. intros [v l] Iv. simpl. rewrite dget_map_snd.
    unfold o'. rewrite obs_in_order_get by auto.
    assert (Ik : In v (keys d)) by (apply keys_In; eauto). apply mem_In in Ik. rewrite Ik.
    destruct (dget v o) as [s|]; auto. unfold f. rewrite (In_dget _ _ _ ND Iv). auto. }
  rewrite E. apply map_ext_in. intros c Ic. apply dot_steps.
  apply product_In in Ic. apply Forall2_length in Ic. unfold sel in Ic. rewrite map_length in Ic. auto.
Qed.

(** Unknown states raise. *)
Lemma index_list_unknown d o v l s : NoDup (keys d) ->
  In (v, l) d -> dget v o = Some s -> ~ In s l -> index_list d o = Raise IndexError.
Proof.
  intros ND I E N. unfold index_list. set (o' := obs_in_order d o).
  assert (R : values_to_coord d o' = Raise IndexError).
  { unfold values_to_coord. set (o'' := dfilter _ o').
    match goal with |- mapM ?f o'' = _ => set (F := f) end.
    assert (Hr : forall x e, In x o'' -> F x = Raise e -> e = IndexError).
    { intros [w t] e J R. unfold F in R. simpl in R.
      destruct (dget w d) as [dw|] eqn:Ew.
      - unfold np_where_first in R. destruct (index_of t dw); simpl in R; congruence.
      - exfalso. apply filter_In in J as [_ J]. simpl in J. apply dmem_In, dget_keys in J as (? & J).
        congruence. }
    assert (J : In (v, s) o'').
    { apply filter_In. simpl. assert (Ik : In v (keys d)) by (apply keys_In; eauto). split.
      - apply dget_In. unfold o'. rewrite obs_in_order_get by auto.
        apply mem_In in Ik. rewrite Ik. auto.
      - apply dmem_In. auto. }
    destruct (mapM_raise_or F o'') as [(ys & Y)|(x & e & Ix & Ex & Y)].
    - exfalso. apply mapM_ok in Y. clear - Y J I E N ND.
      induction Y; [destruct J|]. destruct J as [->|J]; auto.
      unfold F in H. simpl in H. rewrite (In_dget _ _ _ ND I) in H.
      unfold np_where_first in H. apply index_of_None in N. rewrite N in H. discriminate.
    - rewrite Y, (Hr _ _ Ix Ex); auto. }
  rewrite R. auto.
Qed.

(** The variables left by an observation. *)
Definition rest (d : domain) (o : obs) : domain := dfilter (fun k => negb (dmem k o)) d.

Lemma rest_cons v l d o : rest ((v, l) :: d) o =
  match dget v o with Some _ => rest d o | None => (v, l) :: rest d o end.
Proof.
  unfold rest. simpl. destruct (dget v o) eqn:E.
  - assert (M : dmem v o = true) by (apply dmem_In, dget_keys; eauto). rewrite M. auto.
  - apply dmem_false in E. rewrite E. auto.
Qed.

Lemma sel_length d o : prodl (map (@length nat) (sel d o)) = prodl (card (rest d o)).
Proof.
  induction d as [|[v l] d IH]; auto. unfold sel in *. simpl map. rewrite rest_cons.
  rewrite prodl_cons, IH. simpl. destruct (dget v o).
  - simpl. lia.
  - rewrite seq_length, card_cons, prodl_cons. auto.
Qed.

(** Entry of the selection for an assignment of the remaining variables. *)
Lemma sel_nth d o a : NoDup (keys d) -> known d o -> valid (rest d o) a ->
  nth_error (product (sel d o)) (ravel (card (rest d o)) (coords (rest d o) a))
  = Some (coords d (over o a)).
Proof.
  induction d as [|[v l] d IH]; intros ND K Va; auto.
  simpl in ND. inversion ND; subst.
  assert (K' : known d o) by (intros w m s I; apply K; simpl; auto).
  rewrite rest_cons in *. unfold sel. cbn [map fst snd]. fold (sel d o).
  cbn [product]. destruct (dget v o) as [s|] eqn:E.
  - simpl flat_map. rewrite app_nil_r. rewrite nth_error_map, IH; auto. simpl.
    unfold over at 2. rewrite E. auto.
  - apply valid_cons in Va as [A1 A2]. rewrite card_cons. cbn [coords map ravel fst snd].
    pose proof (IH H2 K' A2) as IH'.
    assert (LE : length (product (sel d o)) = prodl (card (rest d o)))
      by (rewrite product_length; apply sel_length).
    rewrite nth_flat_map_uniform with (m := prodl (card (rest d o))) (x := pos (a v) l).
    + rewrite nth_error_map. fold (coords (rest d o) a). rewrite IH'. simpl.
      unfold over at 2. rewrite E. auto.
    + intros. rewrite map_length. auto.
    + rewrite (nth_error_nth' _ 0) by (rewrite seq_length; apply pos_lt; auto).
      rewrite seq_nth; [auto|apply pos_lt; auto].
    + fold (coords (rest d o) a). rewrite <- LE. apply nth_error_Some. congruence.
Qed.
