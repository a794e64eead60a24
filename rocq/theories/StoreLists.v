(** Restriction of a numpy table to lists of states of several variables (C05). *)

From Coq Require Import String Bool Arith Lia List.
From Verif Require Import PyBase PyFacts Num DomainModel NdArray StoreModel Spec StoreSpec DomainFacts StoreFacts.
From Coq Require Import List.
Import ListNotations.
Local Open Scope nat_scope.

Lemma adv_len_ok its n k : adv_len its n = Ok k -> (n = 1 \/ n = k) /\ forall l, In (IList l) its -> length l = 1 \/ length l = k.
Proof.
  revert n. induction its as [|i r IH]; intros n E; cbn in E.
  - injection E as ->. split; [auto|easy].
  - destruct i as [j| |l].
    + apply IH in E as [A B]. split; [exact A|]. intros l [J|J]; [discriminate|auto].
    + apply IH in E as [A B]. split; [exact A|]. intros l [J|J]; [discriminate|auto].
    + destruct (Nat.eqb_spec (length l) 1) as [L|L].
      * apply IH in E as [A B]. split; [exact A|]. intros l' [J|J]; [injection J as <-; auto|auto].
      * destruct (Nat.eqb_spec n 1) as [N1|N1].
        -- apply IH in E as [A B]. split; [auto|]. intros l' [J|J]; [injection J as <-; lia|auto].
        -- destruct (Nat.eqb_spec n (length l)) as [N2|N2]; [|discriminate].
           apply IH in E as [A B]. split; [exact A|]. intros l' [J|J]; [injection J as <-; lia|auto].
Qed.

Lemma adv_len_err its n e : adv_len its n = Raise e -> e = IndexError.
Proof.
  revert n. induction its as [|[j| |l] r IH]; intros n E; cbn in E; try discriminate; eauto.
  destruct (length l =? 1); eauto. destruct (n =? 1); eauto. destruct (n =? length l); eauto. congruence.
Qed.

Lemma mapM_In {A B} (f : A -> res B) l l' x : mapM f l = Ok l' -> In x l -> exists y, f x = Ok y /\ In y l'.
Proof.
  revert l'. induction l as [|a r IH]; intros l' E J; [easy|]. cbn in E. destruct (f a) as [b|] eqn:Ea; [|discriminate].
  cbn in E. destruct (mapM f r) as [t|]; [|discriminate]. injection E as <-. destruct J as [<-|J].
  - exists b. split; auto. now left.
  - destruct (IH t eq_refl J) as (y & Ey & Jy). exists y. split; auto. now right.
Qed.

Lemma var_list (o : dict var oval) v l xs it : dget v o = Some (Many xs) -> length xs <> 1 -> np_restrict_var o (v, l) = Ok it ->
  exists idx, fst it = IList idx /\ length idx = length xs.
Proof.
  intros E L. unfold np_restrict_var. rewrite E. destruct xs as [|a [|b r]]; [| cbn in L; congruence |].
  - cbn. intros J. injection J as <-. now exists [].
  - destruct (mapM (np_where_first l) (a :: b :: r)) as [idx|] eqn:Ei; [|discriminate]. cbn [bind]. intros J. injection J as <-.
    exists idx. split; [reflexivity|]. clear - Ei. revert idx Ei. generalize (a :: b :: r). intros q. induction q as [|x q IH]; intros idx E; cbn in E.
    + now injection E as <-.
    + destruct (np_where_first l x); [|discriminate]. cbn in E. destruct (mapM (np_where_first l) q) as [t|]; [|discriminate]. injection E as <-.
      cbn. f_equal. now apply IH.
Qed.

Lemma mapM_all {A B} (f : A -> res B) l : (forall x, In x l -> exists y, f x = Ok y) -> exists l', mapM f l = Ok l'.
Proof.
  induction l as [|a r IH]; intros H; [now exists []|]. cbn. destruct (H a (or_introl eq_refl)) as (b & ->).
  destruct IH as (t & ->); [intros x J; apply H; now right|]. cbn. eauto.
Qed.

Lemma where_known (l : list state) x : In x l -> exists i, np_where_first l x = Ok i.
Proof. intros J. rewrite (pos_where x l J). eauto. Qed.

Lemma var_known (o : dict var oval) v l : (forall x, dget v o = Some (One x) -> In x l) -> (forall xs, dget v o = Some (Many xs) -> incl xs l) ->
  exists it, np_restrict_var o (v, l) = Ok it.
Proof.
  intros H1 H2. unfold np_restrict_var. destruct (dget v o) as [[x|xs]|].
  - destruct (where_known l x (H1 x eq_refl)) as (i & ->). cbn. eauto.
  - assert (I := H2 xs eq_refl). destruct xs as [|a [|b r]].
    + cbn. eauto.
    + destruct (where_known l a) as (i & ->); [apply I; now left|]. cbn. eauto.
    + destruct (mapM_all (np_where_first l) (a :: b :: r)) as (idx & ->); [intros x J; apply where_known; auto|]. cbn. eauto.
  - eauto.
Qed.

Section Two.
  Context {V : Type}.

  Lemma two_lengths (s : store V) (o : dict var oval) v w l l' xs ys : st_type s = VNumpy ->
    (forall u m x, In (u, m) (st_domain s) -> dget u o = Some (One x) -> In x m) ->
    (forall u m zs, In (u, m) (st_domain s) -> dget u o = Some (Many zs) -> incl zs m) ->
    In (v, l) (st_domain s) -> In (w, l') (st_domain s) -> dget v o = Some (Many xs) -> dget w o = Some (Many ys) ->
    length xs <> 1 -> length ys <> 1 -> length xs <> length ys -> st_restrict_ext s o = Raise IndexError.
  Proof.
    intros TY K1 K2 Iv Iw Ev Ew L1 L2 L3. destruct s as [d a| | |]; try discriminate TY. cbn [st_domain] in *.
    cbn [st_restrict_ext]. unfold np_restrict.
    destruct (mapM_all (np_restrict_var o) d) as (its & Ei).
    { intros [u m] J. apply var_known; [intros x E; exact (K1 u m x J E)|intros zs E; exact (K2 u m zs J E)]. }
    rewrite Ei. cbn [bind].
    destruct (mapM_In _ _ _ _ Ei Iv) as (iv & E1 & J1). destruct (mapM_In _ _ _ _ Ei Iw) as (iw & E2 & J2).
    destruct (var_list o v l xs iv Ev L1 E1) as (x1 & F1 & N1). destruct (var_list o w l' ys iw Ew L2 E2) as (x2 & F2 & N2).
    assert (M1 : In (IList x1) (map fst its)) by (rewrite <- F1; now apply in_map).
    assert (M2 : In (IList x2) (map fst its)) by (rewrite <- F2; now apply in_map).
    unfold np_index. destruct (negb _); [reflexivity|].
    replace (existsb is_ilist (map fst its)) with true by (symmetry; apply existsb_exists; exists (IList x1); auto).
    destruct (adv_len (map fst its) 1) as [k|e] eqn:Ea.
    - apply adv_len_ok in Ea as [_ Ea]. destruct (Ea x1 M1), (Ea x2 M2); lia.
    - now rewrite (adv_len_err _ _ _ Ea).
  Qed.

  Fixpoint lists (its : list item) : nat := match its with [] => 0 | IList _ :: r => S (lists r) | _ :: r => lists r end.

  Lemma slices_le its sh : length (slice_shape its sh) <= length (filter is_slice its).
  Proof. revert sh. induction its as [|[j| |l] r IH]; intros [|n sh]; cbn; try lia; try apply IH. specialize (IH sh). lia. Qed.

  Lemma new_dom_length (o : dict var oval) d its : mapM (np_restrict_var o) d = Ok its ->
    length (flat_map (fun p => match snd (snd p) with Some d' => [(fst p, d')] | None => [] end) (combine (keys d) its)) =
    length (filter is_slice (map fst its)) + lists (map fst its).
  Proof.
    revert its. induction d as [|[v l] r IH]; intros its E; cbn in E; [now injection E as <-|].
    destruct (match dget v o with
              | None => Ok (ISlice, Some l)
              | Some (One s) | Some (Many [s]) => let* i := np_where_first l s in Ok (IInt i, None)
              | Some (Many m) => let* idx := mapM (np_where_first l) m in Ok (IList idx, Some (filter (fun x => mem x m) l))
              end) as [it|] eqn:Ei; [|discriminate]. cbn in E.
    destruct (mapM (np_restrict_var o) r) as [t|]; [|discriminate]. injection E as <-. cbn [keys map fst combine flat_map].
    rewrite app_length. cbn [fst snd]. change (map fst r) with (keys r). rewrite (IH t eq_refl).
    assert (C : exists i m, it = (i, m) /\ match m with Some _ => (i = ISlice \/ exists x, i = IList x) | None => exists j, i = IInt j end).
    { destruct (dget v o) as [[s|[|s [|s' m]]]|].
      - destruct (np_where_first l s); [|discriminate]. injection Ei as <-. do 2 eexists. split; [reflexivity|]. cbn. eauto.
      - cbn in Ei. injection Ei as <-. do 2 eexists. split; [reflexivity|]. cbn. eauto.
      - destruct (np_where_first l s); [|discriminate]. injection Ei as <-. do 2 eexists. split; [reflexivity|]. cbn. eauto.
      - destruct (mapM (np_where_first l) (s :: s' :: m)); [|discriminate]. injection Ei as <-. do 2 eexists. split; [reflexivity|]. cbn. eauto.
      - injection Ei as <-. do 2 eexists. split; [reflexivity|]. cbn. auto. }
    destruct C as (i & m & -> & C). destruct m as [m|]; [destruct C as [->|(x & ->)]|destruct C as (j & ->)]; cbn; lia.
  Qed.

  Lemma lists_two its x y : In (IList x) its -> In (IList y) its -> x <> y -> 2 <= lists its.
  Proof.
    assert (One : forall its z, In (IList z) its -> 1 <= lists its).
    { clear. intros its z. induction its as [|i r IH]; intros J; [easy|]. destruct J as [->|J]; cbn; [lia|]. apply IH in J. destruct i; lia. }
    intros J1 J2 N. induction its as [|i r IH]; [easy|]. destruct J1 as [->|J1], J2 as [J2|J2]; cbn.
    - congruence.
    - apply One in J2. lia.
    - subst. apply One in J1. lia.
    - specialize (IH J1 J2). destruct i; lia.
  Qed.

  Lemma lists_pos (o : dict var oval) d its v w l l' xs ys : mapM (np_restrict_var o) d = Ok its -> v <> w -> In (v, l) d -> In (w, l') d ->
    dget v o = Some (Many xs) -> dget w o = Some (Many ys) -> length xs <> 1 -> length ys <> 1 -> 2 <= lists (map fst its).
  Proof.
    assert (One : forall d its u m zs, mapM (np_restrict_var o) d = Ok its -> In (u, m) d -> dget u o = Some (Many zs) -> length zs <> 1 -> 1 <= lists (map fst its)).
    { clear. intros d its u m zs E J Eu L. destruct (mapM_In _ _ _ _ E J) as (it & Ei & Ji).
      destruct (var_list o u m zs it Eu L Ei) as (x & Fx & _). assert (M : In (IList x) (map fst its)) by (rewrite <- Fx; now apply in_map).
      revert M. generalize (map fst its). clear. intros q J. induction q as [|i r IH]; [easy|]. destruct J as [->|J]; cbn; [lia|]. apply IH in J. destruct i; lia. }
    intros E N J1 J2 E1 E2 L1 L2. revert its E. induction d as [|[u m] r IH]; intros its E; [easy|].
    cbn [mapM] in E. destruct (np_restrict_var o (u, m)) as [it|] eqn:Ei; [|discriminate]. cbn [bind] in E.
    destruct (mapM (np_restrict_var o) r) as [t|] eqn:Er; [|discriminate]. injection E as <-. cbn [map].
    destruct J1 as [J1|J1], J2 as [J2|J2].
    - congruence.
    - injection J1 as -> ->. destruct (var_list o v l xs it E1 L1 Ei) as (x & -> & _). cbn. assert (X := One r t w l' ys Er J2 E2 L2). lia.
    - injection J2 as -> ->. destruct (var_list o w l' ys it E2 L2 Ei) as (x & -> & _). cbn. assert (X := One r t v l xs Er J1 E1 L1). lia.
    - assert (X := IH J1 J2 t eq_refl). destruct it as [[j| |x] q]; cbn in *; lia.
  Qed.

  Lemma two_lists (s : store V) (o : dict var oval) v w l l' xs ys : st_type s = VNumpy -> v <> w ->
    In (v, l) (st_domain s) -> In (w, l') (st_domain s) -> dget v o = Some (Many xs) -> dget w o = Some (Many ys) ->
    length xs <> 1 -> length ys <> 1 -> exists e, st_restrict_ext s o = Raise e.
  Proof.
    intros TY N Iv Iw Ev Ew L1 L2. destruct s as [d a| | |]; try discriminate TY. cbn [st_domain] in *.
    cbn [st_restrict_ext]. unfold np_restrict.
    destruct (mapM (np_restrict_var o) d) as [its|e] eqn:Ei; [|now exists e]. cbn [bind].
    assert (T := lists_pos o d its v w l l' xs ys Ei N Iv Iw Ev Ew L1 L2). assert (NL := new_dom_length o d its Ei).
    destruct (np_index a (map fst its)) as [a'|e] eqn:Ea; [|now exists e]. cbn [bind]. unfold st_init.
    assert (SL : length (shape a') <= S (length (filter is_slice (map fst its)))).
    { unfold np_index in Ea. destruct (negb _); [discriminate|]. assert (Q := slices_le (map fst its) (shape a)).
      destruct (existsb is_ilist (map fst its)).
      - destruct (adv_len (map fst its) 1) as [n|]; [|discriminate]. cbn [bind] in Ea. unfold nd_build in Ea.
        apply bind_ok in Ea as (q & _ & Ea). injection Ea as <-. cbn [shape]. rewrite app_length. cbn [length].
        rewrite firstn_length, skipn_length. lia.
      - unfold nd_build in Ea. apply bind_ok in Ea as (q & _ & Ea). injection Ea as <-. cbn [shape]. lia. }
    destruct (Nat.eqb_spec (length (shape a')) (length (flat_map (fun p => match snd (snd p) with Some d' => [(fst p, d')] | None => [] end) (combine (keys d) its)))) as [Q|Q].
    - exfalso. rewrite NL in Q. lia.
    - cbn. eauto.
  Qed.
End Two.

(** ** Lists of one state, and lists for the other stores *)

Definition one_state (x : oval) : oval := match x with Many [s] => One s | y => y end.
Lemma one_state_get (o : dict var oval) v : dget v (map (fun vx => (fst vx, one_state (snd vx))) o) = option_map one_state (dget v o).
Proof. induction o as [|[w x] o IH]; [reflexivity|]. cbn [map fst snd dget]. destruct (eqd v w); [reflexivity|exact IH]. Qed.
Lemma single_lists {V} (s : store V) (o : dict var oval) : st_type s = VNumpy ->
  st_restrict_ext s (map (fun vx => (fst vx, one_state (snd vx))) o) = st_restrict_ext s o.
Proof.
  destruct s as [d a|d l|d l|d t]; try discriminate. intros _. cbn [st_restrict_ext]. unfold np_restrict.
  assert (E : forall l, mapM (np_restrict_var (map (fun vx => (fst vx, one_state (snd vx))) o)) l = mapM (np_restrict_var o) l).
  { induction l as [|[v m] l IH]; [reflexivity|]. cbn [mapM].
    assert (X : np_restrict_var (map (fun vx => (fst vx, one_state (snd vx))) o) (v, m) = np_restrict_var o (v, m)).
    { unfold np_restrict_var. rewrite one_state_get. destruct (dget v o) as [[s|[|s [|s' r]]]|]; reflexivity. }
    now rewrite X, IH. }
  now rewrite E.
Qed.
Lemma lists_elsewhere {V} (s : store V) (o : dict var oval) v xs : st_type s <> VNumpy -> In (v, Many xs) o -> st_restrict_ext s o = Raise NotImplementedError.
Proof.
  intros N J. assert (L : has_list o = true) by (unfold has_list; apply existsb_exists; exists (v, Many xs); auto).
  destruct s; cbn [st_restrict_ext]; [now destruct N| | |]; unfold flat_restrict, tree_restrict; now rewrite L.
Qed.
Lemma single_list {V} (s : store V) (o : dict var oval) : st_type s = VNumpy ->
  st_restrict_ext s (map (fun vx => (fst vx, match snd vx with Many [x] => One x | y => y end)) o) = st_restrict_ext s o.
Proof.
  intros T. rewrite <- (single_lists s o T). f_equal. apply map_ext. intros [v [x|[|x [|y r]]]]; reflexivity.
Qed.
