(** The split that _best_split_point returns. *)

From Coq Require Import String Bool Arith ZArith QArith Qcanon Lia Lqa List.
From Verif Require Import PyBase Num DomainModel NdArray StoreModel NumStore PyFacts Spec DomainFacts
  StoreSpec StoreFacts NumFacts PropFacts1 BTreeModel BTreeSpec BTreeFacts BTreeFacts2 BTreeFacts3.
Import ListNotations.
Local Open Scope nat_scope.
Local Arguments eqd : simpl never.

Lemma foldM_keeps {A B} (P : A -> Prop) (f : A -> B -> res A) l : forall a a',
  (forall x y z, In y l -> P x -> f x y = Ok z -> P z) -> P a -> foldM f l a = Ok a' -> P a'.
Proof.
  induction l as [|y r IH]; intros a a' S Pa E; cbn in E; [now injection E as <-|].
  destruct (f a y) as [b|] eqn:F; [|discriminate E]. cbn in E.
  apply (IH b a'); auto; [intros; eapply S; eauto; right; auto|]. eapply S; eauto. left. reflexivity.
Qed.

Lemma dlook_In_inv v l (d : domain) : dlook v d = Ok l -> In (v, l) d.
Proof.
  unfold dlook. intros E. destruct (dget v d) as [m|] eqn:Q; [|discriminate E]. injection E as ->.
  now apply dget_In.
Qed.

(** ** Every split is a pair of halves *)

Section Lawful.
  Variable lg : Qc -> Qc.

  Definition good (T : store num) (b : option split) : Prop :=
    match b with None => True | Some sp => halves T sp end.

  Lemma try_split_good T v dv i b s b' : In (v, dv) (st_domain T) -> 1 <= s < length dv ->
    good T b -> try_split lg T v dv i b s = Ok b' -> good T b'.
  Proof.
    intros I S G E. unfold try_split in E.
    destruct (st_restrict_ext T [(v, Many (firstn s dv))]) as [TL|] eqn:RL; [|discriminate E].
    cbn [bind] in E.
    destruct (st_restrict_ext T [(v, Many (skipn s dv))]) as [TR|] eqn:RR; [|discriminate E].
    cbn [bind] in E.
    destruct (st_sum_all TL) as [sl|]; [|discriminate E]. cbn [bind] in E.
    destruct (st_sum_all TR) as [sr|]; [|discriminate E]. cbn [bind] in E.
    match type of E with bind ?m _ = _ => destruct m as [i1|]; [|discriminate E] end. cbn [bind] in E.
    match type of E with bind ?m _ = _ => destruct m as [i2|]; [|discriminate E] end. cbn [bind] in E.
    destruct (nltb NInf i2); injection E as <-; [|exact G].
    cbn [good halves]. exists dv. split; [exact I|].
    assert (length (firstn s dv) = s) by (rewrite firstn_length; lia).
    assert (length (skipn s dv) = length dv - s) by apply skipn_length.
    split; [intros Z; rewrite Z in *; cbn in *; lia|].
    split; [intros Z; rewrite Z in *; cbn in *; lia|].
    split; [symmetry; apply firstn_skipn|]. auto.
  Qed.

  Lemma best_split_lawful : lawful (best_split lg).
  Proof.
    intros T sp IT E. unfold best_split in E.
    destruct (foldM (try_var lg T) (st_variables T) None) as [b|] eqn:F; [|discriminate E].
    cbn [bind] in E. destruct b as [b|]; [|discriminate E]. injection E as ->.
    change (good T (Some sp)). refine (foldM_keeps (good T) (try_var lg T) _ None _ _ I F).
    intros x v z _ G E. unfold try_var in E.
    destruct (st_sum_all T) as [sa|]; [|discriminate E]. cbn [bind] in E.
    destruct (dlook v (st_domain T)) as [dv|] eqn:D; [|discriminate E]. cbn [bind] in E.
    destruct (math_log lg _) as [k|]; [|discriminate E]. cbn [bind] in E.
    apply dlook_In_inv in D. refine (foldM_keeps (good T) _ _ _ _ _ G E).
    intros x' s z' Is G' E'. apply in_seq in Is. eapply try_split_good; eauto. lia.
  Qed.
End Lawful.

(** ** Masses *)

Lemma Qcmult_pos a b : (0 < a -> 0 < b -> 0 < a * b)%Qc.
Proof. intros A B. qcnra. Qed.
Lemma Qcinv_pos a : (0 < a -> 0 < / a)%Qc.
Proof. intros A. unfold Qclt in *. rewrite this_inv. now apply Qinv_lt_0_compat. Qed.
Lemma Qcdiv_neg p q : (0 < p -> q < 0 -> p / q < 0)%Qc.
Proof.
  intros P N. unfold Qcdiv. assert (B : (0 < / - q)%Qc) by (apply Qcinv_pos; qclra).
  assert (E : (/ q = - / - q)%Qc) by (field; split; intros Z; qclra).
  rewrite E. clear E. set (r := (/ - q)%Qc) in *. qcnra.
Qed.

Lemma qsum_fold qs : qsum qs = fold_right Qcplus 0%Qc qs.
Proof. induction qs as [|q r IH]; cbn; [reflexivity|]. now rewrite IH. Qed.

Lemma entries_values T qs : entries T qs -> values_list T = Ok (map Fin qs).
Proof.
  unfold entries, values_list. rewrite assignment_space_all. intros E.
  induction E as [|o q os qs G E IH]; [reflexivity|]. cbn [mapM map]. rewrite G. cbn [bind]. now rewrite IH.
Qed.

Lemma entries_sum T qs : entries T qs -> st_sum_all T = Ok (Fin (fold_right Qcplus 0%Qc qs)).
Proof.
  intros E. unfold st_sum_all. rewrite (entries_values T qs E). cbn [bind]. now rewrite nsum_Fin, qsum_fold.
Qed.

Lemma finite_entries T : wf_store T -> finite_table T -> exists qs, entries T qs.
Proof.
  intros W F. unfold entries. rewrite <- assignment_space_all.
  assert (FS : forall c, In c (assignment_space (st_domain T)) -> full (st_domain T) c)
    by (intros c; now apply listed_full).
  induction (assignment_space (st_domain T)) as [|c r IH]; [exists []; constructor|].
  destruct (F c (FS c (or_introl eq_refl))) as (q & Q). destruct IH as (qs & E).
  - intros c' I. apply FS. right. exact I.
  - exists (q :: qs). constructor; auto.
Qed.

Lemma entries_det T qs qs' : entries T qs -> entries T qs' -> qs = qs'.
Proof.
  intros A B. apply entries_values in A, B. rewrite A in B. injection B as B.
  clear A. revert qs' B. induction qs as [|q r IH]; intros [|q' r'] B; cbn in B; try discriminate; [reflexivity|].
  injection B as -> B. f_equal. auto.
Qed.

Lemma positive_mass_finite T : wf_store T -> positive_mass T -> finite_table T.
Proof.
  intros W (qs & E & _) o F. destruct (get_listed T o W F) as (c & I & <-).
  unfold entries in E. rewrite <- assignment_space_all in E.
  clear F W. induction E as [|o1 q os qs G E IH]; [destruct I|]. destruct I as [<- | I]; eauto.
Qed.

(** ** Which split *)

Section Chosen.
  Variable lg : Qc -> Qc.

  Lemma num_of_pos k : 0 < k -> exists p, num_of k = Fin p /\ (0 < p)%Qc.
  Proof.
    intros P. unfold num_of. eexists. split; [reflexivity|]. unfold Qclt.
    change (this (Q2Qc (inject_Z (Z.of_nat k)))) with (Qred (inject_Z (Z.of_nat k))).
    rewrite Qred_correct. unfold Qlt. cbn. lia.
  Qed.

  Lemma log_div x k : (0 < x)%Qc -> 0 < k ->
    exists p, math_log lg (ndiv (Fin x) (num_of k)) = Ok (Fin p).
  Proof.
    intros X K. destruct (num_of_pos k K) as (p & -> & P). cbn [ndiv].
    replace (qzero p) with false.
    - cbn [math_log]. replace (qpos (x / p)) with true; [eauto|]. symmetry. apply qpos_spec.
      unfold Qcdiv. apply Qcmult_pos; [exact X|]. now apply Qcinv_pos.
    - symmetry. apply qzero_false. intros ->. now apply Qclt_not_eq in P.
  Qed.

  Lemma side_info T v l xs : is_table T -> finite_table T -> In (v, l) (st_domain T) -> xs <> [] ->
    in_order xs l -> exists TL q, st_restrict_ext T [(v, Many xs)] = Ok TL /\ st_sum_all TL = Ok (Fin q).
  Proof.
    intros [W TY] F I NE IO. destruct (restrict_states T v l xs W TY I NE IO) as (s' & R & W' & TY' & D & A & B).
    destruct (finite_entries s' W') as (qs & E).
    { intros o' F'. destruct (B o' F') as (o & y & Fo & _ & _ & <-). now apply F. }
    exists s'. eexists. split; [exact R|]. apply entries_sum. exact E.
  Qed.

  (** The outcome of the inner loop body: the gain is finite when the first
      term is, and NaN when the first term is NaN. *)
  Lemma try_split_out T v l s b i : is_table T -> finite_table T -> In (v, l) (st_domain T) ->
    1 <= s < length l -> exists TL TR,
    (i = NaN -> try_split lg T v l i b s = Ok b) /\
    (forall q, i = Fin q -> try_split lg T v l i b s = Ok (Some (v, firstn s l, skipn s l, TL, TR))).
  Proof.
    intros IT F I S.
    assert (ND : NoDup l) by (destruct IT as [[[_ W] _] _]; now destruct (W v l I)).
    assert (L1 : length (firstn s l) = s) by (rewrite firstn_length; lia).
    assert (L2 : length (skipn s l) = length l - s) by apply skipn_length.
    rewrite <- (firstn_skipn s l) in ND.
    destruct (side_info T v l (firstn s l) IT F I) as (TL & ql & RL & SL).
    { intros Z. rewrite Z in L1. cbn in L1. lia. }
    { rewrite <- (firstn_skipn s l) at 2. now apply in_order_l. }
    destruct (side_info T v l (skipn s l) IT F I) as (TR & qr & RR & SR).
    { intros Z. rewrite Z in L2. cbn in L2. lia. }
    { rewrite <- (firstn_skipn s l) at 2. now apply in_order_r. }
    exists TL, TR. unfold try_split. rewrite RL, RR. cbn [bind]. rewrite SL, SR. cbn [bind].
    rewrite L1, L2.
    set (m1 := if nltb n0 (Fin ql) then _ else _).
    assert (M1 : (i = NaN -> m1 = Ok NaN) /\ (forall q, i = Fin q -> exists q', m1 = Ok (Fin q'))).
    { unfold m1. cbn [nltb n0]. destruct (Qclt_le_dec 0 ql) as [P|P].
      - destruct (log_div ql s P) as (p & ->); [lia|]. cbn [bind].
        split; [intros E; rewrite E; reflexivity|intros q0 E; rewrite E; eexists; reflexivity].
      - split; [intros E; rewrite E; reflexivity|intros q0 E; rewrite E; eauto]. }
    destruct M1 as [M1 M1']. split.
    - intros E. rewrite (M1 E). cbn [bind]. cbn [nltb n0]. destruct (Qclt_le_dec 0 qr) as [P|P].
      + destruct (log_div qr (length l - s) P) as (p & ->); [lia|]. reflexivity.
      + reflexivity.
    - intros q E. destruct (M1' q E) as (q' & ->). cbn [bind]. cbn [nltb n0].
      destruct (Qclt_le_dec 0 qr) as [P|P].
      + destruct (log_div qr (length l - s) P) as (p & ->); [lia|]. reflexivity.
      + reflexivity.
  Qed.

  Lemma foldM_app {A B} (f : A -> B -> res A) l1 l2 a :
    foldM f (l1 ++ l2) a = let* b := foldM f l1 a in foldM f l2 b.
  Proof. revert a. induction l1 as [|x r IH]; intros a; cbn; [reflexivity|]. destruct (f a x); cbn; auto. Qed.

  Lemma foldM_total {A B} (f : A -> B -> res A) l : (forall x a, In x l -> exists b, f a x = Ok b) ->
    forall a, exists b, foldM f l a = Ok b.
  Proof.
    intros T. induction l as [|x r IH]; intros a; cbn; [eauto|].
    destruct (T x a (or_introl eq_refl)) as (b & ->). cbn. apply IH. intros y c I. apply T. right. exact I.
  Qed.

  Lemma foldM_stays {A B} (f : A -> B -> res A) l a : (forall x, In x l -> f a x = Ok a) -> foldM f l a = Ok a.
  Proof.
    intros T. induction l as [|x r IH]; cbn; [reflexivity|]. rewrite T by (left; reflexivity). cbn.
    apply IH. intros y I. apply T. right. exact I.
  Qed.

  Section Positive.
    Variables (T : store num) (q : Qc).
    Hypothesis IT : is_table T.
    Hypothesis FT : finite_table T.
    Hypothesis SUM : st_sum_all T = Ok (Fin q).

    Lemma try_var_single v l b : (0 < q)%Qc -> In (v, l) (st_domain T) -> length l = 1 -> try_var lg T b v = Ok b.
    Proof.
      intros P I L. unfold try_var. rewrite SUM. cbn [bind].
      rewrite (dlook_In v l) by (auto; apply IT). cbn [bind]. rewrite L.
      destruct (num_of_pos 1) as (p & -> & Pp); [lia|]. cbn [ndiv].
      replace (qzero q) with false by (symmetry; apply qzero_false; intros ->; now apply Qclt_not_eq in P).
      cbn [math_log]. replace (qpos (p / q)) with true.
      - cbn [bind]. cbn. reflexivity.
      - symmetry. apply qpos_spec. unfold Qcdiv. apply Qcmult_pos; [exact Pp|]. now apply Qcinv_pos.
    Qed.

    Lemma try_var_last v l x b : (0 < q)%Qc -> In (v, l ++ [x]) (st_domain T) -> l <> [] ->
      exists TL TR, try_var lg T b v = Ok (Some (v, l, [x], TL, TR)).
    Proof.
      intros P I NE. unfold try_var. rewrite SUM. cbn [bind].
      rewrite (dlook_In v (l ++ [x])) by (auto; apply IT). cbn [bind].
      destruct (num_of_pos (length (l ++ [x]))) as (p & -> & Pp); [rewrite app_length; cbn; lia|]. cbn [ndiv].
      replace (qzero q) with false by (symmetry; apply qzero_false; intros ->; now apply Qclt_not_eq in P).
      cbn [math_log]. replace (qpos (p / q)) with true.
      2:{ symmetry. apply qpos_spec. unfold Qcdiv. apply Qcmult_pos; [exact Pp|]. now apply Qcinv_pos. }
      cbn [bind nmul]. rewrite app_length. cbn [length].
      replace (length l + 1 - 1) with (S (length l - 1)) by (destruct l; [congruence|cbn [length]; lia]).
      rewrite seq_S, foldM_app. set (i := Fin _).
      assert (LL : 1 <= length l) by (destruct l; [congruence|cbn [length]; lia]).
      destruct (foldM_total (try_split lg T v (l ++ [x]) i) (seq 1 (length l - 1))) with (a := b) as (b' & ->).
      { intros s a Is. apply in_seq in Is.
        destruct (try_split_out T v (l ++ [x]) s a i IT FT I) as (TL & TR & _ & A).
        { rewrite app_length. cbn [length]. lia. }
        unfold i in *. rewrite (A _ eq_refl). eauto. }
      cbn [bind foldM]. replace (1 + (length l - 1)) with (length l) by lia.
      destruct (try_split_out T v (l ++ [x]) (length l) b' i IT FT I) as (TL & TR & _ & A).
      { rewrite app_length. cbn [length]. lia. }
      unfold i in *. rewrite (A _ eq_refl). cbn [bind].
      rewrite firstn_app, firstn_all, Nat.sub_diag, skipn_app, skipn_all, Nat.sub_diag. cbn [firstn skipn app].
      rewrite app_nil_r. eauto.
    Qed.

    Lemma try_var_total v b : (0 < q)%Qc -> In v (keys (st_domain T)) -> exists b', try_var lg T b v = Ok b'.
    Proof.
      intros P I. apply keys_In in I. destruct I as (l & I).
      assert (NE : l <> []) by (destruct IT as [[[_ W] _] _]; now destruct (W v l I)).
      destruct (exists_last NE) as (l0 & x & ->). destruct l0 as [|y l0].
      - exists b. eapply try_var_single; eauto.
      - destruct (try_var_last v (y :: l0) x b P I) as (TL & TR & E); [discriminate|]. eauto.
    Qed.

    Lemma last_multi (d : domain) : (forall w m, In (w, m) d -> m <> []) ->
      (forall w m, In (w, m) d -> length m = 1) \/
      exists d1 v l x d2, d = d1 ++ (v, l ++ [x]) :: d2 /\ l <> [] /\ forall w m, In (w, m) d2 -> length m = 1.
    Proof.
      induction d as [|[w m] r IH]; intros NE; [left; intros ? ? []|].
      destruct IH as [A | (d1 & v & l & x & d2 & -> & NL & A)].
      - intros u k I. eapply NE. right. exact I.
      - assert (Hm : m <> []) by (eapply NE; left; reflexivity).
        destruct (exists_last Hm) as (l & x & ->). destruct l as [|y l].
        + left. intros u k [E|I]; [injection E as <- <-; reflexivity|eauto].
        + right. exists [], w, (y :: l), x, r. split; [reflexivity|]. split; [discriminate|exact A].
      - right. exists ((w, m) :: d1), v, l, x, d2. auto.
    Qed.

    Lemma ones_size (d : domain) : (forall w m, In (w, m) d -> length m = 1) -> size d = 1.
    Proof.
      induction d as [|[w m] r IH]; intros A; [reflexivity|]. cbn [size].
      rewrite (A w m) by (left; reflexivity). rewrite IH; [reflexivity|]. intros u k I. eapply A. right. exact I.
    Qed.

    Lemma size_one_constant : size (st_domain T) = 1 -> constant T.
    Proof.
      intros S. pose proof (space_size T (proj1 IT)) as SS. rewrite S in SS.
      destruct (assignment_space (st_domain T)) as [|c [|]] eqn:SP; cbn in SS; try lia.
      assert (Fc : full (st_domain T) c) by (apply listed_full; [apply IT|rewrite SP; left; reflexivity]).
      destruct (get_full T c (proj1 IT) Fc) as (x & _ & G). exists x. split; [auto|]. intros o F.
      destruct (get_listed T o (proj1 IT) F) as (c' & I & <-). rewrite SP in I.
      destruct I as [<- | []]. exact G.
    Qed.

    Lemma best_split_last : (0 < q)%Qc -> ~ constant T ->
      exists v lefts rights TL TR, best_split lg T = Ok (v, lefts, rights, TL, TR) /\
        last_cut (st_domain T) v lefts rights.
    Proof.
      intros P NC. destruct (last_multi (st_domain T)) as [A | (d1 & v & l & x & d2 & E & NL & A)].
      { intros w m I. destruct IT as [[[_ W] _] _]. now destruct (W w m I). }
      { exfalso. apply NC. apply size_one_constant. now apply ones_size. }
      unfold best_split, st_variables.
      replace (keys (st_domain T)) with (map fst d1 ++ v :: map fst d2)
        by (rewrite E; unfold keys; rewrite map_app; reflexivity).
      rewrite foldM_app.
      destruct (foldM_total (try_var lg T) (map fst d1)) with (a := @None split) as (b & ->).
      { intros w a I. apply try_var_total; [exact P|]. rewrite E. unfold keys. rewrite map_app, in_app_iff. auto. }
      cbn [bind foldM].
      destruct (try_var_last v l x b P) as (TL & TR & E1); [rewrite E, in_app_iff; cbn; auto|exact NL|].
      rewrite E1. cbn [bind]. rewrite foldM_stays.
      - cbn [bind]. exists v, l, [x], TL, TR. split; [reflexivity|]. exists d1, x, d2. auto.
      - intros w I. apply in_map_iff in I. destruct I as ([w' m] & <- & I). cbn [fst].
        apply (try_var_single w' m); [exact P| |eauto]. rewrite E, in_app_iff. cbn. auto.
    Qed.

    (** Without positive mass no split is found. *)
    Lemma best_split_negative : (q < 0)%Qc -> st_domain T <> [] -> best_split lg T = Raise ValueError.
    Proof.
      intros P NE. unfold best_split, st_variables.
      destruct (st_domain T) as [|[v l] r] eqn:D; [congruence|]. cbn [keys map fst foldM].
      unfold try_var at 1. rewrite SUM. cbn [bind].
      assert (I : In (v, l) (st_domain T)) by (rewrite D; left; reflexivity).
      rewrite (dlook_In v l) by (auto; apply IT). cbn [bind].
      assert (Hl : l <> []) by (destruct IT as [[[_ W] _] _]; now destruct (W v l I)).
      destruct (num_of_pos (length l)) as (p & -> & Pp); [destruct l; [congruence|cbn [length]; lia]|].
      cbn [ndiv]. replace (qzero q) with false.
      - cbn [math_log]. replace (qpos (p / q)) with false; [reflexivity|]. symmetry. apply qpos_false.
        unfold Qcdiv. apply Qclt_le_weak. apply Qcdiv_neg; assumption.
      - symmetry. apply qzero_false. intros ->. now apply Qclt_not_eq in P.
    Qed.

    Lemma best_split_zero : q = 0%Qc -> best_split lg T = Raise NameError.
    Proof.
      intros Z. unfold best_split. rewrite foldM_stays; [reflexivity|]. intros v I.
      unfold st_variables in I. apply keys_In in I. destruct I as (l & I).
      unfold try_var. rewrite SUM. cbn [bind]. rewrite (dlook_In v l) by (auto; apply IT). cbn [bind].
      assert (Hl : l <> []) by (destruct IT as [[[_ W] _] _]; now destruct (W v l I)).
      destruct (num_of_pos (length l)) as (p & -> & Pp); [destruct l; [congruence|cbn [length]; lia]|].
      subst q. cbn [ndiv]. replace (qzero 0) with true by (symmetry; now apply qzero_spec).
      replace (qzero p) with false by (symmetry; apply qzero_false; intros ->; now apply Qclt_not_eq in Pp).
      replace (qpos p) with true by (symmetry; now apply qpos_spec). cbn [math_log bind nmul].
      unfold inf_times. replace (qzero 0) with true by (symmetry; now apply qzero_spec).
      apply foldM_stays. intros s Is. apply in_seq in Is.
      destruct (try_split_out T v l s None NaN IT FT I) as (TL & TR & A & _); [lia|]. now apply A.
    Qed.
  End Positive.
End Chosen.
