(** Restriction to some states in observation form; all_equal. *)

From Coq Require Import String Bool Arith ZArith QArith Qcanon Lia List.
From Verif Require Import PyBase Num DomainModel NdArray StoreModel NumStore PyFacts Spec DomainFacts
  StoreSpec StoreFacts PropFacts1 BTreeModel BTreeSpec BTreeFacts.
Import ListNotations.
Local Open Scope nat_scope.
Local Arguments eqd : simpl never.

Lemma filter_all {A} (f : A -> bool) l : (forall x, In x l -> f x = true) -> filter f l = l.
Proof.
  induction l as [|x r IH]; intros E; [reflexivity|]. cbn. rewrite E by (left; reflexivity).
  f_equal. apply IH. intros y I. apply E. right. exact I.
Qed.
Lemma filter_none {A} (f : A -> bool) l : (forall x, In x l -> f x = false) -> filter f l = [].
Proof.
  induction l as [|x r IH]; intros E; [reflexivity|]. cbn. rewrite E by (left; reflexivity).
  apply IH. intros y I. apply E. right. exact I.
Qed.
Lemma NoDup_app_disj {A} (l1 l2 : list A) x : NoDup (l1 ++ l2) -> In x l1 -> In x l2 -> False.
Proof.
  induction l1 as [|y r IH]; intros N I J; [destruct I|]. inversion N; subst. destruct I as [-> | I]; [|eauto].
  apply H1. apply in_app_iff. auto.
Qed.
Lemma dget_unique v l m (d : domain) : NoDup (keys d) -> In (v, l) d -> In (v, m) d -> l = m.
Proof.
  intros N I J. induction d as [|[w k] r IH]; [destruct I|]. inversion N; subst.
  destruct I as [I|I], J as [J|J]; try congruence; auto.
  - injection I as -> ->. exfalso. apply H1. apply keys_In. eauto.
  - injection J as -> ->. exfalso. apply H1. apply keys_In. eauto.
Qed.

Section Restrict.
  Context {V : Type}.
  Implicit Type s : store V.

  (** The observed values of the variables decide the entry. *)
  Lemma get_same s o o' : wf_store s -> full (st_domain s) o ->
    (forall w, In w (keys (st_domain s)) -> dget w o' = dget w o) ->
    get_value s o' = get_value s o.
  Proof.
    intros W F E. assert (F' : full (st_domain s) o').
    { intros w m I. rewrite E by (apply keys_In; eauto). exact (F w m I). }
    destruct (get_full s o W F) as (x & L & ->). apply get_look; auto.
    rewrite <- L. apply look_ext; auto. intros w I. unfold asg_of, over. now rewrite E.
  Qed.

  Definition kept (v : var) (xs : list state) (d : domain) : domain :=
    match xs with [_] => drop [v] d | _ => narrow v xs d end.

  Lemma np_single (d : domain) (a : nd V) v x : np_restrict d a [(v, Many [x])] = np_restrict d a (ext [(v, x)]).
  Proof.
    unfold np_restrict. f_equal. 
    assert (E : forall wl, np_restrict_var [(v, Many [x])] wl = np_restrict_var (ext [(v, x)]) wl).
    { intros [w m]. unfold np_restrict_var. cbn. destruct (eqd w v); reflexivity. }
    induction d as [|wl r IH]; [reflexivity|]. cbn [mapM]. now rewrite E, IH.
  Qed.

  Lemma restrict_states s v l xs : wf_store s -> st_type s = VNumpy -> In (v, l) (st_domain s) ->
    xs <> [] -> in_order xs l ->
    exists s', st_restrict_ext s [(v, Many xs)] = Ok s' /\ wf_store s' /\ st_type s' = VNumpy /\
      st_domain s' = kept v xs (st_domain s) /\
      (forall o y, full (st_domain s) o -> dget v o = Some y -> In y xs ->
         full (st_domain s') o /\ get_value s' o = get_value s o) /\
      (forall o', full (st_domain s') o' ->
         exists o y, full (st_domain s) o /\ dget v o = Some y /\ In y xs /\
           get_value s o = get_value s' o').
  Proof.
    intros W TY I NE IO.
    destruct xs as [|x [|x2 r]]; [congruence|..].
    - assert (Hx : In x l) by (apply (in_order_incl _ _ IO); left; reflexivity).
      assert (KN : forall w m y, In (w, m) (st_domain s) -> dget w [(v, x)] = Some y -> In y m).
      { intros w m y Iw. cbn [dget]. destruct (eqd w v) as [-> | _]; [|discriminate].
        intros E. injection E as <-. destruct W as [[ND _] _].
        rewrite (dget_unique v l m (st_domain s)) in Hx; auto. }
      destruct (restrict_obs s [(v, x)] W KN) as (s' & R & W' & TY' & D' & G').
      exists s'. split.
      { destruct s; try discriminate TY. cbn [st_restrict_ext]. rewrite np_single. exact R. }
      split; [exact W'|]. split; [congruence|]. split; [rewrite D'; reflexivity|]. split.
      + intros o y F E [-> | []].
        assert (FD : full (st_domain s') o).
        { rewrite D'. intros w m Iw. apply F. apply filter_In in Iw. tauto. }
        split; [exact FD|]. rewrite D' in FD. destruct (G' o FD) as (z & -> & Gz).
        rewrite <- Gz. symmetry. symmetry. apply get_same; auto. intros w Iw. cbn.
        destruct (eqd w v) as [-> | _]; auto.
      + intros o' F'. rewrite D' in F'. destruct (G' o' F') as (z & Z & Gz).
        exists ([(v, x)] ++ o'), x. split; [|split; [|split; [left; reflexivity|congruence]]].
        * intros w m Iw. cbn [app dget]. destruct (eqd w v) as [-> | N].
          -- exists x. split; [reflexivity|]. eapply KN; eauto. cbn. now rewrite eqd_refl.
          -- apply F'. apply filter_In. split; [exact Iw|]. cbn. rewrite eqd_neq by auto. reflexivity.
        * cbn. now rewrite eqd_refl.
    - destruct s as [d a| | |]; try discriminate TY. cbn [st_domain] in *.
      destruct W as [WD [SH LEN]]. cbn [st_domain] in *.
      destruct (dom_split v l d (proj1 WD) I) as (d1 & d2 & -> & N1 & N2).
      destruct (np_restrict_many v l (x :: x2 :: r) d1 d2 a WD N1 N2 SH LEN IO) as (s' & R & W' & TY' & D' & L').
      { cbn. lia. }
      assert (W : wf_store (StNumpy (d1 ++ (v, l) :: d2) a)) by (split; [exact WD|split; assumption]).
      set (xs := x :: x2 :: r) in *. set (d := d1 ++ (v, l) :: d2) in *.
      exists s'. split; [exact R|]. split; [exact W'|]. split; [exact TY'|]. split; [exact D'|].
      assert (FW : forall o y, full d o -> dget v o = Some y -> In y xs -> full (st_domain s') o).
      { intros o y F E Iy. rewrite D'. intros w m Iw. apply narrow_In in Iw.
        destruct Iw as [(-> & -> & _) | (N & Iw)]; [eauto|]. apply F. exact Iw. }
      assert (GV : forall o y, full d o -> dget v o = Some y -> In y xs ->
                get_value s' o = get_value (StNumpy d a) o).
      { intros o y F E Iy. pose proof (FW o y F E Iy) as F'.
        destruct (get_full _ o W F) as (z & Lz & Gz). rewrite Gz. apply get_look; auto.
        rewrite <- Lz. rewrite L'; [cbn [look]; now rewrite SH|]. rewrite <- D'. now apply full_valid. }
      split.
      + intros o y F E Iy. split; [eauto|eapply GV; eauto].
      + intros o' F'. 
        assert (Ev : exists y, dget v o' = Some y /\ In y xs).
        { apply (F' v xs). rewrite D'. apply narrow_In. left. repeat split. apply keys_In. eauto. }
        destruct Ev as (y & E & Iy).
        assert (F : full d o').
        { intros w m Iw. destruct (eqd w v) as [-> | N].
          - exists y. split; [exact E|]. destruct WD as [ND _].
            rewrite (dget_unique v m l d ND Iw I). apply (in_order_incl _ _ IO). exact Iy.
          - apply F'. rewrite D'. apply narrow_In. right. auto. }
        exists o', y. repeat split; auto. symmetry. eapply GV; eauto.
  Qed.
End Restrict.

Lemma size_app d1 d2 : size (d1 ++ d2) = size d1 * size d2.
Proof. induction d1 as [|[v l] r IH]; cbn [app size]; [lia|]. rewrite IH. lia. Qed.

Lemma drop_absent v (d : domain) : ~ In v (keys d) -> drop [v] d = d.
Proof.
  induction d as [|[w l] r IH]; intros N; [reflexivity|]. cbn [keys map fst] in N.
  unfold drop. cbn [filter fst mem existsb]. rewrite eqd_neq by (intros ->; apply N; left; reflexivity).
  cbn. f_equal. apply IH. intros I. apply N. right. exact I.
Qed.

Lemma kept_size v l xs (d : domain) : NoDup (keys d) -> In (v, l) d -> xs <> [] ->
  exists k, size d = length l * k /\ size (kept v xs d) = length xs * k.
Proof.
  intros ND I NE. destruct (dom_split v l d ND I) as (d1 & d2 & -> & N1 & N2).
  exists (size d1 * size d2). split; [rewrite size_app; cbn [size]; lia|].
  assert (NA : narrow v xs (d1 ++ (v, l) :: d2) = d1 ++ (v, xs) :: d2).
  { unfold narrow. rewrite map_app. cbn [map fst]. rewrite eqd_refl.
    fold (narrow v xs d1) (narrow v xs d2). now rewrite !narrow_absent by auto. }
  destruct xs as [|x [|x2 r]]; [congruence|..].
  - cbn [kept].
    replace (drop [v] (d1 ++ (v, l) :: d2)) with (drop [v] d1 ++ drop [v] d2).
    + rewrite !drop_absent, size_app by auto. cbn. lia.
    + unfold drop. rewrite filter_app. cbn [filter fst].
      replace (mem v [v]) with true by (symmetry; apply mem_In; left; reflexivity). reflexivity.
  - cbn [kept]. rewrite NA, size_app. cbn [size]. lia.
Qed.

Lemma in_order_l (a b : list state) : NoDup (a ++ b) -> in_order a (a ++ b).
Proof.
  intros ND. unfold in_order. rewrite filter_app.
  rewrite (filter_all (fun x => mem x a) a) by (intros x I; now apply mem_In).
  rewrite (filter_none (fun x => mem x a) b); [apply app_nil_r|].
  intros x I. apply mem_nIn. intros I'. eapply NoDup_app_disj; eauto.
Qed.

Lemma in_order_r (a b : list state) : NoDup (a ++ b) -> in_order b (a ++ b).
Proof.
  intros ND. unfold in_order. rewrite filter_app.
  rewrite (filter_none (fun x => mem x b) a).
  - cbn [app]. apply filter_all. intros x I. now apply mem_In.
  - intros x I. apply mem_nIn. intros I'. eapply NoDup_app_disj; eauto.
Qed.

(** ** all_equal *)

Lemma num_neqb_false x y : num_neqb x y = false <-> x = y /\ x <> NaN.
Proof.
  destruct x, y; cbn; try (split; [discriminate|intros [E N]; congruence]);
    try (split; [intros _; split; [reflexivity|discriminate]|reflexivity]).
  destruct (Qc_eq_dec q q0) as [-> | N]; split; try discriminate; try reflexivity.
  - intros _. split; [reflexivity|discriminate].
  - intros [E _]. injection E as ->. congruence.
Qed.

(** Every full observation has the value of a listed assignment. *)
Lemma get_listed (T : store num) o : wf_store T -> full (st_domain T) o ->
  exists c, In c (assignment_space (st_domain T)) /\ get_value T c = get_value T o.
Proof.
  intros W F. exists (obs_of (keys (st_domain T)) (asg_of o)). split.
  - apply enumeration_ok; [apply W|]. split.
    + unfold obs_of, keys. rewrite map_map. cbn [fst]. apply map_id.
    + eapply valid_full; [apply full_valid; exact F|]. apply agrees_obs_of.
  - apply get_same; auto. intros w I. rewrite obs_of_get by auto. symmetry. apply full_agrees with (d := st_domain T); auto.
Qed.

Lemma listed_full (T : store num) c : wf_store T -> In c (assignment_space (st_domain T)) -> full (st_domain T) c.
Proof. intros W I. apply enumeration_ok in I; [tauto|apply W]. Qed.

Lemma space_size (T : store num) : wf_store T -> length (assignment_space (st_domain T)) = size (st_domain T).
Proof. intros W. apply enumeration_ok. apply W. Qed.

Lemma size_pos d : wf_dom d -> 0 < size d.
Proof. intros W. rewrite size_prodl. now apply card_pos. Qed.

Lemma all_equal_ok (T : store num) : wf_store T ->
  exists b, st_all_equal T = Ok b /\ (b = true <-> constant T).
Proof.
  intros W. unfold st_all_equal. set (sp := assignment_space (st_domain T)).
  assert (L : length sp = size (st_domain T)) by (now apply space_size).
  pose proof (size_pos _ (proj1 W)) as SP.
  assert (FS : forall c, In c sp -> full (st_domain T) c) by (intros c; now apply listed_full).
  assert (LS : forall o, full (st_domain T) o -> exists c, In c sp /\ get_value T c = get_value T o)
    by (intros o; now apply get_listed).
  clearbody sp. destruct sp as [|c0 r]; [cbn in L; lia|]. cbn [py_nth nth_error bind tl].
  destruct (get_full T c0 W (FS c0 (or_introl eq_refl))) as (val & _ & G0). rewrite G0. cbn [bind].
  assert (FR : forall c, In c r -> exists y, get_value T c = Ok y).
  { intros c I. destruct (get_full T c W (FS c (or_intror I))) as (y & _ & E). eauto. }
  assert (E : exists b, (fix go l := match l with
               | [] => Ok true
               | x :: r => let* y := get_value T x in
                           if num_neqb y val then Ok false else go r
               end) r = Ok b /\
             (b = true <-> forall c, In c r -> get_value T c = Ok val /\ val <> NaN)).
  { clear - FR. induction r as [|c r IH].
    - exists true. split; [reflexivity|]. split; [intros _ c []|reflexivity].
    - destruct (FR c (or_introl eq_refl)) as (y & Gy). rewrite Gy. cbn [bind].
      destruct (num_neqb y val) eqn:Q.
      + exists false. split; [reflexivity|]. split; [discriminate|]. intros A.
        destruct (A c (or_introl eq_refl)) as [A1 A2]. rewrite Gy in A1. injection A1 as ->.
        assert (num_neqb val val = false) by (apply num_neqb_false; auto). congruence.
      + apply num_neqb_false in Q. destruct Q as [-> NN].
        destruct IH as (b & -> & Hb); [intros c' I; apply FR; right; exact I|].
        exists b. split; [reflexivity|]. rewrite Hb. split.
        * intros A c' [<- | I]; [auto|]. apply A. exact I.
        * intros A c' I. apply A. right. exact I. }
  destruct E as (b & -> & Hb). exists b. split; [reflexivity|]. rewrite Hb. unfold constant. split.
  - intros A. exists val. split.
    + destruct r as [|c r]; [right; cbn in L; lia|]. left. apply (A c). left. reflexivity.
    + intros o F. destruct (LS o F) as (c & [<- | I] & <-); [exact G0|]. apply A. exact I.
  - intros (x & D & A) c I.
    assert (E : x = val) by (rewrite (A c0 (FS c0 (or_introl eq_refl))) in G0; now injection G0).
    subst x. split; [apply A; apply FS; right; exact I|]. destruct D as [D|D]; [exact D|].
    destruct r; [destruct I|]. cbn in L. lia.
Qed.
