(** Store objects: derivations and set_value. *)

From Coq Require Import String Bool Arith Lia List.
From Verif Require Import PyBase Num DomainModel NdArray StoreModel NumStore PyFacts Spec DomainFacts StoreSpec
  TreeFacts TreeFacts2 StoreFacts StoreOps StoreMarg StoreMarg2 HeapModel HeapSpec HeapFacts HeapFacts2 HeapFacts3.
Import ListNotations.
Local Arguments eqd : simpl never.

(** ** holds *)

Lemma holds_same h h' s p F : holds h s p F -> (forall a, In a F -> nth_error h' a = nth_error h a) -> holds h' s p F.
Proof.
  intros H S. inversion H as [d a x E | d a x E | d a l E | d v t G R]; subst;
    try (constructor; rewrite S by (now left); exact E).
  constructor. eapply (proj1 (reads_same h h')); eassumption.
Qed.

Lemma holds_bound h s p F : holds h s p F -> forall a, In a F -> a < length h.
Proof.
  intros H. inversion H as [d a x E | d a x E | d a l E | d v t G R]; subst;
    try (intros b [<- | []]; apply get_bound in E; exact E).
  apply (proj1 (reads_bound h) _ _ _ R).
Qed.

Lemma holds_grows h h' s p F : grows h h' -> holds h s p F -> holds h' s p F.
Proof.
  intros X H. apply (holds_same h); [exact H|]. intros a A. apply (holds_bound _ _ _ _ H) in A.
  destruct X as (e & ->). now apply nth_error_app1.
Qed.

Lemma holds_type h s p F : holds h s p F -> hs_type s = st_type p /\ hs_domain s = st_domain p.
Proof. intros H. inversion H; subst; auto. Qed.

Lemma holds_region h s p F : holds h s p F -> closed h (fun a => In a F) /\ inside (fun a => In a F) (hs_data s).
Proof.
  intros H. inversion H as [d a x E | d a x E | d a l E | d v t G R]; subst;
    try (split; [intros b w kids s' k [<- | []] E'; rewrite E in E'; discriminate | now left]).
  apply (proj1 (reads_region h) _ _ _ R).
Qed.

(** ** set_value changes only objects of the store *)

Lemma stays_put_leaf S h a c : closed h S -> S a -> (forall w kids, c <> CNode w kids) -> stays S h (put h a c).
Proof.
  intros C Sa N. split; [rewrite put_length; lia|]. split.
  - intros b w kids s k B E I. pose proof (get_bound _ _ _ E) as LB. rewrite put_length in LB.
    destruct B as [B | B]; [|lia]. apply inside_grown.
    destruct (Nat.eq_dec a b) as [<- | Q].
    + rewrite put_same in E by exact LB. injection E as ->. exfalso. eapply N. reflexivity.
    + rewrite put_other in E by exact Q. eapply C; eassumption.
  - intros b B Q. apply put_other. intros ->. contradiction.
Qed.

Lemma written_leaf c r c' : written c r = Ok c' -> forall w kids, c' <> CNode w kids.
Proof.
  unfold written. destruct c as [[w kids|x|l]|]; destruct r; intros E; try discriminate;
    injection E as <-; discriminate.
Qed.

Lemma set_value_stays n s x o h S r h' : closed h S -> inside S (hs_data s) ->
  hs_set_value n s x o h = (r, h') ->
  stays S h h' /\ forall s', r = Ok s' -> inside (grown S h) (hs_data s').
Proof.
  intros C V E. destruct s as [vt d v]. unfold hs_set_value in E. cbn [hs_type hs_data hs_domain] in *.
  assert (ARR : forall a, v = HRef a ->
    (let! c := hread v in
     let! p := hstore_of (mkHS vt d v) in
     let! r := hlift (st_set_value p x o) in
     let! c' := hlift (written c r) in
     let! _ := hwrite a c' in hret (mkHS vt d v)) h = (r, h') ->
    stays S h h' /\ forall s', r = Ok s' -> inside (grown S h) (hs_data s')).
  { intros a -> Q. clear E. unfold hbind in Q at 1. unfold hread at 1 in Q.
    unfold hbind in Q at 1.
    destruct (hstore_of (mkHS vt d (HRef a)) h) as [r0 h0] eqn:E0.
    assert (h0 = h) as ->.
    { revert E0. unfold hstore_of, hbind, hread. cbn [hs_data hs_type].
      destruct vt, (nth_error h a) as [[]|]; intros Z; injection Z; auto. }
    destruct r0 as [p|e]; [|injection Q as <- <-; split; [now apply stays_refl | discriminate]].
    unfold hbind in Q at 1. unfold hlift at 1 in Q.
    destruct (st_set_value p x o) as [p'|e]; [|injection Q as <- <-; split; [now apply stays_refl | discriminate]].
    unfold hbind in Q at 1. unfold hlift at 1 in Q.
    destruct (written (nth_error h a) p') as [c'|e] eqn:W; [|injection Q as <- <-; split; [now apply stays_refl | discriminate]].
    injection Q as <- <-. split.
    - apply stays_put_leaf; [exact C | exact V | eapply written_leaf; exact W].
    - intros s' Q. injection Q as <-. now left. }
  destruct vt.
  1-3: destruct v as [y|a]; [injection E as <- <-; split; [now apply stays_refl | discriminate] | now apply (ARR a)].
  unfold hbind in E. destruct (hset n v (dfilter (fun w => dmem w d) o) x h) as [r1 h1] eqn:E1.
  assert (E2 : (match r1 with Ok v' => (Ok (mkHS VTree d v'), h1) | Raise e => (Raise e, h1) end) = (r, h')).
  { destruct v; exact E. }
  destruct (hset_stays n v _ x h S r1 h1 C V E1) as (St & IV).
  destruct r1 as [v'|e]; injection E2 as <- <-; (split; [exact St|]).
  - intros s' Q. injection Q as <-. cbn [hs_data]. now apply IV.
  - discriminate.
Qed.

Lemma set_values_stays n : forall calls s h S s' h', closed h S -> inside S (hs_data s) ->
  set_values n s calls h = (s', h') -> stays S h h'.
Proof.
  induction calls as [|[x o] calls IH]; intros s h S s' h' C V E.
  - injection E as <- <-. now apply stays_refl.
  - cbn [set_values] in E. destruct (hs_set_value n s x o h) as [r h1] eqn:E1.
    destruct (set_value_stays n s x o h S r h1 C V E1) as (St & IV).
    destruct r as [s1|e]; (eapply stays_trans; [exact St|]; eapply IH; [apply St | | exact E]).
    + now apply IV.
    + now apply inside_grown.
Qed.

(** Two stores without common objects: calls on one leave the other alone. *)
Lemma set_values_apart n calls s1 s2 p1 p2 F1 F2 h s1' h' :
  holds h s1 p1 F1 -> holds h s2 p2 F2 -> apart F1 F2 ->
  set_values n s1 calls h = (s1', h') -> holds h' s2 p2 F2.
Proof.
  intros H1 H2 A E. destruct (holds_region _ _ _ _ H1) as (C & V).
  destruct (set_values_stays n calls s1 h _ s1' h' C V E) as (_ & _ & U).
  apply (holds_same h); [exact H2|]. intros a I. apply U; [eapply holds_bound; eassumption|].
  intros J. exact (A a J I).
Qed.

(** ** set_value computes the table *)

Lemma set_value_ok n s p F x o h r h' : holds h s p F -> NoDup F -> hs_set_value n s x o h = (r, h') ->
  match r with
  | Ok s' => exists p' F', st_set_value p x o = Ok p' /\ holds h' s' p' F' /\ NoDup F' /\
               forall b, In b F' -> In b F \/ length h <= b
  | Raise e => st_set_value p x o = Raise e \/ e = RecursionError /\ st_type p = VTree /\ (wf_store p -> n <= length (st_domain p))
  end.
Proof.
  intros H ND E. inversion H as [d a y G | d a y G | d a l G | d v t G R]; subst.
  - unfold hs_set_value, hstore_of, hbind, hread, hlift in E. cbn [hs_type hs_data hs_domain] in E. rewrite G in E.
    unfold hret at 1 in E. destruct (st_set_value (StNumpy d y) x o) as [p'|e] eqn:W; [|injection E as <- <-; now left].
    assert (exists y', p' = StNumpy d y') as (y' & ->).
    { unfold st_set_value in W. destruct (mapM _ d); [|discriminate]. cbn [bind] in W.
      destruct (in_bounds _ _); [|discriminate]. destruct (list_set _ _ _); [|discriminate]. injection W as <-. eauto. }
    cbn [written] in E. injection E as <- <-. exists (StNumpy d y'), [a]. split; [reflexivity|]. split.
    + constructor. apply put_same. eapply get_bound; exact G.
    + split; [exact ND|]. intros b B. now left.
  - unfold hs_set_value, hstore_of, hbind, hread, hlift in E. cbn [hs_type hs_data hs_domain] in E. rewrite G in E.
    unfold hret at 1 in E. destruct (st_set_value (StNp1 d (flat y)) x o) as [p'|e] eqn:W; [|injection E as <- <-; now left].
    assert (exists l', p' = StNp1 d l') as (l' & ->).
    { unfold st_set_value in W. destruct (index_list d o); [|discriminate]. cbn [bind] in W.
      destruct (py_nth a0 0); [|discriminate]. cbn [bind] in W. destruct (list_set _ _ _); [|discriminate]. injection W as <-. eauto. }
    cbn [written] in E. injection E as <- <-. exists (StNp1 d l'), [a]. split; [reflexivity|]. split.
    + change l' with (flat (mkNd (shape y) l')) at 2. constructor. apply put_same. eapply get_bound; exact G.
    + split; [exact ND|]. intros b B. now left.
  - unfold hs_set_value, hstore_of, hbind, hread, hlift in E. cbn [hs_type hs_data hs_domain] in E. rewrite G in E.
    unfold hret at 1 in E. destruct (st_set_value (StList d l) x o) as [p'|e] eqn:W; [|injection E as <- <-; now left].
    assert (exists l', p' = StList d l') as (l' & ->).
    { unfold st_set_value in W. destruct (index_list d o); [|discriminate]. cbn [bind] in W.
      destruct (py_nth a0 0); [|discriminate]. cbn [bind] in W. destruct (list_set _ _ _); [|discriminate]. injection W as <-. eauto. }
    cbn [written] in E. injection E as <- <-. exists (StList d l'), [a]. split; [reflexivity|]. split.
    + constructor. apply put_same. eapply get_bound; exact G.
    + split; [exact ND|]. intros b B. now left.
  - unfold hs_set_value in E. cbn [hs_type hs_data hs_domain] in E.
    cbn [st_set_value]. set (o' := dfilter (fun w => dmem w d) o) in *.
    destruct (hset n v o' x h) as [r1 h1] eqn:E1.
    pose proof (hset_ok n t v o' x h F r1 h1 R ND E1) as (FR & O).
    assert (E2 : (match r1 with Ok v' => (Ok (mkHS VTree d v'), h1) | Raise e => (Raise e, h1) end) = (r, h')).
    { unfold hbind in E. rewrite E1 in E. destruct v; exact E. }
    destruct r1 as [v'|e]; injection E2 as <- <-.
    + destruct O as (t' & F' & -> & R' & (P & D)). cbn [bind]. exists (StTree d t'), F'. split; [reflexivity|].
      split; [now constructor|]. split; [auto|]. intros b B. apply P in B. tauto.
    + destruct O as [-> | (-> & O)]; [now left|]. right. split; [reflexivity|]. split; [reflexivity|].
      intros (_ & T). cbn [st_domain] in *. apply tcomp_depth in T. lia.
Qed.

(** ** Constructors *)

Lemma hinit_tree d v t F h r h' : reads h v t F -> hinit VTree d v h = (r, h') ->
  grows h h' /\
  match r with
  | Ok s => exists p G, st_init VTree d (tree_darg t) = Ok p /\ holds h' s p G /\ kept h h' F G /\
              (F <> [] -> G = F)
  | Raise e => st_init VTree d (tree_darg t) = Raise e
  end.
Proof.
  intros R E. unfold hinit in E. unfold hbind in E at 1.
  inversion R as [y | a w kids ch G E0 RK]; subst.
  - unfold hread at 1 in E. cbn [as_array tree_darg] in E |- *. unfold hbind in E at 1. unfold hlift at 1 in E.
    unfold hbind in E at 1. unfold hlift at 1 in E.
    destruct (st_init VTree d (DArr (mkNd [] [y]))) as [p|e] eqn:I.
    + assert (exists t', p = StTree d t') as (t' & ->).
      { clear - I. cbn [st_init] in I. destruct d as [|x d]; cbn [shape flat] in I.
        - injection I as <-. eauto.
        - destruct (build_default_tree _ _); [|discriminate]. injection I as <-. eauto. }
      unfold hbind in E. destruct (hnew_ok t' h) as (v' & F' & h1 & E1 & X & R1 & K). rewrite E1 in E.
      injection E as <- <-. split; [exact X|]. exists (StTree d t'), F'. split; [reflexivity|].
      split; [now constructor|]. split; [exact K | congruence].
    + injection E as <- <-. split; [apply grows_refl | reflexivity].
  - rewrite (hread_node _ _ _ _ E0) in E. injection E as <- <-. split; [apply grows_refl|].
    exists (StTree d (Node w ch)), (a :: G). split; [reflexivity|]. split; [now constructor|].
    split; [|reflexivity]. apply kept_self. apply (proj1 (reads_bound h) _ _ _ R).
Qed.

(** a table whose size fits its domain *)
Definition fits (p : store num) : Prop :=
  match p with
  | StNumpy d x => shape x = card d
  | StNp1 d l | StList d l => length l = prodl (card d)
  | StTree _ _ => True
  end.

Lemma wf_fits p : wf_store p -> fits p.
Proof. intros (_ & W). destruct p; cbn in *; tauto. Qed.

Lemma hresult_ok p h r h' : st_type p <> VTree -> hresult p h = (r, h') ->
  grows h h' /\
  match r with
  | Ok s => exists G, holds h' s p G /\ kept h h' [] G
  | Raise e => ~ fits p
  end.
Proof.
  intros T E.
  assert (FR : forall (hh : heap) c, grows h hh -> kept h (hh ++ [c]) [] [length hh]).
  { intros hh c X. apply grows_length in X. split.
    - rewrite app_length. cbn. intros b [<- | []]. split; [right|]; lia.
    - intros _. constructor; [intros [] | constructor]. }
  assert (NE : forall (hh : heap) c, nth_error (hh ++ [c]) (length hh) = Some c).
  { intros hh c. rewrite nth_error_app2 by lia. now rewrite Nat.sub_diag. }
  destruct p as [d x | d l | d l | d t]; [| | |destruct (T eq_refl)]; unfold hresult in E; unfold hbind in E at 1;
    unfold halloc at 1 in E; unfold hinit in E; unfold hbind in E at 1; unfold hread at 1 in E; rewrite NE in E;
    cbn [as_array] in E.
  - unfold hbind in E at 1. unfold hlift at 1 in E. unfold hbind in E at 1. unfold hlift at 1 in E.
    destruct (st_init VNumpy d (DArr x)) as [p|e] eqn:I.
    + injection E as <- <-. split; [eapply grows_trans; apply grows_alloc|]. exists [length (h ++ [CArr x])].
      split; [constructor; apply NE | apply FR, grows_alloc].
    + injection E as <- <-. split; [apply grows_alloc|]. cbn [fits]. intros Q. cbn [st_init] in I.
      rewrite Q in I. rewrite eqd_refl in I. unfold card in I. rewrite map_length in I.
      unfold vals in I. rewrite map_length, Nat.eqb_refl in I. discriminate.
  - unfold hbind in E at 1. unfold hlift at 1 in E. unfold hbind in E at 1. unfold hlift at 1 in E.
    destruct (st_init VNumpy1D d (DArr (mkNd [length l] l))) as [p|e] eqn:I.
    + injection E as <- <-. split; [eapply grows_trans; apply grows_alloc|]. exists [length (h ++ [CList l])].
      split; [|apply FR, grows_alloc]. cbn [flat]. change l with (flat (mkNd [length l] l)) at 5. constructor. apply NE.
    + injection E as <- <-. split; [apply grows_alloc|]. cbn [fits]. intros Q. cbn [st_init flat] in I.
      rewrite Q, Nat.eqb_refl in I. discriminate.
  - unfold hbind in E at 1. unfold hlift at 1 in E. unfold hbind in E at 1. unfold hlift at 1 in E.
    destruct (st_init VList d (DArr (mkNd [length l] l))) as [p|e] eqn:I.
    + injection E as <- <-. split; [eapply grows_trans; apply grows_alloc|]. exists [length (h ++ [CList l])].
      split; [|apply FR, grows_alloc]. cbn [flat]. constructor. apply NE.
    + injection E as <- <-. split; [apply grows_alloc|]. cbn [fits]. intros Q. cbn [st_init flat] in I.
      rewrite Q, Nat.eqb_refl in I. discriminate.
Qed.

Lemma hstore_of_ok h s p F : holds h s p F -> st_type p <> VTree -> hstore_of s h = (Ok p, h).
Proof.
  intros H T. inversion H as [d a x E | d a x E | d a l E | d v t G R]; subst; [| | |destruct (T eq_refl)];
    unfold hstore_of, hbind, hread; cbn [hs_data hs_type hs_domain]; now rewrite E.
Qed.
