(** Consequences: independence, agreement with the table model, sharing. *)

From Coq Require Import String Bool Arith Lia List.
From Verif Require Import PyBase Num DomainModel NdArray StoreModel NumStore PyFacts Spec DomainFacts StoreSpec
  TreeFacts TreeFacts2 StoreFacts StoreOps StoreMarg StoreMarg2 HeapModel HeapSpec HeapFacts HeapFacts2 HeapFacts3
  HeapFacts4 HeapFacts5 HeapFacts6.
Import ListNotations.
Local Arguments eqd : simpl never.

Lemma derived_own n m dv s p q F h r h1 calls r' h2 s0 p0 F0 :
  holds h s p F -> operand_holds h dv q -> derive n dv s h = (Ok r, h1) -> own_result dv p ->
  set_values m r calls h1 = (r', h2) ->
  holds h s0 p0 F0 -> holds h2 s0 p0 F0.
Proof.
  intros H OP E OW SV H0. destruct (derive_ok n dv s p q F h (Ok r) h1 H OP E) as (X & p' & G & _ & HG & B & _).
  eapply (set_values_apart m calls r s0 p' p0 G F0); [exact HG | eapply holds_grows; eassumption | | exact SV].
  intros a A1 A2. apply (B OW) in A1. apply (holds_bound _ _ _ _ H0) in A2. lia.
Qed.

Lemma derived_back n m dv s p q F h r h1 calls s' h2 p' G :
  holds h s p F -> operand_holds h dv q -> derive n dv s h = (Ok r, h1) -> own_result dv p ->
  holds h1 r p' G -> set_values m s calls h1 = (s', h2) -> holds h2 r p' G.
Proof.
  intros H OP E OW HR SV. destruct (derive_ok n dv s p q F h (Ok r) h1 H OP E) as (X & p1 & G1 & _ & HG & B & _).
  assert (apart F G).
  { assert (EG : G = G1).
    { inversion HR as [d a x Q | d a x Q | d a l Q | d v t G0 R]; subst; inversion HG as [d' a' x' Q' | d' a' x' Q' | d' a' l' Q' | d' v' t' G0' R']; subst; try reflexivity.
      now destruct (proj1 (reads_unique h1) _ _ _ R' _ _ R) as (_ & ->). }
    subst G1. intros a A1 A2. apply (B OW) in A2. apply (holds_bound _ _ _ _ H) in A1. lia. }
  eapply (set_values_apart m calls s r p p' F G); [eapply holds_grows; eassumption | exact HR | assumption | exact SV].
Qed.

Lemma derived_table n dv s p q F h r h1 : wf_store p ->
  holds h s p F -> operand_holds h dv q -> derive n dv s h = (Ok r, h1) ->
  exists p' G, table_of dv p q = Ok p' /\ holds h1 r p' G /\ (NoDup F -> NoDup G).
Proof.
  intros W H OP E. destruct (derive_ok n dv s p q F h (Ok r) h1 H OP E) as (X & p' & G & T & HG & _ & ND).
  exists p', G. rewrite table_wf in T by exact W. auto.
Qed.

Lemma derived_runs n dv s p q p' F h :
  wf_store p -> (forall q', q = Some q' -> wf_store q') ->
  (match dv with DMarginalize vs | DMaxmarginalize vs => NoDup vs /\ incl vs (keys (st_domain p)) | _ => True end) ->
  holds h s p F -> operand_holds h dv q -> table_of dv p q = Ok p' -> wf_store p' ->
  2 * length (st_domain p) + match q with Some q' => length (st_domain q') | None => 0 end < n ->
  exists r h1 G, derive n dv s h = (Ok r, h1) /\ holds h1 r p' G.
Proof.
  intros W WQ C H OP T W' N. destruct (derive n dv s h) as [res h1] eqn:E.
  destruct (derive_ok n dv s p q F h res h1 H OP E) as (X & O). rewrite table_wf, T in O by exact W.
  destruct res as [r|e].
  - destruct O as (p1 & G & Q & HG & _). injection Q as <-. exists r, h1, G. auto.
  - exfalso. destruct O as [O | [(_ & _ & O) | (p1 & Q & O)]]; [discriminate | | ].
    + specialize (O W WQ C). lia.
    + injection Q as <-. apply O. now apply wf_fits.
Qed.

Lemma holds_unique h s p F p' F' : holds h s p F -> holds h s p' F' -> p' = p /\ F' = F.
Proof.
  intros H H'. inversion H as [d a x Q | d a x Q | d a l Q | d v t G0 R]; subst;
    inversion H' as [d' a' x' Q' | d' a' x' Q' | d' a' l' Q' | d' v' t' G0' R']; subst;
    try (rewrite Q in Q'; injection Q' as <-; auto).
  destruct (proj1 (reads_unique h) _ _ _ R _ _ R') as (-> & ->). auto.
Qed.

(** ** restrict of a treedict store: sharing *)

Lemma used_up_dec : forall t o, used_up o t \/ ~ used_up o t.
Proof.
  induction t as [x | w ch IH] using tree_ind'; intros o; [left; constructor|].
  destruct (dget w o) as [s|] eqn:D.
  - destruct (dget s ch) as [c|] eqn:DC.
    + destruct (IH s c (dget_In_pair _ _ _ DC) (dremove w o)) as [U | U].
      * left. eapply used_pick; eassumption.
      * right. intros Q. inversion Q as [| | o0 w0 ch0 s0 c0 D0 DC0 U0]; subst; [congruence|].
        assert (s0 = s) by congruence. subst s0. assert (c0 = c) by congruence. subst c0. contradiction.
    + right. intros Q. inversion Q as [| | o0 w0 ch0 s0 c0 D0 DC0 U0]; subst; [congruence|].
      assert (s0 = s) by congruence. subst s0. congruence.
  - destruct o as [|e o'].
    { right. intros Q. inversion Q as [| | o0 w0 ch0 s0 c0 D0]; subst; [congruence | discriminate]. }
    set (o := e :: o') in *.
    assert (A : (forall s c, In (s, c) ch -> used_up o c) \/ ~ (forall s c, In (s, c) ch -> used_up o c)).
    { clear D. induction ch as [|[s c] ch IHc]; [left; intros s c []|].
      destruct (IH s c (or_introl eq_refl) o) as [U | U].
      - destruct (IHc (fun s' c' I => IH s' c' (or_intror I))) as [A | A].
        + left. intros s' c' [I | I]; [injection I as <- <-; exact U | eauto].
        + right. intros Q. apply A. intros s' c' I. apply (Q s'). now right.
      - right. intros Q. apply U, (Q s). now left. }
    destruct A as [A | A].
    + left. apply used_skip; [discriminate | exact D | exact A].
    + right. intros Q. inversion Q as [| o0 w0 ch0 NE D0 UC |]; subst; [contradiction | congruence].
Qed.

Lemma hrestrict_shares : forall n t v o h F v' h' t' F', reads h v t F -> ~ used_up o t ->
  hrestrict n v o h = (Ok v', h') -> reads h' v' t' F' -> exists b, In b F /\ In b F'.
Proof.
  induction n as [|n IH]; intros t v o h F v' h' t' F' R U E R'; [discriminate|].
  cbn [hrestrict] in E. unfold hbind in E at 1.
  inversion R as [x | a w kids ch G E0 RK]; subst; [exfalso; apply U; constructor|].
  rewrite (hread_node _ _ _ _ E0) in E.
  destruct o as [|e o'].
  { injection E as <- <-. exists a. split; [now left|].
    destruct (proj1 (reads_unique h) _ _ _ R _ _ R') as (-> & ->). now left. }
  set (o := e :: o') in *. destruct (dget w o) as [s|] eqn:D.
  - pose proof (kids_get h kids ch G s RK) as KG. destruct (dget s ch) as [c|] eqn:DC.
    2: { rewrite KG in E. discriminate. }
    destruct KG as (k & G' & EK & Rk & I & _). rewrite EK in E.
    assert (U' : ~ used_up (dremove w o) c). { intros Q. apply U. eapply used_pick; eassumption. }
    destruct (IH c k (dremove w o) h G' v' h' t' F' Rk U' E R') as (b & B1 & B2).
    exists b. split; [right; auto | exact B2].
  - unfold hbind in E at 1.
    match type of E with context [match ?z with (_, _) => _ end] => destruct z as [r1 h1] eqn:E1 end.
    destruct r1 as [kids1|e1]; [|discriminate]. injection E as <- <-.
    assert (EX : exists s c, In (s, c) ch /\ ~ used_up o c).
    { assert (A : (forall s c, In (s, c) ch -> used_up o c) \/ exists s c, In (s, c) ch /\ ~ used_up o c).
      { clear. induction ch as [|[s c] ch [A | (s' & c' & I & N)]]; [left; intros s c [] | |].
        - destruct (used_up_dec c o) as [Q | Q].
          + left. intros s' c' [I | I]; [injection I as <- <-; exact Q | eauto].
          + right. exists s, c. split; [now left | exact Q].
        - right. exists s', c'. split; [now right | exact N]. }
      destruct A as [A | A]; [|exact A]. exfalso. apply U. apply used_skip; [discriminate | exact D | exact A]. }
    inversion R' as [|a1 w1 kids1' ch1 G1 E2 RK1]; subst.
    rewrite nth_error_app2 in E2 by lia. rewrite Nat.sub_diag in E2. cbn in E2. injection E2 as <- <-.
    assert (XX : grows h1 (h1 ++ [CNode w kids1])) by apply grows_alloc.
    set (hf := h1 ++ [CNode w kids1]) in *. clearbody hf.
    assert (SH : exists b, In b G /\ In b G1).
    { destruct EX as (s & c & Ic & NU). clear U D R E0 R'. clearbody o.
      assert (GR : grows h h1).
      { pose proof (hmap_kids (fun sk => hrestrict n (snd sk) o) (fun sc => trestrict (snd sc) o) true True kids h ch G RK) as HM.
        apply (HM (fun h0 s0 k0 c0 G0 X I R0 r0 h2 Q => ltac:(
          eapply outcome_weak; [|eapply hrestrict_ok; [exact R0 | now left | exact Q]]; auto)) _ _ E1). }
      revert h ch G kids1 ch1 G1 h1 RK E1 XX RK1 Ic GR.
      induction kids as [|[s0 k0] kids IHk]; intros h ch G kids1 ch1 G1 h1 RK E1 XX RK1 Ic GR.
      - inversion RK; subst. destruct Ic.
      - inversion RK as [|s' k' kids' c0 ch' F1 F2 R0 RK']; subst.
        cbn [hmapM] in E1. unfold hbind in E1 at 1. unfold hbind in E1 at 1. cbn [snd fst] in E1.
        destruct (hrestrict n k0 o h) as [r2 h2] eqn:E2. destruct r2 as [k2|]; [|discriminate].
        unfold hret at 1 in E1. unfold hbind in E1 at 1.
        destruct (hmapM (fun sk => let! k := hrestrict n (snd sk) o in hret (fst sk, k)) kids h2) as [r3 h3] eqn:E3.
        destruct r3 as [kids3|]; [|discriminate]. injection E1 as <- <-.
        inversion RK1 as [|s1 k1 kk c1 cc G2 G3 R1 RK3]; subst.
        pose proof (hrestrict_ok n c0 k0 o h F1 true (Ok k2) h2 R0 (or_introl eq_refl) E2) as (X2 & t2 & Fk & _ & R2 & _).
        assert (X3 : grows h2 h3).
        { assert (RK2 : reads_kids h2 kids ch' F2) by (eapply kids_grows; eassumption).
          pose proof (hmap_kids (fun sk => hrestrict n (snd sk) o) (fun sc => trestrict (snd sc) o) true True kids h2 ch' F2 RK2) as HM.
          apply (HM (fun h0 s0 k0 c0 G0 X I R0 r0 h2 Q => ltac:(
            eapply outcome_weak; [|eapply hrestrict_ok; [exact R0 | now left | exact Q]]; auto)) _ _ E3). }
        destruct Ic as [Ic | Ic].
        + injection Ic as -> ->.
          destruct (IH c k0 o h F1 k2 h2 t2 Fk R0 NU E2 R2) as (b & B1 & B2). exists b.
          split; [apply in_or_app; now left|]. apply in_or_app. left.
          assert (R2' : reads hf k2 t2 Fk) by (eapply reads_grows; [|exact R2]; eapply grows_trans; eassumption).
          destruct (proj1 (reads_unique hf) _ _ _ R2' _ _ R1) as (_ & ->). exact B2.
        + destruct (IHk h2 ch' F2 kids3 cc G3 h3) as (b & B1 & B2); try assumption.
          { eapply kids_grows; eassumption. }
          exists b. split; apply in_or_app; right; assumption. }
    destruct SH as (b & B1 & B2). exists b. split; now right.
Qed.

Lemma restrict_shares n o s d t F h r h1 p' G :
  holds h s (StTree d t) F -> hs_restrict n s o h = (Ok r, h1) -> ~ used_up (ones o) t ->
  holds h1 r p' G -> exists a, In a F /\ In a G.
Proof.
  intros H E U HR. inversion H as [| | |d0 v t0 F0 R]; subst. unfold hs_restrict in E. cbn [hs_type hs_data hs_domain] in E.
  destruct (has_list o); [discriminate|]. unfold hbind in E.
  destruct (hrestrict n v (ones o) h) as [r1 h2] eqn:E1.
  pose proof (hrestrict_ok n t v (ones o) h F true r1 h2 R (or_introl eq_refl) E1) as (X & O).
  destruct r1 as [v'|e]; [|discriminate]. destruct O as (t' & F' & _ & R' & _).
  destruct (hrestrict_shares n t v (ones o) h F v' h2 t' F' R U E1 R') as (b & B1 & B2).
  destruct (hinit_tree _ v' t' F' h2 (Ok r) h1 R' E) as (X1 & p1 & G1 & _ & HG & _ & EQ).
  destruct (holds_unique _ _ _ _ _ _ HG HR) as (_ & ->).
  exists b. split; [exact B1|]. rewrite EQ; [exact B2|]. intros ->. destruct B2.
Qed.
