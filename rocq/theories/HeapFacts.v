(** Facts about heaps: growing, reading, and the tree functions on references. *)

From Coq Require Import String Bool Arith Lia List.
From Verif Require Import PyBase Num DomainModel NdArray StoreModel NumStore PyFacts Spec StoreSpec
  TreeFacts HeapModel HeapSpec.
Import ListNotations.
Local Arguments eqd : simpl never.

Scheme reads_mut := Induction for reads Sort Prop
  with reads_kids_mut := Induction for reads_kids Sort Prop.
Combined Scheme reads_both from reads_mut, reads_kids_mut.

Lemma hbind_ok {A B} (m : action A) (k : A -> action B) h x h' : m h = (Ok x, h') -> hbind m k h = k x h'.
Proof. intros E. unfold hbind. now rewrite E. Qed.
Lemma hbind_raise {A B} (m : action A) (k : A -> action B) h e h' : m h = (Raise e, h') -> hbind m k h = (Raise e, h').
Proof. intros E. unfold hbind. now rewrite E. Qed.

Definition grows (h h' : heap) : Prop := exists e, h' = h ++ e.

Lemma grows_refl h : grows h h.
Proof. exists []. now rewrite app_nil_r. Qed.
Lemma grows_trans h1 h2 h3 : grows h1 h2 -> grows h2 h3 -> grows h1 h3.
Proof. intros (e & ->) (e' & ->). exists (e ++ e'). now rewrite app_assoc. Qed.
Lemma grows_alloc h c : grows h (h ++ [c]).
Proof. now exists [c]. Qed.
Lemma grows_length h h' : grows h h' -> length h <= length h'.
Proof. intros (e & ->). rewrite app_length. lia. Qed.
Lemma grows_get h h' a c : grows h h' -> nth_error h a = Some c -> nth_error h' a = Some c.
Proof.
  intros (e & ->) E. rewrite nth_error_app1; [exact E|].
  apply nth_error_Some. congruence.
Qed.
#[export] Hint Resolve grows_refl grows_alloc : core.

Lemma get_bound (h : heap) a c : nth_error h a = Some c -> a < length h.
Proof. intros E. apply nth_error_Some. congruence. Qed.

Lemma NoDup_app_remove_r {A} (l l' : list A) : NoDup (l ++ l') -> NoDup l.
Proof.
  induction l as [|x l IH]; intros D; [constructor|]. cbn in D. inversion D as [|y r N D']; subst.
  constructor; [|auto]. intros I. apply N, in_or_app. now left.
Qed.
Lemma NoDup_app_remove_l {A} (l l' : list A) : NoDup (l ++ l') -> NoDup l'.
Proof. induction l as [|x l IH]; intros D; [exact D|]. cbn in D. inversion D; auto. Qed.

(** Reading depends only on the objects read. *)
Lemma reads_same h h' :
  (forall v t F, reads h v t F -> (forall a, In a F -> nth_error h' a = nth_error h a) -> reads h' v t F) /\
  (forall kids ch F, reads_kids h kids ch F ->
     (forall a, In a F -> nth_error h' a = nth_error h a) -> reads_kids h' kids ch F).
Proof.
  apply (reads_both h
    (fun v t F _ => (forall a, In a F -> nth_error h' a = nth_error h a) -> reads h' v t F)
    (fun kids ch F _ => (forall a, In a F -> nth_error h' a = nth_error h a) -> reads_kids h' kids ch F)).
  - constructor.
  - intros a w kids ch F E _ IH S. econstructor.
    + rewrite S by (left; reflexivity). exact E.
    + apply IH. intros b B. apply S. now right.
  - constructor.
  - intros s k kids c ch F G _ IH1 _ IH2 S. constructor.
    + apply IH1. intros a A. apply S, in_or_app. now left.
    + apply IH2. intros a A. apply S, in_or_app. now right.
Qed.

Lemma reads_bound h :
  (forall v t F, reads h v t F -> forall a, In a F -> a < length h) /\
  (forall kids ch F, reads_kids h kids ch F -> forall a, In a F -> a < length h).
Proof.
  apply (reads_both h (fun v t F _ => forall a, In a F -> a < length h)
                      (fun kids ch F _ => forall a, In a F -> a < length h)).
  - intros x a [].
  - intros a w kids ch F E _ IH b [<- | B]; [now apply get_bound in E | auto].
  - intros a [].
  - intros s k kids c ch F G _ IH1 _ IH2 a A. apply in_app_or in A as [A | A]; auto.
Qed.

Lemma reads_grows h h' v t F : grows h h' -> reads h v t F -> reads h' v t F.
Proof.
  intros X R. apply (proj1 (reads_same h h') v t F R). intros a A.
  pose proof (proj1 (reads_bound h) _ _ _ R a A) as B.
  destruct X as (e & ->). now apply nth_error_app1.
Qed.
Lemma kids_grows h h' kids ch F : grows h h' -> reads_kids h kids ch F -> reads_kids h' kids ch F.
Proof.
  intros X R. apply (proj2 (reads_same h h') kids ch F R). intros a A.
  pose proof (proj2 (reads_bound h) _ _ _ R a A) as B.
  destruct X as (e & ->). now apply nth_error_app1.
Qed.

(** A reference reads at most one tree, in one way. *)
Lemma reads_unique h :
  (forall v t F, reads h v t F -> forall t' F', reads h v t' F' -> t' = t /\ F' = F) /\
  (forall kids ch F, reads_kids h kids ch F -> forall ch' F', reads_kids h kids ch' F' -> ch' = ch /\ F' = F).
Proof.
  apply (reads_both h (fun v t F _ => forall t' F', reads h v t' F' -> t' = t /\ F' = F)
                      (fun kids ch F _ => forall ch' F', reads_kids h kids ch' F' -> ch' = ch /\ F' = F)).
  - intros x t' F' R. inversion R; subst. auto.
  - intros a w kids ch F E _ IH t' F' R. inversion R as [|a' w' kids' ch' G E' R']; subst.
    rewrite E in E'. injection E' as <- <-. destruct (IH _ _ R') as (-> & ->). auto.
  - intros ch' F' R. inversion R; subst. auto.
  - intros s k kids c ch F G _ IH1 _ IH2 ch' F' R.
    inversion R as [|s' k' kids' c' ch'' F1 G1 R1 R2]; subst.
    destruct (IH1 _ _ R1) as (-> & ->). destruct (IH2 _ _ R2) as (-> & ->). auto.
Qed.

Lemma kids_get h kids ch F s : reads_kids h kids ch F ->
  match dget s ch with
  | Some c => exists k G, dget s kids = Some k /\ reads h k c G /\ incl G F /\ (NoDup F -> NoDup G)
  | None => dget s kids = None
  end.
Proof.
  induction 1 as [|s' k kids c ch F G R _ IH]; [reflexivity|].
  cbn [dget]. destruct (eqd s s') as [-> | N].
  - exists k, F. split; [reflexivity|]. split; [exact R|]. split.
    + intros a A. apply in_or_app. now left.
    + apply NoDup_app_remove_r.
  - destruct (dget s ch) as [c'|]; [|exact IH].
    destruct IH as (k' & G' & E & R' & I & D). exists k', G'. repeat split; auto.
    + intros a A. apply in_or_app. right. auto.
    + intros D'. apply D. eapply NoDup_app_remove_l; exact D'.
Qed.

(** ** Outcomes of the functions that only build new objects *)

(** Addresses of a result: from [K] or new; all different if those of [K] are. *)
Definition kept (h h' : heap) (K F' : list nat) : Prop :=
  (forall b, In b F' -> (In b K \/ length h <= b) /\ b < length h') /\ (NoDup K -> NoDup F').

Definition keep (kp : bool) (F : list nat) : list nat := if kp then F else [].

Definition outcome (deep : Prop) (h h' : heap) (K : list nat) (r : res hval) (p : res (tree num)) : Prop :=
  grows h h' /\
  match r with
  | Ok v' => exists t' F', p = Ok t' /\ reads h' v' t' F' /\ kept h h' K F'
  | Raise e => p = Raise e \/ e = RecursionError /\ deep
  end.

Definition outcome_kids (deep : Prop) (h h' : heap) (K : list nat)
    (r : res (dict state hval)) (p : res (list (state * tree num))) : Prop :=
  grows h h' /\
  match r with
  | Ok kids => exists ch F', p = Ok ch /\ reads_kids h' kids ch F' /\ kept h h' K F'
  | Raise e => p = Raise e \/ e = RecursionError /\ deep
  end.

Lemma keep_app kp F G : keep kp (F ++ G) = keep kp F ++ keep kp G.
Proof. now destruct kp. Qed.
Lemma keep_incl kp F : incl (keep kp F) F.
Proof. destruct kp; [apply incl_refl | intros a []]. Qed.

Lemma kept_nil h h' K : kept h h' K [].
Proof. split; [intros b [] | constructor]. Qed.

Lemma NoDup_app_intro {A} (l1 l2 : list A) : NoDup l1 -> NoDup l2 ->
  (forall a, In a l1 -> In a l2 -> False) -> NoDup (l1 ++ l2).
Proof.
  intros D1 D2 X. induction l1 as [|x l1 IH]; [exact D2|].
  inversion D1 as [|y l' N D1']; subst. cbn. constructor.
  - intros I. apply in_app_or in I as [I | I]; [contradiction|]. apply (X x); [now left | exact I].
  - apply IH; [exact D1'|]. intros a A1 A2. apply (X a); [now right | exact A2].
Qed.

Lemma kept_app h h1 h2 K1 K2 F1 F2 :
  grows h h1 -> grows h1 h2 ->
  (forall a, In a K1 -> a < length h) -> (forall a, In a K2 -> a < length h) ->
  kept h h1 K1 F1 -> kept h1 h2 K2 F2 -> kept h h2 (K1 ++ K2) (F1 ++ F2).
Proof.
  intros X1 X2 B1 B2 (P1 & D1) (P2 & D2).
  pose proof (grows_length _ _ X1) as L1. pose proof (grows_length _ _ X2) as L2.
  split.
  - intros b B. apply in_app_or in B as [B | B].
    + destruct (P1 b B) as ([I | I] & L); (split; [|lia]); [left; apply in_or_app; now left | now right].
    + destruct (P2 b B) as ([I | I] & L); (split; [|lia]); [left; apply in_or_app; now right | right; lia].
  - intros D. apply NoDup_app_intro.
    + apply D1. eapply NoDup_app_remove_r; exact D.
    + apply D2. eapply NoDup_app_remove_l; exact D.
    + intros a A1 A2. destruct (P1 a A1) as ([I1 | I1] & La). 
      * destruct (P2 a A2) as ([I2 | I2] & _).
        -- clear - D I1 I2. induction K1 as [|y K1 IH]; [destruct I1|].
           cbn in D. inversion D as [|z l N D']; subst. destruct I1 as [<- | I1].
           ++ apply N, in_or_app. now right.
           ++ now apply IH.
        -- apply B1 in I1. lia.
      * destruct (P2 a A2) as ([I2 | I2] & _); [apply B2 in I2|]; lia.
Qed.

Lemma kept_weaken h0 h h' K F : grows h0 h -> (forall b, In b K -> b < length h0) ->
  kept h h' K F -> kept h0 h' K F.
Proof.
  intros X B (P & D). apply grows_length in X. split; [|exact D].
  intros b I. destruct (P b I) as ([J | J] & L); split; auto. right. lia.
Qed.

Lemma kept_more h h' h2 K F : grows h' h2 -> kept h h' K F -> kept h h2 K F.
Proof.
  intros X (P & D). apply grows_length in X. split; [|exact D].
  intros b I. destruct (P b I) as (J & L). split; auto. lia.
Qed.

(** A new node over the children. *)
Lemma outcome_node deep h h1 K r1 p1 w r h' :
  outcome_kids deep h h1 K r1 p1 -> (forall a, In a K -> a < length h) ->
  (match r1 with
   | Ok kids => halloc (CNode w kids) h1
   | Raise e => (Raise e, h1)
   end) = (r, h') ->
  outcome deep h h' K r (let* ch := p1 in Ok (Node w ch)).
Proof.
  intros (X & O) B E. destruct r1 as [kids | e].
  - injection E as <- <-. destruct O as (ch & F & -> & R & P & D).
    split; [eapply grows_trans; [exact X | apply grows_alloc]|].
    exists (Node w ch), (length h1 :: F). split; [reflexivity|]. split.
    + econstructor.
      * rewrite nth_error_app2 by lia. now rewrite Nat.sub_diag.
      * eapply kids_grows; [|exact R]. apply grows_alloc.
    + pose proof (grows_length _ _ X) as L. split.
      * rewrite app_length. cbn. intros b [<- | I]; [split; [right|]; lia|].
        destruct (P b I). split; [assumption | lia].
      * intros N. constructor; [|auto]. intros I. apply P in I. lia.
  - injection E as <- <-. split; [exact X|]. destruct O as [-> | O]; [now left | now right].
Qed.

Lemma hmap_kids (f : state * hval -> action hval) (g : state * tree num -> res (tree num)) kp deep :
  forall kids h ch F, reads_kids h kids ch F ->
  (forall h0 s k c G, grows h h0 -> In (s, c) ch -> reads h0 k c G ->
     forall r h1, f (s, k) h0 = (r, h1) -> outcome deep h0 h1 (keep kp G) r (g (s, c))) ->
  forall r h', hmapM (fun sk => let! k := f sk in hret (fst sk, k)) kids h = (r, h') ->
  outcome_kids deep h h' (keep kp F) r (mapM (fun sc => let* c' := g sc in Ok (fst sc, c')) ch).
Proof.
  induction kids as [|[s k] kids IH]; intros h ch F RK H r h' E.
  - inversion RK; subst. injection E as <- <-. split; [apply grows_refl|].
    exists [], []. split; [reflexivity|]. split; [constructor | apply kept_nil].
  - inversion RK as [|s' k' kids' c ch' F1 G R RK']; subst.
    cbn [hmapM] in E. unfold hbind in E at 1. unfold hbind in E at 1. cbn [fst] in E.
    destruct (f (s, k) h) as [r1 h1] eqn:E1.
    destruct (H h s k c F1 (grows_refl h) (or_introl eq_refl) R _ _ E1) as (X1 & O1).
    cbn [mapM fst]. destruct r1 as [k' | e].
    2: { injection E as <- <-. split; [exact X1|]. destruct O1 as [-> | O1]; [now left | now right]. }
    destruct O1 as (c' & F' & -> & R' & P'). cbn [bind]. unfold hret at 1 in E.
    unfold hbind in E at 1.
    destruct (hmapM (fun sk => let! k := f sk in hret (fst sk, k)) kids h1) as [r2 h2] eqn:E2.
    assert (O2 : outcome_kids deep h1 h2 (keep kp G) r2 (mapM (fun sc => let* c' := g sc in Ok (fst sc, c')) ch')).
    { apply (IH h1 ch' G); [eapply kids_grows; eassumption| |exact E2].
      intros h0 s0 k0 c0 G0 X I. apply H; [eapply grows_trans; eassumption | now right]. }
    destruct O2 as (X2 & O2). destruct r2 as [kids2 | e].
    + destruct O2 as (ch2 & F2 & -> & R2 & P2). injection E as <- <-.
      split; [eapply grows_trans; eassumption|]. exists ((s, c') :: ch2), (F' ++ F2).
      split; [reflexivity|]. split.
      * constructor; [eapply reads_grows; eassumption | exact R2].
      * rewrite keep_app. eapply kept_app; eauto.
        -- intros a A. apply keep_incl in A. eapply (proj1 (reads_bound h)); eassumption.
        -- intros a A. apply keep_incl in A. eapply (proj2 (reads_bound h)); eassumption.
    + injection E as <- <-. split; [eapply grows_trans; eassumption|].
      destruct O2 as [-> | O2]; [now left | now right].
Qed.
