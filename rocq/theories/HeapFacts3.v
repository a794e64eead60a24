(** set_value on references: what it can change, and what it computes. *)

From Coq Require Import String Bool Arith Lia List.
From Verif Require Import PyBase Num DomainModel NdArray StoreModel NumStore PyFacts Spec DomainFacts StoreSpec
  TreeFacts TreeFacts2 HeapModel HeapSpec HeapFacts HeapFacts2.
Import ListNotations.
Local Arguments eqd : simpl never.

(** ** Writing *)

Lemma put_length h a c : length (put h a c) = length h.
Proof. revert a. induction h as [|d h IH]; intros [|a]; cbn; auto. Qed.
Lemma put_same h a c : a < length h -> nth_error (put h a c) a = Some c.
Proof. revert a. induction h as [|d h IH]; intros [|a] L; cbn in *; try lia; auto. apply IH. lia. Qed.
Lemma put_other h a b c : a <> b -> nth_error (put h a c) b = nth_error h b.
Proof.
  revert a b. induction h as [|d h IH]; intros [|a] [|b] N; cbn; auto; try lia. 
Qed.

(** ** Regions: sets of addresses closed under following references *)

Definition region : Type := nat -> Prop.
Definition inside (S : region) (v : hval) : Prop := match v with HNum _ => True | HRef a => S a end.
Definition closed (h : heap) (S : region) : Prop :=
  forall a w kids s k, S a -> nth_error h a = Some (CNode w kids) -> In (s, k) kids -> inside S k.
Definition grown (S : region) (h : heap) : region := fun b => S b \/ length h <= b.

Definition stays (S : region) (h h' : heap) : Prop :=
  length h <= length h' /\ closed h' (grown S h) /\
  forall a, a < length h -> ~ S a -> nth_error h' a = nth_error h a.

Lemma closed_ext h S S' : (forall b, S b <-> S' b) -> closed h S -> closed h S'.
Proof.
  intros Q C a w kids s k A E I. apply Q in A. specialize (C a w kids s k A E I).
  destruct k as [x|b]; cbn in *; [exact Logic.I | now apply Q].
Qed.

Lemma stays_refl S h : closed h S -> stays S h h.
Proof.
  intros C. split; [lia|]. split; [|auto].
  intros a w kids s k [A | A] E I.
  - specialize (C a w kids s k A E I). destruct k; [exact Logic.I | now left].
  - apply get_bound in E. lia.
Qed.

Lemma stays_trans S h h1 h2 : stays S h h1 -> stays (grown S h) h1 h2 -> stays S h h2.
Proof.
  intros (L1 & C1 & U1) (L2 & C2 & U2). split; [lia|]. split.
  - eapply closed_ext; [|exact C2]. intros b. unfold grown. split.
    + intros [[B | B] | B]; auto. right. lia.
    + intros [B | B]; auto.
  - intros a A N. rewrite U2; [now apply U1 | lia|]. intros [B | B]; [auto | lia].
Qed.

Lemma inside_grown S h v : inside S v -> inside (grown S h) v.
Proof. destruct v; cbn; [auto | now left]. Qed.

Lemma grown_twice S h h1 v : length h <= length h1 -> inside (grown (grown S h) h1) v -> inside (grown S h) v.
Proof. intros L. destruct v as [x|b]; cbn; [auto|]. unfold grown. intros [[B | B] | B]; auto. right. lia. Qed.

Lemma stays_alloc S h w kids : closed h S -> (forall s k, In (s, k) kids -> inside S k) ->
  stays S h (h ++ [CNode w kids]).
Proof.
  intros C K. split; [rewrite app_length; lia|]. split.
  - intros a w' kids' s k A E I. destruct (Nat.lt_ge_cases a (length h)) as [L | L].
    + rewrite nth_error_app1 in E by exact L. destruct A as [A | A]; [|lia].
      apply inside_grown. eapply C; eassumption.
    + rewrite nth_error_app2 in E by exact L. destruct (a - length h) as [|j] eqn:J; cbn in E.
      * injection E as <- <-. apply inside_grown. eapply K. exact I.
      * destruct j; discriminate.
  - intros a A _. now apply nth_error_app1.
Qed.

Lemma stays_put S h a w kids : closed h S -> S a -> (forall s k, In (s, k) kids -> inside S k) ->
  stays S h (put h a (CNode w kids)).
Proof.
  intros C Sa K. split; [rewrite put_length; lia|]. split.
  - intros b w' kids' s k B E I. pose proof (get_bound _ _ _ E) as LB. rewrite put_length in LB.
    destruct B as [B | B]; [|lia]. apply inside_grown.
    destruct (Nat.eq_dec a b) as [<- | N].
    + rewrite put_same in E by exact LB. injection E as <- <-. eapply K. exact I.
    + rewrite put_other in E by exact N. eapply C; eassumption.
  - intros b B N. apply put_other. intros ->. contradiction.
Qed.

Lemma In_dset {B} (s s' : state) (k k' : B) (kids : dict state B) :
  In (s', k') (dset s k kids) -> k' = k \/ In (s', k') kids.
Proof.
  induction kids as [|[x y] kids IH]; cbn [dset].
  - intros [E | []]. injection E as <- <-. now left.
  - destruct (eqd s x) as [-> | N].
    + intros [E | I]; [injection E as <- <-; now left | right; now right].
    + intros [E | I]; [right; now left|]. apply IH in I as [I | I]; [now left | right; now right].
Qed.

Lemma hset_stays : forall n v o x h S r h', closed h S -> inside S v -> hset n v o x h = (r, h') ->
  stays S h h' /\ forall v', r = Ok v' -> inside (grown S h) v'.
Proof.
  induction n as [|n IH]; intros v o x h S r h' C V E.
  - injection E as <- <-. split; [now apply stays_refl | discriminate].
  - cbn [hset] in E. unfold hbind in E at 1. unfold hread at 1 in E.
    assert (DONE : (@Ok hval (HNum x), h) = (r, h') ->
      stays S h h' /\ forall v', r = Ok v' -> inside (grown S h) v').
    { intros Q. injection Q as <- <-. split; [now apply stays_refl|]. intros v' Q. injection Q as <-. exact Logic.I. }
    destruct v as [y|a]; [now apply DONE|].
    destruct (nth_error h a) as [[w kids|y|l]|] eqn:Ea; try (now apply DONE).
    destruct o as [|e o']; [now apply DONE|]. set (o := e :: o') in *. clearbody o. clear DONE.
    destruct (dget w o) as [s|] eqn:D.
    + destruct (dget s kids) as [k|] eqn:DK.
      2: { injection E as <- <-. split; [now apply stays_refl | discriminate]. }
      assert (VK : inside S k). { eapply C; [exact V | exact Ea | apply dget_In_pair; exact DK]. }
      unfold hbind in E at 1. destruct (hset n k (dremove w o) x h) as [r1 h1] eqn:E1.
      destruct (IH k _ x h S r1 h1 C VK E1) as (St & IV).
      destruct r1 as [k1|e1].
      2: { injection E as <- <-. split; [exact St | discriminate]. }
      unfold hbind in E at 1. unfold hread in E.
      destruct (nth_error h1 a) as [[w' kids'|y|l]|] eqn:Ea1;
        try (injection E as <- <-; split; [exact St | discriminate]).
      injection E as <- <-. split.
      * eapply stays_trans; [exact St|]. apply stays_put.
        -- apply St.
        -- now left.
        -- intros s' k' I. apply In_dset in I as [-> | I]; [now apply IV|].
           eapply (proj1 (proj2 St)); [left; exact V | exact Ea1 | exact I].
      * intros v' Q. injection Q as <-. now left.
    + unfold hbind in E at 1.
      match type of E with context [match ?z with (_, _) => _ end] => destruct z as [r1 h1] eqn:E1 end.
      assert (K : stays S h h1 /\ forall kids', r1 = Ok kids' -> forall s k, In (s, k) kids' -> inside (grown S h) k).
      { assert (VK : forall s k, In (s, k) kids -> inside S k) by (intros s k I; eapply C; eassumption).
        clear E Ea V. revert h S r1 h1 C VK E1.
        induction kids as [|[s k] kids IHk]; intros h S r1 h1 C VK E1.
        - injection E1 as <- <-. split; [now apply stays_refl|]. intros kids' Q. injection Q as <-. intros s k [].
        - cbn [hmapM] in E1. unfold hbind in E1 at 1. unfold hbind in E1 at 1. cbn [snd fst] in E1.
          destruct (hset n k o x h) as [r2 h2] eqn:E2.
          destruct (IH k o x h S r2 h2 C (VK s k (or_introl eq_refl)) E2) as (St & IV).
          destruct r2 as [k2|e2].
          2: { injection E1 as <- <-. split; [exact St | discriminate]. }
          unfold hret at 1 in E1. unfold hbind in E1 at 1.
          destruct (hmapM (fun sk => let! k := hset n (snd sk) o x in hret (fst sk, k)) kids h2) as [r3 h3] eqn:E3.
          destruct (IHk h2 (grown S h) r3 h3) as (St3 & IV3); [apply St | | exact E3 |].
          { intros s' k' I. apply inside_grown. apply (VK s'). now right. }
          assert (ST : stays S h h3) by (eapply stays_trans; eassumption).
          destruct r3 as [kids3|e3]; [|injection E1 as <- <-; split; [exact ST | discriminate]].
          injection E1 as <- <-. split; [exact ST|]. intros kids' Q. injection Q as <-.
          intros s' k' [I | I].
          + injection I as <- <-. now apply IV.
          + eapply grown_twice; [|eapply IV3; [reflexivity | exact I]]. apply St. }
      destruct K as (St & IV). destruct r1 as [kids1|e1].
      * injection E as <- <-. split.
        -- eapply stays_trans; [exact St|]. apply stays_alloc; [apply St | now apply IV].
        -- intros v' Q. injection Q as <-. cbn. right. apply St.
      * injection E as <- <-. split; [exact St | discriminate].
Qed.

(** the addresses read form a region *)
Lemma reads_region h :
  (forall v t F, reads h v t F -> closed h (fun a => In a F) /\ inside (fun a => In a F) v) /\
  (forall kids ch F, reads_kids h kids ch F ->
     closed h (fun a => In a F) /\ forall s k, In (s, k) kids -> inside (fun a => In a F) k).
Proof.
  apply (reads_both h
    (fun v t F _ => closed h (fun a => In a F) /\ inside (fun a => In a F) v)
    (fun kids ch F _ => closed h (fun a => In a F) /\ forall s k, In (s, k) kids -> inside (fun a => In a F) k)).
  - intros x. split; [intros a w kids s k [] | exact Logic.I].
  - intros a w kids ch F E _ (C & K). split; [|now left].
    intros b w' kids' s k [<- | B] E' I.
    + rewrite E in E'. injection E' as <- <-. specialize (K s k I). destruct k; [exact Logic.I | now right].
    + specialize (C b w' kids' s k B E' I). destruct k; [exact Logic.I | now right].
  - split; [intros a w kids s k [] | intros s k []].
  - intros s k kids c ch F G _ (C1 & V1) _ (C2 & K2). split.
    + intros b w' kids' s' k' B E' I. apply in_app_or in B as [B | B].
      * specialize (C1 b w' kids' s' k' B E' I). destruct k'; [exact Logic.I | apply in_or_app; now left].
      * specialize (C2 b w' kids' s' k' B E' I). destruct k'; [exact Logic.I | apply in_or_app; now right].
    + intros s' k' [I | I].
      * injection I as <- <-. destruct k; [exact Logic.I | apply in_or_app; now left].
      * specialize (K2 s' k' I). destruct k'; [exact Logic.I | apply in_or_app; now right].
Qed.

(** ** What set_value computes, on dictionaries without inner sharing *)

Definition frame (h h' : heap) (F : list nat) : Prop :=
  length h <= length h' /\ forall a, a < length h -> ~ In a F -> nth_error h' a = nth_error h a.

Definition changed (deep : Prop) (h h' : heap) (F : list nat) (r : res hval) (p : res (tree num)) : Prop :=
  frame h h' F /\
  match r with
  | Ok v' => exists t' F', p = Ok t' /\ reads h' v' t' F' /\ kept h h' F F'
  | Raise e => p = Raise e \/ e = RecursionError /\ deep
  end.

Lemma frame_refl h F : frame h h F.
Proof. split; auto. Qed.

Lemma reads_frame h h' F v t G : frame h h' F -> apart F G -> reads h v t G -> reads h' v t G.
Proof.
  intros (_ & U) A R. apply (proj1 (reads_same h h') v t G R). intros a I.
  apply U; [apply (proj1 (reads_bound h) _ _ _ R); exact I|]. intros J. exact (A a J I).
Qed.
Lemma kids_frame h h' F kids ch G : frame h h' F -> apart F G -> reads_kids h kids ch G -> reads_kids h' kids ch G.
Proof.
  intros (_ & U) A R. apply (proj2 (reads_same h h') kids ch G R). intros a I.
  apply U; [apply (proj2 (reads_bound h) _ _ _ R); exact I|]. intros J. exact (A a J I).
Qed.

Lemma kids_split h kids ch F s c : reads_kids h kids ch F -> dget s ch = Some c ->
  exists k1 k k2 c1 c2 F1 G F2,
    kids = k1 ++ (s, k) :: k2 /\ ch = c1 ++ (s, c) :: c2 /\ F = F1 ++ G ++ F2 /\
    reads_kids h k1 c1 F1 /\ reads h k c G /\ reads_kids h k2 c2 F2 /\ dget s kids = Some k /\
    (forall k', dset s k' kids = k1 ++ (s, k') :: k2) /\ (forall c', dset s c' ch = c1 ++ (s, c') :: c2).
Proof.
  induction 1 as [|s' k kids c' ch F G R RK IH]; [discriminate|]. cbn [dget dset].
  destruct (eqd s s') as [-> | N].
  - intros E. injection E as ->. exists [], k, kids, [], ch, [], F, G.
    split; [reflexivity|]. split; [reflexivity|]. split; [reflexivity|]. split; [constructor|].
    split; [exact R|]. split; [exact RK|]. split; [reflexivity|]. split; reflexivity.
  - intros E. destruct (IH E) as (k1 & k0 & k2 & c1 & c2 & F1 & G1 & F2 & -> & -> & -> & R1 & R0 & R2 & D & SK & SC).
    exists ((s', k) :: k1), k0, k2, ((s', c') :: c1), c2, (F ++ F1), G1, F2.
    split; [reflexivity|]. split; [reflexivity|]. split; [now rewrite <- app_assoc|].
    split; [constructor; assumption|]. split; [exact R0|]. split; [exact R2|]. split; [exact D|].
    split; intros z; [now rewrite SK | now rewrite SC].
Qed.

Lemma kids_app h k1 c1 F1 k2 c2 F2 : reads_kids h k1 c1 F1 -> reads_kids h k2 c2 F2 ->
  reads_kids h (k1 ++ k2) (c1 ++ c2) (F1 ++ F2).
Proof. induction 1; intros R; [exact R|]. cbn [app]. rewrite <- app_assoc. constructor; auto. Qed.

Lemma NoDup_app_apart {A} (l1 l2 : list A) : NoDup (l1 ++ l2) -> forall a, In a l1 -> In a l2 -> False.
Proof.
  induction l1 as [|x l1 IH]; intros D a A1 A2; [destruct A1|]. cbn in D. inversion D as [|y l N D']; subst.
  destruct A1 as [<- | A1]; [apply N, in_or_app; now right | eapply IH; eassumption].
Qed.

Lemma hset_ok : forall n t v o x h F r h', reads h v t F -> NoDup F -> hset n v o x h = (r, h') ->
  changed (n <= depth t) h h' F r (tset t o x).
Proof.
  induction n as [|n IH]; intros t v o x h F r h' R ND E.
  - injection E as <- <-. split; [apply frame_refl|]. right. split; [reflexivity | lia].
  - cbn [hset] in E. unfold hbind in E at 1.
    inversion R as [y | a w kids ch G E0 RK]; subst.
    + injection E as <- <-. split; [apply frame_refl|]. exists (Leaf x), []. split; [reflexivity|].
      split; [constructor | apply kept_nil].
    + rewrite (hread_node _ _ _ _ E0) in E. inversion ND as [|z l NI ND']; subst.
      pose proof (get_bound _ _ _ E0) as La.
      destruct o as [|e o'].
      { injection E as <- <-. split; [apply frame_refl|]. exists (Leaf x), []. split; [reflexivity|].
        split; [constructor | apply kept_nil]. }
      rewrite tset_node by discriminate. set (o := e :: o') in *. clearbody o.
      destruct (dget w o) as [s|] eqn:D.
      * destruct (dget s ch) as [c|] eqn:DC.
        -- destruct (kids_split h kids ch G s c RK DC)
             as (k1 & k & k2 & c1 & c2 & F1 & G1 & F2 & -> & -> & -> & R1 & R0 & R2 & DK & SK & SC).
           rewrite DK in E. unfold hbind in E at 1.
           destruct (hset n k (dremove w o) x h) as [r1 h1] eqn:E1.
           pose proof (NoDup_app_remove_l _ _ ND') as ND2. pose proof (NoDup_app_remove_r _ _ ND2) as NDG.
           assert (A1 : apart G1 F1). { intros b B1 B2. eapply (NoDup_app_apart F1 (G1 ++ F2)); [exact ND' | exact B2 | apply in_or_app; now left]. }
           assert (A2 : apart G1 F2) by (intros b; apply NoDup_app_apart; exact ND2).
           pose proof (IH c k (dremove w o) x h G1 r1 h1 R0 NDG E1) as (FR & O).
           assert (FRA : frame h h1 (a :: F1 ++ G1 ++ F2)).
           { destruct FR as (L & U). split; [exact L|]. intros b B N. apply U; [exact B|].
             intros I. apply N. right. apply in_or_app. right. apply in_or_app. now left. }
           destruct r1 as [k'|e1].
           ++ destruct O as (c' & G' & ET & R' & (P & PD)). rewrite ET. cbn [bind].
              assert (Ea1 : nth_error h1 a = Some (CNode w (k1 ++ (s, k) :: k2))).
              { destruct FR as (_ & U). rewrite U; [exact E0 | exact La|]. intros I. apply NI.
                apply in_or_app. right. apply in_or_app. now left. }
              unfold hbind in E at 1. rewrite (hread_node _ _ _ _ Ea1) in E. unfold hbind, hwrite, hret in E.
              rewrite SK in E. injection E as <- <-. rewrite SC.
              pose proof (get_bound _ _ _ Ea1) as La1. destruct FR as (L & U).
              set (h2 := put h1 a (CNode w (k1 ++ (s, k') :: k2))).
              assert (L2 : length h2 = length h1) by apply put_length.
              assert (NP : forall b, b <> a -> nth_error h2 b = nth_error h1 b) by (intros b B; apply put_other; congruence).
              split.
              ** split; [rewrite L2; exact L|]. intros b B N. rewrite NP; [|intros ->; apply N; now left].
                 apply (proj2 FRA); assumption.
              ** exists (Node w (c1 ++ (s, c') :: c2)), (a :: F1 ++ G' ++ F2). split; [reflexivity|].
                 assert (NG : ~ In a G').
                 { intros I. destruct (P a I) as ([J | J] & _); [|lia]. apply NI. apply in_or_app. right. apply in_or_app. now left. }
                 split.
                 --- econstructor; [apply put_same; exact La1|].
                     assert (Q1 : reads_kids h2 k1 c1 F1).
                     { apply (proj2 (reads_same h h2) _ _ _ R1). intros b B. rewrite NP.
                       - apply U; [exact (proj2 (reads_bound h) _ _ _ R1 b B) | intros J; exact (A1 b J B)].
                       - intros ->. apply NI. apply in_or_app. now left. }
                     assert (Q2 : reads_kids h2 k2 c2 F2).
                     { apply (proj2 (reads_same h h2) _ _ _ R2). intros b B. rewrite NP.
                       - apply U; [exact (proj2 (reads_bound h) _ _ _ R2 b B) | intros J; exact (A2 b J B)].
                       - intros ->. apply NI. apply in_or_app. right. apply in_or_app. now right. }
                     assert (Q0 : reads h2 k' c' G').
                     { apply (proj1 (reads_same h1 h2) _ _ _ R'). intros b B. apply NP. intros ->. contradiction. }
                     apply kids_app; [exact Q1|]. constructor; assumption.
                 --- split.
                     +++ rewrite L2. intros b [<- | B]; [split; [left; now left | exact La1]|].
                         apply in_app_or in B as [B | B].
                         { split; [left; right; apply in_or_app; now left|].
                           pose proof (proj2 (reads_bound h) _ _ _ R1 b B). lia. }
                         apply in_app_or in B as [B | B].
                         { destruct (P b B) as ([J | J] & Lb); split; auto. left. right.
                           apply in_or_app. right. apply in_or_app. now left. }
                         { split; [left; right; apply in_or_app; right; apply in_or_app; now right|].
                           pose proof (proj2 (reads_bound h) _ _ _ R2 b B). lia. }
                     +++ intros _.
                         assert (BG : forall b, In b G' -> In b F1 -> False).
                         { intros b B1 B2. destruct (P b B1) as ([J | J] & _); [exact (A1 b J B2)|].
                           pose proof (proj2 (reads_bound h) _ _ _ R1 b B2). lia. }
                         assert (BG2 : forall b, In b G' -> In b F2 -> False).
                         { intros b B1 B2. destruct (P b B1) as ([J | J] & _); [exact (A2 b J B2)|].
                           pose proof (proj2 (reads_bound h) _ _ _ R2 b B2). lia. }
                         constructor.
                         { intros I. apply in_app_or in I as [I | I]; [apply NI, in_or_app; now left|].
                           apply in_app_or in I as [I | I]; [contradiction|].
                           apply NI, in_or_app. right. apply in_or_app. now right. }
                         apply NoDup_app_intro; [eapply NoDup_app_remove_r; exact ND'| |].
                         { apply NoDup_app_intro; [apply PD; exact NDG | eapply NoDup_app_remove_l; exact ND2 | exact BG2]. }
                         { intros b B1 B2. apply in_app_or in B2 as [B2 | B2]; [eauto|].
                           eapply (NoDup_app_apart F1 (G1 ++ F2)); [exact ND' | exact B1 | apply in_or_app; now right]. }
           ++ injection E as <- <-. split; [exact FRA|].
              destruct O as [-> | (-> & O)]; [now left|]. right. split; [reflexivity|].
              pose proof (depth_child w _ s c (dget_In_pair _ _ _ DC)). lia.
        -- pose proof (kids_get h kids ch G s RK) as KG. rewrite DC in KG. rewrite KG in E.
           injection E as <- <-. split; [apply frame_refl | now left].
      * unfold hbind in E at 1.
        match type of E with context [match ?z with (_, _) => _ end] => destruct z as [r1 h1] eqn:E1 end.
        assert (K : frame h h1 G /\
          match r1 with
          | Ok kids' => exists ch' F', mapM (fun sc => let* c' := tset (snd sc) o x in Ok (fst sc, c')) ch = Ok ch' /\
                          reads_kids h1 kids' ch' F' /\ kept h h1 G F'
          | Raise e => mapM (fun sc => let* c' := tset (snd sc) o x in Ok (fst sc, c')) ch = Raise e \/
                       e = RecursionError /\ S n <= depth (Node w ch)
          end).
        { assert (DP : forall s c, In (s, c) ch -> depth c < depth (Node w ch)) by (intros; eapply depth_child; eassumption).
          set (m := depth (Node w ch)) in *. clearbody m.
          clear E NI E0 R ND La D. revert h ch G r1 h1 RK ND' DP E1.
          induction kids as [|[s k] kids IHk]; intros h ch G r1 h1 RK ND DP E1.
          - inversion RK; subst. injection E1 as <- <-. split; [apply frame_refl|]. exists [], [].
            split; [reflexivity|]. split; [constructor | apply kept_nil].
          - inversion RK as [|s' k' kids' c ch' F1 F2 R RK']; subst.
            cbn [hmapM] in E1. unfold hbind in E1 at 1. unfold hbind in E1 at 1. cbn [snd fst] in E1.
            destruct (hset n k o x h) as [r2 h2] eqn:E2.
            pose proof (IH c k o x h F1 r2 h2 R (NoDup_app_remove_r _ _ ND) E2) as ((L & U) & O).
            cbn [mapM fst snd].
            assert (FRA : frame h h2 (F1 ++ F2)).
            { split; [exact L|]. intros b B N. apply U; [exact B|]. intros I. apply N, in_or_app. now left. }
            destruct r2 as [k2|e2].
            2: { injection E1 as <- <-. split; [exact FRA|]. destruct O as [-> | (-> & O)]; [now left|].
                 right. split; [reflexivity|]. specialize (DP s c (or_introl eq_refl)). lia. }
            destruct O as (c' & F' & -> & R' & (P' & PD')). cbn [bind]. unfold hret at 1 in E1. unfold hbind in E1 at 1.
            destruct (hmapM (fun sk => let! k := hset n (snd sk) o x in hret (fst sk, k)) kids h2) as [r3 h3] eqn:E3.
            assert (AP : apart F1 F2) by (intros b; apply NoDup_app_apart; exact ND).
            assert (RK2 : reads_kids h2 kids ch' F2) by (eapply kids_frame; [split; eassumption | exact AP | exact RK']).
            destruct (IHk h2 ch' F2 r3 h3 RK2 (NoDup_app_remove_l _ _ ND)) as ((L3 & U3) & O3); [|exact E3|].
            { intros s' c0 I. apply (DP s'). now right. }
            assert (AP' : apart F2 F').
            { intros b B2 B1. destruct (P' b B1) as ([J | J] & _); [exact (AP b J B2)|].
              pose proof (proj2 (reads_bound h) _ _ _ RK' b B2). lia. }
            assert (FR3 : frame h h3 (F1 ++ F2)).
            { split; [lia|]. intros b B N. rewrite U3; [apply (proj2 FRA); assumption | lia|].
              intros I. apply N, in_or_app. now right. }
            destruct r3 as [kids3|e3].
            + destruct O3 as (ch3 & F3 & -> & R3 & (P3 & PD3)). injection E1 as <- <-.
              split; [exact FR3|]. exists ((s, c') :: ch3), (F' ++ F3). split; [reflexivity|].
              split; [constructor; [eapply reads_frame; [split; eassumption | exact AP' | exact R'] | exact R3]|].
              split.
              * intros b B. apply in_app_or in B as [B | B].
                -- destruct (P' b B) as ([J | J] & Lb); (split; [|lia]); [left; apply in_or_app; now left | now right].
                -- destruct (P3 b B) as ([J | J] & Lb); (split; [|lia]); [left; apply in_or_app; now right | right; lia].
              * intros _. apply NoDup_app_intro; [apply PD'; eapply NoDup_app_remove_r; exact ND
                                                 | apply PD3; eapply NoDup_app_remove_l; exact ND |].
                intros b B1 B3. destruct (P3 b B3) as ([J | J] & _); [exact (AP' b J B1)|].
                destruct (P' b B1) as (_ & Lb). lia.
            + injection E1 as <- <-. split; [exact FR3|]. destruct O3 as [-> | O3]; [now left | now right]. }
        destruct K as ((L & U) & O).
        assert (FRA : frame h h1 (a :: G)).
        { split; [exact L|]. intros b B N. apply U; [exact B|]. intros I. apply N. now right. }
        destruct r1 as [kids1|e1].
        -- destruct O as (ch1 & F1 & -> & R1 & (P & PD)). injection E as <- <-. cbn [bind]. split.
           ++ split; [rewrite app_length; lia|]. intros b B N. rewrite nth_error_app1 by lia. now apply (proj2 FRA).
           ++ exists (Node w ch1), (length h1 :: F1). split; [reflexivity|]. split.
              ** econstructor; [rewrite nth_error_app2 by lia; now rewrite Nat.sub_diag|].
                 eapply kids_grows; [apply grows_alloc | exact R1].
              ** split.
                 --- rewrite app_length. cbn. intros b [<- | B]; [split; [right|]; lia|].
                     destruct (P b B) as ([J | J] & Lb); (split; [|lia]); [left; now right | now right].
                 --- intros _. constructor; [|auto]. intros I. apply P in I. lia.
        -- injection E as <- <-. split; [exact FRA|]. destruct O as [-> | O]; [now left | now right].
Qed.
