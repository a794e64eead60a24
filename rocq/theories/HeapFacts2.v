(** restrict, combine and marginalize on references. *)

From Coq Require Import String Bool Arith Lia List.
From Verif Require Import PyBase Num DomainModel NdArray StoreModel NumStore PyFacts Spec DomainFacts StoreSpec
  TreeFacts TreeFacts2 StoreMarg2 HeapModel HeapSpec HeapFacts.
Import ListNotations.
Local Arguments eqd : simpl never.

Fixpoint depth (t : tree num) : nat :=
  match t with
  | Leaf _ => 0
  | Node _ ch => S (fold_right (fun sc m => Nat.max (match sc with (_, c) => depth c end) m) 0 ch)
  end.

Lemma depth_child w ch s c : In (s, c) ch -> depth c < depth (Node w ch).
Proof.
  cbn [depth]. intros I. apply le_n_S. induction ch as [|[s' c'] ch IH]; [destruct I|].
  cbn [fold_right]. destruct I as [E | I]; [injection E as -> ->; lia|]. apply IH in I. lia.
Qed.

Lemma depth_node w ch m : (forall s c, In (s, c) ch -> depth c <= m) -> depth (Node w ch) <= S m.
Proof.
  intros H. cbn [depth]. apply le_n_S. induction ch as [|[s c] ch IH]; cbn [fold_right]; [lia|].
  apply Nat.max_lub; [apply (H s); now left|]. apply IH. intros s' c' I. apply (H s'). now right.
Qed.

Lemma dget_In_pair {B} (s : state) (ch : list (state * B)) c : dget s ch = Some c -> In (s, c) ch.
Proof.
  induction ch as [|[s' c'] ch IH]; cbn [dget]; [discriminate|]. destruct (eqd s s') as [-> | N].
  - intros E. injection E as ->. now left.
  - intros E. right. auto.
Qed.

Lemma depth_restrict : forall t o t', trestrict t o = Ok t' -> depth t' <= depth t.
Proof.
  induction t as [x | w ch IH] using tree_ind'; intros o t' E.
  - injection E as <-. lia.
  - destruct (list_eq_dec eqd o []) as [-> | N].
    + rewrite trestrict_nil in E. injection E as <-. lia.
    + rewrite trestrict_node in E by exact N. destruct (dget w o) as [s|].
      * destruct (dget s ch) as [c|] eqn:G; [|discriminate].
        apply dget_In_pair in G. apply (IH s) in E; [|exact G]. pose proof (depth_child w ch s c G). lia.
      * destruct (mapM _ ch) as [ch'|] eqn:M; [|discriminate]. cbn [bind] in E. injection E as <-.
        destruct (mapM_children (fun sc => trestrict (snd sc) o) ch ch' M) as (_ & H & _).
        assert (Q : depth (Node w ch') <= S (depth (Node w ch) - 1)).
        { apply depth_node. intros s c I. destruct (H s c I) as (c0 & I0 & E0). cbn [snd] in E0.
          apply (IH s) in E0; [|exact I0]. pose proof (depth_child w ch s c0 I0). lia. }
        cbn [depth] in *. lia.
Qed.

Lemma outcome_weak (deep deep' : Prop) h h' K r p : (deep -> deep') -> outcome deep h h' K r p -> outcome deep' h h' K r p.
Proof. intros D (X & O). split; [exact X|]. destruct r; [exact O|]. destruct O as [O | (E & O)]; auto. Qed.

Lemma kept_self h F : (forall a, In a F -> a < length h) -> kept h h F F.
Proof. intros B. split; [|auto]. intros b I. split; auto. Qed.

Lemma hread_node h a w kids : nth_error h a = Some (CNode w kids) -> hread (HRef a) h = (Ok (Some (CNode w kids)), h).
Proof. intros E. unfold hread. now rewrite E. Qed.

Lemma hrestrict_ok : forall n t v o h F kp r h', reads h v t F -> kp = true \/ used_up o t ->
  hrestrict n v o h = (r, h') -> outcome (n <= depth t) h h' (keep kp F) r (trestrict t o).
Proof.
  induction n as [|n IH]; intros t v o h F kp r h' R U E.
  - injection E as <- <-. split; [apply grows_refl|]. right. split; [reflexivity | lia].
  - cbn [hrestrict] in E. unfold hbind in E at 1.
    inversion R as [x | a w kids ch G E0 RK]; subst.
    + injection E as <- <-. split; [apply grows_refl|]. exists (Leaf x), [].
      split; [reflexivity|]. split; [exact R | apply kept_nil].
    + rewrite (hread_node _ _ _ _ E0) in E.
      destruct o as [|e o'].
      { injection E as <- <-. destruct U as [-> | U].
        - split; [apply grows_refl|]. exists (Node w ch), (a :: G). split; [apply trestrict_nil|].
          split; [exact R|]. apply kept_self. apply (proj1 (reads_bound h) _ _ _ R).
        - inversion U as [| | o0 w0 ch0 s0 c0 D]; subst; [congruence | discriminate D]. }
      rewrite trestrict_node by discriminate. set (o := e :: o') in *.
      destruct (dget w o) as [s|] eqn:D.
      * pose proof (kids_get h kids ch G s RK) as KG. destruct (dget s ch) as [c|] eqn:DC.
        -- destruct KG as (k & G' & EK & Rk & I & N). rewrite EK in E.
           assert (U' : kp = true \/ used_up (dremove w o) c).
           { destruct U as [U | U]; [now left|]. right.
             inversion U as [| | o0 w0 ch0 s0 c0 D0 DC0 U0]; subst; [congruence|].
             assert (s0 = s) as -> by congruence. assert (c0 = c) as -> by congruence. exact U0. }
           pose proof (IH c k (dremove w o) h G' kp r h' Rk U' E) as (X & O).
           split; [exact X|]. pose proof (depth_child w ch s c (dget_In_pair _ _ _ DC)) as DD.
           destruct r as [v'|e'].
           ++ destruct O as (t' & F' & O1 & O2 & (P & ND)). exists t', F'. split; [exact O1|].
              split; [exact O2|]. split.
              ** intros b B. destruct (P b B) as ([Q | Q] & L); split; auto. left.
                 destruct kp; [right; apply I; exact Q | destruct Q].
              ** destruct kp; [|exact ND]. cbn [keep]. intros NF. inversion NF; subst. apply ND, N. assumption.
           ++ destruct O as [O | (-> & O)]; [now left|]. right. split; [reflexivity | lia].
        -- rewrite KG in E. injection E as <- <-. split; [apply grows_refl | now left].
      * set (f := fun sk : state * hval => hrestrict n (snd sk) o) in *.
        unfold hbind in E at 1.
        destruct (hmapM (fun sk => let! k := f sk in hret (fst sk, k)) kids h) as [r1 h1] eqn:E1.
        change (hmapM (fun sk => let! k := f sk in hret (fst sk, k)) kids h) with
          (hmapM (fun sk => let! k := hrestrict n (snd sk) o in hret (fst sk, k)) kids h) in E1.
        rewrite E1 in E.
        assert (OK : outcome_kids (S n <= depth (Node w ch)) h h1 (keep kp G) r1
                       (mapM (fun sc => let* c' := trestrict (snd sc) o in Ok (fst sc, c')) ch)).
        { apply (hmap_kids f (fun sc => trestrict (snd sc) o) kp _ kids h ch G RK); [|exact E1].
          intros h0 s k c G0 X I R0 r0 h2 E2. unfold f in E2. cbn [snd] in E2 |- *.
          eapply outcome_weak; [|eapply IH; [exact R0 | | exact E2]].
          - intros L. pose proof (depth_child w ch s c I). lia.
          - destruct U as [U | U]; [now left|]. right.
            inversion U as [| o0 w0 ch0 NE D0 UC | o0 w0 ch0 s0 c0 D0 DC0 U0]; subst; [|congruence]. eapply UC. exact I. }
        assert (ON : outcome (S n <= depth (Node w ch)) h h' (keep kp G) r
                       (let* ch' := mapM (fun sc => let* c' := trestrict (snd sc) o in Ok (fst sc, c')) ch in Ok (Node w ch'))).
        { eapply outcome_node; [exact OK | | exact E].
          intros b B. apply keep_incl in B. eapply (proj2 (reads_bound h)); eassumption. }
        destruct ON as (X & O). split; [exact X|]. destruct r as [v'|]; [|exact O].
        destruct O as (t' & F' & O1 & O2 & (P & ND)). exists t', F'. split; [exact O1|]. split; [exact O2|]. split.
        -- intros b B. destruct (P b B) as ([Q | Q] & L); split; auto. left. destruct kp; [now right | destruct Q].
        -- destruct kp; [|exact ND]. cbn [keep]. intros NF. inversion NF; auto.
Qed.

Lemma mapM_pure {A B} (f : A -> res B) (g : A -> B) l : (forall x, In x l -> f x = Ok (g x)) -> mapM f l = Ok (map g l).
Proof.
  induction l as [|x l IH]; intros H; [reflexivity|]. cbn [mapM map].
  rewrite H by (now left). cbn [bind]. rewrite IH; [reflexivity|]. intros y I. apply H. now right.
Qed.

Lemma hcombine_ok op : forall n t1 t2 v1 v2 h F1 F2 r h', reads h v1 t1 F1 -> reads h v2 t2 F2 ->
  hcombine n op v1 v2 h = (r, h') ->
  outcome (n <= depth t1 + depth t2) h h' [] r (tcombine op t1 t2).
Proof.
  induction n as [|n IH]; intros t1 t2 v1 v2 h F1 F2 r h' R1 R2 E.
  - injection E as <- <-. split; [apply grows_refl|]. right. split; [reflexivity | lia].
  - cbn [hcombine] in E. unfold hbind in E at 1.
    inversion R1 as [x | a w kids ch G E0 RK]; subst.
    + change (hread (HNum x) h) with (@Ok (option cell) None, h) in E. cbv iota beta in E. unfold hbind in E at 1.
      inversion R2 as [y | a w kids ch G E0 RK]; subst.
      * injection E as <- <-. split; [apply grows_refl|]. exists (Leaf (op x y)), [].
        split; [reflexivity|]. split; [constructor | apply kept_nil].
      * rewrite (hread_node _ _ _ _ E0) in E. unfold hbind in E at 1.
        set (f := fun sk : state * hval => hcombine n op (HNum x) (snd sk)) in *.
        destruct (hmapM (fun sk => let! k := f sk in hret (fst sk, k)) kids h) as [r1 h1] eqn:E1.
        change (hmapM (fun sk => let! k := f sk in hret (fst sk, k)) kids h) with
          (hmapM (fun sk => let! k := hcombine n op (HNum x) (snd sk) in hret (fst sk, k)) kids h) in E1.
        rewrite E1 in E.
        assert (OK : outcome_kids (S n <= depth (Node w ch)) h h1 [] r1
                       (mapM (fun sc => let* c' := tcombine op (Leaf x) (snd sc) in Ok (fst sc, c')) ch)).
        { apply (hmap_kids f (fun sc => tcombine op (Leaf x) (snd sc)) false _ kids h ch G RK); [|exact E1].
          intros h0 s k c G0 X I R0 r0 h2 E2. unfold f in E2. cbn [snd] in E2 |- *.
          eapply outcome_weak; [|eapply IH; [ | exact R0 | exact E2]; constructor].
          intros L. pose proof (depth_child w ch s c I). cbn [depth] in L |- *. cbn [depth] in H. lia. }
        eapply outcome_weak with (deep := S n <= depth (Node w ch)); [cbn [depth]; lia|].
        replace (tcombine op (Leaf x) (Node w ch)) with
          (let* ch' := mapM (fun sc => let* c' := tcombine op (Leaf x) (snd sc) in Ok (fst sc, c')) ch in Ok (Node w ch')).
        { eapply outcome_node; [exact OK | intros b [] | exact E]. }
        rewrite (mapM_pure _ (fun sc => match sc with (s, c) => (s, tcombine_leaf op x c) end)); [reflexivity|].
        intros [s c] _. reflexivity.
    + rewrite (hread_node _ _ _ _ E0) in E. unfold hbind in E at 1.
      set (f := fun sk : state * hval => let! v2' := hrestrict n v2 [(w, fst sk)] in hcombine n op (snd sk) v2').
      rewrite tcombine_node.
      assert (EF : hmapM (fun sk => let! v2' := hrestrict n v2 [(w, fst sk)] in
                                    let! k := hcombine n op (snd sk) v2' in hret (fst sk, k)) kids h
                   = hmapM (fun sk => let! k := f sk in hret (fst sk, k)) kids h).
      { clear. revert h. induction kids as [|[s k] kids IH]; intros h; [reflexivity|].
        cbn [hmapM]. unfold f at 1. unfold hbind. cbn [fst snd].
        destruct (hrestrict n v2 [(w, s)] h) as [[v2'|] h0]; [|reflexivity].
        destruct (hcombine n op k v2' h0) as [[k'|] h1]; [|reflexivity]. unfold hret at 1 2 3. 
        unfold hbind in IH. rewrite IH. reflexivity. }
      rewrite EF in E. clear EF.
      destruct (hmapM (fun sk => let! k := f sk in hret (fst sk, k)) kids h) as [r1 h1] eqn:E1.
      set (g := fun sc : state * tree num => let* t2' := trestrict t2 [(w, fst sc)] in tcombine op (snd sc) t2').
      assert (OK : outcome_kids (S n <= depth (Node w ch) + depth t2) h h1 [] r1
                       (mapM (fun sc => let* c' := g sc in Ok (fst sc, c')) ch)).
      { apply (hmap_kids f g false _ kids h ch G RK); [|exact E1].
        intros h0 s k c G0 X I R0 r0 h2 E2. unfold f in E2. unfold g. cbn [fst snd] in E2 |- *.
        unfold hbind in E2. destruct (hrestrict n v2 [(w, s)] h0) as [rr hr] eqn:ER.
        assert (R2' : reads h0 v2 t2 F2) by (eapply reads_grows; eassumption).
        pose proof (hrestrict_ok n t2 v2 _ h0 F2 true rr hr R2' (or_introl eq_refl) ER) as (XR & OR).
        pose proof (depth_child w ch s c I) as DC.
        destruct rr as [v2'|er].
        - destruct OR as (t2' & F2' & ET & RT & _). rewrite ET. cbn [bind].
          pose proof (depth_restrict _ _ _ ET) as DR.
          assert (O : outcome (n <= depth c + depth t2') hr h2 [] r0 (tcombine op c t2')).
          { eapply IH; [eapply reads_grows; [exact XR | exact R0] | exact RT | exact E2]. }
          destruct O as (X2 & O). split; [eapply grows_trans; eassumption|].
          destruct r0 as [v0|e0].
          + destruct O as (t' & F' & O1 & O2 & O3). exists t', F'. split; [exact O1|]. split; [exact O2|].
            cbn [keep]. eapply kept_weaken; [exact XR | intros b [] | exact O3].
          + destruct O as [O | (-> & O)]; [now left|]. right. split; [reflexivity | lia].
        - injection E2 as <- <-. split; [exact XR|]. destruct OR as [-> | (-> & OR)]; [now left|].
          right. split; [reflexivity | lia]. }
      replace (mapM (fun sc : state * tree num => let* t2' := trestrict t2 [(w, fst sc)] in
                 let* c' := tcombine op (snd sc) t2' in Ok (fst sc, c')) ch)
        with (mapM (fun sc => let* c' := g sc in Ok (fst sc, c')) ch).
      { eapply outcome_node; [exact OK | intros b [] | exact E]. }
      clear. induction ch as [|[s c] ch IH]; [reflexivity|]. cbn [mapM]. rewrite IH. unfold g at 1. cbn [fst snd].
      destruct (trestrict t2 [(w, s)]); [|reflexivity]. cbn [bind]. destruct (tcombine op c a); reflexivity.
Qed.

(** ** marginalize *)

Fixpoint branches (x : var) (t : tree num) : Prop :=
  match t with
  | Leaf _ => True
  | Node w ch =>
      if eqd w x then 2 <= length ch
      else (fix all l := match l with [] => True | (_, c) :: r => branches x c /\ all r end) ch
  end.

Lemma branches_node x w ch : branches x (Node w ch) <->
  if eqd w x then 2 <= length ch else forall s c, In (s, c) ch -> branches x c.
Proof.
  cbn [branches]. destruct (eqd w x); [reflexivity|]. induction ch as [|[s c] ch IH].
  - split; [intros _ s c [] | auto].
  - rewrite IH. split.
    + intros (B & A) s' c' [E | I]; [injection E as -> ->; exact B | eauto].
    + intros A. split; [apply (A s); now left | intros s' c' I; apply (A s'); now right].
Qed.

Lemma length_dremove {B} (v : var) (d : dict var B) : In v (keys d) -> length (dremove v d) < length d.
Proof.
  unfold dremove, dfilter. induction d as [|[w l] d IH]; [intros []|]. cbn [keys map fst]. intros [-> | I].
  - cbn [filter fst]. rewrite eqd_refl. cbn [length].
    clear IH. apply le_n_S. induction d as [|[w l'] d IH]; [cbn; lia|]. cbn [filter fst].
    destruct (eqd w v); cbn [length] in *; lia.
  - apply IH in I. cbn [filter fst]. destruct (eqd w v); cbn [length]; lia.
Qed.

Lemma tcomp_depth d t : tcomp d t -> depth t <= length d.
Proof.
  induction 1 as [x | d v l ch I N Q C IH]; [cbn; lia|].
  assert (L : length (dremove v d) < length d). { apply length_dremove. apply keys_In. eauto. }
  assert (depth (Node v ch) <= S (length (dremove v d))) by (apply depth_node; intros s c A; eapply IH; exact A).
  lia.
Qed.

Lemma hfold_combine op n : forall ks cs v0 t0 F0 h r h',
  Forall2 (fun k c => exists G, reads h k c G) ks cs -> reads h v0 t0 F0 ->
  hfoldM (hcombine n op) ks v0 h = (r, h') ->
  outcome (forall D, NoDup (keys D) -> tcomp D t0 -> (forall c, In c cs -> tcomp D c) -> n <= 2 * length D)
          h h' (match ks with [] => F0 | _ => [] end) r (foldM (tcombine op) cs t0).
Proof.
  induction ks as [|k ks IH]; intros cs v0 t0 F0 h r h' A R E.
  - inversion A; subst. injection E as <- <-. split; [apply grows_refl|]. exists t0, F0.
    split; [reflexivity|]. split; [exact R|]. apply kept_self. apply (proj1 (reads_bound h) _ _ _ R).
  - inversion A as [|k' c ks' cs' (G & RG) A']; subst. cbn [hfoldM] in E. unfold hbind in E.
    destruct (hcombine n op v0 k h) as [r1 h1] eqn:E1.
    pose proof (hcombine_ok op n t0 c v0 k h F0 G r1 h1 R RG E1) as (X1 & O1).
    assert (DD : forall D, tcomp D t0 -> (forall c', In c' (c :: cs') -> tcomp D c') ->
               depth t0 + depth c <= 2 * length D).
    { intros D T0 TC. apply tcomp_depth in T0. specialize (TC c (or_introl eq_refl)). apply tcomp_depth in TC. lia. }
    cbn [foldM]. destruct r1 as [v1|e1].
    + destruct O1 as (t1 & F1 & O1 & R1 & P1). rewrite O1. cbn [bind].
      assert (A1 : Forall2 (fun k c => exists G, reads h1 k c G) ks cs').
      { eapply Forall2_impl; [|exact A']. intros k0 c0 (G0 & R0). exists G0. eapply reads_grows; eassumption. }
      pose proof (IH cs' v1 t1 F1 h1 r h' A1 R1 E) as (X2 & O2).
      split; [eapply grows_trans; eassumption|]. destruct r as [v'|e].
      * destruct O2 as (t' & F' & Q1 & Q2 & (P & ND)). exists t', F'. split; [exact Q1|]. split; [exact Q2|].
        destruct P1 as (P1 & ND1). pose proof (grows_length _ _ X1) as L1. pose proof (grows_length _ _ X2) as L2.
        split.
        -- intros b B. destruct (P b B) as ([J | J] & L); split; auto; right; [|lia].
           destruct ks; [|destruct J]. destruct (P1 b J) as ([[] | M] & _). exact M.
        -- intros _. apply ND. destruct ks; [|constructor]. apply ND1. constructor.
      * destruct O2 as [O2 | (-> & O2)]; [now left|]. right. split; [reflexivity|].
        intros D NK T0 TC. apply O2; [exact NK| |intros c0 I0; apply TC; now right].
        destruct (tcombine_ok op D t0 T0 D c D NK) as (t1' & E1' & T1' & _).
        -- apply TC. now left.
        -- now apply compatible_refl.
        -- intros e. tauto.
        -- assert (t1' = t1) as -> by congruence. exact T1'.
    + injection E as <- <-. split; [exact X1|]. destruct O1 as [-> | (-> & O1)]; [now left|].
      right. split; [reflexivity|]. intros D NK T0 TC. specialize (DD D T0 TC). lia.
Qed.

Lemma hmarg_ok op : forall n t v x k h F kp r h', reads h v t F -> kp = true \/ branches x t ->
  hmarg n op v x k h = (r, h') ->
  outcome (forall d, NoDup (keys d) -> tcomp d t -> n <= 2 * length d) h h' (keep kp F) r (tmarg nscale op t x k).
Proof.
  induction n as [|n IH]; intros t v x k h F kp r h' R U E.
  - injection E as <- <-. split; [apply grows_refl|]. right. split; [reflexivity | intros; lia].
  - cbn [hmarg] in E. unfold hbind in E at 1.
    inversion R as [y | a w kids ch G E0 RK]; subst.
    + injection E as <- <-. split; [apply grows_refl|]. exists (Leaf (nscale y k)), [].
      split; [reflexivity|]. split; [constructor | apply kept_nil].
    + rewrite (hread_node _ _ _ _ E0) in E. rewrite tmarg_node.
      assert (SUB : forall s c d, In (s, c) ch -> NoDup (keys d) -> tcomp d (Node w ch) ->
                exists d', NoDup (keys d') /\ length d' < length d /\ tcomp d' c).
      { intros s c d I N T. inversion T as [|d0 v0 l0 ch0 I0 N0 Q0 C0]; subst. exists (dremove w d).
        split; [now apply NoDup_dremove|]. split; [apply length_dremove, keys_In; eauto|]. eapply C0. exact I. }
      destruct (eqd w x) as [-> | NE].
      * inversion RK as [|s1 k1 kids1 c1 ch1 F1 G1 R1 RK1]; subst.
        { cbn [map hreduceM] in E. injection E as <- <-. split; [apply grows_refl | now left]. }
        cbn [map snd] in E |- *. cbn [hreduceM] in E. cbn [reduceM].
        assert (A1 : Forall2 (fun k c => exists G, reads h k c G) (map snd kids1) (map snd ch1)).
        { clear - RK1. induction RK1 as [|s k kids c ch F G R _ IH]; cbn [map snd]; constructor; eauto. }
        pose proof (hfold_combine op n _ _ _ _ _ _ _ _ A1 R1 E) as (X & O).
        split; [exact X|]. destruct r as [v'|e].
        -- destruct O as (t' & F' & O1 & O2 & (P & ND)). exists t', F'. split; [exact O1|]. split; [exact O2|].
           destruct (map snd kids1) as [|k2 ks] eqn:MK.
           ++ assert (kp = true) as ->.
              { destruct U as [U | U]; [exact U|]. apply branches_node in U. rewrite eqd_refl in U.
                apply map_eq_nil in MK. subst kids1. inversion RK1; subst. cbn in U. lia. }
              cbn [keep]. split.
              ** intros b B. destruct (P b B) as ([J | J] & L'); split; auto. left. right. apply in_or_app. now left.
              ** intros N. apply ND. inversion N as [|a0 l0 N1 N2]; subst. eapply NoDup_app_remove_r. exact N2.
           ++ split.
              ** intros b B. destruct (P b B) as ([[] | J] & L'); split; auto.
              ** intros _. apply ND. constructor.
        -- destruct O as [O | (-> & O)]; [now left|]. right. split; [reflexivity|].
           intros d N T. inversion T as [|d0 v0 l0 ch0 I0 N0 Q0 C0]; subst.
           assert (LD : length (dremove x d) < length d) by (apply length_dremove, keys_In; eauto).
           assert (n <= 2 * length (dremove x d)); [|lia].
           apply O; [now apply NoDup_dremove | eapply C0; now left |].
           intros c I. apply in_map_iff in I as ([s c'] & <- & I). eapply C0. right. exact I.
      * unfold hbind in E at 1.
        set (f := fun sk : state * hval => hmarg n op (snd sk) x k) in *.
        destruct (hmapM (fun sk => let! k := f sk in hret (fst sk, k)) kids h) as [r1 h1] eqn:E1.
        change (hmapM (fun sk => let! k := f sk in hret (fst sk, k)) kids h) with
          (hmapM (fun sk => let! c' := hmarg n op (snd sk) x k in hret (fst sk, c')) kids h) in E1.
        rewrite E1 in E.
        assert (OK : outcome_kids (forall d, NoDup (keys d) -> tcomp d (Node w ch) -> S n <= 2 * length d) h h1 (keep kp G) r1
                       (mapM (fun sc => let* c' := tmarg nscale op (snd sc) x k in Ok (fst sc, c')) ch)).
        { apply (hmap_kids f (fun sc => tmarg nscale op (snd sc) x k) kp _ kids h ch G RK); [|exact E1].
          intros h0 s k0 c G0 X I R0 r0 h2 E2. unfold f in E2. cbn [snd] in E2 |- *.
          eapply outcome_weak; [|eapply IH; [exact R0 | | exact E2]].
          - intros L d N T. destruct (SUB s c d I N T) as (d' & N' & L' & T'). specialize (L d' N' T'). lia.
          - destruct U as [U | U]; [now left|]. right. apply branches_node in U. rewrite eqd_neq in U by exact NE.
            eapply U. exact I. }
        assert (ON : outcome (forall d, NoDup (keys d) -> tcomp d (Node w ch) -> S n <= 2 * length d) h h' (keep kp G) r
                       (let* ch' := mapM (fun sc => let* c' := tmarg nscale op (snd sc) x k in Ok (fst sc, c')) ch in Ok (Node w ch'))).
        { eapply outcome_node; [exact OK | | exact E].
          intros b B. apply keep_incl in B. eapply (proj2 (reads_bound h)); eassumption. }
        destruct ON as (X & O). split; [exact X|]. destruct r as [v'|]; [|exact O].
        destruct O as (t' & F' & O1 & O2 & (P & ND)). exists t', F'. split; [exact O1|]. split; [exact O2|]. split.
        -- intros b B. destruct (P b B) as ([Q | Q] & L); split; auto. left. destruct kp; [now right | destruct Q].
        -- destruct kp; [|exact ND]. cbn [keep]. intros NF. inversion NF; auto.
Qed.

(** ** New trees *)

Lemma hnew_ok : forall t h, exists v F h', hnew t h = (Ok v, h') /\ grows h h' /\ reads h' v t F /\ kept h h' [] F.
Proof.
  induction t as [x | w ch IH] using tree_ind'; intros h.
  - exists (HNum x), [], h. split; [reflexivity|]. split; [apply grows_refl|]. split; [constructor | apply kept_nil].
  - cbn [hnew].
    assert (K : exists kids F h', (fix go l := match l with
                                | [] => hret []
                                | (s, c) :: r => let! k := hnew c in
                                                 let! r' := go r in hret ((s, k) :: r')
                                end) ch h = (Ok kids, h') /\ grows h h' /\ reads_kids h' kids ch F /\ kept h h' [] F).
    { revert h. induction ch as [|[s c] ch IHl]; intros h.
      - exists [], [], h. split; [reflexivity|]. split; [apply grows_refl|]. split; [constructor | apply kept_nil].
      - destruct (IH s c (or_introl eq_refl) h) as (k & F1 & h1 & E1 & X1 & R1 & P1).
        destruct (IHl (fun s' c' I => IH s' c' (or_intror I)) h1) as (kids & F2 & h2 & E2 & X2 & R2 & P2).
        rewrite (hbind_ok _ _ _ _ _ E1), (hbind_ok _ _ _ _ _ E2). exists ((s, k) :: kids), (F1 ++ F2), h2. split; [reflexivity|].
        split; [eapply grows_trans; eassumption|]. split.
        + constructor; [eapply reads_grows; eassumption | exact R2].
        + change (@nil nat) with (@nil nat ++ []). eapply kept_app; try eassumption; intros a []. }
    destruct K as (kids & F & h1 & E & X & R & P & D). rewrite (hbind_ok _ _ _ _ _ E). unfold halloc.
    exists (HRef (length h1)), (length h1 :: F), (h1 ++ [CNode w kids]). split; [reflexivity|].
    split; [eapply grows_trans; [exact X | apply grows_alloc]|]. pose proof (grows_length _ _ X) as L. split.
    + econstructor; [rewrite nth_error_app2 by lia; now rewrite Nat.sub_diag|].
      eapply kids_grows; [apply grows_alloc | exact R].
    + split.
      * rewrite app_length. cbn. intros b [<- | I]; [split; [right|]; lia|]. destruct (P b I). split; [assumption | lia].
      * intros N. constructor; [|auto]. intros I. apply P in I. lia.
Qed.

(** ** deepcopy *)

Definition memo_ok (N : nat) (h : heap) (m : memo) : Prop :=
  forall a b, dget a m = Some b ->
    exists t F F', reads h (HRef a) t F /\ reads h (HRef b) t F' /\ forall c, In c F' -> N <= c.

Lemma memo_grows N h h' m : grows h h' -> memo_ok N h m -> memo_ok N h' m.
Proof.
  intros X M a b E. destruct (M a b E) as (t & F & F' & R & R' & P). exists t, F, F'.
  split; [eapply reads_grows; eassumption|]. split; [eapply reads_grows; eassumption | exact P].
Qed.

Definition copied (N : nat) (h h' : heap) (m m' : memo) (F F' : list nat) : Prop :=
  (forall c, In c F' -> N <= c) /\
  memo_ok N h' m' /\
  (NoDup F -> apart (keys m) F -> kept h h' [] F' /\ incl (keys m') (keys m ++ F)).

Lemma hcopy_fold N n (IH : forall t v h F m r h', reads h v t F -> N <= length h -> memo_ok N h m ->
    hdeepcopy n m v h = (r, h') ->
    grows h h' /\
    match r with
    | Ok (v', m') => exists F', reads h' v' t F' /\ copied N h h' m m' F F'
    | Raise e => e = RecursionError /\ n <= depth t
    end) w ch0 :
  forall kids h ch F m acc r h', reads_kids h kids ch F -> incl ch ch0 -> N <= length h -> memo_ok N h m ->
  hfoldM (fun acc sk => let! (k, m') := hdeepcopy n (snd acc) (snd sk) in
                        hret (fst acc ++ [(fst sk, k)], m')) kids (acc, m) h = (r, h') ->
  grows h h' /\
  match r with
  | Ok (kids', m') => exists new F', kids' = acc ++ new /\ reads_kids h' new ch F' /\ copied N h h' m m' F F'
  | Raise e => e = RecursionError /\ S n <= depth (Node w ch0)
  end.
Proof.
  induction kids as [|[s k] kids IHk]; intros h ch F m acc r h' RK SUB NL M E.
  - inversion RK; subst. injection E as <- <-. split; [apply grows_refl|]. exists [], [].
    split; [now rewrite app_nil_r|]. split; [constructor|]. split; [intros c []|]. split; [exact M|].
    intros _ _. split; [apply kept_nil|]. rewrite app_nil_r. apply incl_refl.
  - inversion RK as [|s' k' kids' c ch' F1 G R RK']; subst.
    cbn [hfoldM] in E. unfold hbind in E at 1. unfold hbind in E at 1. cbn [fst snd] in E.
    destruct (hdeepcopy n m k h) as [r1 h1] eqn:E1.
    destruct (IH c k h F1 m r1 h1 R NL M E1) as (X1 & O1).
    destruct r1 as [[k1 m1]|e].
    2: { injection E as <- <-. split; [exact X1|]. destruct O1 as (-> & O1). split; [reflexivity|].
         pose proof (depth_child w ch0 s c (SUB _ (or_introl eq_refl))). lia. }
    destruct O1 as (F1' & R1 & B1 & M1 & T1). unfold hret at 1 in E.
    pose proof (grows_length _ _ X1) as L1.
    assert (NL1 : N <= length h1) by lia.
    destruct (IHk h1 ch' G m1 (acc ++ [(s, k1)]) r h') as (X2 & O2); try assumption.
    { eapply kids_grows; eassumption. } { intros e I. apply SUB. now right. }
    split; [eapply grows_trans; eassumption|]. destruct r as [[kids2 m2]|e]; [|exact O2].
    destruct O2 as (new & F2' & -> & R2 & B2 & M2 & T2).
    exists ((s, k1) :: new), (F1' ++ F2'). split; [now rewrite <- app_assoc|].
    split; [constructor; [eapply reads_grows; eassumption | exact R2]|].
    split; [intros a A; apply in_app_or in A as [A | A]; auto|]. split; [exact M2|].
    intros ND AP.
    destruct T1 as (K1 & I1). { eapply NoDup_app_remove_r; exact ND. } { intros a A B. apply (AP a A). apply in_or_app. now left. }
    destruct T2 as (K2 & I2). { eapply NoDup_app_remove_l; exact ND. }
    { intros a A B. apply I1 in A. apply in_app_or in A as [A | A].
      - apply (AP a A). apply in_or_app. now right.
      - clear - ND A B. induction F1 as [|y F1 IH]; [destruct A|]. cbn in ND. inversion ND as [|z l N D]; subst.
        destruct A as [<- | A]; [apply N, in_or_app; now right | auto]. }
    split.
    + change (@nil nat) with (@nil nat ++ []). eapply kept_app; try eassumption; intros a [].
    + intros a A. apply I2 in A. apply in_app_or in A as [A | A].
      * apply I1 in A. apply in_app_or in A as [A | A]; apply in_or_app; [now left|]. right. apply in_or_app. now left.
      * apply in_or_app. right. apply in_or_app. now right.
Qed.

Lemma dget_dset_nat (k k' : nat) (b : nat) (m : memo) :
  dget k' (dset k b m) = if eqd k' k then Some b else dget k' m.
Proof. apply dget_dset. Qed.

Lemma keys_dset_nat (k b : nat) (m : memo) a : In a (keys (dset k b m)) -> a = k \/ In a (keys m).
Proof.
  intros I. apply keys_In in I as (b' & I).
  assert (H : dget a (dset k b m) <> None).
  { clear - I. induction (dset k b m) as [|[x y] l IH]; [destruct I|]. cbn [dget].
    destruct (eqd a x) as [-> | N]; [discriminate|]. destruct I as [E | I]; [injection E; congruence | auto]. }
  rewrite dget_dset_nat in H. destruct (eqd a k) as [-> | N]; [now left|]. right.
  destruct (dget a m) as [y|] eqn:D; [|congruence]. clear - D.
  induction m as [|[x z] m IH]; cbn [dget] in D; [discriminate|]. cbn [keys map fst].
  destruct (eqd a x) as [-> | N]; [now left | right; auto].
Qed.

Lemma hdeepcopy_ok N : forall n t v h F m r h', reads h v t F -> N <= length h -> memo_ok N h m ->
  hdeepcopy n m v h = (r, h') ->
  grows h h' /\
  match r with
  | Ok (v', m') => exists F', reads h' v' t F' /\ copied N h h' m m' F F'
  | Raise e => e = RecursionError /\ n <= depth t
  end.
Proof.
  induction n as [|n IH]; intros t v h F m r h' R NL M E.
  - injection E as <- <-. split; [apply grows_refl|]. split; [reflexivity | lia].
  - inversion R as [x | a w kids ch G E0 RK]; subst; cbn [hdeepcopy] in E.
    + injection E as <- <-. split; [apply grows_refl|]. exists []. split; [constructor|].
      split; [intros c []|]. split; [exact M|]. intros _ _. split; [apply kept_nil|].
      rewrite app_nil_r. apply incl_refl.
    + destruct (dget a m) as [b|] eqn:D.
      * injection E as <- <-. split; [apply grows_refl|].
        destruct (M a b D) as (t & F & F' & Ra & Rb & B).
        destruct (proj1 (reads_unique h) _ _ _ R _ _ Ra) as (-> & ->).
        exists F'. split; [exact Rb|]. split; [exact B|]. split; [exact M|].
        intros _ AP. exfalso. apply (AP a); [|now left].
        clear - D. induction m as [|[x z] m IH]; cbn [dget] in D; [discriminate|]. cbn [keys map fst].
        destruct (eqd a x) as [-> | Q]; [now left | right; auto].
      * unfold hbind in E at 1. rewrite (hread_node _ _ _ _ E0) in E. unfold hbind in E at 1.
        match type of E with context [match ?z with (_, _) => _ end] => destruct z as [r1 h1] eqn:E1 end.
        destruct (hcopy_fold N n IH w ch kids h ch G m [] r1 h1 RK (incl_refl _) NL M E1) as (X1 & O1).
        destruct r1 as [[kids1 m1]|e].
        2: { injection E as <- <-. auto. }
        destruct O1 as (new & F1 & -> & R1 & B1 & M1 & T1). cbn [app] in E. unfold hbind, halloc, hret in E.
        injection E as <- <-. pose proof (grows_length _ _ X1) as L1.
        split; [eapply grows_trans; [exact X1 | apply grows_alloc]|].
        assert (RN : reads (h1 ++ [CNode w new]) (HRef (length h1)) (Node w ch) (length h1 :: F1)).
        { econstructor; [rewrite nth_error_app2 by lia; now rewrite Nat.sub_diag|].
          eapply kids_grows; [apply grows_alloc | exact R1]. }
        exists (length h1 :: F1). split; [exact RN|]. split; [intros c [<- | I]; [lia | auto]|]. split.
        -- intros a' b'. rewrite dget_dset_nat. destruct (eqd a' a) as [-> | NE].
           ++ intros Q. injection Q as <-. exists (Node w ch), (a :: G), (length h1 :: F1).
              split; [eapply reads_grows; [|exact R]; eapply grows_trans; [exact X1 | apply grows_alloc]|].
              split; [exact RN|]. intros c [<- | I]; [lia | auto].
           ++ intros Q. eapply (memo_grows N h1); [apply grows_alloc | exact M1 | exact Q].
        -- intros ND AP. inversion ND as [|z l NI ND']; subst.
           destruct T1 as ((K & KD) & I1); [exact ND' | intros c A B; apply (AP c A); now right |]. split.
           ++ split.
              ** rewrite app_length. cbn. intros b [<- | I]; [split; [right|]; lia|]. destruct (K b I). split; [assumption | lia].
              ** intros _. constructor; [|apply KD; constructor]. intros I. apply K in I. lia.
           ++ intros c A. apply keys_dset_nat in A as [-> | A].
              ** apply in_or_app. right. now left.
              ** apply I1 in A. apply in_app_or in A as [A | A]; apply in_or_app; [now left | right; now right].
Qed.
