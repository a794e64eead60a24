(** The result of a derivation. *)

From Coq Require Import String Bool Arith Lia List.
From Verif Require Import PyBase Num DomainModel NdArray StoreModel NumStore PyFacts Spec DomainFacts StoreSpec
  TreeFacts TreeFacts2 StoreFacts StoreOps StoreMarg StoreMarg2 HeapModel HeapSpec HeapFacts HeapFacts2 HeapFacts3
  HeapFacts4 HeapFacts5.
Import ListNotations.
Local Arguments eqd : simpl never.

(** copying passes the data through the constructor once more *)
Definition rebuild (p : store num) : res (store num) :=
  match p with
  | StTree d t => st_init VTree d (tree_darg t)
  | _ => Ok p
  end.
Definition table' (dv : deriv) (p : store num) (q : option (store num)) : res (store num) :=
  match dv with DCopy _ => rebuild p | _ => table_of dv p q end.

Lemma rebuild_wf p : wf_store p -> rebuild p = Ok p.
Proof.
  intros (W & T). destruct p as [d a | d l | d l | d t]; try reflexivity. cbn in T |- *.
  inversion T; subst; reflexivity.
Qed.

Lemma table_wf dv p q : wf_store p -> table' dv p q = table_of dv p q.
Proof. intros W. destruct dv; try reflexivity. cbn. now apply rebuild_wf. Qed.

Definition enough (n : nat) (dv : deriv) (p : store num) (q : option (store num)) : Prop :=
  wf_store p -> (forall q', q = Some q' -> wf_store q') ->
  match dv with DMarginalize vs | DMaxmarginalize vs => NoDup vs /\ incl vs (keys (st_domain p)) | _ => True end ->
  n <= 2 * length (st_domain p) + match q with Some q' => length (st_domain q') | None => 0 end.

Definition result (n : nat) (dv : deriv) (p : store num) (q : option (store num)) (F : list nat)
    (h h1 : heap) (r : res hstore) : Prop :=
  grows h h1 /\
  match r with
  | Ok s' => exists p' G, table' dv p q = Ok p' /\ holds h1 s' p' G /\
               (own_result dv p -> forall b, In b G -> length h <= b) /\ (NoDup F -> NoDup G)
  | Raise e => table' dv p q = Raise e \/
               (e = RecursionError /\ st_type p = VTree /\ enough n dv p q) \/
               (exists p', table' dv p q = Ok p' /\ ~ fits p')
  end.

Lemma array_op n dv s p q F h r h1 (f : store num -> res (store num)) :
  holds h s p F -> st_type p <> VTree -> table' dv p q = f p ->
  (forall p', f p = Ok p' -> st_type p' = st_type p) ->
  (let! p0 := hstore_of s in let! x := hlift (f p0) in hresult x) h = (r, h1) ->
  result n dv p q F h h1 r.
Proof.
  intros H T TB TY E. unfold hbind in E at 1. rewrite (hstore_of_ok _ _ _ _ H T) in E.
  unfold hbind, hlift in E. unfold result. rewrite TB. destruct (f p) as [p'|e] eqn:FP.
  - assert (T' : st_type p' <> VTree) by (rewrite (TY p' eq_refl); exact T).
    destruct (hresult_ok p' h r h1 T' E) as (X & O). split; [exact X|]. destruct r as [s'|e].
    + destruct O as (G & HG & (P & D)). exists p', G. split; [reflexivity|]. split; [exact HG|]. split.
      * intros _ b B. destruct (P b B) as ([[] | L] & _). exact L.
      * intros _. apply D. constructor.
    + right. right. eauto.
  - injection E as <- <-. split; [apply grows_refl | now left].
Qed.

Lemma tree_build n dv p q F d v t F1 h h0 h1 r :
  grows h h0 -> reads h0 v t F1 ->
  table' dv p q = st_init VTree d (tree_darg t) ->
  (own_result dv p -> forall b, In b F1 -> length h <= b) -> (NoDup F -> NoDup F1) ->
  hinit VTree d v h0 = (r, h1) ->
  result n dv p q F h h1 r.
Proof.
  intros X R TB OW ND E. destruct (hinit_tree d v t F1 h0 r h1 R E) as (X1 & O). unfold result. rewrite TB.
  split; [eapply grows_trans; eassumption|]. destruct r as [s'|e]; [|now left].
  destruct O as (p' & G & -> & HG & (P & D) & _). exists p', G. split; [reflexivity|]. split; [exact HG|]. split.
  - intros O b B. destruct (P b B) as ([J | L] & _); [now apply OW|]. apply grows_length in X. lia.
  - auto.
Qed.

Lemma own_array (dv : deriv) p : st_type p <> VTree -> st_type p <> VNumpy1D -> own_result dv p.
Proof. intros T N. destruct p; cbn in *; try tauto; congruence. Qed.

Lemma restrict_result n o s p F h r h1 : holds h s p F -> hs_restrict n s o h = (r, h1) ->
  result n (DRestrict o) p None F h h1 r.
Proof.
  intros H E. pose proof (holds_type _ _ _ _ H) as (TY & DY). unfold hs_restrict in E. rewrite TY in E.
  destruct (st_type p) eqn:TP.
  1-3: eapply (array_op n (DRestrict o) s p None F h r h1 (fun p => st_restrict_ext p o));
       [exact H | congruence | reflexivity | intros p'; apply st_restrict_ext_type | exact E].
  inversion H as [| | |d v t G R]; subst; try discriminate. cbn [hs_data hs_domain] in E.
  destruct (has_list o) eqn:HL.
  { injection E as <- <-. split; [apply grows_refl|]. left. cbn. unfold tree_restrict. now rewrite HL. }
  unfold hbind in E. destruct (hrestrict n v (ones o) h) as [r1 h2] eqn:E1.
  pose proof (hrestrict_ok n t v (ones o) h F true r1 h2 R (or_introl eq_refl) E1) as (X & O).
  destruct r1 as [v'|e].
  - destruct O as (t' & F' & T' & R' & (P & D)).
    eapply (tree_build n (DRestrict o) _ _ F _ v' t' F'); [exact X | exact R' | | | exact D | exact E].
    + cbn. unfold tree_restrict. rewrite HL, T'. reflexivity.
    + cbn [own_result]. intros U.
      pose proof (hrestrict_ok n t v (ones o) h F false _ h2 R (or_intror U) E1) as (_ & t2 & F2 & _ & R2 & (P2 & _)).
      destruct (proj1 (reads_unique h2) _ _ _ R' _ _ R2) as (_ & ->).
      intros b B. destruct (P2 b B) as ([[] | L] & _). exact L.
  - injection E as <- <-. split; [exact X|]. cbn. unfold tree_restrict. rewrite HL.
    destruct O as [-> | (-> & O)]; [now left|]. right. left. split; [reflexivity|]. split; [reflexivity|].
    intros (_ & T) _ _. cbn in *. apply tcomp_depth in T. lia.
Qed.

Lemma marg_result n dv vs (hf : hval -> var -> action hval) tf s p F h r h1 :
  dv = DMarginalize vs \/ dv = DMaxmarginalize vs ->
  holds h s p F -> st_type p = VTree ->
  (forall d t, p = StTree d t -> table' dv p None = let* t' := foldM tf vs t in st_init VTree (dom_without d vs) (tree_darg t')) ->
  (forall t v x h F kp r h', reads h v t F -> kp = true \/ branches x t -> hf v x h = (r, h') ->
    outcome (forall d, NoDup (keys d) -> tcomp d t -> n <= 2 * length d) h h' (keep kp F) r (tf t x)) ->
  (forall d t x t', wf_dom d -> tcomp d t -> In x (keys d) -> tf t x = Ok t' -> tcomp (dremove x d) t') ->
  (let! v := hfoldM hf vs (hs_data s) in hinit VTree (dom_without (hs_domain s) vs) v) h = (r, h1) ->
  result n dv p None F h h1 r.
Proof.
  intros DV H TP TB STEP COMP E. inversion H as [| | |d v t G R]; subst; try discriminate.
  cbn [hs_data hs_domain] in E. unfold hbind in E.
  destruct (hfoldM hf vs v h) as [r1 h2] eqn:E1.
  destruct (marg_fold hf tf n STEP COMP vs t v h F r1 h2 R E1) as (X & O).
  specialize (TB d t eq_refl). destruct r1 as [v'|e].
  - destruct O as (t' & F' & T' & R' & (P & D) & FR).
    eapply (tree_build n dv _ _ F _ v' t' F'); [exact X | exact R' | | | exact D | exact E].
    + rewrite TB, T'. reflexivity.
    + intros OW.
      assert (OW' : wf_store (StTree d t) /\ NoDup vs /\ incl vs (keys d) /\ exists v, In v vs /\ several d v).
      { destruct DV as [-> | ->]; exact OW. }
      destruct OW' as ((W & T) & NDV & I & x & Ix & SV). cbn [st_domain] in W.
      destruct (FR d x W T NDV I Ix SV) as (P2 & _). intros b B. destruct (P2 b B) as ([[] | L] & _). exact L.
  - injection E as <- <-. split; [exact X|]. rewrite TB.
    destruct O as [-> | (-> & O)]; [now left|]. right. left. split; [reflexivity|]. split; [reflexivity|].
    intros (W & T) _ Q. cbn [st_domain] in *.
    assert (NDV : NoDup vs /\ incl vs (keys d)) by (destruct DV as [-> | ->]; exact Q).
    specialize (O d W T (proj1 NDV) (proj2 NDV)). lia.
Qed.

Lemma tmarg_comp op d t k x t' : wf_dom d -> tcomp d t -> In x (keys d) -> tmarg nscale op t x k = Ok t' ->
  tcomp (dremove x d) t'.
Proof.
  intros W T I E. apply keys_In in I as (l & I).
  destruct (tmarg_ok nscale op k d t x l W T I) as (t1 & E1 & T1 & _). congruence.
Qed.

Lemma marginalize_result n vs s p F h r h1 : holds h s p F -> hs_marginalize n s vs h = (r, h1) ->
  result n (DMarginalize vs) p None F h h1 r.
Proof.
  intros H E. pose proof (holds_type _ _ _ _ H) as (TY & DY).
  pose proof E as E'. unfold hs_marginalize in E'. rewrite TY in E'.
  destruct (st_type p) eqn:TP.
  1-3: eapply (array_op n (DMarginalize vs) s p None F h r h1 (fun p => st_marginalize p vs));
       [exact H | congruence | reflexivity | intros p'; apply st_marginalize_type | exact E'].
  eapply (marg_result n (DMarginalize vs) vs
    (fun v x => let! l := hlift (dlook x (hs_domain s)) in hmarg n nadd v x (length l))
    (fun t v => let* dv := dlook v (st_domain p) in tmarg nscale nadd t v (length dv))); [| exact H | exact TP | | | | exact E'].
  - now left.
  - intros d t ->. reflexivity.
  - intros t v x h0 F0 kp r0 h' R U Q. rewrite DY in Q. unfold hbind, hlift in Q.
    destruct (dlook x (st_domain p)) as [l|e]; cbn [bind].
    + eapply hmarg_ok; eassumption.
    + injection Q as <- <-. split; [apply grows_refl | now left].
  - intros d t x t' W T I Q. destruct (dlook x (st_domain p)); [|discriminate]. cbn [bind] in Q. eapply tmarg_comp; eassumption.
Qed.

Lemma maxmarginalize_result n vs s p F h r h1 : holds h s p F -> hs_maxmarginalize n s vs h = (r, h1) ->
  result n (DMaxmarginalize vs) p None F h h1 r.
Proof.
  intros H E. pose proof (holds_type _ _ _ _ H) as (TY & DY).
  pose proof E as E'. unfold hs_maxmarginalize in E'. rewrite TY in E'.
  destruct (st_type p) eqn:TP.
  1-3: eapply (array_op n (DMaxmarginalize vs) s p None F h r h1 (fun p => st_maxmarginalize p vs));
       [exact H | congruence | reflexivity | intros p'; apply st_maxmarginalize_type | exact E'].
  eapply (marg_result n (DMaxmarginalize vs) vs
    (fun v x => hmarg n py_max v x 1)
    (fun t v => tmarg nscale py_max t v 1)); [| exact H | exact TP | | | | exact E'].
  - now right.
  - intros d t ->. reflexivity.
  - intros t v x h0 F0 kp r0 h' R U Q. eapply hmarg_ok; eassumption.
  - intros d t x t' W T I Q. eapply tmarg_comp; eassumption.
Qed.

Lemma combine_result n dv (op : vtype -> num -> num -> num) s s2 p q F h r h1 :
  (forall b, dv <> DCopy b) -> (forall d t, p = StTree d t -> own_result dv p) ->
  (match dv with DMarginalize _ | DMaxmarginalize _ => False | _ => True end) ->
  table' dv p (Some q) = st_combine n0 (op (st_type p)) p q ->
  holds h s p F -> (exists G, holds h s2 q G) -> hs_combine n op s s2 h = (r, h1) ->
  result n dv p (Some q) F h h1 r.
Proof.
  intros NC OWN NM TB H (G & H2) E.
  pose proof (holds_type _ _ _ _ H) as (TY & DY). pose proof (holds_type _ _ _ _ H2) as (TY2 & DY2).
  unfold hs_combine in E. rewrite TY, TY2 in E.
  assert (ARR : st_type p <> VTree -> st_type q <> VTree ->
    (let! p1 := hstore_of s in let! p2 := hstore_of s2 in
     let! r := hlift (st_combine n0 (op (st_type p)) p1 p2) in hresult r) h = (r, h1) ->
    result n dv p (Some q) F h h1 r).
  { intros T1 T2 Q. unfold hbind in Q. rewrite (hstore_of_ok _ _ _ _ H T1) in Q. rewrite (hstore_of_ok _ _ _ _ H2 T2) in Q.
    eapply (array_op n dv s p (Some q) F h r h1 (fun p1 => st_combine n0 (op (st_type p)) p1 q));
      [exact H | exact T1 | exact TB | intros p'; apply st_combine_type |].
    unfold hbind. rewrite (hstore_of_ok _ _ _ _ H T1). exact Q. }
  assert (MIX : st_type p = VTree /\ st_type q <> VTree \/ st_type p <> VTree /\ st_type q = VTree ->
    (@Raise hstore ValueError, h) = (r, h1) -> result n dv p (Some q) F h h1 r).
  { intros T Q. injection Q as <- <-. split; [apply grows_refl|]. left. rewrite TB.
    destruct p, q; cbn in T |- *; try reflexivity; destruct T as [(T1 & T2) | (T1 & T2)]; congruence. }
  destruct (st_type p) eqn:T1, (st_type q) eqn:T2; try (apply ARR; [congruence | congruence | exact E]);
    try (apply MIX; [first [left; split; congruence | right; split; congruence] | exact E]).
  inversion H as [| | |d v t F0 R]; subst; try discriminate. inversion H2 as [| | |d2 v2 t2 G0 R2]; subst; try discriminate.
  cbn [hs_data hs_domain] in E. unfold hbind in E.
  destruct (hcombine n (op VTree) v v2 h) as [r1 h2] eqn:E1.
  pose proof (hcombine_ok (op VTree) n t t2 v v2 h F G r1 h2 R R2 E1) as (X & O).
  destruct r1 as [v'|e].
  - destruct O as (t' & F' & T' & R' & (P & D)).
    eapply (tree_build n dv _ _ F _ v' t' F'); [exact X | exact R' | | | | exact E].
    + rewrite TB. cbn. unfold tree_combine. now rewrite T'.
    + intros _ b B. destruct (P b B) as ([[] | L] & _). exact L.
    + intros _. apply D. constructor.
  - injection E as <- <-. split; [exact X|]. rewrite TB. cbn. unfold tree_combine.
    destruct O as [-> | (-> & O)]; [now left|]. right. left. split; [reflexivity|]. split; [reflexivity|].
    intros (_ & T) WQ _. specialize (WQ _ eq_refl). destruct WQ as (_ & TQ). cbn in *.
    apply tcomp_depth in T. apply tcomp_depth in TQ. lia.
Qed.

Lemma copy_result n deep s p F h r h1 : holds h s p F -> hs_copy n s deep h = (r, h1) ->
  result n (DCopy deep) p None F h h1 r.
Proof.
  intros H E.
  assert (NE : forall (hh : heap) c, nth_error (hh ++ [c]) (length hh) = Some c).
  { intros hh c. rewrite nth_error_app2 by lia. now rewrite Nat.sub_diag. }
  assert (ONE : forall a : nat, NoDup F -> NoDup [a]) by (intros a _; constructor; [intros [] | constructor]).
  inversion H as [d a x G | d a x G | d a l G | d v t G R]; subst; unfold hs_copy in E; cbn [hs_type hs_data hs_domain] in E.
  - (* numpy *)
    assert (INIT : forall a0 h0, grows h h0 -> nth_error h0 a0 = Some (CArr x) -> hinit VNumpy d (HRef a0) h0 = (r, h1) ->
              result n (DCopy deep) (StNumpy d x) None [a] h h1 r).
    { intros a0 h0 X G0 Q. unfold hinit in Q. unfold hbind in Q at 1. unfold hread at 1 in Q. rewrite G0 in Q.
      cbn [as_array] in Q. unfold hbind, hlift in Q.
      destruct (st_init VNumpy d (DArr x)) as [p|e] eqn:I.
      - injection Q as <- <-. split; [eapply grows_trans; [exact X | apply grows_alloc]|].
        exists (StNumpy d x), [length h0]. split; [reflexivity|]. split; [constructor; apply NE|]. split; [|auto].
        intros _ b [<- | []]. now apply grows_length.
      - injection Q as <- <-. split; [exact X|]. right. right. exists (StNumpy d x). split; [reflexivity|].
        cbn [fits]. intros Z. cbn [st_init] in I. rewrite Z, eqd_refl in I. unfold card, vals in I.
        rewrite !map_length, Nat.eqb_refl in I. discriminate. }
    destruct deep.
    + unfold hbind in E at 1. unfold hbind in E at 1. unfold hread at 1 in E. rewrite G in E. unfold halloc at 1 in E.
      eapply INIT; [apply grows_alloc | apply NE | exact E].
    + eapply INIT; [apply grows_refl | exact G | exact E].
  - assert (INIT : forall a0 h0, grows h h0 -> nth_error h0 a0 = Some (CArr x) ->
              (deep = true -> length h <= a0) -> hinit VNumpy1D d (HRef a0) h0 = (r, h1) ->
              result n (DCopy deep) (StNp1 d (flat x)) None [a] h h1 r).
    { intros a0 h0 X G0 B Q. unfold hinit in Q. unfold hbind in Q at 1. unfold hread at 1 in Q. rewrite G0 in Q.
      unfold hbind, hlift in Q.
      destruct (st_init VNumpy1D d (DArr x)) as [p|e] eqn:I.
      - injection Q as <- <-. split; [exact X|].
        exists (StNp1 d (flat x)), [a0]. split; [reflexivity|]. split; [constructor; exact G0|]. split; [|auto].
        cbn [own_result]. intros O b [<- | []]. apply B. destruct deep; congruence.
      - injection Q as <- <-. split; [exact X|]. right. right. exists (StNp1 d (flat x)). split; [reflexivity|].
        cbn [fits]. intros Z. cbn [st_init] in I. rewrite Z, Nat.eqb_refl in I. discriminate. }
    destruct deep.
    + unfold hbind in E at 1. unfold hbind in E at 1. unfold hread at 1 in E. rewrite G in E. unfold halloc at 1 in E.
      eapply INIT; [apply grows_alloc | apply NE | intros _; lia | exact E].
    + eapply INIT; [apply grows_refl | exact G | discriminate | exact E].
  - assert (INIT : forall a0 h0, grows h h0 -> nth_error h0 a0 = Some (CList l) -> hinit VList d (HRef a0) h0 = (r, h1) ->
              result n (DCopy deep) (StList d l) None [a] h h1 r).
    { intros a0 h0 X G0 Q. unfold hinit in Q. unfold hbind in Q at 1. unfold hread at 1 in Q. rewrite G0 in Q.
      cbn [as_array] in Q. unfold hbind, hlift in Q.
      destruct (st_init VList d (DArr (mkNd [length l] l))) as [p|e] eqn:I.
      - injection Q as <- <-. split; [eapply grows_trans; [exact X | apply grows_alloc]|].
        exists (StList d l), [length h0]. split; [reflexivity|]. split; [constructor; apply NE|]. split; [|auto].
        intros _ b [<- | []]. now apply grows_length.
      - injection Q as <- <-. split; [exact X|]. right. right. exists (StList d l). split; [reflexivity|].
        cbn [fits]. intros Z. cbn [st_init flat] in I. rewrite Z, Nat.eqb_refl in I. discriminate. }
    destruct deep.
    + unfold hbind in E at 1. unfold hbind in E at 1. unfold hread at 1 in E. rewrite G in E. unfold halloc at 1 in E.
      eapply INIT; [apply grows_alloc | apply NE | exact E].
    + eapply INIT; [apply grows_refl | exact G | exact E].
  - destruct deep.
    + unfold hbind in E at 1. unfold hbind in E at 1.
      destruct (hdeepcopy n [] v h) as [r1 h2] eqn:E1.
      destruct (hdeepcopy_ok (length h) n t v h F [] r1 h2 R (le_n _)) as (X & O); [intros a b Q; discriminate | exact E1|].
      destruct r1 as [[v' m']|e].
      * destruct O as (F' & R' & B & _ & K). unfold hret in E.
        eapply (tree_build n (DCopy true) _ _ F _ v' t F'); [exact X | exact R' | reflexivity | | | exact E].
        -- intros _. exact B.
        -- intros ND. destruct (K ND) as ((_ & D) & _); [intros a []|]. apply D. constructor.
      * injection E as <- <-. split; [exact X|]. right. left. destruct O as (-> & O). split; [reflexivity|].
        split; [reflexivity|]. intros (_ & T) _ _. cbn in *. apply tcomp_depth in T. lia.
    + eapply (tree_build n (DCopy false) _ _ F _ v t F); [apply grows_refl | exact R | reflexivity | | auto | exact E].
      cbn. discriminate.
Qed.

Lemma derive_ok n dv s p q F h r h1 : holds h s p F -> operand_holds h dv q -> derive n dv s h = (r, h1) ->
  result n dv p q F h h1 r.
Proof.
  intros H OP E.
  assert (IND : operand dv = None -> forall q', result n dv p None F h h1 r -> result n dv p q' F h h1 r).
  { intros N q' (X & O). split; [exact X|]. destruct r as [s'|e].
    - destruct O as (p' & G & T & O). exists p', G. split; [|exact O]. destruct dv; try discriminate; exact T.
    - destruct O as [O | [(EE & T & O) | (p' & T & O)]].
      + left. destruct dv; try discriminate; exact O.
      + right. left. split; [exact EE|]. split; [exact T|]. intros W WQ C. specialize (O W). 
        assert (Q0 : forall q0 : store num, None = Some q0 -> wf_store q0) by discriminate.
        specialize (O Q0 C). cbv iota in O. destruct q'; lia.
      + right. right. exists p'. split; [|exact O]. destruct dv; try discriminate; exact T. }
  destruct dv as [o | vs | vs | s2 | s2 | s2 | s2 | deep]; cbn [derive] in E.
  - apply IND; [reflexivity|]. eapply restrict_result; eassumption.
  - apply IND; [reflexivity|]. eapply marginalize_result; eassumption.
  - apply IND; [reflexivity|]. eapply maxmarginalize_result; eassumption.
  - destruct q as [q|]; [|destruct OP]. eapply (combine_result n _ (fun _ => nmul) s s2);
      [discriminate | intros d t ->; exact Logic.I | exact Logic.I | reflexivity | exact H | exact OP | exact E].
  - destruct q as [q|]; [|destruct OP]. eapply (combine_result n _ (fun _ => nadd) s s2);
      [discriminate | intros d t ->; exact Logic.I | exact Logic.I | reflexivity | exact H | exact OP | exact E].
  - destruct q as [q|]; [|destruct OP]. eapply (combine_result n _ (fun _ => nsub) s s2);
      [discriminate | intros d t ->; exact Logic.I | exact Logic.I | reflexivity | exact H | exact OP | exact E].
  - destruct q as [q|]; [|destruct OP]. eapply (combine_result n _ div_op s s2);
      [discriminate | intros d t ->; exact Logic.I | exact Logic.I | reflexivity | exact H | exact OP | exact E].
  - apply IND; [reflexivity|]. eapply copy_result; eassumption.
Qed.
