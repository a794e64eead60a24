(** Facts about treedict trees. *)

From Coq Require Import String Bool Arith Lia List Permutation.
From Verif Require Import PyBase PyFacts DomainModel NdArray StoreModel Spec StoreSpec DomainFacts.
Import ListNotations.

Section Trees.
  Context {V : Type}.
  Implicit Types (v : var) (ch : list (state * tree V)) (t : tree V) (d : domain) (o : obs) (a : asg).

  (** Induction with access to the children. *)
  Lemma tree_ind' (P : tree V -> Prop) :
    (forall x, P (Leaf x)) ->
    (forall v ch, (forall s c, In (s, c) ch -> P c) -> P (Node v ch)) ->
    forall t, P t.
  Proof.
    intros HL HN. fix IH 1. intros [x|v ch]; [apply HL|]. apply HN.
    induction ch as [|[s' c'] ch IHch]; intros s c I; [destruct I|].
    destruct I as [E|I]; [|eapply IHch; eauto]. injection E as _ <-. apply IH.
  Qed.

  (** Follow an assignment to a leaf. *)
  Fixpoint teval (t : tree V) (a : asg) {struct t} : option V :=
    match t with
    | Leaf x => Some x
    | Node v ch =>
        (fix find l := match l with
                       | [] => None
                       | (s, c) :: r => if eqd (a v) s then teval c a else find r
                       end) ch
    end.

  Lemma teval_node v ch a :
    teval (Node v ch) a = match dget (a v) ch with Some c => teval c a | None => None end.
  Proof.
    simpl. induction ch as [|[s c] ch IH]; auto. cbn [dget]. destruct (eqd (a v) s); auto.
  Qed.

  (** Children of a recursive map. *)
  Lemma trestrict_node v ch o : o <> [] ->
    trestrict (Node v ch) o =
    match dget v o with
    | None => let* ch' := mapM (fun sc => let* c' := trestrict (snd sc) o in Ok (fst sc, c')) ch in
              Ok (Node v ch')
    | Some s => match dget s ch with
                | Some c => trestrict c (dremove v o)
                | None => Raise KeyError
                end
    end.
  Proof.
    intros NE. destruct o as [|p o]; [congruence|]. cbn [trestrict]. set (o' := p :: o).
    destruct (dget v o').
    - induction ch as [|[s' c] ch IH]; auto. cbn [dget]. destruct (eqd s s'); auto.
    - f_equal. induction ch as [|[s' c] ch IH]; auto. cbn [mapM fst snd].
      destruct (trestrict c o'); auto. cbn [bind]. rewrite IH. auto.
  Qed.

  Lemma trestrict_nil t : trestrict t [] = Ok t.
  Proof. destruct t; auto. Qed.

  Lemma tset_node v ch o x : o <> [] ->
    tset (Node v ch) o x =
    match dget v o with
    | None => let* ch' := mapM (fun sc => let* c' := tset (snd sc) o x in Ok (fst sc, c')) ch in
              Ok (Node v ch')
    | Some s => match dget s ch with
                | Some c => let* c' := tset c (dremove v o) x in Ok (Node v (dset s c' ch))
                | None => Raise KeyError
                end
    end.
  Proof.
    intros NE. destruct o as [|p o]; [congruence|]. cbn [tset]. set (o' := p :: o).
    destruct (dget v o').
    - induction ch as [|[s' c] ch IH]; auto. cbn [dget dset]. destruct (eqd s s') as [->|].
      + destruct (tset c (dremove v o') x); auto.
      + destruct (dget s ch) as [c1|] eqn:E.
        * destruct (tset c1 (dremove v o') x) as [c2|]; cbn [bind] in *.
          -- match type of IH with bind ?m _ = _ => destruct m; cbn [bind] in *; congruence end.
          -- match type of IH with bind ?m _ = _ => destruct m; cbn [bind] in *; congruence end.
        * match type of IH with bind ?m _ = _ => destruct m; cbn [bind] in *; congruence end.
    - f_equal. induction ch as [|[s' c] ch IH]; auto. cbn [mapM fst snd].
      destruct (tset c o' x); auto. cbn [bind]. rewrite IH. auto.
  Qed.

  Lemma tcombine_node op v ch t2 :
    tcombine op (Node v ch) t2 =
    let* ch' := mapM (fun sc => let* t2' := trestrict t2 [(v, fst sc)] in
                                let* c' := tcombine op (snd sc) t2' in Ok (fst sc, c')) ch in
    Ok (Node v ch').
  Proof.
    cbn [tcombine]. f_equal. induction ch as [|[s' c] ch IH]; auto. cbn [mapM fst snd].
    destruct (trestrict t2 [(v, s')]); auto. cbn [bind]. destruct (tcombine op c a); auto.
    cbn [bind]. rewrite IH. auto.
  Qed.

  Lemma tmarg_node scale op v' ch v k :
    tmarg scale op (Node v' ch) v k =
    if eqd v' v then reduceM (tcombine op) (map snd ch)
    else let* ch' := mapM (fun sc => let* c' := tmarg scale op (snd sc) v k in Ok (fst sc, c')) ch in
         Ok (Node v' ch').
  Proof.
    cbn [tmarg]. destruct (eqd v' v); auto. f_equal.
    induction ch as [|[s' c] ch IH]; auto. cbn [mapM fst snd].
    destruct (tmarg scale op c v k); auto. cbn [bind]. rewrite IH. auto.
  Qed.

  (** mapM over children *)
  Lemma mapM_children (f : state * tree V -> res (tree V)) ch ch' :
    mapM (fun sc => let* c' := f sc in Ok (fst sc, c')) ch = Ok ch' ->
    map fst ch' = map fst ch /\
    (forall s c', In (s, c') ch' -> exists c, In (s, c) ch /\ f (s, c) = Ok c') /\
    (forall s c, dget s ch = Some c -> exists c', dget s ch' = Some c' /\ f (s, c) = Ok c').
  Proof.
    revert ch'. induction ch as [|[s c] ch IH]; intros ch' E; simpl in E.
    - injection E as <-. repeat split; simpl; auto; try tauto. discriminate.
    - apply bind_ok in E as (p & E1 & E). apply bind_ok in E1 as (c1 & E1 & E2).
      injection E2 as <-. apply bind_ok in E as (r & E3 & E). injection E as <-.
      destruct (IH _ E3) as (K & I1 & I2). repeat split.
      + simpl. congruence.
      + intros s' c' [X|X].
        * injection X as <- <-. exists c. simpl. auto.
        * destruct (I1 _ _ X) as (c0 & X1 & X2). exists c0. simpl. auto.
      + intros s' c' X. cbn [dget fst] in *. destruct (eqd s' s) as [->|].
        * injection X as <-. eauto.
        * eauto.
  Qed.

  Lemma tcomp_set d d' t : (forall e, In e d <-> In e d') -> tcomp d t -> tcomp d' t.
  Proof.
    intros E T. revert d' E. induction T; intros d' E.
    - destruct d' as [|e d']; [constructor|]. exfalso. apply (E e). simpl; auto.
    - econstructor; eauto. apply E; eauto. intros s c I. eapply H3; eauto.
      intros e. unfold dremove, dfilter. rewrite !filter_In, E. tauto.
  Qed.

  Lemma dget_child d v l (ch : list (state * tree V)) a :
    In (v, l) d -> (forall s, In s (map fst ch) <-> In s l) -> valid d a ->
    exists c, dget (a v) ch = Some c /\ In (a v, c) ch.
  Proof.
    intros I E Va. assert (X : In (a v) (keys ch)) by (apply E; apply Va; auto).
    apply dget_keys in X as (c & X). exists c. split; auto. apply dget_In; auto.
  Qed.

  Lemma valid_dremove d v a : valid d a -> valid (dremove v d) a.
  Proof. apply valid_incl. intros e I. apply filter_In in I. tauto. Qed.

  Lemma tcomp_total d t a : tcomp d t -> valid d a -> exists x, teval t a = Some x.
  Proof.
    induction 1; intros Va; [simpl; eauto|]. rewrite teval_node.
    destruct (dget_child d v l ch a) as (c & E & I); auto. rewrite E.
    eapply H3; eauto. apply valid_dremove; auto.
  Qed.

  Lemma teval_ext d t a b : tcomp d t -> (forall v, In v (keys d) -> a v = b v) ->
    teval t a = teval t b.
  Proof.
    induction 1; intros E; auto. rewrite !teval_node. rewrite (E v).
    2:{ apply keys_In; eauto. }
    destruct (dget (b v) ch) eqn:G; auto. eapply H3.
    - apply dget_In; eauto.
    - intros w I. apply E. unfold dremove in I. rewrite keys_dfilter in I.
      apply filter_In in I. tauto.
  Qed.

  Lemma NoDup_dremove d v : NoDup (keys d) -> NoDup (keys (dremove v d)).
  Proof. apply NoDup_dfilter. Qed.

  Lemma rest_dremove d v o s : dget v o = Some s -> rest (dremove v d) (dremove v o) = rest d o.
  Proof.
    intros E. unfold rest.
    change (dremove v d) with (dfilter (fun k' => if eqd k' v then false else true) d).
    rewrite dfilter_dfilter. apply dfilter_ext.
    intros w _. destruct (eqd w v) as [->|N]; simpl.
    - assert (M : dmem v o = true) by (apply dmem_In, dget_keys; eauto). rewrite M. auto.
    - f_equal. destruct (dmem w o) eqn:M.
      + apply dmem_In, dget_keys in M as (x & M). apply dmem_In, dget_keys.
        exists x. rewrite dget_dremove, eqd_neq; auto.
      + apply dmem_false in M. apply dmem_false. rewrite dget_dremove, eqd_neq; auto.
  Qed.

  Lemma rest_dremove' d v o : rest (dremove v d) o = dremove v (rest d o).
  Proof.
    unfold rest, dremove. rewrite !dfilter_dfilter. apply dfilter_ext. intros. apply andb_comm.
  Qed.

  Lemma rest_nil d : rest d [] = d.
  Proof. unfold rest. apply dfilter_true. auto. Qed.

  Lemma known_dremove d v o : known d o -> known (dremove v d) (dremove v o).
  Proof.
    intros K w l s I E. apply filter_In in I as [I _].
    rewrite dget_dremove in E. destruct (eqd w v); [discriminate|]. eapply K; eauto.
  Qed.

  Lemma known_dremove' d v o : known d o -> known (dremove v d) o.
  Proof. intros K w l s I E. apply filter_In in I as [I _]. eapply K; eauto. Qed.

  (** Restriction of a complete tree. *)
  Lemma trestrict_ok d t o : NoDup (keys d) -> tcomp d t -> known d o ->
    exists t', trestrict t o = Ok t' /\ tcomp (rest d o) t' /\
               forall a, teval t' a = teval t (over o a).
  Proof.
    intros ND T. revert o ND. induction T as [x|d v l ch I NC KC TC IH]; intros o ND K.
    - exists (Leaf x). simpl. repeat split; constructor.
    - destruct o as [|p o0] eqn:Eo.
      + exists (Node v ch). rewrite trestrict_nil, rest_nil. split; [auto|split].
        * econstructor; eauto.
        * intros a. apply teval_ext with (d := d); [econstructor; eauto|]. auto.
      + rewrite trestrict_node by congruence. rewrite <- Eo in *. clear Eo p o0.
        destruct (dget v o) as [s|] eqn:E.
        * assert (X : In s (keys ch)) by (apply KC; eapply K; eauto).
          apply dget_keys in X as (c & X). rewrite X.
          pose proof (dget_In _ _ _ X) as Ic.
          destruct (IH s c Ic (dremove v o)) as (t' & R & T' & Ev).
          -- apply NoDup_dremove; auto.
          -- apply known_dremove; auto.
          -- exists t'. split; auto. rewrite (rest_dremove d v o s E) in T'. split; auto.
             intros a. rewrite Ev, teval_node.
             assert (O : over o a v = s) by (unfold over; rewrite E; auto). rewrite O, X.
             eapply teval_ext; [eapply TC; eauto|]. intros w Iw. unfold over.
             rewrite dget_dremove. unfold dremove in Iw. rewrite keys_dfilter in Iw.
             apply filter_In in Iw as [_ Iw]. destruct (eqd w v); [discriminate|auto].
        * assert (EX : exists ch', mapM (fun sc => let* c' := trestrict (snd sc) o in Ok (fst sc, c')) ch = Ok ch').
          { apply mapM_total. intros [s c] Ic. simpl.
            destruct (IH s c Ic o) as (t' & R & _); [apply NoDup_dremove; auto|apply known_dremove'; auto|].
            rewrite R. simpl. eauto. }
          destruct EX as (ch' & EX). rewrite EX. cbn [bind]. eexists. split; [reflexivity|].
          apply (mapM_children (fun sc => trestrict (snd sc) o)) in EX as (Kc & I1 & I2). split.
          -- apply tc_node with (l := l).
             ++ apply filter_In. split; auto. simpl. apply dmem_false in E. rewrite E. auto.
             ++ rewrite Kc; auto.
             ++ intros s. rewrite Kc. auto.
             ++ intros s c' Ic'. destruct (I1 _ _ Ic') as (c & Ic & R). simpl in R.
                destruct (IH s c Ic o) as (t' & R' & T' & _); [apply NoDup_dremove; auto|apply known_dremove'; auto|].
                rewrite R in R'. injection R' as <-. rewrite rest_dremove' in T'. auto.
          -- intros a. rewrite !teval_node.
             assert (O : over o a v = a v) by (unfold over; rewrite E; auto). rewrite O.
             destruct (dget (a v) ch) as [c|] eqn:G.
             ++ destruct (I2 _ _ G) as (c' & G' & R). rewrite G'. simpl in R.
                destruct (IH _ c (dget_In _ _ _ G) o) as (t' & R' & _ & Ev);
                  [apply NoDup_dremove; auto|apply known_dremove'; auto|].
                rewrite R in R'. injection R' as <-. auto.
             ++ destruct (dget (a v) ch') eqn:G'; auto. exfalso.
                assert (In (a v) (keys ch')) by (apply dget_keys; eauto).
                unfold keys in H. rewrite Kc in H. apply dget_None in G. auto.
  Qed.

  (** Unknown states raise. *)
  Lemma trestrict_unknown d t o v l s : wf_dom d -> tcomp d t ->
    In (v, l) d -> dget v o = Some s -> ~ In s l ->
    exists e, trestrict t o = Raise e.
  Proof.
    intros W T. revert o W. induction T as [x|d w m ch I NC KC TC IH]; intros o W Iv E N; [destruct Iv|].
    assert (NE : o <> []) by (intros ->; discriminate).
    assert (W' : wf_dom (dremove w d)) by (apply wf_dom_filter; auto).
    rewrite trestrict_node by auto.
    destruct (eqd w v) as [->|Nwv].
    - rewrite E. assert (m = l).
      { destruct W as [ND _]. apply In_dget in I; auto. apply In_dget in Iv; auto. congruence. }
      subst m. destruct (dget s ch) eqn:G; eauto.
      exfalso. apply N, KC. apply dget_keys. eauto.
    - assert (Iv' : In (v, l) (dremove w d)).
      { apply filter_In. split; auto. simpl. rewrite eqd_neq; auto. }
      destruct (dget w o) as [s'|] eqn:Ew.
      + destruct (dget s' ch) as [c|] eqn:G; eauto.
        eapply IH; eauto; [apply dget_In; eauto|].
        rewrite dget_dremove, eqd_neq; auto.
      + destruct ch as [|[s1 c1] ch].
        * exfalso. apply W in I as [_ I]. destruct m as [|s1 m]; [congruence|].
          apply (proj2 (KC s1)). simpl; auto.
        * simpl. destruct (IH s1 c1 (or_introl eq_refl) o W' Iv' E N) as (e & ->). simpl. eauto.
  Qed.
End Trees.
