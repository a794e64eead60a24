(** Probabilities do not depend on the names of the variables (C72). *)

From Coq Require Import String Ascii Bool Arith ZArith QArith Qcanon Lia Permutation List.
From Verif Require Import PyBase PyFacts Num DomainModel NdArray StoreModel NumStore FactorModel Spec StoreSpec DomainFacts StoreFacts
  NumFacts PropFacts1 BigSum FactorSpec FactorFacts FactorFacts2 FactorFacts3 GraphModel ModelModel ModelSpec NetSpec CausalSpec
  RenameFacts1.
From Coq Require Import List.
Import ListNotations.
Local Open Scope nat_scope.
Local Arguments eqd : simpl never.

Lemma all_renamed r (d : domain) : all_assignments (renamed_dom r d) = map (rename_obs r) (all_assignments d).
Proof.
  induction d as [|[v l] d IH]; [reflexivity|]. cbn [map all_assignments fst snd]. rewrite IH. clear IH.
  induction l as [|s l IH]; [reflexivity|]. cbn [flat_map]. rewrite map_app, IH, !map_map. reflexivity.
Qed.
Lemma keys_renamed r (d : domain) : keys (renamed_dom r d) = map (rename1 r) (keys d).
Proof. unfold keys. rewrite !map_map. reflexivity. Qed.
Lemma keys_rename_obs r (o : obs) : keys (rename_obs r o) = map (rename1 r) (keys o).
Proof. unfold keys, rename_obs. rewrite !map_map. reflexivity. Qed.

Section Inv.
  Variables (r : dict var var) (D : domain) (F F' : var -> mfactor).
  Notation rn := (rename1 r).
  Notation D' := (renamed_dom r D).
  Hypothesis ND : NoDup (keys D).
  Hypothesis Inj : forall x y, In x (keys D) -> In y (keys D) -> rn x = rn y -> x = y.
  Hypothesis HF : forall v, In v (keys D) -> forall o o' : obs, full (mf_domain (F v)) o ->
    (forall w, In w (mf_vars (F v)) -> dget (rn w) o' = dget w o) -> mf_get_value (F' (rn v)) o' = mf_get_value (F v) o.
  Hypothesis HD : forall v w l, In v (keys D) -> In (w, l) (mf_domain (F v)) -> In (w, l) D.

  Lemma dget_renamed (o : obs) w : incl (keys o) (keys D) -> In w (keys D) -> dget (rn w) (rename_obs r o) = dget w o.
  Proof.
    intros I J. unfold rename_obs. apply dget_rename. intros x y Ix Iy.
    apply Inj; [destruct Ix as [<-|Ix]|destruct Iy as [<-|Iy]]; auto.
  Qed.
  Lemma mem_renamed v vs : In v (keys D) -> incl vs (keys D) -> mem (rn v) (map rn vs) = mem v vs.
  Proof.
    intros I J. destruct (mem v vs) eqn:M.
    - apply mem_In in M. apply mem_In, in_map, M.
    - apply mem_nIn in M. apply mem_nIn. intros K. apply in_map_iff in K as (w & E & K). apply M.
      rewrite <- (Inj w v); auto.
  Qed.
  Lemma consistent_renamed (e a : obs) : incl (keys e) (keys D) -> incl (keys a) (keys D) ->
    consistent (rename_obs r e) (rename_obs r a) = consistent e a.
  Proof.
    intros Ie. unfold consistent. induction a as [|[v s] a IH]; intros Ia; [reflexivity|].
    cbn [rename_obs map forallb fst snd]. assert (Iv : In v (keys D)) by (apply Ia; now left).
    assert (E := dget_renamed e v Ie Iv). rewrite E. f_equal.
    apply IH. intros w I. apply Ia. now right.
  Qed.
  Lemma filter_renamed vs (d : domain) (b : bool) : incl (keys d) (keys D) -> incl vs (keys D) ->
    dfilter (fun v => if b then mem v (map rn vs) else negb (mem v (map rn vs))) (renamed_dom r d) =
    renamed_dom r (dfilter (fun v => if b then mem v vs else negb (mem v vs)) d).
  Proof.
    intros Id Iv. unfold dfilter. induction d as [|[v l] d IH]; [reflexivity|]. cbn [map filter fst snd].
    rewrite (mem_renamed v vs) by (auto; apply Id; now left).
    rewrite IH by (intros w I; apply Id; now right). destruct b, (mem v vs); reflexivity.
  Qed.
  Lemma drop_keys_renamed vs : incl vs (keys D) -> drop (map rn vs) D' = renamed_dom r (drop vs D).
  Proof. intros I. exact (filter_renamed vs D false (incl_refl _) I). Qed.
  Lemma pick_renamed vs : incl vs (keys D) -> pick (map rn vs) D' = renamed_dom r (pick vs D).
  Proof. intros I. exact (filter_renamed vs D true (incl_refl _) I). Qed.

  Lemma all_keys (o : obs) : In o (all_assignments D) -> keys o = keys D /\ full D o.
  Proof. intros I. apply all_assignments_In_full in I; auto. Qed.

  Lemma entry_renamed v (o : obs) : In v (keys D) -> incl (keys o) (keys D) -> full (mf_domain (F v)) o ->
    entry (F' (rn v)) (rename_obs r o) = entry (F v) o.
  Proof.
    intros I K Fu. unfold entry. rewrite (HF v I o (rename_obs r o) Fu); [reflexivity|].
    intros w J. apply dget_renamed; [auto|]. apply keys_In in J as (l & J). apply HD in J; [|auto].
    apply keys_In. eauto.
  Qed.
  Lemma joint_renamed vs (o : obs) : incl vs (keys D) -> incl (keys o) (keys D) ->
    (forall v, In v vs -> full (mf_domain (F v)) o) -> joint F' (map rn vs) (rename_obs r o) = joint F vs o.
  Proof.
    intros Iv Ko Fu. unfold joint. rewrite map_map. f_equal. apply map_ext_in. intros v I.
    apply entry_renamed; auto.
  Qed.
  Lemma full_sub v (o : obs) : In v (keys D) -> full D o -> full (mf_domain (F v)) o.
  Proof. intros I Fu w l J. apply Fu. eapply HD; eauto. Qed.

  Lemma filter_map_in {A B} (f : A -> B) (p : B -> bool) (p' : A -> bool) l :
    (forall x, In x l -> p (f x) = p' x) -> filter p (map f l) = map f (filter p' l).
  Proof.
    induction l as [|x l IH]; intros E; [reflexivity|]. cbn [map filter]. rewrite (E x) by now left.
    rewrite IH by (intros; apply E; now right). destruct (p' x); reflexivity.
  Qed.

  Lemma mass_renamed (e : obs) : incl (keys e) (keys D) -> mass D' F' (rename_obs r e) = mass D F e.
  Proof.
    intros Ie. unfold mass. rewrite all_renamed.
    rewrite (filter_map_in (rename_obs r) _ (consistent e)).
    - rewrite map_map. f_equal. apply map_ext_in. intros o I. apply filter_In in I as [I _].
      destruct (all_keys o I) as [K Fu]. rewrite keys_renamed. apply joint_renamed; [apply incl_refl|rewrite K; apply incl_refl|].
      intros v J. now apply full_sub.
    - intros o I. destruct (all_keys o I) as [K _]. apply consistent_renamed; [auto|]. rewrite K. apply incl_refl.
  Qed.

  Lemma do_mass_renamed (d e : obs) : incl (keys d) (keys D) -> incl (keys e) (keys D) ->
    do_mass D' F' (rename_obs r d) (rename_obs r e) = do_mass D F d e.
  Proof.
    intros Id Ie. unfold do_mass. rewrite all_renamed.
    rewrite (filter_map_in (rename_obs r) _ (consistent e)).
    - rewrite map_map. f_equal. apply map_ext_in. intros o I. apply filter_In in I as [I _].
      destruct (all_keys o I) as [K Fu]. assert (Ko : incl (keys o) (keys D)) by (rewrite K; apply incl_refl).
      unfold do_joint. rewrite (consistent_renamed d o Id Ko).
      destruct (consistent d o); [|reflexivity]. rewrite keys_rename_obs, (drop_keys_renamed _ Id), keys_renamed.
      apply joint_renamed; [|auto|].
      + intros v J. apply In_keys_drop in J. apply J.
      + intros v J. apply In_keys_drop in J. apply full_sub; [apply J|auto].
    - intros o I. destruct (all_keys o I) as [K _]. apply consistent_renamed; [auto|]. rewrite K. apply incl_refl.
  Qed.

  Lemma solves_renamed X (d o : obs) : incl X (keys D) -> incl (keys d) (keys D) -> In o (all_assignments D) ->
    solves D' F' (map rn X) (rename_obs r d) (rename_obs r o) = solves D F X d o.
  Proof.
    intros IX Id I. destruct (all_keys o I) as [K Fu]. assert (Ko : incl (keys o) (keys D)) by (rewrite K; apply incl_refl).
    unfold solves. rewrite (drop_keys_renamed _ IX), keys_renamed.
    assert (A : forall vs, incl vs (keys D) -> forallb (fun v => match dget v (rename_obs r d) with
        | Some x => match dget v (rename_obs r o) with Some y => if eqd y x then true else false | None => false end
        | None => if Qc_eq_dec (entry (F' v) (rename_obs r o)) 1 then true else false end) (map rn vs) =
      forallb (fun v => match dget v d with
        | Some x => match dget v o with Some y => if eqd y x then true else false | None => false end
        | None => if Qc_eq_dec (entry (F v) o) 1 then true else false end) vs).
    { induction vs as [|v vs IH]; intros Iv; [reflexivity|]. cbn [map forallb]. assert (Jv : In v (keys D)) by (apply Iv; now left).
      rewrite (dget_renamed d v Id Jv), (dget_renamed o v Ko Jv), (entry_renamed v o Jv Ko (full_sub v o Jv Fu)).
      rewrite IH by (intros w J; apply Iv; now right). reflexivity. }
    apply A. intros v J. apply In_keys_drop in J. apply J.
  Qed.

  Lemma existsb_map_in {A B} (f : A -> B) (p : B -> bool) (p' : A -> bool) l :
    (forall x, In x l -> p (f x) = p' x) -> existsb p (map f l) = existsb p' l.
  Proof.
    induction l as [|x l IH]; intros E; [reflexivity|]. cbn [map existsb]. rewrite (E x) by now left.
    now rewrite IH by (intros; apply E; now right).
  Qed.
  Lemma happens_renamed X (u d t : obs) : incl X (keys D) -> incl (keys u) (keys D) -> incl (keys d) (keys D) -> incl (keys t) (keys D) ->
    happens D' F' (map rn X) (rename_obs r u) (rename_obs r d) (rename_obs r t) = happens D F X u d t.
  Proof.
    intros IX Iu Id It. unfold happens. rewrite all_renamed. apply existsb_map_in. intros o I.
    destruct (all_keys o I) as [K _]. assert (Ko : incl (keys o) (keys D)) by (rewrite K; apply incl_refl).
    rewrite (solves_renamed X d o IX Id I), (consistent_renamed u o Iu Ko), (consistent_renamed t o It Ko). reflexivity.
  Qed.

  Definition rename_event (dt : obs * obs) : obs * obs := (rename_obs r (fst dt), rename_obs r (snd dt)).

  Lemma cf_mass_renamed X (events : list (obs * obs)) : incl X (keys D) ->
    (forall v w, In v X -> In w (mf_vars (F v)) -> In w X) ->
    (forall dt, In dt events -> incl (keys (fst dt)) (keys D) /\ incl (keys (snd dt)) (keys D)) ->
    cf_mass D' F' (map rn X) (map rename_event events) = cf_mass D F X events.
  Proof.
    intros IX Rt He. unfold cf_mass. rewrite (pick_renamed X IX), all_renamed, keys_renamed.
    assert (Sub : forall v, In v (keys (pick X D)) -> In v (keys D) /\ In v X).
    { intros v J. apply keys_In in J as (l & J). unfold pick, dfilter in J. apply filter_In in J as [J M]. cbn [fst] in M.
      apply mem_In in M. split; [apply keys_In; eauto|auto]. }
    assert (NP : NoDup (keys (pick X D))).
    { change (pick X D) with (dfilter (fun v => mem v X) D). rewrite keys_dfilter. apply NoDup_filter, ND. }
    assert (Ku : forall u, In u (all_assignments (pick X D)) -> keys u = keys (pick X D) /\ full (pick X D) u).
    { intros u I. now apply all_assignments_In_full in I. }
    rewrite (filter_map_in (rename_obs r) _ (fun u => forallb (fun dt => happens D F X u (fst dt) (snd dt)) events)).
    - rewrite map_map. f_equal. apply map_ext_in. intros u I. apply filter_In in I as [I _]. destruct (Ku u I) as [K Fu].
      apply joint_renamed.
      + intros v J. now apply Sub.
      + intros v J. rewrite K in J. now apply Sub.
      + intros v J. destruct (Sub v J) as [Jd Jx]. intros w l L. apply Fu. unfold pick, dfilter. apply filter_In. split.
        * eapply HD; eauto.
        * cbn [fst]. apply mem_In. apply (Rt v); [auto|]. apply keys_In. eauto.
    - intros u I. destruct (Ku u I) as [K _]. assert (Iu : incl (keys u) (keys D)) by (intros v J; rewrite K in J; now apply Sub).
      revert He. induction events as [|dt ev IH]; intros He; [reflexivity|]. cbn [map forallb]. destruct (He dt (or_introl eq_refl)) as [A B].
      cbn [rename_event fst snd]. rewrite (happens_renamed X u _ _ IX Iu A B). rewrite IH by (intros; apply He; now right). reflexivity.
  Qed.
End Inv.
