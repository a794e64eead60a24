(** Proofs about aggregators. *)

From Coq Require Import String Bool Arith ZArith Permutation Lia List.
From Verif Require Import PyBase PyFacts Num DomainModel NdArray StoreModel NumStore FactorModel GraphModel ModelModel LearnModel LearnFacts AggModel AggSpec.
Import ListNotations.
Local Open Scope nat_scope.

Section AggFacts.
  Context {L M : Type}.
  Implicit Types (a : aggregator L M) (t : tasks L M).

  Lemma one_by_one_ok make is objects ps : Forall2 (fun i (lm : L * M) => make i = Ok lm) is ps ->
    one_by_one make is objects = (objects ++ map fst ps, Ok (map snd ps)).
  Proof.
    intros H. revert objects. induction H as [|i [l m] is ps E _ IH]; intros objects; cbn [one_by_one map].
    - now rewrite app_nil_r.
    - rewrite E, IH. cbn. now rewrite <- app_assoc.
  Qed.
  Lemma one_by_one_bad make is objects : (exists i e, In i is /\ make i = @Raise (L * M) e) ->
    exists os e, one_by_one make is objects = (os, Raise e) /\ exists i, In i is /\ make i = Raise e.
  Proof.
    revert objects. induction is as [|i is IH]; intros objects (j & e & I & E); [destruct I|].
    cbn [one_by_one]. destruct (make i) as [[l m]|e'] eqn:Ei.
    - destruct I as [->|I]; [congruence|]. destruct (IH (objects ++ [l])) as (os & e1 & E1 & k & Ik & Ek); [eauto|].
      rewrite E1. cbn. exists os, e1. split; [reflexivity|]. exists k. split; [now right|auto].
    - exists objects, e'. split; [reflexivity|]. exists i. split; [now left|auto].
  Qed.
  Lemma mapM_bad {A B} (f : A -> res B) l : (exists x e, In x l /\ f x = Raise e) ->
    exists e, mapM f l = Raise e /\ exists x, In x l /\ f x = Raise e.
  Proof.
    induction l as [|y l IH]; intros (x & e & I & E); [destruct I|]. cbn [mapM].
    destruct (f y) as [z|e'] eqn:Ey; cbn [bind].
    - destruct I as [->|I]; [congruence|]. destruct IH as (e1 & E1 & w & Iw & Ew); [eauto|]. rewrite E1. cbn [bind].
      exists e1. split; [reflexivity|]. exists w. split; [now right|auto].
    - exists e'. split; [reflexivity|]. exists y. split; [now left|auto].
  Qed.
  Lemma mapM_F2 {A B} (f : A -> res B) l ys : Forall2 (fun x y => f x = Ok y) l ys -> mapM f l = Ok ys.
  Proof. induction 1 as [|x y l ys E _ IH]; [reflexivity|]. cbn [mapM]. rewrite E. cbn [bind]. now rewrite IH. Qed.

  Lemma number_ltb t : (t_number t <? 1)%Z = false <-> (1 <= t_number t)%Z.
  Proof. rewrite Z.ltb_ge. lia. Qed.

  (** every call delivers or fails *)
  Lemma delivers_or_fails t : (exists ps, delivers t ps) \/ fails t.
  Proof.
    destruct (Z.ltb_spec (t_number t) 1) as [Lt|Ge]; [right; now left|].
    destruct (mapM (t_make t) (task_list t)) as [ps|e] eqn:E.
    - left. exists ps. split; [lia|]. apply mapM_ok in E. exact E.
    - right. right. revert E. generalize (task_list t). intros l. induction l as [|i l IH]; [discriminate|]. cbn [mapM].
      destruct (t_make t i) as [x|e'] eqn:Ei; cbn [bind].
      + destruct (mapM (t_make t) l) as [xs|e1] eqn:El; [discriminate|]. intros E. injection E as <-.
        destruct (IH eq_refl) as (j & e2 & Ij & Ej). exists j, e2. split; [now right|auto].
      + intros _. exists i, e'. split; [now left|auto].
  Qed.

  Lemma run_delivers a t ps : delivers t ps ->
    exists os, a_run a t = (MkA (a_parallel a) (a_generated a ++ map snd ps) true (a_objects a ++ os), None) /\
      (a_parallel a = false -> os = map fst ps) /\
      os = (if a_parallel a then flat_map (fun i => match t_make t i with Ok (l, _) => [l] | Raise _ => [] end) (t_schedule t) else map fst ps).
  Proof.
    intros [N F]. unfold a_run, a_generate. rewrite (proj2 (number_ltb t) N). fold (task_list t).
    destruct (a_parallel a) eqn:P.
    - unfold in_threads. rewrite (mapM_F2 _ _ _ F). cbn [bind]. unfold a_merge. cbn. eexists. split; [reflexivity|].
      split; [discriminate|reflexivity].
    - rewrite (one_by_one_ok _ _ _ _ F). unfold a_merge. cbn. exists (map fst ps). auto.
  Qed.

  Lemma run_fails a t : fails t ->
    exists os e, a_run a t = (MkA (a_parallel a) (a_generated a) (a_merged a) (a_objects a ++ os), Some e) /\
      ((t_number t < 1)%Z -> e = ValueError /\ os = []) /\
      ((1 <= t_number t)%Z -> exists i, In i (task_list t) /\ t_make t i = Raise e).
  Proof.
    intros Fl. unfold a_run, a_generate. destruct (Z.ltb_spec (t_number t) 1) as [Lt|Ge].
    - exists [], ValueError. rewrite app_nil_r. destruct a; cbn. split; [reflexivity|]. split; [auto|lia].
    - destruct Fl as [Fl|Fl]; [lia|]. fold (task_list t). destruct (a_parallel a) eqn:P.
      + unfold in_threads. destruct (mapM_bad (t_make t) (task_list t) Fl) as (e & E & i & Ii & Ei). rewrite E. cbn [bind].
        eexists _, e. split; [reflexivity|]. split; [lia|eauto].
      + destruct (one_by_one_bad (t_make t) (task_list t) (a_objects a) Fl) as (os & e & E & i & Ii & Ei). rewrite E.
        assert (X : exists os', os = a_objects a ++ os').
        { revert E. clear. generalize (a_objects a). induction (task_list t) as [|i l IH]; intros o; cbn [one_by_one].
          - intros E. discriminate.
          - destruct (t_make t i) as [[x m]|e'].
            + destruct (one_by_one (t_make t) l (o ++ [x])) as [o' [r|e1]] eqn:E1; [discriminate|]. cbn. intros E. injection E as <- ->.
              destruct (IH _ E1) as (o2 & ->). exists (x :: o2). now rewrite <- app_assoc.
            + intros E. injection E as <- _. exists []. now rewrite app_nil_r. }
        destruct X as (os' & ->). exists os', e. split; [reflexivity|]. split; [lia|eauto].
  Qed.

  Lemma runs_app a ts1 ts2 : runs a (ts1 ++ ts2) = runs (runs a ts1) ts2.
  Proof. apply fold_left_app. Qed.

  (** the models after a history *)
  Lemma runs_models parallel ts : exists pss,
    Forall2 (fun t ps => delivers t ps \/ (fails t /\ ps = [])) ts pss /\
    a_models (runs (a_new parallel) ts) = map snd (concat pss).
  Proof.
    enough (H : exists pss, Forall2 (fun t ps => delivers t ps \/ (fails t /\ ps = [])) ts pss /\
      let a := runs (a_new (L := L) (M := M) parallel) ts in
      a_generated a = map snd (concat pss) /\ (a_merged a = false -> a_generated a = [])).
    { destruct H as (pss & F & G & N). exists pss. split; [auto|]. unfold a_models. destruct (a_merged _); [auto|].
      rewrite <- G. symmetry. auto. }
    induction ts as [|t ts IH] using rev_ind.
    - exists []. split; [constructor|]. cbn. auto.
    - destruct IH as (pss & F & G & N). cbv zeta in *. rewrite runs_app. set (a := runs (a_new parallel) ts) in *.
      change (runs a [t]) with (fst (a_run a t)).
      destruct (delivers_or_fails t) as [[ps D]|Fl].
      + exists (pss ++ [ps]). split; [apply Forall2_app; [auto|apply Forall2_cons; [auto|apply Forall2_nil]]|].
        destruct (run_delivers a t ps D) as (os & E & _). rewrite E. cbn. rewrite concat_app, map_app, G. cbn. rewrite app_nil_r.
        split; [reflexivity|discriminate].
      + exists (pss ++ [[]]). split; [apply Forall2_app; [auto|apply Forall2_cons; [auto|apply Forall2_nil]]|].
        destruct (run_fails a t Fl) as (os & e & E & _). rewrite E. cbn. rewrite concat_app, map_app. cbn. rewrite app_nil_r. auto.
  Qed.

  (** the learners after a history in which every call delivers *)
  Lemma flat_map_perm {A B} (f : A -> list B) l l' : Permutation l l' -> Permutation (flat_map f l) (flat_map f l').
  Proof.
    induction 1; cbn; auto.
    - now apply Permutation_app_head.
    - rewrite !app_assoc. apply Permutation_app_tail, Permutation_app_comm.
    - etransitivity; eauto.
  Qed.
  Lemma flat_map_made t is ps : Forall2 (fun i lm => t_make t i = Ok lm) is ps ->
    flat_map (fun i => match t_make t i with Ok (l, _) => [l] | Raise _ => [] end) is = map fst ps.
  Proof. induction 1 as [|i [l m] is ps E _ IH]; [reflexivity|]. cbn. rewrite E, IH. reflexivity. Qed.

  Lemma runs_objects parallel (ts : list (tasks L M)) (pss : list (list (L * M))) : Forall2 delivers ts pss -> (parallel = true -> Forall scheduled ts) ->
    a_models (runs (a_new parallel) ts) = map snd (concat pss) /\
    (parallel = false -> a_objects (runs (a_new parallel) ts) = map fst (concat pss)) /\
    exists oss, a_objects (runs (a_new parallel) ts) = concat oss /\
      Forall2 (fun os (ps : list (L * M)) => Permutation os (map fst ps)) oss pss.
  Proof.
    intros F Sc. enough (H : let a := runs (a_new parallel) ts in a_parallel a = parallel /\ a_generated a = map snd (concat pss) /\ (a_merged a = false -> a_generated a = []) /\
      (parallel = false -> a_objects a = map fst (concat pss)) /\
      exists oss, a_objects a = concat oss /\ Forall2 (fun os (ps : list (L * M)) => Permutation os (map fst ps)) oss pss).
    { destruct H as (_ & G & N & O & P). split; [|auto]. unfold a_models. destruct (a_merged _); [auto|]. rewrite <- G. symmetry. auto. }
    revert pss F Sc. induction ts as [|t ts IH] using rev_ind; intros pss F Sc.
    - inversion F. subst. cbn. repeat split; auto. exists []. split; [auto|constructor].
    - apply Forall2_app_inv_l in F as (pss1 & l2 & F1 & F2 & ->). inversion F2 as [|? ps ? ? D F3]; subst. inversion F3; subst.
      destruct (IH pss1 F1) as (Pa & G & N & O & oss & Eo & Fo).
      { intros P. specialize (Sc P). apply Forall_app in Sc. tauto. }
      cbv zeta in *. rewrite runs_app. set (a := runs (a_new parallel) ts) in *. change (runs a [t]) with (fst (a_run a t)).
      destruct (run_delivers a t ps D) as (os & E & Os & Eos). rewrite E. cbn. split; [auto|].
      rewrite !concat_app, !map_app, G. cbn. rewrite app_nil_r. split; [auto|]. split; [discriminate|]. split.
      + intros P. rewrite (O P), Os; [auto|congruence].
      + exists (oss ++ [os]). rewrite Eo, concat_app. cbn. rewrite app_nil_r. split; [auto|]. apply Forall2_app; [auto|].
        apply Forall2_cons; [|apply Forall2_nil]. rewrite Pa in *. destruct parallel.
        * rewrite Eos. rewrite <- (flat_map_made t (task_list t) ps); [|apply D]. apply flat_map_perm.
          specialize (Sc eq_refl). apply Forall_app in Sc as [_ Sc]. now inversion Sc.
        * rewrite Os by auto. reflexivity.
  Qed.

  (** ** generate, merge and reset on their own *)
  Lemma reset_ok a : a_models (a_reset a) = [] /\ a_objects (a_reset a) = [] /\
    (forall ts, runs (a_reset a) ts = runs (a_new (a_parallel a)) ts) /\ (forall ts, generates (a_reset a) ts = generates (a_new (a_parallel a)) ts).
  Proof. repeat split; reflexivity. Qed.
  Lemma generate_delivers a t ps : delivers t ps ->
    exists os, a_generate a t = (MkA (a_parallel a) (a_generated a ++ map snd ps) (a_merged a) (a_objects a ++ os), None).
  Proof.
    intros [N F]. unfold a_generate. rewrite (proj2 (number_ltb t) N). fold (task_list t). destruct (a_parallel a) eqn:P.
    - unfold in_threads. rewrite (mapM_F2 _ _ _ F). cbn [bind]. cbn. eexists. reflexivity.
    - rewrite (one_by_one_ok _ _ _ _ F). cbn. eexists. reflexivity.
  Qed.
  Lemma generates_delivers ts pss : Forall2 delivers ts pss -> forall a, exists os,
    generates a ts = MkA (a_parallel a) (a_generated a ++ map snd (concat pss)) (a_merged a) (a_objects a ++ os).
  Proof.
    induction 1 as [|t ps ts pss Dl _ IH]; intros a; cbn [generates fold_left].
    - exists []. cbn. rewrite !app_nil_r. now destruct a.
    - destruct (generate_delivers a t ps Dl) as (os & E). rewrite E. cbn [fst]. destruct (IH (MkA (a_parallel a) (a_generated a ++ map snd ps) (a_merged a) (a_objects a ++ os))) as (os' & E').
      unfold generates in E'. rewrite E'. cbn. exists (os ++ os'). now rewrite map_app, !app_assoc.
  Qed.
  Lemma merge_shows parallel (ts1 : list (tasks L M)) pss1 (ts2 : list (tasks L M)) pss2 : Forall2 delivers ts1 pss1 -> Forall2 delivers ts2 pss2 ->
    let a := generates (a_new parallel) ts1 in
    a_models a = [] /\ a_models (a_merge a) = map snd (concat pss1) /\
    a_models (generates (a_merge a) ts2) = map snd (concat pss1) ++ map snd (concat pss2).
  Proof.
    intros H1 H2 a. destruct (generates_delivers ts1 pss1 H1 (a_new parallel)) as (os & E). cbn in E. subst a. rewrite E.
    split; [reflexivity|]. split; [reflexivity|]. unfold a_merge. cbn [a_parallel a_generated a_merged a_objects].
    match goal with |- a_models (generates ?b ts2) = _ => destruct (generates_delivers ts2 pss2 H2 b) as (os2 & E2) end. rewrite E2. reflexivity.
  Qed.
End AggFacts.
