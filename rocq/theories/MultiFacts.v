(** Proofs about inference with several models. *)

From Coq Require Import String Bool Arith ZArith QArith Qcanon Lia List.
From Verif Require Import PyBase PyFacts Num DomainModel NdArray StoreModel NumStore FactorModel GenModel GraphModel ModelModel InferModel
  CausalModel MultiModel Spec StoreSpec FactorSpec GraphSpec ModelSpec NetSpec CausalSpec MultiSpec.
Import ListNotations.
Local Open Scope nat_scope.
Local Arguments eqd : simpl never.

Section Put.
  Context {A : Type}.
  Lemma put_length (l : list A) k x : length (put l k x) = length l.
  Proof. revert k. induction l as [|y l IH]; intros [|k]; cbn; auto. Qed.
  Lemma nth_put (l : list A) k x j d : nth j (put l k x) d = if (j =? k) && (k <? length l) then x else nth j l d.
  Proof.
    revert k j. induction l as [|y l IH]; intros [|k] [|j]; cbn; auto.
    - now rewrite andb_comm.
    - rewrite IH. reflexivity.
  Qed.
  Lemma nth_error_put (l : list A) k x j : nth_error (put l k x) j = if (j =? k) && (k <? length l) then Some x else nth_error l j.
  Proof.
    revert k j. induction l as [|y l IH]; intros [|k] [|j]; cbn; auto.
    - now rewrite andb_comm.
    - rewrite IH. reflexivity.
  Qed.
End Put.

Section MultiFacts.
  Context {I : Type}.
  Variable make : pgm -> res I.
  Variable ask : I -> request -> res mfactor.
  Variable dflt : vtype.
  Notation exec := (exec make ask dflt).
  Notation query := (query make ask dflt).
  Notation reaches := (reaches make ask dflt).

  Definition object_ok (w : world I) (x : list pgm * bool) (o : multi I) : Prop :=
    mi_models o < length (w_lists w) /\ list_at w (mi_models o) = fst x /\ mi_interval o = snd x /\ mi_trainer o = None /\
    (mi_compiled o = true -> exists m ms infs, fst x = m :: ms /\ mi_model o = Some m /\ mi_infs o = Some infs /\ mapM make (m :: ms) = Ok infs).
  Definition inv (w : world I) (h : held) : Prop :=
    forall i o, nth_error (w_objects w) i = Some o -> object_ok w (h i) o.

  (** replacing one object *)
  Lemma inv_put w h i o x : inv w h -> object_ok w x o -> inv (put_object w i o) (change h i x).
  Proof.
    intros H Ho j o' E. unfold put_object in E. cbn in E. rewrite nth_error_put in E. unfold change.
    destruct (Nat.eqb_spec j i) as [->|N]; cbn [andb] in E.
    - destruct (Nat.ltb_spec i (length (w_objects w))) as [L|L].
      + injection E as <-. exact Ho.
      + apply nth_error_None in L. congruence.
    - apply H in E. exact E.
  Qed.
  Lemma inv_same w h i x : inv w (change h i x) -> x = h i -> inv w h.
  Proof. intros H -> j o E. specialize (H j o E). unfold change in H. destruct (Nat.eqb_spec j i) as [->|]; auto. Qed.

  (** a new list *)
  Lemma list_at_new w ms k : k < length (w_lists w) -> list_at (fst (new_list (I := I) w ms)) k = list_at w k.
  Proof. intros L. unfold list_at. cbn. now rewrite app_nth1. Qed.
  Lemma inv_new w h ms : inv w h -> inv (fst (new_list w ms)) h.
  Proof.
    intros H i o E. cbn in E. destruct (H i o E) as (L & A & B). split; [cbn; rewrite app_length; cbn; lia|].
    split; [|exact B]. now rewrite list_at_new.
  Qed.
  Lemma or_new_ok w h models w' k : (forall n, models = Some n -> n < length (w_lists w)) -> inv w h -> or_new w models = (w', k) ->
    inv w' h /\ k < length (w_lists w') /\ list_at w' k = content w models /\ w_objects w' = w_objects w.
  Proof.
    intros L H E. assert (N : or_new w models = new_list w [] -> content w models = [] -> inv w' h /\ k < length (w_lists w') /\
      list_at w' k = content w models /\ w_objects w' = w_objects w).
    { intros E1 E2. rewrite E1 in E. injection E as <- <-. split; [exact (inv_new w h [] H)|]. cbn. rewrite app_length. cbn. split; [lia|].
      split; [|reflexivity]. rewrite E2. unfold list_at. cbn. rewrite app_nth2, Nat.sub_diag by lia. reflexivity. }
    destruct models as [n|]; [|now apply N]. unfold or_new in *. unfold content in *. fold (list_at w n) in *.
    destruct (list_at w n) eqn:En; [now apply N|]. injection E as <- <-. split; [auto|]. split; [auto|]. auto.
  Qed.

  Lemma base_compile_ok w h i o : inv w h -> nth_error (w_objects w) i = Some o ->
    let (w', r) := base_compile make w i o in
    inv w' h /\ 
    (fst (h i) = [] -> r = Raise ValueError) /\
    (forall infs, fst (h i) <> [] -> mapM make (fst (h i)) = Ok infs ->
       r = Ok tt /\ exists o', nth_error (w_objects w') i = Some o' /\ mi_infs o' = Some infs /\ mi_interval o' = snd (h i)) /\
    (forall e, fst (h i) <> [] -> mapM make (fst (h i)) = Raise e -> r = Raise e).
  Proof.
    intros H E. destruct (H i o E) as (L & A & B & C & D). unfold base_compile. rewrite A. destruct (fst (h i)) as [|m ms] eqn:Eh.
    - split; [auto|]. split; [auto|]. split; [intros ? X; congruence|]. intros ? X; congruence.
    - destruct (mapM make (m :: ms)) as [infs|e] eqn:Em.
      + split.
        { apply (inv_same _ h i (h i)); [|auto]. apply inv_put; [auto|]. split; [auto|]. split; [now rewrite Eh|]. split; [auto|]. split; [auto|].
          intros _. exists m, ms, infs. auto. }
        split; [discriminate|]. split; [|intros e _ X; congruence]. intros infs' _ X. assert (infs' = infs) as -> by congruence. split; [auto|].
        cbn. rewrite nth_error_put, Nat.eqb_refl. assert (Li : i < length (w_objects w)) by (apply nth_error_Some; congruence).
        rewrite (proj2 (Nat.ltb_lt _ _) Li). cbn. eexists. split; [reflexivity|]. cbn. auto.
      + split.
        { apply (inv_same _ h i (h i)); [|auto]. apply inv_put; [auto|]. split; [auto|]. split; [now rewrite Eh|]. split; [auto|]. split; [auto|].
          cbn. intros Cp. destruct (D Cp) as (m' & ms' & infs & E1 & _ & _ & E4). congruence. }
        split; [discriminate|]. split; [intros infs _ X; congruence|]. intros e' _ X. congruence.
  Qed.
  Lemma compile_plain w h i o : inv w h -> nth_error (w_objects w) i = Some o -> compile make w i o = base_compile make w i o.
  Proof. intros H E. destruct (H i o E) as (_ & _ & _ & C & _). unfold compile. now rewrite C. Qed.

  (** a query *)
  Lemma query_ok w h i o rq : inv w h -> nth_error (w_objects w) i = Some o ->
    let (w', r) := query w i o rq in
    inv w' h /\
    (fst (h i) = [] -> r = Raise ValueError) /\
    (forall infs, fst (h i) <> [] -> mapM make (fst (h i)) = Ok infs ->
       r = let* fs := mapM (fun f => ask f rq) infs in process_output dflt (snd (h i)) (AFactors fs) None) /\
    (forall e, fst (h i) <> [] -> mapM make (fst (h i)) = Raise e -> r = Raise e).
  Proof.
    intros H E. unfold MultiModel.query. destruct (mi_compiled o) eqn:Cp.
    - rewrite E. destruct (H i o E) as (L & A & B & C & D). destruct (D Cp) as (m & ms & infs & E1 & E2 & E3 & E4). rewrite E3.
      split; [auto|]. rewrite E1, E4. split; [discriminate|]. split; [|discriminate]. intros infs' _ X. injection X as <-. now rewrite B.
    - rewrite (compile_plain w h i o H E). assert (K := base_compile_ok w h i o H E). destruct (base_compile make w i o) as [w' r].
      destruct K as (H' & K1 & K2 & K3). destruct r as [[]|e].
      + destruct (nth_error (w_objects w') i) as [o'|] eqn:E'.
        * destruct (mi_infs o') as [infs|] eqn:Ei.
          -- split; [auto|]. split; [intros X; specialize (K1 X); discriminate|]. split.
             ++ intros infs' N X. destruct (K2 _ N X) as (_ & o2 & E2 & E3 & E4). assert (o2 = o') as -> by congruence.
                assert (infs' = infs) as -> by congruence. now rewrite E4.
             ++ intros e N X. specialize (K3 e N X). discriminate.
          -- split; [auto|]. split; [intros X; specialize (K1 X); discriminate|]. split.
             ++ intros infs' N X. destruct (K2 _ N X) as (_ & o2 & E2 & E3 & E4). congruence.
             ++ intros e N X. specialize (K3 e N X). discriminate.
        * split; [auto|]. split; [intros X; specialize (K1 X); discriminate|]. split.
          -- intros infs' N X. destruct (K2 _ N X) as (_ & o2 & E2 & E3 & E4). congruence.
          -- intros e N X. specialize (K3 e N X). discriminate.
      + split; [auto|]. split; [intros X; specialize (K1 X); congruence|]. split.
        * intros infs N X. destruct (K2 _ N X) as (X' & _). discriminate.
        * intros e' N X. specialize (K3 e' N X). congruence.
  Qed.

  Lemma prob_inv w h i o p cause effect tfc tfe : inv w h -> nth_error (w_objects w) i = Some o ->
    inv (fst (prob make ask dflt w i o p cause effect tfc tfe)) h.
  Proof.
    intros H E. unfold prob. destruct (let* a := true_false_of o cause tfc in _) as [[[tc fc] [te fe]]|e]; [|exact H].
    destruct (prob_request p cause effect tc fc te fe) as [rq at_].
    assert (K := query_ok w h i o rq H E). destruct (query w i o rq) as [w' r]. apply K.
  Qed.

  Lemma step_inv w h s : inv w h -> allowed w s -> inv (fst (exec w s)) (holds_after w h s).
  Proof.
    intros H Al. destruct s as [ms|models b|gen b|i models|i models|i b|i|i|i rq|i p cause effect tfc tfe]; cbn [exec holds_after fst].
    - now apply inv_new.
    - cbn in Al. unfold new_multi. destruct (or_new w models) as [w1 k1] eqn:E1.
      destruct (or_new_ok w h models w1 k1 Al H E1) as (H1 & L1 & A1 & O1).
      destruct (or_new w1 (Some k1)) as [w2 k2] eqn:E2.
      destruct (or_new_ok w1 h (Some k1) w2 k2) as (H2 & L2 & A2 & O2); auto. { intros n X. injection X as <-. auto. }
      unfold inv. cbn [w_objects w_lists]. intros j o E. unfold change.
      rewrite O2, O1 in E. destruct (Nat.eqb_spec j (length (w_objects w))) as [->|N].
      + rewrite nth_error_app2, Nat.sub_diag in E by lia. cbn in E. injection E as <-. split; [exact L2|]. cbn. unfold list_at. cbn.
        split; [|split; [auto|split; [auto|discriminate]]]. change (list_at w2 k2 = content w models). rewrite A2. exact A1.
      + assert (Lj : j < length (w_objects w ++ [MkMI k2 false None None b None 0])) by (apply nth_error_Some; congruence).
        rewrite app_length in Lj. cbn in Lj. rewrite nth_error_app1 in E by lia. rewrite <- O1, <- O2 in E. exact (H2 j o E).
    - destruct Al.
    - destruct Al as [Li Lm]. unfold on. destruct (nth_error (w_objects w) i) as [o|] eqn:E; [|apply nth_error_None in E; lia].
      cbn [fst]. unfold set_models. destruct (or_new w models) as [w1 k1] eqn:E1.
      destruct (or_new_ok w h models w1 k1 Lm H E1) as (H1 & L1 & A1 & O1). apply inv_put; [auto|].
      destruct (H i o E) as (_ & _ & B & C & _). split; [auto|]. split; [auto|]. split; [auto|]. split; [auto|discriminate].
    - destruct Al as (Li & Lm & U). unfold on. destruct (nth_error (w_objects w) i) as [o|] eqn:E; [|apply nth_error_None in E; lia].
      cbn [fst]. unfold add_models. destruct (H i o E) as (L & A & B & C & _).
      assert (Ec : match models with Some k => list_at w k | None => [] end = content w models) by reflexivity. rewrite Ec, A.
      intros j o' E'. unfold put_object in E'. cbn [w_objects] in E'. rewrite nth_error_put in E'.
      rewrite (proj2 (Nat.ltb_lt _ _) Li), andb_true_r in E'. unfold change.
      destruct (Nat.eqb_spec j i) as [->|N].
      + injection E' as <-. unfold object_ok, put_object, list_at. cbn. rewrite put_length. split; [auto|]. rewrite nth_put, Nat.eqb_refl.
        rewrite (proj2 (Nat.ltb_lt _ _) L). cbn. split; [auto|]. split; [auto|]. split; [auto|discriminate].
      + destruct (H j o' E') as (L' & A' & R). unfold object_ok, put_object, list_at. cbn. rewrite put_length. split; [auto|].
        split; [|exact R]. rewrite nth_put. destruct (Nat.eqb_spec (mi_models o') (mi_models o)) as [X|X]; [|exact A'].
        exfalso. apply N. eapply U; eauto.
    - cbn in Al. unfold on. destruct (nth_error (w_objects w) i) as [o|] eqn:E; [|apply nth_error_None in E; lia].
      cbn [fst]. apply inv_put; [auto|]. destruct (H i o E) as (L & A & B & C & D). split; [auto|]. split; [auto|]. split; [auto|]. split; [auto|exact D].
    - cbn in Al. unfold on. destruct (nth_error (w_objects w) i) as [o|] eqn:E; [|exact H].
      unfold no_answer. cbn [fst]. rewrite (compile_plain w h i o H E). assert (K := base_compile_ok w h i o H E).
      destruct (base_compile make w i o). apply K.
    - unfold on. destruct (nth_error (w_objects w) i) as [o|] eqn:E; [|exact H]. destruct (H i o E) as (_ & _ & _ & C & _).
      unfold compile_more. rewrite C. exact H.
    - unfold on. destruct (nth_error (w_objects w) i) as [o|] eqn:E; [|exact H]. assert (K := query_ok w h i o rq H E).
      destruct (query w i o rq). apply K.
    - unfold on. destruct (nth_error (w_objects w) i) as [o|] eqn:E; [|exact H]. now apply prob_inv.
  Qed.

  Lemma reaches_inv ss w h : reaches ss w h -> inv w h.
  Proof.
    induction 1 as [h|ss w h s _ IH Al].
    - intros i o E. destruct i; discriminate.
    - now apply step_inv.
  Qed.

  Lemma mapM_precise rq ms fs : Forall2 (precise make ask rq) ms fs ->
    exists infs, mapM make ms = Ok infs /\ mapM (fun f => ask f rq) infs = Ok fs.
  Proof.
    induction 1 as [|m f ms fs (inf & E1 & E2) _ (infs & E3 & E4)]; [exists []; auto|].
    exists (inf :: infs). cbn [mapM]. rewrite E1, E3. cbn [bind]. rewrite E2. cbn [bind]. rewrite E4. auto.
  Qed.

  (** the answer to a query, after any program *)
  Lemma answer_ok ss w h i rq : reaches ss w h -> i < length (w_objects w) ->
    (fst (h i) = [] -> query_answer make ask dflt w i rq = Raise ValueError) /\
    (forall fs, Forall2 (precise make ask rq) (fst (h i)) fs -> fs <> [] ->
       query_answer make ask dflt w i rq = (if snd (h i) then let* f := from_precise dflt fs in Ok (AInterval f) else Ok (AFactors fs))) /\
    ((exists m, In m (fst (h i)) /\ forall f, ~ precise make ask rq m f) -> exists e, query_answer make ask dflt w i rq = Raise e).
  Proof.
    intros R L. apply reaches_inv in R. unfold query_answer. cbn [exec]. unfold on.
    destruct (nth_error (w_objects w) i) as [o|] eqn:E; [|apply nth_error_None in E; lia].
    assert (K := query_ok w h i o rq R E). destruct (query w i o rq) as [w' r]. cbn [snd]. destruct K as (_ & K1 & K2 & K3).
    split; [auto|]. split.
    - intros fs F N. destruct (mapM_precise rq _ _ F) as (infs & E1 & E2).
      assert (Nm : fst (h i) <> []) by (intros X; rewrite X in F; inversion F; congruence).
      rewrite (K2 infs Nm E1), E2. cbn [bind process_output]. destruct (snd (h i)); [|reflexivity]. destruct fs; [congruence|reflexivity].
    - intros (m & Im & Hm). assert (Nm : fst (h i) <> []) by (intros X; rewrite X in Im; destruct Im).
      destruct (mapM make (fst (h i))) as [infs|e] eqn:E1; [|eauto]. rewrite (K2 infs Nm eq_refl).
      destruct (mapM (fun f => ask f rq) infs) as [fs|e] eqn:E2; [|cbn; eauto]. exfalso.
      apply mapM_ok in E1. apply mapM_ok in E2. revert Im. clear - E1 E2 Hm. revert fs E2. induction E1 as [|m' inf ms infs E _ IH]; intros fs E2 Im; [destruct Im|].
      inversion E2; subst. destruct Im as [->|Im]; [|eapply IH; eauto]. apply (Hm y). exists inf. auto.
  Qed.
End MultiFacts.
