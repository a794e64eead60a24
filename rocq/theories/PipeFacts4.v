(** Objects that are compiled incrementally. *)

From Coq Require Import String Bool Arith ZArith QArith Qcanon Lia Permutation List.
From Verif Require Import PyBase PyFacts Num DomainModel NdArray StoreModel NumStore FactorModel GenModel GenSpec Spec GraphModel ModelModel InferModel
  CausalModel MultiModel LearnModel AggModel MultiSpec MultiFacts PipeModel PipeSpec PipeFacts2.
From Coq Require Import List.
Import ListNotations.
Local Open Scope nat_scope.

Section Incremental.
  Context {I : Type}.
  Variable make : pgm -> res I.
  Variable ask : I -> request -> res mfactor.
  Variable dflt : vtype.
  Notation exec := (exec make ask dflt).
  Implicit Types w : world I.

  (** *** Every object's list exists *)
  Definition wf (w : world I) : Prop := forall j o, at_ w j o -> mi_models o < length (w_lists w).
  Lemma put_length {A} (l : list A) k x : length (put l k x) = length l.
  Proof. revert k. induction l as [|y l IH]; intros [|k]; cbn; auto. Qed.
  Lemma at_put_cases w j o' i o : at_ (put_object w j o') i o -> (i = j /\ o = o') \/ (i <> j /\ at_ w i o).
  Proof.
    unfold at_, put_object. cbn [w_objects]. rewrite nth_error_put. destruct (Nat.eqb_spec i j) as [-> | N].
    - cbn [andb]. destruct (Nat.ltb_spec j (length (w_objects w))) as [L | L]; [intros E; injection E as ->; auto|].
      intros E. apply nth_error_None in L. congruence.
    - cbn [andb]. auto.
  Qed.
  Lemma wf_put w j o' : wf w -> mi_models o' < length (w_lists w) -> wf (put_object w j o').
  Proof. intros W L i o A. apply at_put_cases in A as [[_ ->] | [_ A]]; [exact L|exact (W i o A)]. Qed.
  Lemma wf_grow w ls : wf w -> length (w_lists w) <= length ls -> wf (MkW ls (w_objects w)).
  Proof. intros W L i o A. specialize (W i o A). cbn [w_lists]. lia. Qed.
  Lemma or_new_ok w k : wf w -> let (w', k') := or_new w k in wf w' /\ k' < length (w_lists w') /\ length (w_lists w) <= length (w_lists w') /\ w_objects w' = w_objects w.
  Proof.
    intros W. unfold or_new, new_list. assert (X : wf (MkW (w_lists w ++ [[]]) (w_objects w))) by (apply wf_grow; [exact W|rewrite app_length; lia]).
    destruct k as [k|].
    - destruct (list_at w k) as [|m ms] eqn:E; [cbn [w_lists w_objects]; rewrite app_length; cbn [length]; repeat split; auto; lia|].
      repeat split; auto. unfold list_at in E. destruct (Nat.lt_ge_cases k (length (w_lists w))) as [L | L]; [exact L|]. rewrite nth_overflow in E by exact L. discriminate.
    - cbn [w_lists w_objects]. rewrite app_length. cbn [length]. repeat split; auto; lia.
  Qed.
  Lemma wf_set w j oj k : wf w -> wf (set_models w j oj k).
  Proof. intros W. unfold set_models. assert (X := or_new_ok w k W). destruct (or_new w k) as (w' & k'). apply wf_put; [apply X|cbn; apply X]. Qed.
  Lemma wf_add w j oj k : wf w -> at_ w j oj -> wf (add_models w j oj k).
  Proof. intros W A. unfold add_models. apply wf_put; [apply wf_grow; [exact W|rewrite put_length; lia]|]. cbn. rewrite put_length. exact (W j oj A). Qed.
  Lemma wf_base w j oj : wf w -> mi_models oj < length (w_lists w) -> wf (fst (base_compile make w j oj)).
  Proof. intros W L. unfold base_compile. destruct (list_at w _); [exact W|]. destruct (mapM make _); now apply wf_put. Qed.
  Lemma wf_train w j oj g : wf w -> at_ w j oj -> let '(w', o', _) := train w j oj g in wf w' /\ mi_models o' = mi_models oj /\ at_ w' j o'.
  Proof.
    intros W A. unfold train. cbv zeta. set (o1 := MkMI _ _ _ _ _ _ _). assert (W1 : wf (put_object w j o1)) by (apply wf_put; [exact W|exact (W j oj A)]).
    assert (A1 : at_ (put_object w j o1) j o1) by (eapply at_put_same; exact A).
    destruct (g _); [|auto]. unfold new_list. split; [|auto]. apply wf_grow; [exact W1|]. rewrite app_length. lia.
  Qed.
  Lemma wf_compile w j oj : wf w -> at_ w j oj -> wf (fst (compile make w j oj)).
  Proof.
    intros W A. unfold compile. destruct (mi_trainer oj) as [g|]; [|apply wf_base; [exact W|exact (W j oj A)]].
    assert (X := wf_train w j oj g W A). destruct (train w j oj g) as ((w1 & o1) & [k | e]); [|apply X]. destruct X as (W1 & _ & A1).
    assert (W2 := wf_set w1 j o1 (Some k) W1). destruct (nth_error _ j) as [o2|] eqn:E; [|exact W2]. apply wf_base; [exact W2|exact (W2 j o2 E)].
  Qed.
  Lemma wf_more w j oj : wf w -> at_ w j oj -> wf (fst (compile_more make w j oj)).
  Proof.
    intros W A. unfold compile_more. destruct (mi_trainer oj) as [g|]; [|exact W].
    assert (X := wf_train w j oj g W A). destruct (train w j oj g) as ((w1 & o1) & [k | e]); [|apply X]. destruct X as (W1 & _ & A1).
    assert (W2 := wf_add w1 j o1 (Some k) W1 A1). destruct (nth_error _ j) as [o2|] eqn:E; [|exact W2]. apply wf_base; [exact W2|exact (W2 j o2 E)].
  Qed.
  Lemma query_world w j oj rq : fst (query make ask dflt w j oj rq) = if mi_compiled oj then w else fst (compile make w j oj).
  Proof.
    unfold query. destruct (mi_compiled oj).
    - destruct (nth_error (w_objects w) j) as [o2|]; [destruct (mi_infs o2)|]; reflexivity.
    - destruct (compile make w j oj) as (w1 & [u | e]); [|reflexivity].
      destruct (nth_error (w_objects w1) j) as [o2|]; [destruct (mi_infs o2)|]; reflexivity.
  Qed.
  Lemma prob_world w j oj p c e tc te : fst (prob make ask dflt w j oj p c e tc te) = w \/
    exists rq, fst (prob make ask dflt w j oj p c e tc te) = fst (query make ask dflt w j oj rq).
  Proof.
    unfold prob. destruct (let* a := true_false_of oj c tc in _) as [[[a b] [a' b']]|]; [|now left].
    destruct (prob_request p c e a b a' b') as (rq & at'). right. exists rq. now destruct (query make ask dflt w j oj rq).
  Qed.
  Lemma wf_query w j oj rq : wf w -> at_ w j oj -> wf (fst (query make ask dflt w j oj rq)).
  Proof. intros W A. rewrite query_world. destruct (mi_compiled oj); [exact W|now apply wf_compile]. Qed.
  Lemma wf_new w k b tr : wf w -> wf (new_multi w k b tr).
  Proof.
    intros W. unfold new_multi. assert (X := or_new_ok w k W). destruct (or_new w k) as (w1 & k1). destruct X as (W1 & _ & _ & _).
    assert (Y := or_new_ok w1 (Some k1) W1). destruct (or_new w1 (Some k1)) as (w2 & k2). destruct Y as (W2 & L2 & _ & _).
    intros i o A. unfold at_ in A. cbn [w_objects w_lists] in *. destruct (Nat.lt_ge_cases i (length (w_objects w2))) as [L | L].
    - rewrite nth_error_app1 in A by exact L. exact (W2 i o A).
    - rewrite nth_error_app2 in A by exact L. destruct (i - length (w_objects w2)) as [|n]; [|destruct n; discriminate]. injection A as <-. exact L2.
  Qed.
  Lemma wf_exec w s : wf w -> wf (fst (exec w s)).
  Proof.
    intros W. destruct s; cbn [exec MultiModel.exec fst] in *.
    1: unfold new_list; cbn [fst]; apply wf_grow; [exact W|rewrite app_length; lia].
    1, 2: now apply wf_new.
    all: unfold on; destruct (nth_error (w_objects w) i) as [oj|] eqn:A; [|exact W]; cbn [fst no_answer].
    - now apply wf_set.
    - now apply wf_add.
    - unfold set_interval. apply wf_put; [exact W|exact (W i oj A)].
    - now apply wf_compile.
    - now apply wf_more.
    - now apply wf_query.
    - destruct (prob_world w i oj p cause effect tfc tfe) as [-> | (rq & ->)]; [exact W|now apply wf_query].
  Qed.
  Lemma wf_program ss : wf (program make ask dflt (MkW [] []) ss).
  Proof.
    unfold program. assert (X : wf (@MkW I [] [])) by (intros [|j] o A; discriminate). revert X. generalize (@MkW I [] []).
    induction ss as [|s ss IH]; intros w W; [exact W|]. cbn [fold_left]. apply IH. now apply wf_exec.
  Qed.

  (** *** The list [k] belongs to object [i] only, and is [c] *)
  Definition own (i k : nat) (c : list pgm) (w : world I) : Prop :=
    k < length (w_lists w) /\ list_at w k = c /\ forall j o, j <> i -> at_ w j o -> mi_models o <> k.
  Section Own.
    Variables (i k : nat) (c : list pgm).
    Notation own := (own i k c).
    Lemma own_put w j o' : own w -> (j <> i -> mi_models o' <> k) -> own (put_object w j o').
    Proof.
      intros (L & E & O) N. split; [exact L|]. split; [exact E|]. intros j' o Nj A. apply at_put_cases in A as [[-> ->] | [_ A]]; [now apply N|exact (O j' o Nj A)].
    Qed.
    Lemma own_new w ms : own w -> own (fst (new_list w ms)) /\ snd (new_list w ms) <> k.
    Proof.
      intros (L & E & O). unfold new_list. cbn [fst snd]. split; [|lia]. split; [cbn [w_lists]; rewrite app_length; lia|].
      split; [|exact O]. rewrite <- E. unfold list_at. cbn [w_lists]. now rewrite app_nth1.
    Qed.
    Lemma own_or w kk : own w -> kk <> Some k -> own (fst (or_new w kk)) /\ snd (or_new w kk) <> k.
    Proof.
      intros O N. unfold or_new. destruct kk as [k'|]; [|now apply own_new]. destruct (list_at w k'); [now apply own_new|]. cbn [fst snd]. split; [exact O|congruence].
    Qed.
    Lemma own_set w j oj kk : own w -> kk <> Some k -> own (set_models w j oj kk).
    Proof. intros O N. unfold set_models. destruct (own_or w kk O N) as [X Y]. destruct (or_new w kk) as (w' & k'). apply own_put; [exact X|]. intros _. exact Y. Qed.
    Lemma own_add w j oj kk : own w -> mi_models oj <> k -> own (add_models w j oj kk).
    Proof.
      intros (L & E & O) N. unfold add_models. apply own_put; [|intros _; exact N]. split; [cbn [w_lists]; now rewrite put_length|].
      split; [|exact O]. rewrite <- E. unfold list_at. cbn [w_lists]. rewrite <- !nth_default_eq. unfold nth_default. rewrite put_other by congruence. reflexivity.
    Qed.
    Lemma own_base w j oj : own w -> mi_models oj <> k -> own (fst (base_compile make w j oj)).
    Proof. intros O N. unfold base_compile. destruct (list_at w _); [exact O|]. destruct (mapM make _); now apply own_put. Qed.
    Lemma own_train w j oj g : own w -> mi_models oj <> k ->
      let '(w', o', r) := train w j oj g in own w' /\ mi_models o' <> k /\ forall n, r = Ok n -> n <> k.
    Proof.
      intros O N. unfold train. cbv zeta. set (o1 := MkMI _ _ _ _ _ _ _). assert (O1 : own (put_object w j o1)) by (apply own_put; [exact O|intros _; exact N]).
      destruct (g _) as [ms|e]; [|split; [exact O1|split; [exact N|discriminate]]].
      destruct (own_new _ ms O1) as [X Y]. destruct (new_list _ ms) as (w2 & k2). split; [exact X|]. split; [exact N|]. intros n E. injection E as <-. exact Y.
    Qed.
    Lemma own_at w j o : own w -> j <> i -> nth_error (w_objects w) j = Some o -> mi_models o <> k.
    Proof. intros (_ & _ & O) N A. exact (O j o N A). Qed.
    Lemma own_compile w j oj : own w -> j <> i -> at_ w j oj -> own (fst (compile make w j oj)).
    Proof.
      intros O Nj A. assert (N := own_at w j oj O Nj A). unfold compile. destruct (mi_trainer oj) as [g|]; [|now apply own_base].
      assert (X := own_train w j oj g O N). destruct (train w j oj g) as ((w1 & o1) & [k1 | e]); [|apply X]. destruct X as (O1 & N1 & K1).
      assert (O2 := own_set w1 j o1 (Some k1) O1 ltac:(intros E; injection E as E; exact (K1 k1 eq_refl E))).
      destruct (nth_error _ j) as [o2|] eqn:E; [|exact O2]. apply own_base; [exact O2|]. eapply own_at; eauto.
    Qed.
    Lemma own_more w j oj : own w -> j <> i -> at_ w j oj -> own (fst (compile_more make w j oj)).
    Proof.
      intros O Nj A. assert (N := own_at w j oj O Nj A). unfold compile_more. destruct (mi_trainer oj) as [g|]; [|exact O].
      assert (X := own_train w j oj g O N). destruct (train w j oj g) as ((w1 & o1) & [k1 | e]); [|apply X]. destruct X as (O1 & N1 & K1).
      assert (O2 := own_add w1 j o1 (Some k1) O1 N1).
      destruct (nth_error _ j) as [o2|] eqn:E; [|exact O2]. apply own_base; [exact O2|]. eapply own_at; eauto.
    Qed.
    Lemma own_query w j oj rq : own w -> j <> i -> at_ w j oj -> own (fst (query make ask dflt w j oj rq)).
    Proof. intros O Nj A. rewrite query_world. destruct (mi_compiled oj); [exact O|now apply own_compile]. Qed.
    Lemma own_multi w kk b tr : own w -> kk <> Some k -> own (new_multi w kk b tr).
    Proof.
      intros O N. unfold new_multi. destruct (own_or w kk O N) as [O1 N1]. destruct (or_new w kk) as (w1 & k1). cbn [fst snd] in *.
      destruct (own_or w1 (Some k1) O1 ltac:(congruence)) as [(L2 & E2 & O2) N2]. destruct (or_new w1 (Some k1)) as (w2 & k2). cbn [fst snd] in *.
      split; [exact L2|]. split; [exact E2|]. intros j o Nj A. unfold at_ in A. cbn [w_objects w_lists] in *. destruct (Nat.lt_ge_cases j (length (w_objects w2))) as [L | L].
      - rewrite nth_error_app1 in A by exact L. exact (O2 j o Nj A).
      - rewrite nth_error_app2 in A by exact L. destruct (j - length (w_objects w2)) as [|n]; [|destruct n; discriminate]. injection A as <-. exact N2.
    Qed.
    Lemma own_exec w s : own w -> subject s <> Some i -> match s with OMulti (Some k') _ | OSet _ (Some k') => k' <> k | _ => True end -> own (fst (exec w s)).
    Proof.
      intros O Ns Ng. destruct s; cbn [exec MultiModel.exec fst subject] in *.
      1: now apply own_new.
      1: apply own_multi; [exact O|destruct models; congruence].
      1: apply own_multi; [exact O|discriminate].
      all: assert (Ni : i0 <> i) by congruence; unfold on; destruct (nth_error (w_objects w) i0) as [oj|] eqn:A; [|exact O]; cbn [fst no_answer].
      - apply own_set; [exact O|destruct models; congruence].
      - apply own_add; [exact O|exact (own_at w i0 oj O Ni A)].
      - unfold set_interval. apply own_put; [exact O|]. intros _. exact (own_at w i0 oj O Ni A).
      - now apply own_compile.
      - now apply own_more.
      - now apply own_query.
      - destruct (prob_world w i0 oj p cause effect tfc tfe) as [-> | (rq & ->)]; [exact O|now apply own_query].
    Qed.
  End Own.

  (** *** The object after its turns *)
  Section Growing.
    Variable gen : nat -> res (list pgm).
    Hypothesis G : forall k, exists ms, gen k = Ok ms /\ ms <> [] /\ forall m, In m ms -> exists x, make m = Ok x.
    Lemma so_far_S t ms : gen t = Ok ms -> so_far gen (S t) = so_far gen t ++ ms.
    Proof. intros E. unfold so_far. rewrite seq_S, map_app, concat_app. cbn. now rewrite E, app_nil_r. Qed.
    Lemma so_far_make t m : In m (so_far gen t) -> exists x, make m = Ok x.
    Proof.
      unfold so_far. rewrite in_concat. intros (ms & J & Jm). apply in_map_iff in J as (k & <- & _).
      destruct (G k) as (ms & E & _ & H). rewrite E in Jm. auto.
    Qed.
    Lemma so_far_some t : 0 < t -> so_far gen t <> [].
    Proof. destruct t as [|t]; [lia|]. intros _. destruct (G t) as (ms & E & Ne & _). rewrite (so_far_S t ms E). intros X. apply app_eq_nil in X as [_ X]. auto. Qed.

    Variable i : nat.
    Definition growing w (t : nat) (b : bool) : Prop :=
      exists o, at_ w i o /\ own i (mi_models o) (so_far gen t) w /\ mi_trainer o = Some gen /\ mi_trained o = t /\ mi_interval o = b /\
        (0 < t -> mi_compiled o = true /\ exists m ms infs, so_far gen t = m :: ms /\ mapM make (m :: ms) = Ok infs /\ mi_infs o = Some infs /\ mi_model o = Some m).

    Lemma growing_more w t b : growing w t b -> snd (exec w (OMore i)) = Ok ANone /\ growing (fst (exec w (OMore i))) (S t) b.
    Proof.
      intros (o & A & O & T & N & Hb & _). cbn [MultiModel.exec]. unfold on. rewrite A. unfold no_answer.
      cut (exists o', at_ (fst (compile_more make w i o)) i o' /\ snd (compile_more make w i o) = Ok tt /\
             own i (mi_models o') (so_far gen (S t)) (fst (compile_more make w i o)) /\ mi_trainer o' = Some gen /\ mi_trained o' = S t /\ mi_interval o' = b /\
             mi_compiled o' = true /\ exists m ms infs, so_far gen (S t) = m :: ms /\ mapM make (m :: ms) = Ok infs /\ mi_infs o' = Some infs /\ mi_model o' = Some m).
      { intros (o' & A' & R & O' & T' & N' & Hb' & Y). cbn [fst snd]. rewrite R. split; [reflexivity|]. exists o'. auto 10. }
      destruct (G t) as (ms & E & Ne & Mk). unfold compile_more. rewrite T. unfold train. cbv zeta. cbn [mi_trained pred]. rewrite N, E.
      set (o1 := MkMI _ _ _ _ _ _ _). assert (O1 : own i (mi_models o) (so_far gen t) (put_object w i o1)) by (apply own_put; [exact O|congruence]).
      assert (A1 : at_ (put_object w i o1) i o1) by (eapply at_put_same; exact A). set (w1 := put_object w i o1) in *.
      assert (Nn : nth_error (w_lists w1 ++ [ms]) (length (w_lists w1)) = Some ms) by (rewrite nth_error_app2, Nat.sub_diag by lia; reflexivity).
      unfold new_list. set (n := length (w_lists w1)) in *.
      destruct (own_new i (mi_models o) (so_far gen t) w1 ms O1) as [(L2 & C2 & O2) _]. unfold new_list in L2, C2, O2. cbn [fst] in L2, C2, O2.
      set (w2 := MkW (w_lists w1 ++ [ms]) (w_objects w1)) in *.
      unfold add_models. assert (X2 : list_at w2 n = ms) by (unfold list_at, w2; cbn [w_lists]; apply nth_error_nth with (d := []) in Nn; exact Nn).
      rewrite X2. change (mi_models o1) with (mi_models o). rewrite C2, <- (so_far_S t ms E). set (c := so_far gen (S t)) in *.
      set (o3 := MkMI _ _ _ _ _ _ _). set (w3 := put_object _ i o3).
      assert (A3 : at_ w3 i o3) by (eapply at_put_same; exact A1). rewrite A3.
      assert (C3 : list_at w3 (mi_models o) = c).
      { unfold list_at, w3, put_object. cbn [w_lists]. apply nth_error_nth. now apply put_same. }
      assert (O3 : own i (mi_models o) c w3).
      { split; [|split; [exact C3|]]; [unfold w3, put_object; cbn [w_lists]; now rewrite put_length|].
        intros j oj Nj Aj. apply at_put_cases in Aj as [[-> _] | [_ Aj]]; [congruence|]. exact (O2 j oj Nj Aj). }
      unfold base_compile. change (mi_models o3) with (mi_models o). rewrite C3.
      destruct (mapM_total make c) as (infs & Em). { intros m J. now apply (so_far_make (S t)). }
      assert (Nc : c <> []) by (apply so_far_some; lia). destruct c as [|m cs] eqn:Ec; [congruence|]. rewrite Em. cbn [fst snd].
      eexists. split; [eapply at_put_same; exact A3|]. split; [reflexivity|]. split; [apply own_put; [exact O3|congruence]|].
      split; [exact T|]. split; [reflexivity|]. split; [exact Hb|]. split; [reflexivity|]. exists m, cs, infs. auto.
    Qed.
    Lemma growing_other w t b s : growing w t b -> subject s <> Some i -> ~ gives_away w i s -> growing (fst (exec w s)) t b.
    Proof.
      intros (o & A & O & H) Ns Ng. exists o. split; [now apply at_exec|]. split; [|exact H]. apply own_exec; [exact O|exact Ns|].
      destruct s as [| [k'|] ? | | j [k'|] | | | | | |]; try exact Logic.I; intros ->; apply Ng; exists o; auto.
    Qed.
    Lemma growing_query w t b rq : growing w t b -> 0 < t -> fst (exec w (OQuery i rq)) = w /\
      exists m ms infs, so_far gen t = m :: ms /\ mapM make (m :: ms) = Ok infs /\ query_answer make ask dflt w i rq = answer_with ask dflt infs b rq.
    Proof.
      intros (o & A & O & T & N & Hb & Hc) Ht. destruct (Hc Ht) as (Cc & m & ms & infs & E1 & E2 & E3 & E4).
      unfold query_answer. cbn [MultiModel.exec]. unfold on. rewrite A. unfold query. unfold at_ in A. split; [rewrite Cc, A, E3; reflexivity|].
      exists m, ms, infs. split; [exact E1|]. split; [exact E2|]. rewrite A, Cc, A, E3, Hb. reflexivity.
    Qed.
    Lemma growing_prob w t b p c e tc te : growing w t b -> 0 < t -> fst (exec w (OProb i p c e tc te)) = w.
    Proof.
      intros (o & A & O & T & N & Hb & Hc) Ht. destruct (Hc Ht) as (Cc & _). cbn [MultiModel.exec]. unfold on. rewrite A.
      destruct (prob_world w i o p c e tc te) as [E | (rq & E)]; rewrite E; [reflexivity|]. rewrite query_world. now rewrite Cc.
    Qed.
    Lemma grows_growing w tb : grows make ask dflt gen i w tb -> growing w (fst tb) (snd tb).
    Proof.
      induction 1 as [ss b E | w t b _ IH | w t b s _ IH As Ng]; cbn [fst snd] in *.
      - assert (W := wf_program ss). set (w := program make ask dflt (MkW [] []) ss) in *. cbn [MultiModel.exec fst]. unfold new_multi, or_new, new_list.
        cbn [w_lists w_objects]. assert (L : list_at (MkW (w_lists w ++ [[]]) (w_objects w)) (length (w_lists w)) = []).
        { unfold list_at. cbn [w_lists]. rewrite app_nth2, Nat.sub_diag by lia. reflexivity. }
        rewrite L. cbn [w_lists w_objects]. eexists. split; [unfold at_; cbn [w_objects]; rewrite nth_error_app2, E, Nat.sub_diag by lia; reflexivity|].
        cbn [mi_models mi_trainer mi_trained mi_interval]. split; [|repeat split; lia]. rewrite app_length. cbn [length].
        split; [cbn [w_lists]; rewrite !app_length; cbn; lia|]. split.
        + unfold list_at. cbn [w_lists]. rewrite app_nth2 by (rewrite app_length; cbn; lia). rewrite app_length. cbn [length]. now rewrite Nat.sub_diag.
        + intros j o Nj A. unfold at_ in A. cbn [w_objects] in A. destruct (Nat.lt_ge_cases j (length (w_objects w))) as [Lj | Lj].
          * rewrite nth_error_app1 in A by exact Lj. specialize (W j o A). lia.
          * rewrite nth_error_app2 in A by exact Lj. destruct (j - length (w_objects w)) as [|n] eqn:Q; [lia|destruct n; discriminate].
      - now apply growing_more.
      - destruct (option_eq_dec (subject s) (Some i)) as [Es | Ns].
        + destruct s; cbn [subject aside] in *; try discriminate; injection Es as Es; subst.
          * congruence.
          * congruence.
          * rewrite Nat.eqb_refl. destruct IH as (o & A & O & T & N & Hb & Hc). cbn [MultiModel.exec]. unfold on. rewrite A. cbn [fst]. unfold set_interval.
            eexists. split; [eapply at_put_same; exact A|]. split; [apply own_put; [exact O|congruence]|]. auto.
          * congruence.
          * congruence.
          * rewrite (proj1 (growing_query w t b rq IH (As eq_refl))). exact IH.
          * rewrite (growing_prob w t b _ _ _ _ _ IH (As eq_refl)). exact IH.
        + assert (X := growing_other w t b s IH Ns Ng). destruct s; try exact X. destruct (Nat.eqb_spec i0 i) as [-> | N]; [cbn in Ns; congruence|exact X].
    Qed.

    (** The next turn. *)
    Lemma next_turn (step : nat) : (forall k ms, gen k = Ok ms -> length ms = step) -> forall num_runs w t b, grows make ask dflt gen i w (t, b) ->
      ((Z.of_nat (t * step) < num_runs)%Z -> compile_next make num_runs w i = (fst (exec w (OMore i)), Some (Ok tt))) /\
      ((num_runs <= Z.of_nat (t * step))%Z -> compile_next make num_runs w i = (w, None)).
    Proof.
      intros Hl num_runs w t b H. apply grows_growing in H. cbn [fst snd] in H.
      assert (L : length (so_far gen t) = t * step).
      { clear - G Hl. induction t as [|t IH]; [reflexivity|]. destruct (G t) as (ms & E & _). rewrite (so_far_S t ms E), app_length, IH, (Hl t ms E). lia. }
      destruct (growing_more w t b H) as [R _]. destruct H as (o & A & (_ & C & _) & _).
      unfold compile_next. rewrite A, C, L. cbn [MultiModel.exec] in *. unfold on in *. rewrite A in *. unfold no_answer in *. cbn [fst snd] in *.
      destruct (compile_more make w i o) as (w' & [[]|e]); cbn [fst snd] in *; [|discriminate].
      split; intros Hn.
      - apply Z.ltb_lt in Hn. now rewrite Hn.
      - apply Z.ltb_ge in Hn. now rewrite Hn.
    Qed.
    (** The answers. *)
    Lemma grown_answers w t b : grows make ask dflt gen i w (t, b) -> 0 < t ->
      (forall rq, query_answer make ask dflt w i rq = query_answer make ask dflt (plain make ask dflt (so_far gen t) b) 0 rq) /\
      (forall p c e tc te, prob_answer make ask dflt w i p c e tc te = prob_answer make ask dflt (plain make ask dflt (so_far gen t) b) 0 p c e tc te).
    Proof.
      intros H Ht. apply grows_growing in H. cbn [fst snd] in H. destruct H as (o & A & O & T & N & Hb & Hc).
      destruct (Hc Ht) as (Cc & m & ms & infs & E1 & E2 & E3 & E4).
      destruct (plain_holds make ask dflt m ms b infs E2) as (o2 & A2 & Cc2 & E32 & Hb2 & E42). rewrite E1.
      assert (Q : forall rq, snd (query make ask dflt w i o rq) = snd (query make ask dflt (plain make ask dflt (m :: ms) b) 0 o2 rq)).
      { intros rq. unfold query. rewrite Cc, Cc2. unfold at_ in *. rewrite A, A2, E3, E32. cbn [snd]. now rewrite Hb, Hb2. }
      split.
      - intros rq. unfold query_answer. cbn [MultiModel.exec]. unfold on. unfold at_ in *. rewrite A, A2. apply Q.
      - intros p c e tc te. unfold prob_answer. cbn [MultiModel.exec]. unfold on. unfold at_ in *. rewrite A, A2. unfold prob, true_false_of. rewrite E4, E42.
        destruct (let* a := _ in _) as [[[a a'] [b1 b']]|]; [|reflexivity]. destruct (prob_request p c e a a' b1 b') as (rq & at').
        specialize (Q rq). destruct (query make ask dflt w i o rq), (query make ask dflt _ 0 o2 rq). cbn [snd] in *. rewrite Q, Hb, Hb2. reflexivity.
    Qed.
  End Growing.

  (** A training that raises. *)
  Lemma next_raises gen w b x num_runs : gen 0 = Raise x -> (1 <= num_runs)%Z ->
    snd (compile_next make num_runs (fst (exec w (OTrained gen b))) (length (w_objects w))) = Some (Raise x).
  Proof.
    intros E Hn. cbn [MultiModel.exec fst]. unfold new_multi, or_new, new_list.
    cbn [w_lists w_objects]. assert (L : list_at (MkW (w_lists w ++ [[]]) (w_objects w)) (length (w_lists w)) = []).
    { unfold list_at. cbn [w_lists]. rewrite app_nth2, Nat.sub_diag by lia. reflexivity. }
    rewrite L. cbn [w_lists w_objects]. unfold compile_next. cbn [w_objects]. rewrite nth_error_app2, Nat.sub_diag by lia. cbn [nth_error mi_models].
    assert (L2 : list_at (MkW ((w_lists w ++ [[]]) ++ [[]]) (w_objects w ++ [MkMI (length (w_lists w ++ [[]])) false None None b (Some gen) 0])) (length (w_lists w ++ [[]])) = []).
    { unfold list_at. cbn [w_lists]. rewrite app_nth2, Nat.sub_diag by lia. reflexivity. }
    rewrite L2. cbn [length]. assert (X : (Z.of_nat 0 <? num_runs)%Z = true) by (apply Z.ltb_lt; lia). rewrite X.
    unfold compile_more. cbn [mi_trainer]. unfold train. cbv zeta. cbn [mi_trained pred]. rewrite E. reflexivity.
  Qed.
  (** compile_incremental of an object that trains nothing. *)
  Lemma more_raises w models b :
    let w1 := fst (exec w (OMulti models b)) in
    exec w1 (OMore (length (w_objects w))) = (w1, Raise AttributeError).
  Proof.
    cbn [MultiModel.exec fst]. unfold new_multi, or_new.
    set (p := match models with Some k => _ | None => _ end).
    assert (E : w_objects (fst p) = w_objects w) by (subst p; destruct models as [k|]; [destruct (list_at w k)|]; reflexivity).
    clearbody p. destruct p as (w0 & k). cbn [fst] in E. rewrite <- E.
    destruct (list_at w0 k); cbn [w_lists w_objects new_list]; unfold on; cbn [w_objects];
      (rewrite nth_error_app2, Nat.sub_diag by lia); reflexivity.
  Qed.
End Incremental.
