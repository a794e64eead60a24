(** Objects that train their models: what they answer. *)

From Coq Require Import String Bool Arith ZArith QArith Qcanon Lia Permutation List.
From Verif Require Import PyBase PyFacts Num DomainModel NdArray StoreModel NumStore FactorModel GenModel GraphModel ModelModel InferModel
  CausalModel MultiModel LearnModel AggModel AggSpec AggFacts GradModel MultiSpec MultiFacts PipeModel PipeSpec.
From Coq Require Import List.
Import ListNotations.
Local Open Scope nat_scope.

Section Objects.
  Context {I : Type}.
  Variable make : pgm -> res I.
  Variable ask : I -> request -> res mfactor.
  Variable dflt : vtype.
  Notation exec := (exec make ask dflt).

  Lemma put_other {A} (l : list A) k x i : i <> k -> nth_error (put l k x) i = nth_error l i.
  Proof. intros N. rewrite nth_error_put. apply Nat.eqb_neq in N. now rewrite N. Qed.
  Lemma put_same {A} (l : list A) i x : i < length l -> nth_error (put l i x) i = Some x.
  Proof. intros N. rewrite nth_error_put, Nat.eqb_refl. apply Nat.ltb_lt in N. now rewrite N. Qed.
  Lemma app_old {A} (l : list A) x i o : nth_error l i = Some o -> nth_error (l ++ [x]) i = Some o.
  Proof. intros E. rewrite nth_error_app1; [exact E|]. apply nth_error_Some. congruence. Qed.

  Definition at_ (w : world I) (i : nat) (o : multi I) : Prop := nth_error (w_objects w) i = Some o.
  Lemma at_put w j o i o' : i <> j -> at_ w i o -> at_ (put_object w j o') i o.
  Proof. intros N A. unfold at_, put_object. cbn [w_objects]. now rewrite put_other. Qed.
  Lemma at_put_same w i o o' : at_ w i o -> at_ (put_object w i o') i o'.
  Proof. intros A. apply put_same. apply nth_error_Some. unfold at_ in A. congruence. Qed.
  Lemma or_new_objects (w : world I) k : w_objects (fst (or_new w k)) = w_objects w.
  Proof. unfold or_new, new_list. destruct k as [k|]; [|reflexivity]. now destruct (list_at w k). Qed.
  Lemma at_set w j oj k i o : i <> j -> at_ w i o -> at_ (set_models w j oj k) i o.
  Proof.
    intros N A. unfold set_models. assert (X := or_new_objects w k). destruct (or_new w k) as (w' & k'). apply at_put; [exact N|].
    unfold at_. cbn [fst] in X. now rewrite X.
  Qed.
  Lemma at_add w j oj k i o : i <> j -> at_ w i o -> at_ (add_models w j oj k) i o.
  Proof. intros N A. unfold add_models. apply at_put; [exact N|exact A]. Qed.
  Lemma at_base w j oj i o : i <> j -> at_ w i o -> at_ (fst (base_compile make w j oj)) i o.
  Proof.
    intros N A. unfold base_compile. destruct (list_at w (mi_models oj)); [exact A|].
    destruct (mapM make _); now apply at_put.
  Qed.
  Lemma at_train w j oj g i o : i <> j -> at_ w i o -> at_ (fst (fst (train w j oj g))) i o.
  Proof.
    intros N A. unfold train. cbv zeta. destruct (g _); cbn [fst]; [|now apply at_put]. unfold new_list. cbn [fst]. now apply (at_put w j o i).
  Qed.
  Lemma at_compile w j oj i o : i <> j -> at_ w i o -> at_ (fst (compile make w j oj)) i o.
  Proof.
    intros N A. unfold compile. destruct (mi_trainer oj) as [g|]; [|now apply at_base].
    assert (X := at_train w j oj g i o N A). destruct (train w j oj g) as ((w1 & o1) & [k | e]); cbn [fst] in *; [|exact X].
    apply (at_set w1 j o1 (Some k)) in X; [|exact N]. destruct (nth_error _ j); [now apply at_base|exact X].
  Qed.
  Lemma at_more w j oj i o : i <> j -> at_ w i o -> at_ (fst (compile_more make w j oj)) i o.
  Proof.
    intros N A. unfold compile_more. destruct (mi_trainer oj) as [g|]; [|exact A].
    assert (X := at_train w j oj g i o N A). destruct (train w j oj g) as ((w1 & o1) & [k | e]); cbn [fst] in *; [|exact X].
    apply (at_add w1 j o1 (Some k)) in X; [|exact N]. destruct (nth_error _ j); [now apply at_base|exact X].
  Qed.
  Lemma at_query w j oj rq i o : i <> j -> at_ w i o -> at_ (fst (query make ask dflt w j oj rq)) i o.
  Proof.
    intros N A. unfold query. destruct (mi_compiled oj).
    - destruct (nth_error (w_objects w) j) as [o2|]; [destruct (mi_infs o2)|]; exact A.
    - assert (X := at_compile w j oj i o N A). destruct (compile make w j oj) as (w1 & [u | e]); cbn [fst] in X; [|exact X].
      destruct (nth_error (w_objects w1) j) as [o2|]; [destruct (mi_infs o2)|]; exact X.
  Qed.
  Lemma at_prob w j oj p c e tc te i o : i <> j -> at_ w i o -> at_ (fst (prob make ask dflt w j oj p c e tc te)) i o.
  Proof.
    intros N A. unfold prob. destruct (let* a := true_false_of oj c tc in _) as [[[a b] [a' b']]|]; [|exact A].
    destruct (prob_request p c e a b a' b') as (rq & at'). assert (X := at_query w j oj rq i o N A).
    destruct (query make ask dflt w j oj rq). exact X.
  Qed.

  Lemma option_eq_dec (a b : option nat) : {a = b} + {a <> b}.
  Proof. repeat decide equality. Qed.
  (** the object that a statement is about *)
  Definition subject (s : op) : option nat :=
    match s with
    | OSet j _ | OAdd j _ | OInterval j _ | OCompile j | OMore j | OQuery j _ | OProb j _ _ _ _ _ => Some j
    | _ => None
    end.
  Lemma at_exec w s i o : subject s <> Some i -> at_ w i o -> at_ (fst (exec w s)) i o.
  Proof.
    intros N A. destruct s; cbn [exec MultiModel.exec subject fst] in *.
    1: exact A.
    1, 2: unfold new_multi.
    1: assert (X := or_new_objects w models); destruct (or_new w models) as (w1 & k1); cbn [fst] in X;
      assert (Y := or_new_objects w1 (Some k1)); destruct (or_new w1 (Some k1)) as (w2 & k2); cbn [fst] in Y;
      unfold at_; cbn [w_objects]; apply app_old; rewrite Y, X; exact A.
    1: assert (X := or_new_objects w None); destruct (or_new w None) as (w1 & k1); cbn [fst] in X;
      assert (Y := or_new_objects w1 (Some k1)); destruct (or_new w1 (Some k1)) as (w2 & k2); cbn [fst] in Y;
      unfold at_; cbn [w_objects]; apply app_old; rewrite Y, X; exact A.
    all: assert (Ni : i <> i0) by congruence; unfold on; destruct (nth_error (w_objects w) i0) as [oj|]; [|exact A]; cbn [fst no_answer].
    - now apply at_set.
    - now apply at_add.
    - unfold set_interval. now apply at_put.
    - now apply at_compile.
    - now apply at_more.
    - now apply at_query.
    - now apply at_prob.
  Qed.

  Section Trained.
    Variable gen : nat -> res (list pgm).
    (** every training gives models that can be queried *)
    Hypothesis G : forall k, exists ms, gen k = Ok ms /\ ms <> [] /\ forall m, In m ms -> exists x, make m = Ok x.

    Definition holds (o : multi I) (nb : nat * bool) : Prop :=
      mi_trainer o = Some gen /\ mi_trained o = fst nb /\ mi_interval o = snd nb /\ (fst nb = 0 -> mi_compiled o = false) /\
      (0 < fst nb -> mi_compiled o = true /\ exists m ms infs, gen (pred (fst nb)) = Ok (m :: ms) /\ mapM make (m :: ms) = Ok infs /\
         mi_infs o = Some infs /\ mi_model o = Some m).

    Lemma trained_compile w i o n b : at_ w i o -> holds o (n, b) ->
      exists o', at_ (fst (compile make w i o)) i o' /\ holds o' (S n, b) /\ snd (compile make w i o) = Ok tt.
    Proof.
      intros A (H1 & H2 & H3 & _). cbn [fst snd] in *. destruct (G n) as ([|m ms] & Gn & Ne & Mk); [congruence|].
      destruct (mapM_total make (m :: ms)) as (infs & Em). { exact Mk. }
      unfold compile. rewrite H1. unfold train. cbv zeta. cbn [mi_trained pred]. rewrite H2, Gn. unfold new_list.
      set (w1 := put_object w i _). set (o1 := MkMI _ _ _ _ _ _ _) in *. assert (A1 : at_ w1 i o1) by (eapply at_put_same; exact A).
      unfold set_models, or_new. set (w2 := MkW _ _). assert (A2 : at_ w2 i o1) by exact A1.
      assert (L2 : list_at w2 (length (w_lists w1)) = m :: ms).
      { unfold list_at, w2. cbn [w_lists]. rewrite app_nth2 by lia. now rewrite Nat.sub_diag. }
      rewrite L2. set (o3 := MkMI _ _ _ _ _ _ _). set (w3 := put_object w2 i o3). assert (A3 : at_ w3 i o3) by (eapply at_put_same; exact A2).
      rewrite A3. unfold base_compile. cbn [mi_models o3]. change (list_at w3) with (list_at w2). rewrite L2, Em.
      eexists. split; [eapply at_put_same; exact A3|]. split; [|reflexivity].
      split; [exact H1|]. split; [reflexivity|]. split; [exact H3|]. cbn [fst snd pred]. split; [lia|]. intros _. split; [reflexivity|].
      exists m, ms, infs. auto.
    Qed.
    (** a question *)
    Definition answer_with (infs : list I) (b : bool) (rq : request) : res answer :=
      let* fs := mapM (fun f => ask f rq) infs in process_output dflt b (AFactors fs) None.
    Lemma trained_query w i o n b rq : at_ w i o -> holds o (n, b) ->
      exists o' infs m ms, at_ (fst (query make ask dflt w i o rq)) i o' /\ holds o' (Nat.max n 1, b) /\
        gen (pred (Nat.max n 1)) = Ok (m :: ms) /\ mapM make (m :: ms) = Ok infs /\ mi_model o' = Some m /\
        snd (query make ask dflt w i o rq) = answer_with infs b rq.
    Proof.
      intros A H. destruct n as [|n].
      - assert (Nc : mi_compiled o = false) by now apply H. unfold query. rewrite Nc.
        destruct (trained_compile w i o 0 b A H) as (o' & A' & H' & R).
        destruct (compile make w i o) as (w1 & r). cbn [fst snd] in *. subst r. rewrite A'.
        assert (H'' := H'). destruct H'' as (_ & _ & Hb & _ & Hp). cbn [fst snd] in *. destruct (Hp ltac:(lia)) as (_ & m & ms & infs & X1 & X2 & X3 & X4).
        rewrite X3, Hb. exists o', infs, m, ms. cbn [fst snd Nat.max]. auto 7.
      - assert (H' := H). destruct H' as (_ & _ & Hb & _ & Hp). cbn [fst snd] in *. destruct (Hp ltac:(lia)) as (Cc & m & ms & infs & X1 & X2 & X3 & X4).
        unfold query. rewrite Cc, A, X3, Hb. exists o, infs, m, ms. cbn [fst snd]. rewrite Nat.max_l by lia. auto 7.
    Qed.
    Lemma trained_states o n b v given : holds o (n, b) -> 0 < n \/ given <> None ->
      forall m ms, gen (pred (Nat.max n 1)) = Ok (m :: ms) ->
      true_false_of o v given = (match given with Some p => Ok p | None => true_false m v None end).
    Proof.
      intros (_ & _ & _ & _ & Hp) Hg m ms Gm. unfold true_false_of. destruct given as [p|]; [reflexivity|].
      destruct Hg as [Hn|X]; [|congruence]. cbn [fst] in Hp. destruct (Hp Hn) as (_ & m' & ms' & infs & X1 & _ & _ & X4).
      rewrite X4. rewrite Nat.max_l in Gm by lia. congruence.
    Qed.

    Lemma trained_prob w i o n b p c e tc te : at_ w i o -> holds o (n, b) -> 0 < n \/ (tc <> None /\ te <> None) ->
      exists o' infs m ms, at_ (fst (prob make ask dflt w i o p c e tc te)) i o' /\ holds o' (Nat.max n 1, b) /\
        gen (pred (Nat.max n 1)) = Ok (m :: ms) /\ mapM make (m :: ms) = Ok infs /\
        snd (prob make ask dflt w i o p c e tc te) =
        match (let* a := match tc with Some p => Ok p | None => true_false m c None end in
               let* b := match te with Some p => Ok p | None => true_false m e None end in Ok (a, b)) with
        | Raise x => Raise x
        | Ok ((tc, fc), (te, fe)) =>
            let (rq, at_) := prob_request p c e tc fc te fe in
            let* r := answer_with infs b rq in process_output dflt b r (Some at_)
        end.
    Proof.
      intros A H Hg. destruct (G (pred (Nat.max n 1))) as ([|m ms] & Gn & Ne & Mk); [congruence|].
      destruct (mapM_total make (m :: ms) Mk) as (infs & Em).
      assert (Hi : mi_interval o = b) by apply H.
      unfold prob. rewrite (trained_states o n b c tc H ltac:(tauto) m ms Gn), (trained_states o n b e te H ltac:(tauto) m ms Gn).
      destruct (let* a := _ in _) as [[[a1 a2] [b1 b2]]|x] eqn:Q.
      - destruct (prob_request p c e a1 a2 b1 b2) as (rq & at') eqn:Qr. destruct (trained_query w i o n b rq A H) as (o' & infs' & m' & ms' & X1 & X2 & X3 & X4 & X5 & X6).
        destruct (query make ask dflt w i o rq) as (w1 & r). cbn [fst snd] in *.
        assert (m' = m /\ ms' = ms) as [-> ->] by (split; congruence). assert (infs' = infs) as -> by congruence.
        exists o', infs, m, ms. rewrite X6, Hi. do 4 (split; [assumption|]). now rewrite Q, Qr.
      - exists o, infs, m, ms. cbn [fst snd]. split; [exact A|]. split; [|split; [exact Gn|split; [exact Em|now rewrite Q]]].
        destruct Hg as [Hn | [T1 T2]]; [now rewrite Nat.max_l by lia|]. destruct tc, te; congruence || discriminate.
    Qed.

    Lemma new_holds w b : at_ (fst (exec w (OTrained gen b))) (length (w_objects w))
      (MkMI (S (length (w_lists w))) false None None b (Some gen) 0).
    Proof.
      cbn [exec MultiModel.exec fst]. unfold new_multi, or_new, new_list.
      assert (Q : list_at (MkW (w_lists w ++ [[]]) (w_objects w)) (length (w_lists w)) = []).
      { unfold list_at. cbn [w_lists]. rewrite app_nth2 by lia. now rewrite Nat.sub_diag. }
      rewrite Q. unfold at_. cbn [w_objects w_lists]. rewrite nth_error_app2, Nat.sub_diag by lia. cbn [nth_error].
      rewrite app_length. cbn [length]. do 2 f_equal. lia.
    Qed.
    Lemma comes_holds i w nb : comes make ask dflt gen i w nb -> exists o, at_ w i o /\ holds o nb.
    Proof.
      induction 1 as [w b -> | w (n & b) s C (o & A & H) U].
      - eexists. split; [apply new_holds|]. split; [reflexivity|]. split; [reflexivity|]. split; [reflexivity|]. cbn [fst]. split; [auto|lia].
      - destruct (option_eq_dec (subject s) (Some i)) as [Es | Ns].
        + destruct s; cbn [subject] in Es; try discriminate; injection Es as ->; cbn [undisturbed] in U; try congruence;
            cbn [turn]; rewrite Nat.eqb_refl; cbn [exec MultiModel.exec]; unfold on; rewrite A.
          * cbn [fst]. eexists. split; [eapply at_put_same; exact A|]. destruct H as (H1 & H2 & _ & H4 & H5). cbn [fst snd] in *. split; [exact H1|]. split; [exact H2|]. split; [reflexivity|]. auto.
          * destruct (trained_compile w i o n b A H) as (o' & A' & H' & _). exists o'. auto.
          * destruct (trained_query w i o n b rq A H) as (o' & infs & m & ms & A' & H' & _). exists o'. auto.
          * destruct (trained_prob w i o n b p cause effect tfc tfe A H (U eq_refl)) as (o' & infs & m & ms & A' & H' & _). exists o'. auto.
        + exists o. split; [now apply at_exec|].
          assert (Q : turn i (n, b) s = (n, b)).
          { destruct s; cbn [turn subject] in *; try reflexivity; destruct (i0 =? i) eqn:Q; try reflexivity; apply Nat.eqb_eq in Q; congruence. }
          now rewrite Q.
    Qed.
  End Trained.

  (** an object with given models *)
  Lemma plain_holds m ms b infs : mapM make (m :: ms) = Ok infs ->
    exists o, at_ (plain make ask dflt (m :: ms) b) 0 o /\ mi_compiled o = true /\ mi_infs o = Some infs /\ mi_interval o = b /\ mi_model o = Some m.
  Proof.
    intros E. set (w := @MkW I [m :: ms] [MkMI 0 false None None b None 0]).
    assert (Q : plain make ask dflt (m :: ms) b = fst (base_compile make w 0 (MkMI 0 false None None b None 0))) by reflexivity.
    rewrite Q. unfold base_compile. change (list_at w _) with (m :: ms). cbv iota beta. rewrite E. eexists. split; [reflexivity|]. auto.
  Qed.

  Lemma trained_answers gen i w n b : (forall k, exists ms, gen k = Ok ms /\ ms <> [] /\ forall m, In m ms -> exists x, make m = Ok x) ->
    comes make ask dflt gen i w (n, b) -> forall ms, gen (pred (Nat.max n 1)) = Ok ms ->
    (forall rq, query_answer make ask dflt w i rq = query_answer make ask dflt (plain make ask dflt ms b) 0 rq) /\
    (forall p c e tc te, 0 < n \/ (tc <> None /\ te <> None) ->
       prob_answer make ask dflt w i p c e tc te = prob_answer make ask dflt (plain make ask dflt ms b) 0 p c e tc te).
  Proof.
    intros G C ms Gm. destruct (comes_holds gen G i w (n, b) C) as (o & A & H).
    assert (X : exists m ms0 infs, ms = m :: ms0 /\ mapM make (m :: ms0) = Ok infs).
    { destruct (G (pred (Nat.max n 1))) as (ms' & Gn & Ne & Mk). assert (ms' = ms) as -> by congruence. destruct ms as [|m ms0]; [congruence|].
      destruct (mapM_total make (m :: ms0) Mk) as (infs & Em). exists m, ms0, infs. auto. }
    destruct X as (m & ms0 & infs & -> & Em). destruct (plain_holds m ms0 b infs Em) as (o' & A' & P1 & P2 & P3 & P4).
    assert (Pq : forall rq, query make ask dflt (plain make ask dflt (m :: ms0) b) 0 o' rq = (plain make ask dflt (m :: ms0) b, answer_with infs b rq)).
    { intros rq. unfold query. now rewrite P1, A', P2, P3. }
    split.
    - intros rq. unfold query_answer. cbn [exec MultiModel.exec]. unfold on. rewrite A, A', Pq.
      destruct (trained_query gen G w i o n b rq A H) as (o2 & infs2 & m2 & ms2 & _ & _ & X3 & X4 & _ & X6).
      rewrite X6. cbn [snd]. assert (infs2 = infs) as -> by congruence. reflexivity.
    - intros p c e tc te Hg. unfold prob_answer. cbn [exec MultiModel.exec]. unfold on. rewrite A, A'.
      destruct (trained_prob gen G w i o n b p c e tc te A H Hg) as (o2 & infs2 & m2 & ms2 & _ & _ & X3 & X4 & X6).
      rewrite X6. assert (infs2 = infs) as -> by congruence. assert (m2 = m) as -> by congruence.
      unfold prob, true_false_of. rewrite P4. destruct (let* a := _ in _) as [[[a1 a2] [b1 b2]]|x]; [|reflexivity].
      destruct (prob_request p c e a1 a2 b1 b2) as (rq & at'). now rewrite Pq, P3.
  Qed.
  (** A training that raises: so does the question. *)
  Lemma trained_raises gen w b rq x : gen 0 = Raise x ->
    query_answer make ask dflt (fst (exec w (OTrained gen b))) (length (w_objects w)) rq = Raise x.
  Proof.
    intros E. unfold query_answer. assert (A := new_holds gen w b). set (w' := fst _) in *. cbn [exec MultiModel.exec]. unfold on. rewrite A.
    unfold query, compile, train. cbn [mi_compiled mi_trainer mi_trained pred]. now rewrite E.
  Qed.
  (** A new object does not know the states true and false. *)
  Lemma trained_unknown gen w b p c e te :
    prob_answer make ask dflt (fst (exec w (OTrained gen b))) (length (w_objects w)) p c e None te = Raise AttributeError.
  Proof.
    unfold prob_answer. assert (A := new_holds gen w b). set (w' := fst _) in *. cbn [exec MultiModel.exec]. unfold on. rewrite A. reflexivity.
  Qed.
End Objects.

(** ** Trainings *)

Section Trainings.
  Context {S : Type}.

  Lemma train_ok parallel (n : Z) (make : nat -> res (learner S * pgm)) schedule : (1 <= n)%Z -> (forall i, exists lm, make i = Ok lm) ->
    exists ps a, length ps = Z.to_nat n /\ Forall2 (fun i lm => make i = Ok lm) (seq 0 (Z.to_nat n)) ps /\
      train_agg parallel n make schedule = (a, None) /\ train_models parallel n make schedule = Ok (map snd ps) /\
      (parallel = false -> a_objects a = map fst ps) /\
      (Permutation schedule (seq 0 (Z.to_nat n)) -> Permutation (a_objects a) (map fst ps)).
  Proof.
    intros Hn Hm. assert (X : exists ps, Forall2 (fun i lm => make i = Ok lm) (seq 0 (Z.to_nat n)) ps).
    { generalize (seq 0 (Z.to_nat n)). induction l as [|i l (ps & IH)]; [exists []; constructor|]. destruct (Hm i) as (lm & E). exists (lm :: ps). now constructor. }
    destruct X as (ps & Hp). set (t := MkT n make schedule). assert (Dl : delivers t ps) by (split; auto).
    destruct (run_delivers (a_new parallel) t ps Dl) as (os & R & Os & Oe). cbn [a_parallel a_new a_generated a_objects app] in *.
    exists ps. eexists. split; [rewrite <- (Forall2_length _ _ _ Hp); apply seq_length|]. split; [exact Hp|].
    unfold train_models, train_agg. fold t. rewrite R. split; [reflexivity|]. split; [reflexivity|]. cbn [a_objects]. split; [exact Os|].
    intros Ps. rewrite Oe. destruct parallel; [|apply Permutation_refl]. cbn [t_schedule t_make t].
    rewrite <- (flat_map_made t _ ps Hp). now apply flat_map_perm.
  Qed.
  Lemma train_none parallel (n : Z) (make : nat -> res (learner S * pgm)) schedule : (n < 1)%Z -> train_models parallel n make schedule = Raise ValueError.
  Proof.
    intros Hn. unfold train_models, train_agg. destruct (run_fails (a_new parallel) (MkT n make schedule)) as (os & e & R & He & _); [now left|].
    rewrite R. now destruct (He Hn) as [-> _].
  Qed.
  Lemma evolution_ok (a : aggregator (learner S) pgm) (index : Z) : let n := Z.of_nat (length (a_objects a)) in
    (forall l, (0 <= index < n)%Z -> nth_error (a_objects a) (Z.to_nat index) = Some l -> get_model_evolution (Some a) index = Ok (Some (model_evolution l))) /\
    (forall l, (- n <= index < 0)%Z -> nth_error (a_objects a) (Z.to_nat (n + index)) = Some l -> get_model_evolution (Some a) index = Ok (Some (model_evolution l))) /\
    ((index < - n \/ n <= index)%Z -> get_model_evolution (Some a) index = Raise IndexError).
  Proof.
    cbv zeta. set (n := Z.of_nat (length (a_objects a))). unfold get_model_evolution. fold n. split; [|split].
    - intros l H E. destruct (index <? 0)%Z eqn:Q; [apply Z.ltb_lt in Q; lia|]. rewrite Q, E. reflexivity.
    - intros l H E. destruct (index <? 0)%Z eqn:Q; [|apply Z.ltb_ge in Q; lia].
      destruct (index + n <? 0)%Z eqn:Q2; [apply Z.ltb_lt in Q2; lia|]. rewrite Z.add_comm, E. reflexivity.
    - intros H. destruct (index <? 0)%Z eqn:Q.
      + apply Z.ltb_lt in Q. assert (X : (index + n <? 0)%Z = true) by (apply Z.ltb_lt; lia). now rewrite X.
      + rewrite Q. apply Z.ltb_ge in Q. assert (X : nth_error (a_objects a) (Z.to_nat index) = None) by (apply nth_error_None; lia). now rewrite X.
  Qed.
End Trainings.
