(** Sample programs with inference over several models. *)

From Coq Require Import String Ascii Bool Arith ZArith QArith Qcanon Lia Permutation List.
From Verif Require Import PyBase PyFacts Num DomainModel NdArray StoreModel NumStore FactorModel GenModel GraphModel ModelModel InferModel CausalModel
  Spec StoreSpec StoreFacts FactorSpec FactorFacts FactorFacts2 PropFacts1 GenSpec GraphSpec GraphFacts GraphChecks ModelSpec ModelFacts Checks FactorChecks
  NetSpec OrderSpec InferChecks CausalSpec CausalChecks MultiModel MultiSpec MultiFacts.
Import ListNotations.
Local Open Scope string_scope.
Local Open Scope nat_scope.
Local Open Scope list_scope.
Local Arguments eqd : simpl never.

Section Trace.
  Context {I : Type}.
  Variable make : pgm -> res I.
  Variable ask : I -> request -> res mfactor.
  Variable dflt : vtype.

  (** the world and what the objects hold, after the statements *)
  Definition after (wh : world I * held) (s : op) : world I * held :=
    (fst (exec make ask dflt (fst wh) s), holds_after (fst wh) (snd wh) s).
  Definition start : world I * held := (MkW [] [], fun _ => ([], false)).
  Definition trace (ss : list op) : world I * held := fold_left after ss start.

  Definition allowedb (w : world I) (s : op) : bool :=
    let object i := i <? length (w_objects w) in
    let list k := match k with Some n => n <? length (w_lists w) | None => true end in
    match s with
    | OTrained _ _ => false
    | OList _ => true
    | OMulti models _ => list models
    | OSet i models => object i && list models
    | OAdd i models => object i && list models &&
        match nth_error (w_objects w) i with
        | None => false
        | Some oi => forallb (fun j => match nth_error (w_objects w) j with
                                       | Some oj => negb (mi_models oi =? mi_models oj) || (j =? i)
                                       | None => true
                                       end) (seq 0 (length (w_objects w)))
        end
    | OInterval i _ | OCompile i | OMore i | OQuery i _ | OProb i _ _ _ _ _ => object i
    end.
  Lemma allowedb_sound w s : allowedb w s = true -> allowed w s.
  Proof.
    assert (L : forall k : option nat, match k with Some n => n <? length (w_lists w) | None => true end = true ->
      forall n, k = Some n -> n < length (w_lists w)).
    { intros k E n ->. now apply Nat.ltb_lt. }
    destruct s; cbn [allowedb allowed]; try discriminate; auto; try (now intros E; apply Nat.ltb_lt).
    - intros E. exact (L _ E).
    - rewrite andb_true_iff. intros [A B]. split; [now apply Nat.ltb_lt|exact (L _ B)].
    - rewrite !andb_true_iff. intros [[A B] C]. split; [now apply Nat.ltb_lt|]. split; [exact (L _ B)|].
      intros j oi oj Ei Ej E. rewrite Ei in C. rewrite forallb_forall in C. specialize (C j).
      assert (J : j < length (w_objects w)) by (apply nth_error_Some; congruence).
      specialize (C ltac:(apply in_seq; lia)). rewrite Ej, E, Nat.eqb_refl in C. cbn in C. now apply Nat.eqb_eq in C.
  Qed.
  Fixpoint all_allowed (wh : world I * held) (ss : list op) : bool :=
    match ss with [] => true | s :: r => allowedb (fst wh) s && all_allowed (after wh s) r end.
  Lemma trace_reaches ss : all_allowed start ss = true -> reaches make ask dflt ss (fst (trace ss)) (snd (trace ss)).
  Proof.
    unfold trace.
    assert (G : forall l ss0 wh, reaches make ask dflt ss0 (fst wh) (snd wh) -> all_allowed wh l = true ->
      reaches make ask dflt (ss0 ++ l) (fst (fold_left after l wh)) (snd (fold_left after l wh))).
    { induction l as [|s r IH]; intros ss0 wh R E; [rewrite app_nil_r; exact R|]. cbn [all_allowed] in E. apply andb_true_iff in E as [E1 E2].
      cbn [fold_left]. replace (ss0 ++ s :: r) with ((ss0 ++ [s]) ++ r) by (rewrite <- app_assoc; reflexivity).
      apply IH; [|exact E2]. apply reach_app; [exact R|]. now apply allowedb_sound. }
    intros E. apply (G ss [] start); [|exact E]. apply reach_nil.
  Qed.
End Trace.

Definition min_fill := heuristic_fn MIN_FILL first_choice.
Definition sample_ask := ve_ask min_fill plain_order.

(** The model of CausalChecks and one with another probability of V. *)
Definition ts_cf' : tables :=
  [("U", ([("U", [SStr "u"; SStr "v"; SStr "w"])], [1#2; 1#3; 1#6]%Q, []));
   ("V", ([("V", l01)], [1#2; 1#2]%Q, []));
   ("X", ([("X", l01); ("U", [SStr "u"; SStr "v"; SStr "w"])], [1; 0; 0; 0; 1; 1]%Q, ["U"]));
   ("Z", ([("X", l01); ("Z", l01)], [0; 1; 1; 0]%Q, ["X"]));
   ("Y", ([("Z", l01); ("V", l01); ("Y", lY)], [1; 0; 1; 0; 0; 1; 1; 0]%Q, ["Z"; "V"]))].
Definition mA : pgm := m_cf VNumpy.
Definition mB : pgm := scm_of VNumpy g_cf ts_cf' os_cf None false.
Lemma mB_ok : causal mB D_cf (table_of VNumpy ts_cf') VNumpy ["X"; "Z"; "Y"] false.
Proof.
  apply causal_check with (os := os_cf); [vm_compute; reflexivity|vm_compute; reflexivity|].
  assert (E : nodes (m_graph mB) = ["U"; "X"; "Z"; "Y"; "V"]) by (vm_compute; reflexivity).
  intros v J. rewrite E in J. destruct J as [<-|[<-|[<-|[<-|[<-|[]]]]]]; vm_compute; reflexivity.
Qed.
Lemma mB_roots : roots (m_graph mB) X_cf /\ plain_roots mB.
Proof.
  split; [apply rootsb_sound; vm_compute; reflexivity|].
  intros v f S N. assert (J : In v ["U"; "X"; "Z"; "V"; "Y"]).
  { unfold stored in S. apply dget_In in S. apply (in_map fst) in S. vm_compute in S; vm_compute; tauto. }
  assert (B : forall x, In v ["X"; "Z"; "Y"] -> x = hd "" (preds (m_graph mB) v) -> arc (m_graph mB) x v).
  { intros x I ->. apply in_preds. destruct I as [<-|[<-|[<-|[]]]]; vm_compute; tauto. }
  destruct J as [<-|[<-|[<-|[<-|[<-|[]]]]]]; try (exfalso; eapply N, B; [cbn; tauto|reflexivity]);
    unfold stored in S; vm_compute in S; injection S as <-; eexists; reflexivity.
Qed.

(** An object answers with the models it has; models are added and set, and the
    next answers are over the new ones. *)
Definition effect_rq : request := MkR ["Y"] (DoDict [("Z", SInt 1)]) [] false None.
Definition story : list op :=
  [OList [mA]; OMulti (Some 0) true; OQuery 0 effect_rq; OList [mB]; OAdd 0 (Some 1);
   OProb 0 PN "Z" "Y" (Some (SInt 0, SInt 1)) (Some (SStr "y1", SStr "y0"))].
Definition w_story : world pgm := fst (trace ve_make sample_ask VNumpy story).
Definition h_story : held := snd (trace ve_make sample_ask VNumpy story).


Fixpoint all_equal (x l : list num) : bool :=
  match x, l with [], [] => true | a :: x, b :: l => num_eqb a b && all_equal x l | _, _ => false end.
(** the answer is a list of these numbers *)
Definition shows (r : res answer) (l : list num) : bool := match r with Ok (ANums x) => all_equal x l | _ => false end.
(** the answer has these lower and upper bounds, in the order of the domain *)
Definition shows_bounds (r : res answer) (l : list num) : bool :=
  match r with Ok (AInterval g) => match if_values g with Ok x => all_equal x l | _ => false end | _ => false end.

Lemma story_reaches : reaches ve_make sample_ask VNumpy story w_story h_story.
Proof. apply trace_reaches. vm_compute. reflexivity. Qed.
Lemma story_holds : h_story 0 = ([mA; mB], true).
Proof. vm_compute. reflexivity. Qed.
Lemma story_object : 0 < length (w_objects w_story).
Proof. vm_compute. apply le_n. Qed.
Lemma story_compiled : is_compiled w_story 0.
Proof.
  unfold is_compiled. destruct (nth_error (w_objects w_story) 0) as [o|] eqn:E.
  - exists o. split; [reflexivity|]. revert E. 
    assert (B : match nth_error (w_objects w_story) 0 with Some o => mi_compiled o | None => false end = true) by (vm_compute; reflexivity).
    intros E. rewrite E in B. exact B.
  - exfalso. assert (B : match nth_error (w_objects w_story) 0 with Some o => mi_compiled o | None => false end = true) by (vm_compute; reflexivity).
    rewrite E in B. discriminate B.
Qed.
Lemma story_settled : settled w_story h_story 0 "Y" None (SStr "y1") (SStr "y0").
Proof.
  split; [apply story_compiled|]. exists mA, lY. split; [rewrite story_holds; reflexivity|]. split; vm_compute; reflexivity.
Qed.

Lemma cf_prob vt ts m p x : causal m D_cf (table_of vt ts) vt ["X"; "Z"; "Y"] false -> plain_roots m -> roots (m_graph m) X_cf ->
  (exists v, arc (m_graph m) "Z" v) -> fresh_names (m_graph m) X_cf (prob_dos p "Z" (SInt 0) (SInt 1)) ->
  prob_given p D_cf (table_of vt ts) X_cf "Z" "Y" (SInt 0) (SInt 1) (SStr "y1") (SStr "y0") <> 0%Qc ->
  x = (prob_joint p D_cf (table_of vt ts) X_cf "Z" "Y" (SInt 0) (SInt 1) (SStr "y1") (SStr "y0") /
       prob_given p D_cf (table_of vt ts) X_cf "Z" "Y" (SInt 0) (SInt 1) (SStr "y1") (SStr "y0"))%Qc ->
  has_probability p D_cf "Z" "Y" (SInt 0) (SInt 1) (SStr "y1") (SStr "y0") m x.
Proof.
  intros H PR HX Ch Fr G E. exists (table_of vt ts), vt, ["X"; "Z"; "Y"], false, X_cf. do 3 (split; [assumption|]).
  split; [intros J; vm_compute in J; intuition discriminate|]. split; [intros J; vm_compute in J; intuition discriminate|].
  do 3 (split; [assumption|]). exact E.
Qed.
Lemma story_probs p : exists a b, Forall2 (has_probability p D_cf "Z" "Y" (SInt 0) (SInt 1) (SStr "y1") (SStr "y0")) (fst (h_story 0)) [a; b] /\
  match p with PS => qeqb a 1 && qeqb b 1 | _ => qeqb a (1#5) && qeqb b (1#2) end = true.
Proof.
  rewrite story_holds. cbn [fst].
  assert (NZ : forall a : Qc, qeqb a 0 = false -> a <> 0%Qc) by (intros a E ->; vm_compute in E; discriminate E).
  eexists. eexists. split.
  - apply Forall2_cons; [|apply Forall2_cons; [|apply Forall2_nil]].
    + eapply cf_prob; [apply cf_ok|apply cf_roots|apply cf_roots| | | |reflexivity].
      * exists "Y". vm_compute. tauto.
      * apply fresh_check. destruct p; vm_compute; reflexivity.
      * apply NZ. destruct p; vm_compute; reflexivity.
    + eapply cf_prob; [apply mB_ok|apply mB_roots|apply mB_roots| | | |reflexivity].
      * exists "Y". vm_compute. tauto.
      * apply fresh_check. destruct p; vm_compute; reflexivity.
      * apply NZ. destruct p; vm_compute; reflexivity.
  - destruct p; vm_compute; reflexivity.
Qed.
Lemma story_effects : exists xs, Forall2 (has_effect D_cf [("Z", SInt 1)] [] "Y") (fst (h_story 0)) xs.
Proof.
  rewrite story_holds. cbn [fst].
  assert (NZ : forall a : Qc, qeqb a 0 = false -> a <> 0%Qc) by (intros a E ->; vm_compute in E; discriminate E).
  assert (Go : forall ts m, causal m D_cf (table_of VNumpy ts) VNumpy ["X"; "Z"; "Y"] false -> plain_roots m -> 
    In "Z" (nodes (m_graph m)) -> In "Y" (nodes (m_graph m)) -> qeqb (do_mass D_cf (table_of VNumpy ts) [("Z", SInt 1)] []) 0 = false ->
    exists x, has_effect D_cf [("Z", SInt 1)] [] "Y" m x).
  { intros ts m H PR Iz Iy G. eexists. exists (table_of VNumpy ts), VNumpy, ["X"; "Z"; "Y"], false. do 2 (split; [assumption|]).
    split; [repeat constructor; intros []|]. split; [intros v [<-|[]]; exact Iz|]. split; [apply knownb_sound; vm_compute; reflexivity|].
    split; [intros v []|]. split; [exact Iy|]. split; [intros [E|[]]; discriminate E|]. split; [intros []|].
    split; [apply NZ; exact G|]. intros s. reflexivity. }
  destruct (Go ts_cf mA) as (x & Hx); [apply cf_ok|apply cf_roots|vm_compute; tauto|vm_compute; tauto|vm_compute; reflexivity|].
  destruct (Go ts_cf' mB) as (y & Hy); [apply mB_ok|apply mB_roots|vm_compute; tauto|vm_compute; tauto|vm_compute; reflexivity|].
  exists [x; y]. apply Forall2_cons; [exact Hx|]. apply Forall2_cons; [exact Hy|]. apply Forall2_nil.
Qed.

(** Two objects share a list: models added through one do not show in the
    answers of the other, although its list has them. *)
Definition shared : list op :=
  [OList [mA]; OMulti (Some 0) true; OMulti (Some 0) true; OCompile 1; OList [mB]; OAdd 0 (Some 1)].
(** The models are replaced by others whose states have other names. *)
Definition lZ : list state := [SStr "z1"; SStr "z0"].
Definition ts_C : tables :=
  [("U", ([("U", lZ)], [1#2; 1#2]%Q, [])); ("V", ([("V", l01)], [1#2; 1#2]%Q, []));
   ("Z", ([("U", lZ); ("Z", lZ)], [0; 1; 1; 0]%Q, ["U"]));
   ("Y", ([("Z", lZ); ("V", l01); ("Y", lY)], [1; 0; 1; 0; 0; 1; 1; 0]%Q, ["Z"; "V"]))].
Definition mC : pgm := scm_of VNumpy (graph_of [("U", "Z"); ("Z", "Y"); ("V", "Y")]) ts_C [] None false.
Definition replaced : list op := [OList [mA]; OMulti (Some 0) true; OCompile 0; OList [mC]; OSet 0 (Some 1)].
(** An object that trains its models, to which one is added. *)
Definition trained : list op := [OTrained (fun _ => Ok [mA]) true; OCompile 0; OList [mB]; OAdd 0 (Some 3)].

(** A -> B in one model and B -> A in the other. *)
Definition ts_ab : tables :=
  [("U", ([("U", l01)], [1#4; 3#4]%Q, [])); ("V", ([("V", l01)], [1#5; 4#5]%Q, []));
   ("A", ([("A", l01); ("U", l01)], [1; 0; 0; 1]%Q, ["U"]));
   ("B", ([("B", l01); ("A", l01); ("V", l01)], [1; 0; 0; 1; 0; 1; 1; 0]%Q, ["A"; "V"]))].
Definition ts_ba : tables :=
  [("U", ([("U", l01)], [1#4; 3#4]%Q, [])); ("V", ([("V", l01)], [1#5; 4#5]%Q, []));
   ("B", ([("B", l01); ("V", l01)], [1; 0; 0; 1]%Q, ["V"]));
   ("A", ([("A", l01); ("B", l01); ("U", l01)], [1; 0; 0; 1; 0; 1; 1; 0]%Q, ["B"; "U"]))].
Definition m_ab : pgm := scm_of VNumpy (graph_of [("U", "A"); ("A", "B"); ("V", "B")]) ts_ab [] None false.
Definition m_ba : pgm := scm_of VNumpy (graph_of [("V", "B"); ("B", "A"); ("U", "A")]) ts_ba [] None false.
Definition D_ab : domain := [("U", l01); ("V", l01); ("A", l01); ("B", l01)].
Definition both : list op := [OList [m_ab; m_ba]; OMulti (Some 0) true].
Lemma ab_ok : causal m_ab D_ab (table_of VNumpy ts_ab) VNumpy ["A"; "B"] false.
Proof.
  apply causal_check with (os := []); [vm_compute; reflexivity|vm_compute; reflexivity|].
  assert (E : nodes (m_graph m_ab) = ["U"; "A"; "B"; "V"]) by (vm_compute; reflexivity).
  intros v J. rewrite E in J. destruct J as [<-|[<-|[<-|[<-|[]]]]]; vm_compute; reflexivity.
Qed.
Lemma ba_ok : causal m_ba D_ab (table_of VNumpy ts_ba) VNumpy ["B"; "A"] false.
Proof.
  apply causal_check with (os := []); [vm_compute; reflexivity|vm_compute; reflexivity|].
  assert (E : nodes (m_graph m_ba) = ["V"; "B"; "A"; "U"]) by (vm_compute; reflexivity).
  intros v J. rewrite E in J. destruct J as [<-|[<-|[<-|[<-|[]]]]]; vm_compute; reflexivity.
Qed.
Definition world_after (ss : list op) : world pgm := program ve_make sample_ask VNumpy (MkW [] []) ss.
Definition models_of (w : world pgm) (i : nat) : list pgm :=
  match nth_error (w_objects w) i with Some o => nth (mi_models o) (w_lists w) [] | None => [] end.

Lemma shared_models : models_of (world_after shared) 1 = [mA; mB].
Proof. vm_compute. reflexivity. Qed.
Lemma shared_answers : 
  shows_bounds (query_answer ve_make sample_ask VNumpy (world_after shared) 1 effect_rq) (map q [4#5; 1#5; 4#5; 1#5]) = true /\
  shows_bounds (query_answer ve_make sample_ask VNumpy (world_after shared) 0 effect_rq) (map q [1#2; 1#5; 4#5; 1#2]) = true.
Proof. split; vm_compute; reflexivity. Qed.
Lemma trained_models : models_of (world_after trained) 0 = [mA; mB].
Proof. vm_compute. reflexivity. Qed.
Lemma trained_answers : 
  shows_bounds (query_answer ve_make sample_ask VNumpy (world_after trained) 0 effect_rq) (map q [4#5; 1#5; 4#5; 1#5]) = true.
Proof. vm_compute. reflexivity. Qed.
Lemma replaced_answers :
  prob_answer ve_make sample_ask VNumpy (world_after replaced) 0 PNS "Z" "Y" None None = Raise ValueError /\
  shows (prob_answer ve_make sample_ask VNumpy (world_after (replaced ++ [OCompile 0])) 0 PNS "Z" "Y" None None) (map q [1#2; 1#2]) = true.
Proof. split; vm_compute; reflexivity. Qed.
Lemma both_answers : query_answer ve_make sample_ask VNumpy (world_after both) 0 (MkR ["A"; "B"] (DoDict []) [] false None) = Raise ValueError.
Proof. vm_compute. reflexivity. Qed.
Lemma both_precise m : In m [m_ab; m_ba] -> exists f, precise ve_make sample_ask (MkR ["A"; "B"] (DoDict []) [] false None) m f.
Proof.
  assert (P : forall m, match (let* m1 := ve_make m in sample_ask m1 (MkR ["A"; "B"] (DoDict []) [] false None)) with Ok _ => true | Raise _ => false end = true ->
    exists f, precise ve_make sample_ask (MkR ["A"; "B"] (DoDict []) [] false None) m f).
  { intros m0 E. unfold precise. destruct (ve_make m0) as [m1|]; [|discriminate E]. cbn [bind] in E.
    destruct (sample_ask m1 _) as [f|] eqn:Ef; [|discriminate E]. eauto. }
  intros [<-|[<-|[]]]; apply P; vm_compute; reflexivity.
Qed.
Lemma story_answers : 
  shows (prob_answer ve_make sample_ask VNumpy w_story 0 PN "Z" "Y" (Some (SInt 0, SInt 1)) None) (map q [1#5; 1#2]) = true /\
  shows (prob_answer ve_make sample_ask VNumpy w_story 0 PS "Z" "Y" (Some (SInt 0, SInt 1)) None) (map q [1#1; 1#1]) = true /\
  shows (prob_answer ve_make sample_ask VNumpy w_story 0 PNS "Z" "Y" (Some (SInt 0, SInt 1)) None) (map q [1#5; 1#2]) = true /\
  shows_bounds (query_answer ve_make sample_ask VNumpy w_story 0 effect_rq) (map q [1#2; 1#5; 4#5; 1#2]) = true.
Proof. repeat split; vm_compute; reflexivity. Qed.
Lemma story_order : exists vs, forall m f, In m (fst (h_story 0)) ->
  precise ve_make sample_ask (fst (prob_request PNS "Z" "Y" (SInt 0) (SInt 1) (SStr "y1") (SStr "y0"))) m f -> mf_vars f = vs.
Proof.
  exists ["Y_1"; "Y_2"]. rewrite story_holds. cbn [fst]. intros m f J (m1 & E1 & E2).
  assert (P : forall m, In m [mA; mB] -> (let* m1 := ve_make m in let* f := sample_ask m1 (fst (prob_request PNS "Z" "Y" (SInt 0) (SInt 1) (SStr "y1") (SStr "y0"))) in Ok (mf_vars f)) = Ok ["Y_1"; "Y_2"]).
  { intros m0 [<-|[<-|[]]]; vm_compute; reflexivity. }
  specialize (P m J). rewrite E1 in P. cbn [bind] in P. rewrite E2 in P. cbn [bind] in P. congruence.
Qed.
