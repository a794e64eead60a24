(** Property C69: interventional answers obey the calculus of interventions. *)

From Coq Require Import String Ascii Bool Arith ZArith QArith Qcanon Permutation List.
From Verif Require Import PyBase Num DomainModel NdArray StoreModel NumStore FactorModel GraphModel ModelModel InferModel CausalModel
  Spec StoreSpec FactorSpec GraphSpec ModelSpec NetSpec OrderSpec CausalSpec SepSpec LawSpec CalcSpec
  CalcFacts4 CalcFacts5 CalcFacts6 Checks FactorChecks GraphChecks InferChecks CausalChecks CalcChecks.
Import ListNotations.
Local Open Scope nat_scope.
Local Open Scope string_scope.
Local Open Scope list_scope.

(** ** C69 *)
(** Rule 1: evidence that is separated from the target, once the arcs into the
    intervened variables are cut, may be dropped. *)
Theorem C69_ignore_evidence : forall m D F vt endo cast, causal m D F vt endo cast -> plain_roots m ->
  forall heur so, is_heuristic heur -> is_set_order so ->
  forall w e z T, states_for (m_graph m) D w -> states_for (m_graph m) D e -> states_for (m_graph m) D z ->
  NoDup (keys w ++ keys e ++ keys z) ->
  NoDup T -> T <> [] -> incl T (nodes (m_graph m)) -> (forall v, In v T -> ~ In v (keys w ++ keys e ++ keys z)) ->
  apart (remove_ingoing_edges (m_graph m) (keys w)) (keys z ++ keys w) T (keys e) ->
  do_mass D F w (e ++ z) <> 0%Qc -> do_mass D F w z <> 0%Qc ->
  exists m1, cve_init m = Ok m1 /\
    agree D T (causal_query heur so m1 T (DoDict w) (e ++ z)) (causal_query heur so m1 T (DoDict w) z).
Proof. exact ignore_evidence. Qed.
Print Assumptions C69_ignore_evidence.

(** Rule 2: if the target is separated from [d] once the arcs out of [d] are
    cut too, then acting on [d] and observing [d] give the same answer. *)
Theorem C69_act_or_observe : forall m D F vt endo cast, causal m D F vt endo cast -> plain_roots m ->
  forall heur so, is_heuristic heur -> is_set_order so ->
  forall w d z T, states_for (m_graph m) D w -> states_for (m_graph m) D d -> states_for (m_graph m) D z ->
  NoDup (keys w ++ keys d ++ keys z) ->
  NoDup T -> T <> [] -> incl T (nodes (m_graph m)) -> (forall v, In v T -> ~ In v (keys w ++ keys d ++ keys z)) ->
  apart (remove_outgoing_edges (remove_ingoing_edges (m_graph m) (keys w)) (keys d)) (keys z ++ keys w) T (keys d) ->
  do_mass D F (w ++ d) z <> 0%Qc -> do_mass D F w (z ++ d) <> 0%Qc ->
  exists m1, cve_init m = Ok m1 /\
    agree D T (causal_query heur so m1 T (DoDict (w ++ d)) z) (causal_query heur so m1 T (DoDict w) (z ++ d)).
Proof. exact act_or_observe. Qed.
Print Assumptions C69_act_or_observe.

(** Rule 3: interventions may be dropped if the target is separated from them
    once the arcs into those of them that are not above the evidence are cut. *)
Theorem C69_ignore_intervention : forall m D F vt endo cast, causal m D F vt endo cast -> plain_roots m ->
  forall heur so, is_heuristic heur -> is_set_order so ->
  forall w d1 d2 z T, states_for (m_graph m) D w -> states_for (m_graph m) D d1 -> states_for (m_graph m) D d2 ->
  states_for (m_graph m) D z -> NoDup (keys w ++ keys d1 ++ keys d2 ++ keys z) ->
  NoDup T -> T <> [] -> incl T (nodes (m_graph m)) -> (forall v, In v T -> ~ In v (keys w ++ keys d1 ++ keys d2 ++ keys z)) ->
  upstream (remove_ingoing_edges (m_graph m) (keys w)) (keys d1) (keys z) ->
  apart (remove_ingoing_edges (m_graph m) (keys (w ++ d1))) (keys z ++ keys w) T (keys d1 ++ keys d2) ->
  do_mass D F (w ++ d1 ++ d2) z <> 0%Qc -> do_mass D F (w ++ d1) (z ++ d2) <> 0%Qc -> do_mass D F w z <> 0%Qc ->
  exists m1, cve_init m = Ok m1 /\
    agree D T (causal_query heur so m1 T (DoDict (w ++ d1 ++ d2)) z) (causal_query heur so m1 T (DoDict w) z).
Proof. exact ignore_intervention. Qed.
Print Assumptions C69_ignore_intervention.

(** The back-door formula: P(t | do d) = sum over z of P(z) P(t | z, d). *)
Theorem C69_back_door : forall m D F vt endo cast, causal m D F vt endo cast -> plain_roots m ->
  forall heur so, is_heuristic heur -> is_set_order so ->
  forall d T Z, states_for (m_graph m) D d -> NoDup T -> T <> [] -> incl T (nodes (m_graph m)) ->
  (forall v, In v T -> ~ In v Z /\ ~ In v (keys d)) -> keys (pick Z D) = Z -> Z <> [] ->
  upstream (m_graph m) (keys d) Z -> apart (remove_outgoing_edges (m_graph m) (keys d)) Z T (keys d) ->
  (forall z, assigns D Z z -> mass D F (z ++ d) <> 0%Qc) ->
  forall t, assigns D T t -> exists m1 pz pt, cve_init m = Ok m1 /\
    (forall z, assigns D Z z -> answer (causal_query heur so m1 Z (DoDict []) []) z (pz z) /\
                                answer (causal_query heur so m1 T (DoDict []) (z ++ d)) t (pt z)) /\
    answer (causal_query heur so m1 T (DoDict d) []) t (total (map (fun z => pz z * pt z)%Qc (all_assignments (pick Z D)))).
Proof. exact back_door_ok. Qed.
Print Assumptions C69_back_door.

(** The front-door formula:
    P(t | do x) = sum over z of P(z | x) (sum over x' of P(x') P(t | x', z)). *)
Theorem C69_front_door : forall m D F vt endo cast, causal m D F vt endo cast -> plain_roots m ->
  forall heur so, is_heuristic heur -> is_set_order so ->
  forall x T M, states_for (m_graph m) D x -> keys (pick (keys x) D) = keys x -> keys x <> [] ->
  NoDup T -> T <> [] -> incl T (nodes (m_graph m)) -> keys (pick M D) = M -> M <> [] ->
  (forall v, In v T -> ~ In v M /\ ~ In v (keys x)) -> (forall v, In v M -> ~ In v (keys x)) ->
  upstream (remove_ingoing_edges (m_graph m) M) (keys x) T ->
  apart (remove_outgoing_edges (m_graph m) (keys x)) [] M (keys x) ->
  apart (remove_outgoing_edges (m_graph m) M) (keys x) T M -> upstream (m_graph m) M (keys x) ->
  (forall x' z, assigns D (keys x) x' -> assigns D M z -> mass D F (x' ++ z) <> 0%Qc) -> mass D F x <> 0%Qc ->
  forall t, assigns D T t -> exists m1 pm px pt, cve_init m = Ok m1 /\
    (forall z, assigns D M z -> answer (causal_query heur so m1 M (DoDict []) x) z (pm z)) /\
    (forall x', assigns D (keys x) x' -> answer (causal_query heur so m1 (keys x) (DoDict []) []) x' (px x')) /\
    (forall x' z, assigns D (keys x) x' -> assigns D M z -> answer (causal_query heur so m1 T (DoDict []) (x' ++ z)) t (pt x' z)) /\
    answer (causal_query heur so m1 T (DoDict x) []) t
      (total (map (fun z => pm z * total (map (fun x' => px x' * pt x' z) (all_assignments (pick (keys x) D))))%Qc (all_assignments (pick M D)))).
Proof. exact front_door_ok. Qed.
Print Assumptions C69_front_door.

(** Consistency: had a cause been what it was observed to be, everything would
    be as it was. *)
Theorem C69_consistency : forall m D F vt endo cast, causal m D F vt endo cast -> plain_roots m -> forall X, roots (m_graph m) X ->
  forall heur so, is_heuristic heur -> is_set_order so ->
  forall d e T, states_for (m_graph m) D d -> (forall v, In v (keys d) -> ~ In v X /\ keeps_child (m_graph m) d v) ->
  fresh_names (m_graph m) X [d] -> incl (keys e) (nodes (m_graph m)) -> (forall v s, dget v d = Some s -> dget v e = Some s) ->
  NoDup T -> T <> [] -> incl T (nodes (m_graph m)) -> (forall v, In v T -> ~ In v X /\ ~ In v (keys e)) -> mass D F e <> 0%Qc ->
  exists m1, cve_init m = Ok m1 /\ forall xs, length xs = length T -> assigns D T (combine T xs) ->
    exists p, answer (counterfactual_query heur so m1 T (DoDict d) e (Some (map (fun _ => 1) T)))
                     (combine (copy_names (map (fun v => (v, 1)) T)) xs) p /\
              answer (causal_query heur so m1 T (DoDict []) e) (combine T xs) p.
Proof. exact consistency. Qed.
Print Assumptions C69_consistency.

(** The model with the mediator M meets the conditions of the rules for the
    interventions and the evidence used here. *)
Example C69_rules_case : forall vt, let F := table_of vt ts_med in let g := m_graph (m_med vt) in
  causal (m_med vt) D_med F vt ["X"; "Y"; "M"] false /\ plain_roots (m_med vt) /\
  (* rule 1: M does not depend on U under do(X = 1) *)
  (apart (remove_ingoing_edges g ["X"]) ["X"] ["M"] ["U"] /\ do_mass D_med F [("X", SInt 1)] [("U", SInt 0)] <> 0%Qc) /\
  (* rule 2: acting on M is observing M, given X *)
  (apart (remove_outgoing_edges (remove_ingoing_edges g []) ["M"]) ["X"] ["Y"] ["M"] /\
   do_mass D_med F [("M", SInt 1)] [("X", SInt 0)] <> 0%Qc /\ do_mass D_med F [] [("X", SInt 0); ("M", SInt 1)] <> 0%Qc /\
   ~ apart (remove_outgoing_edges (remove_ingoing_edges g []) ["X"]) [] ["Y"] ["X"]) /\
  (* rule 3: given U, actions on M and X do not change B *)
  (upstream (remove_ingoing_edges g []) ["M"] ["U"] /\ apart (remove_ingoing_edges g ["M"]) ["U"] ["B"] ["M"; "X"] /\
   do_mass D_med F [("M", SInt 1)] [("U", SInt 0); ("X", SInt 0)] <> 0%Qc) /\
  (let h := heuristic_fn MIN_FILL first_choice in
   let* m1 := cve_init (m_med vt) in
   let ask T d e t p := match causal_query h plain_order m1 T (DoDict d) e with Ok r => okb (mf_get_value r t) (q p) | Raise _ => false end in
   Ok [ask ["M"] [("X", SInt 1)] [("U", SInt 0)] [("M", SInt 1)] (3#4); ask ["M"] [("X", SInt 1)] [] [("M", SInt 1)] (3#4);
       ask ["Y"] [("M", SInt 0)] [("X", SInt 1)] [("Y", SInt 1)] (1#1); ask ["Y"] [] [("X", SInt 1); ("M", SInt 0)] [("Y", SInt 1)] (1#1);
       ask ["Y"] [("M", SInt 1)] [("X", SInt 1)] [("Y", SInt 1)] (1#2); ask ["Y"] [] [("X", SInt 1); ("M", SInt 1)] [("Y", SInt 1)] (1#2);
       ask ["B"] [("M", SInt 1); ("X", SInt 0)] [("U", SInt 0)] [("B", SInt 1)] (1#4); ask ["B"] [] [("U", SInt 0)] [("B", SInt 1)] (1#4);
       (* without the conditions the answers differ *)
       ask ["Y"] [("X", SInt 1)] [] [("Y", SInt 1)] (27#40); ask ["Y"] [] [("X", SInt 1)] [("Y", SInt 1)] (5#8);
       ask ["B"] [("M", SInt 1)] [] [("B", SInt 1)] (1#4); ask ["B"] [] [("M", SInt 1)] [("B", SInt 1)] (2#11)]) =
  Ok [true; true; true; true; true; true; true; true; true; true; true; true].
Proof.
  intros vt F g. split; [apply med_ok|]. split; [apply med_plain|].
  assert (Eg : g = g_med) by apply med_graph. rewrite Eg. clear Eg g. unfold F. clear F.
  split; [split; [apply apartb_sound; vm_compute; reflexivity|apply positive_sound; destruct vt; vm_compute; reflexivity]|].
  split; [split; [apply apartb_sound; vm_compute; reflexivity|split; [apply positive_sound; destruct vt; vm_compute; reflexivity|split; [apply positive_sound; destruct vt; vm_compute; reflexivity|]]]|].
  { intros A. apply (A "Y" "X"); [now left|now left|]. exists Into. apply act_down with (d := OutOf) (y := "U"); [|intros []|vm_compute; tauto].
    apply act_up with (d := AtStart) (y := "Y"); [apply act_start|discriminate|intros []|vm_compute; tauto]. }
  split; [split; [apply upstreamb_sound; vm_compute; reflexivity|split; [apply apartb_sound; vm_compute; reflexivity|apply positive_sound; destruct vt; vm_compute; reflexivity]]|].
  destruct vt; vm_compute; reflexivity.
Qed.

(** X is a back-door set for the effect of M on Y, and M a front-door set for
    that of X on Y. *)
Example C69_door_case : forall vt, let F := table_of vt ts_med in let g := m_graph (m_med vt) in
  (states_for g D_med [("M", SInt 1)] /\ keys (pick ["X"] D_med) = ["X"] /\ upstream g ["M"] ["X"] /\
   apart (remove_outgoing_edges g ["M"]) ["X"] ["Y"] ["M"] /\
   forall z, assigns D_med ["X"] z -> mass D_med F (z ++ [("M", SInt 1)]) <> 0%Qc) /\
  (states_for g D_med [("X", SInt 1)] /\ keys (pick ["M"] D_med) = ["M"] /\ upstream (remove_ingoing_edges g ["M"]) ["X"] ["Y"] /\
   apart (remove_outgoing_edges g ["X"]) [] ["M"] ["X"] /\
   forall x z, assigns D_med ["X"] x -> assigns D_med ["M"] z -> mass D_med F (x ++ z) <> 0%Qc) /\
  (let h := heuristic_fn MIN_FILL first_choice in
   let* m1 := cve_init (m_med vt) in
   let ask T d e t p := match causal_query h plain_order m1 T (DoDict d) e with Ok r => okb (mf_get_value r t) (q p) | Raise _ => false end in
   Ok [ask ["Y"] [("M", SInt 1)] [] [("Y", SInt 1)] (7#10); ask ["X"] [] [] [("X", SInt 1)] (3#5);
       ask ["Y"] [] [("X", SInt 0); ("M", SInt 1)] [("Y", SInt 1)] (1#1); ask ["Y"] [] [("X", SInt 1); ("M", SInt 1)] [("Y", SInt 1)] (1#2);
       ask ["Y"] [("X", SInt 1)] [] [("Y", SInt 1)] (27#40); ask ["M"] [] [("X", SInt 1)] [("M", SInt 1)] (3#4);
       ask ["Y"] [] [("X", SInt 0); ("M", SInt 0)] [("Y", SInt 1)] (0#1); ask ["Y"] [] [("X", SInt 1); ("M", SInt 0)] [("Y", SInt 1)] (1#1)]) =
  Ok [true; true; true; true; true; true; true; true].
Proof.
  intros vt F g. assert (Eg : g = g_med) by apply med_graph. rewrite Eg. clear Eg g. unfold F. clear F.
  split; [|split; [|destruct vt; vm_compute; reflexivity]].
  - split; [apply statesb_sound; vm_compute; reflexivity|]. split; [reflexivity|]. split; [apply upstreamb_sound; vm_compute; reflexivity|].
    split; [apply apartb_sound; vm_compute; reflexivity|]. apply all_positive_sound. destruct vt; vm_compute; reflexivity.
  - split; [apply statesb_sound; vm_compute; reflexivity|]. split; [reflexivity|]. split; [apply upstreamb_sound; vm_compute; reflexivity|].
    split; [apply apartb_sound; vm_compute; reflexivity|]. apply all_positive2_sound. destruct vt; vm_compute; reflexivity.
Qed.

(** X = 1 and M = 1 were observed; had X been 1, Y would be 1 with the observed
    probability 1/2; had X been 0, it would be 1 for certain. *)
Example C69_consistency_case : forall vt, let g := m_graph (m_med vt) in
  roots g ["U"; "B"] /\ keeps_child g [("X", SInt 1)] "X" /\ fresh_names g ["U"; "B"] [[("X", SInt 1)]] /\
  mass D_med (table_of vt ts_med) [("X", SInt 1); ("M", SInt 1)] <> 0%Qc /\
  (let h := heuristic_fn MIN_FILL first_choice in
   let* m1 := cve_init (m_med vt) in
   let e := [("X", SInt 1); ("M", SInt 1)] in
   let what x p := match counterfactual_query h plain_order m1 ["Y"] (DoDict [("X", SInt x)]) e (Some [1]) with
                   | Ok r => okb (mf_get_value r [("Y_1", SInt 1)]) (q p) | Raise _ => false end in
   let seen p := match causal_query h plain_order m1 ["Y"] (DoDict []) e with Ok r => okb (mf_get_value r [("Y", SInt 1)]) (q p) | Raise _ => false end in
   Ok [what 1%Z (1#2); seen (1#2); what 0%Z (1#1); what 0%Z (1#2)]) = Ok [true; true; true; false].
Proof.
  intros vt g. assert (Eg : g = g_med) by apply med_graph. rewrite Eg. clear Eg g.
  split; [apply rootsb_sound; vm_compute; reflexivity|]. split; [exists "M"; split; [vm_compute; tauto|intros [E|[]]; discriminate]|].
  split; [apply fresh_check; vm_compute; reflexivity|]. split.
  - rewrite <- (CalcFacts4.do_none D_med). apply positive_sound. destruct vt; vm_compute; reflexivity.
  - destruct vt; vm_compute; reflexivity.
Qed.
