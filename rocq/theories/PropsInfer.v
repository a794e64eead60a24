(** Properties C25-C29 and C50: elimination orderings, variable elimination,
    minimalization, probabilities of observations. *)

From Coq Require Import String Ascii Bool Arith ZArith QArith Qcanon Permutation List.
From Verif Require Import PyBase Num DomainModel NdArray StoreModel NumStore FactorModel GraphModel ModelModel InferModel
  Spec StoreSpec FactorSpec GraphSpec ModelSpec NetSpec OrderSpec OrderFacts PropFacts4 VeFacts6 CausalSpec Checks FactorChecks GraphChecks InferChecks CausalChecks.
Import ListNotations.
Local Open Scope nat_scope.
Local Open Scope string_scope.
Local Open Scope list_scope.

(** ** C25 *)
(** The caller's list is emptied: the second component is what is left of it. *)
Theorem C25_greedy : forall g, wf_graph g -> acyclic g -> forall h sizes,
  (h = MIN_WEIGHT -> forall v, In v (nodes g) -> exists n, dget v sizes = Some n) ->
  forall choose, chooses choose -> forall vs, NoDup vs -> incl vs (nodes g) ->
  exists order, get_elim_ordering h choose g vs sizes = Ok (order, []) /\ Permutation order vs /\ greedy h g sizes order.
Proof. exact ordering_ok. Qed.
Print Assumptions C25_greedy.

(** Repeated or unknown variables are rejected. *)
Theorem C25_raises : forall g, wf_graph g -> acyclic g -> forall h sizes,
  (h = MIN_WEIGHT -> forall v, In v (nodes g) -> exists n, dget v sizes = Some n) ->
  forall choose, chooses choose -> forall vs, ~ NoDup vs \/ ~ incl vs (nodes g) ->
  get_elim_ordering h choose g vs sizes = Raise KeyError.
Proof. exact ordering_raises. Qed.
Print Assumptions C25_raises.

Example C25_case :
  let sizes := [("A", 2); ("B", 3); ("C", 2); ("E", 2); ("H", 2)] in
  let vs := ["C"; "E"; "A"; "H"] in
  wf_graph g_net /\ acyclic g_net /\ chooses first_choice /\ chooses last_choice /\ NoDup vs /\ incl vs (nodes g_net) /\
  get_elim_ordering MIN_SIZE first_choice g_net vs sizes = Ok (["H"; "E"; "C"; "A"], []) /\
  get_elim_ordering MIN_SIZE last_choice g_net vs sizes = Ok (["H"; "E"; "A"; "C"], []) /\
  get_elim_ordering MIN_WEIGHT last_choice g_net vs sizes = Ok (["H"; "E"; "A"; "C"], []) /\
  get_elim_ordering MIN_FILL first_choice g_net vs sizes = Ok (["A"; "H"; "E"; "C"], []) /\
  get_elim_ordering MIN_FILL first_choice g_net ["C"; "Q"] sizes = Raise KeyError /\
  get_elim_ordering MIN_FILL first_choice g_net ["C"; "C"] sizes = Raise KeyError.
Proof.
  intros sizes vs. destruct (dagb_sound g_net) as [W A]; [vm_compute; reflexivity|].
  split; [exact W|]. split; [exact A|]. split; [exact first_chooses|]. split; [exact last_chooses|].
  split; [apply nodupb_sound; vm_compute; reflexivity|]. split; [apply inclb_sound; vm_compute; reflexivity|].
  repeat split; vm_compute; reflexivity.
Qed.

(** ** C26 *)
Theorem C26_posterior : forall m D F vt, network m D F vt ->
  forall e T heur so, is_heuristic heur -> is_set_order so ->
  NoDup T -> T <> [] -> incl T (nodes (m_graph m)) -> incl (keys e) (nodes (m_graph m)) ->
  (forall v, In v T -> ~ In v (keys e)) -> mass D F e <> 0%Qc ->
  exists r, ve_query heur so m T None e = Ok r /\ wf_mf r /\ mf_vtype r = vt /\
    same_set (mf_vars r) T /\ same_set (mf_left r) T /\ mf_right r = [] /\
    (forall v l, In (v, l) (mf_domain r) -> In (v, l) D) /\
    (forall t, assigns D T t -> mf_get_value r t = Ok (Fin (mass D F (t ++ e) / mass D F e)%Qc)) /\
    total (map (entry r) (all_assignments (pick T D))) = 1%Qc.
Proof. exact posterior. Qed.
Print Assumptions C26_posterior.

(** The built-in heuristics qualify, whatever the random choices. *)
Theorem C26_builtin : forall h choose, chooses choose -> is_heuristic (heuristic_fn h choose).
Proof. exact heuristic_ok. Qed.
Print Assumptions C26_builtin.

Theorem C26_rejects : forall m e T heur so,
  (~ NoDup T -> ve_query heur so m T None e = Raise ValueError) /\
  (NoDup T -> forall v, In v T -> In v (keys e) -> ve_query heur so m T None e = Raise ValueError) /\
  (NoDup T -> (forall v, In v T -> ~ In v (keys e)) -> ~ incl (T ++ keys e) (nodes (m_graph m)) ->
     ve_query heur so m T None e = Raise NodeNotFound) /\
  (forall C v, In v T -> In v C -> ve_query heur so m T (Some C) e = Raise ValueError).
Proof. exact rejects. Qed.
Print Assumptions C26_rejects.

(** Deterministic factors cannot be restricted: the query of a variable with one
    raises an exception. *)
Theorem C26_deterministic_raises : forall m D F vt endo cast e T v d heur so, causal m D F vt endo cast -> known D e ->
  NoDup T -> incl T (nodes (m_graph m)) -> incl (keys e) (nodes (m_graph m)) -> (forall w, In w T -> ~ In w (keys e)) ->
  In v T -> stored m v (FD d) -> ve_query heur so m T None e = Raise NotImplementedError.
Proof. exact deterministic_target. Qed.
Print Assumptions C26_deterministic_raises.
Example C26_deterministic_case : causal (m_cf VNumpy) D_cf (table_of VNumpy ts_cf) VNumpy ["X"; "Z"; "Y"] false /\
  known D_cf [("X", SInt 1)] /\ (exists d, stored (m_cf VNumpy) "Z" (FD d)) /\
  ve_query (heuristic_fn MIN_FILL first_choice) plain_order (m_cf VNumpy) ["Z"; "U"] None [("X", SInt 1)] = Raise NotImplementedError.
Proof.
  split; [apply cf_ok|]. split; [apply knownb_sound; vm_compute; reflexivity|].
  split; [eexists; vm_compute; reflexivity|vm_compute; reflexivity].
Qed.

Definition ve_net (T : list var) (e : obs) : res mfactor :=
  ve_query (heuristic_fn MIN_FILL first_choice) plain_order m_net T None e.

Definition net_facts (e : obs) : Prop :=
  network m_net D_net F_net VNumpy /\ is_heuristic (heuristic_fn MIN_FILL first_choice) /\
  is_heuristic (heuristic_fn MIN_SIZE last_choice) /\ is_set_order plain_order /\ is_set_order back_order /\
  mass D_net F_net e <> 0%Qc.
Lemma net_facts_ok e x : qeqb (mass D_net F_net e) x = true -> ~ (x == 0)%Q -> net_facts e.
Proof.
  intros E N. split; [exact (net_ok VNumpy)|]. split; [apply heuristic_ok, first_chooses|]. split; [apply heuristic_ok, last_chooses|].
  split; [exact plain_order_ok|]. split; [exact back_order_ok|]. exact (qeqb_neq _ x 0 E N).
Qed.

(** P(A, H | E = true) is computed; ill-formed queries are rejected. *)
Example C26_case : let e := [("E", SBool true)] in
  net_facts e /\ qeqb (mass D_net F_net e) (179#600) = true /\
  qeqb (mass D_net F_net ([("A", SStr "a0"); ("H", SBool true)] ++ e)%list) ((651#2864) * (179#600)) = true /\
  view (ve_net ["A"; "H"] e) = Ok ([("A", sA); ("H", sC)], ["A"; "H"], [], map q [93#2864; 651#2864; 265#2864; 1855#2864]%Q) /\
  ve_net ["A"; "A"] e = Raise ValueError /\ ve_net ["A"; "E"] e = Raise ValueError /\
  ve_net ["Z"] e = Raise NodeNotFound /\ ve_net [] e = Raise TypeError.
Proof.
  intros e. split; [apply (net_facts_ok e (179#600)); [vm_compute; reflexivity|discriminate]|].
  split; [vm_compute; reflexivity|]. split; [vm_compute; reflexivity|]. split; [apply view_ok; vm_compute; reflexivity|].
  repeat split; vm_compute; reflexivity.
Qed.

(** ** C27 *)
(** Whether or not the evidence is possible. *)
Theorem C27_heuristic : forall m D F vt, network m D F vt ->
  forall e T heur1 heur2 so1 so2, is_heuristic heur1 -> is_heuristic heur2 -> is_set_order so1 -> is_set_order so2 ->
  NoDup T -> T <> [] -> incl T (nodes (m_graph m)) -> incl (keys e) (nodes (m_graph m)) -> known D e ->
  (forall v, In v T -> ~ In v (keys e)) ->
  exists r1 r2, ve_query heur1 so1 m T None e = Ok r1 /\ ve_query heur2 so2 m T None e = Ok r2 /\
    same_set (mf_vars r1) T /\ same_set (mf_vars r2) T /\
    forall t, assigns D T t -> exists x, mf_get_value r1 t = Ok x /\ mf_get_value r2 t = Ok x.
Proof. exact same_answers. Qed.
Print Assumptions C27_heuristic.

Theorem C27_conditional : forall m D F vt, network m D F vt ->
  forall e T C heur1 heur2 so1 so2, is_heuristic heur1 -> is_heuristic heur2 -> is_set_order so1 -> is_set_order so2 ->
  NoDup T -> NoDup C -> T <> [] -> incl T (nodes (m_graph m)) -> incl C (nodes (m_graph m)) ->
  incl (keys e) (nodes (m_graph m)) -> (forall v, In v (T ++ C) -> ~ In v (keys e)) ->
  (forall v, In v T -> ~ In v C) -> mass D F e <> 0%Qc ->
  exists r1 r2, ve_query heur1 so1 m T (Some C) e = Ok r1 /\ ve_query heur2 so2 m T (Some C) e = Ok r2 /\
    same_set (mf_vars r1) (mf_vars r2) /\
    forall t c, assigns D T t -> assigns D C c ->
      exists x, mf_get_value r1 (t ++ c) = Ok x /\ mf_get_value r2 (t ++ c) = Ok x.
Proof. exact same_answers_given. Qed.
Print Assumptions C27_conditional.

(** Two heuristics that eliminate in different orders, and different set orders. *)
Example C27_case : let e := [("H", SBool false)] in
  net_facts e /\ known D_net e /\
  heuristic_fn MIN_FILL first_choice g_net ["B"; "C"; "E"] [] = Ok ["B"; "C"; "E"] /\
  heuristic_fn MIN_SIZE last_choice g_net ["B"; "C"; "E"] [] = Ok ["E"; "B"; "C"] /\
  view (ve_query (heuristic_fn MIN_FILL first_choice) plain_order m_net ["A"] None e) =
    Ok ([("A", sA)], ["A"], [], map q [307#1242; 935#1242]%Q) /\
  view (ve_query (heuristic_fn MIN_SIZE last_choice) back_order m_net ["A"] None e) =
    Ok ([("A", sA)], ["A"], [], map q [307#1242; 935#1242]%Q).
Proof.
  intros e. split; [apply (net_facts_ok e (621#1600)); [vm_compute; reflexivity|discriminate]|].
  split. { intros v l s J E. assert (v = "H") as -> by (cbn in E; destruct (eqd v "H"); [auto|discriminate]).
    vm_compute in E. injection E as <-. destruct J as [J|[J|[J|[J|[J|[]]]]]]; try discriminate. injection J as <-. now left. }
  split; [vm_compute; reflexivity|]. split; [vm_compute; reflexivity|].
  split; apply view_ok; vm_compute; reflexivity.
Qed.

(** ** C28 *)
(** The simplified model is a network over the remaining variables whose
    tables agree with the original ones under the evidence, and it has the same
    posterior of the target. *)
Theorem C28_minimal : forall m D F vt, network m D F vt ->
  forall e T, incl T (nodes (m_graph m)) -> incl (keys e) (nodes (m_graph m)) ->
  (forall v, In v T -> ~ In v (keys e)) -> known D e ->
  exists im G, minimalize m T e = Ok im /\
    let D' := pick (nodes (m_graph im)) D in
    network im D' G vt /\ incl T (nodes (m_graph im)) /\ incl (nodes (m_graph im)) (nodes (m_graph m)) /\
    (forall v o, In v (nodes (m_graph im)) -> full D o -> consistent o e = true -> entry (G v) o = entry (F v) o) /\
    (mass D F e <> 0%Qc -> mass D' G e <> 0%Qc /\
      forall t, assigns D T t -> (mass D' G (t ++ e) / mass D' G e = mass D F (t ++ e) / mass D F e)%Qc).
Proof. exact minimalized. Qed.
Print Assumptions C28_minimal.

(** With C observed: asking for A drops E and H, asking for H drops A, B and C. *)
Example C28_case : let e := [("C", SBool true)] in
  net_facts e /\ known D_net e /\
  (exists im, minimalize m_net ["A"] e = Ok im /\ nodes (m_graph im) = ["A"; "C"; "B"] /\ edges (m_graph im) = [("A", "C"); ("B", "C")]) /\
  (exists im, minimalize m_net ["H"] e = Ok im /\ nodes (m_graph im) = ["E"; "H"] /\ edges (m_graph im) = [("E", "H")]).
Proof.
  intros e. split; [apply (net_facts_ok e (17#60)); [vm_compute; reflexivity|discriminate]|].
  split. { intros v l s J E. assert (v = "C") as -> by (cbn in E; destruct (eqd v "C"); [auto|discriminate]).
    vm_compute in E. injection E as <-. destruct J as [J|[J|[J|[J|[J|[]]]]]]; try discriminate. injection J as <-. right. now left. }
  split; eexists; (split; [vm_compute; reflexivity|split; vm_compute; reflexivity]).
Qed.

(** ** C29 *)
(** The second clause: at configurations of the conditioning variables that are
    impossible, 0 in numpy stores and NaN in the others. *)
Theorem C29_conditional : forall m D F vt, network m D F vt ->
  forall e T C heur so, is_heuristic heur -> is_set_order so ->
  NoDup T -> NoDup C -> T <> [] -> incl T (nodes (m_graph m)) -> incl C (nodes (m_graph m)) ->
  incl (keys e) (nodes (m_graph m)) -> (forall v, In v (T ++ C) -> ~ In v (keys e)) ->
  (forall v, In v T -> ~ In v C) -> mass D F e <> 0%Qc ->
  exists r, ve_query heur so m T (Some C) e = Ok r /\ wf_mf r /\ mf_vtype r = vt /\
    same_set (mf_vars r) (T ++ C) /\ same_set (mf_left r) T /\ same_set (mf_right r) C /\
    (forall v l, In (v, l) (mf_domain r) -> In (v, l) D) /\
    (forall t c, assigns D T t -> assigns D C c -> mass D F (c ++ e) <> 0%Qc ->
      mf_get_value r (t ++ c) = Ok (Fin (mass D F (t ++ c ++ e) / mass D F (c ++ e))%Qc)) /\
    (forall t c, assigns D T t -> assigns D C c -> nonnegative D F -> mass D F (c ++ e) = 0%Qc ->
      mf_get_value r (t ++ c) = Ok (match vt with VNumpy => Fin 0 | _ => NaN end)%Qc).
Proof. exact conditional. Qed.
Print Assumptions C29_conditional.

Example C29_case : let e := [("H", SBool true)] in
  net_facts e /\ nonnegative D_net F_net /\
  qeqb (mass D_net F_net ([("B", SInt 0); ("C", SBool true)] ++ e)%list) 0 = true /\
  view (ve_query (heuristic_fn MIN_SIZE last_choice) plain_order m_net ["A"] (Some ["B"; "C"]) e) =
    Ok ([("A", sA); ("C", sC); ("B", sB)], ["A"], ["C"; "B"],
        map q [1#4; 1#3; 1#11; 0; 1#5; 4#9; 3#4; 2#3; 10#11; 0; 4#5; 5#9]%Q).
Proof.
  intros e. split; [apply (net_facts_ok e (979#1600)); [vm_compute; reflexivity|discriminate]|].
  split; [apply (nonneg_check _ _ VNumpy m_net); [exact (net_ok VNumpy)|vm_compute; reflexivity]|].
  split; [vm_compute; reflexivity|]. apply view_ok; vm_compute; reflexivity.
Qed.

(** ** C50 *)
Theorem C50_prob : forall m D F vt, network m D F vt ->
  forall os, keys (m_factors m) <> [] -> (forall o, In o os -> full D o) ->
  m_prob m os = Ok (map (fun o => Fin (joint F (keys D) o)) os).
Proof. exact prob_ok. Qed.
Print Assumptions C50_prob.

Theorem C50_total : forall m D F vt, network m D F vt ->
  total (map (joint F (keys D)) (all_assignments D)) = 1%Qc.
Proof. exact prob_total. Qed.
Print Assumptions C50_total.

Example C50_case : let os := [[("A", SStr "a0"); ("B", SInt 1); ("C", SBool true); ("E", SBool true); ("H", SBool false)];
                              [("H", SBool false); ("A", SStr "a0"); ("B", SInt 0); ("C", SBool true); ("E", SBool true)]] in
  network m_net D_net F_net VNumpy /\ (forall o, In o os -> full D_net o) /\
  (match m_prob m_net os with Ok l => nums_eqb l (map q [1#240; 0]%Q) | _ => false end) = true.
Proof.
  intros os. split; [exact (net_ok VNumpy)|]. split; [|vm_compute; reflexivity].
  intros o [<-|[<-|[]]]; apply fullb_sound; vm_compute; reflexivity.
Qed.
