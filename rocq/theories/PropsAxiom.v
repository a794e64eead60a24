(** Property C74: counterfactual answers obey the axioms of counterfactuals. *)

From Coq Require Import String Ascii Bool Arith ZArith QArith Qcanon Permutation List.
From Verif Require Import PyBase Num DomainModel NdArray StoreModel NumStore FactorModel GraphModel ModelModel InferModel CausalModel
  Spec StoreSpec FactorSpec GraphSpec ModelSpec NetSpec OrderSpec CausalSpec SepSpec LawSpec CalcSpec AxiomSpec
  AxiomFacts CalcFacts4 Checks FactorChecks GraphChecks InferChecks CausalChecks CalcChecks AxiomChecks.
Import ListNotations.
Local Open Scope nat_scope.
Local Open Scope string_scope.
Local Open Scope list_scope.

(** ** C74 *)
(** Only the interventions of the worlds matter: not their numbers, nor the
    worlds without a target, nor the order in which the interventions and the
    evidence are written. *)
Theorem C74_worlds : forall m D F vt endo cast, causal m D F vt endo cast -> plain_roots m -> forall X, roots (m_graph m) X ->
  forall heur so, is_heuristic heur -> is_set_order so ->
  forall dos e ti dos' e' ti', well_posed (m_graph m) D F X dos e ti -> well_posed (m_graph m) D F X dos' e' ti' ->
  same_obs e e' -> moved (fun _ => same_obs) dos dos' ti ti' ->
  exists m1, cve_init m = Ok m1 /\ forall xs, states_of D ti xs -> exists p,
    answer (counterfactual_query heur so m1 (map fst ti) (DoList dos) e (Some (map snd ti))) (combine (copy_names ti) xs) p /\
    answer (counterfactual_query heur so m1 (map fst ti') (DoList dos') e' (Some (map snd ti'))) (combine (copy_names ti') xs) p.
Proof. exact same_worlds. Qed.
Print Assumptions C74_worlds.

(** Exclusion: a target may be moved to a world with further interventions, or
    back, if these do not act on it. *)
Theorem C74_exclusion : forall m D F vt endo cast, causal m D F vt endo cast -> plain_roots m -> forall X, roots (m_graph m) X ->
  forall heur so, is_heuristic heur -> is_set_order so ->
  forall dos e ti dos' ti', well_posed (m_graph m) D F X dos e ti -> well_posed (m_graph m) D F X dos' e ti' ->
  moved (fun v d d' => idle_for (m_graph m) v d d' \/ idle_for (m_graph m) v d' d) dos dos' ti ti' ->
  exists m1, cve_init m = Ok m1 /\ forall xs, states_of D ti xs -> exists p,
    answer (counterfactual_query heur so m1 (map fst ti) (DoList dos) e (Some (map snd ti))) (combine (copy_names ti) xs) p /\
    answer (counterfactual_query heur so m1 (map fst ti') (DoList dos') e (Some (map snd ti'))) (combine (copy_names ti') xs) p.
Proof. exact idle_worlds. Qed.
Print Assumptions C74_exclusion.

(** Composition: where the variables of [w] take the states of [w] by
    themselves, a target may be moved to the world where they are forced to. *)
Theorem C74_composition : forall m D F vt endo cast, causal m D F vt endo cast -> plain_roots m -> forall X, roots (m_graph m) X ->
  forall heur so, is_heuristic heur -> is_set_order so ->
  forall dos e ti ti' i j d w, well_posed (m_graph m) D F X dos e ti -> well_posed (m_graph m) D F X dos e ti' ->
  In (i, d) (worlds dos) -> In (j, w ++ d) (worlds dos) ->
  Forall2 (fun a b => a = b \/ fst a = fst b /\ snd a = i /\ snd b = j) ti ti' ->
  exists m1, cve_init m = Ok m1 /\ forall xs, states_of D ti xs ->
    (forall v s, dget v w = Some s -> In ((v, i), s) (combine ti xs)) -> exists p,
    answer (counterfactual_query heur so m1 (map fst ti) (DoList dos) e (Some (map snd ti))) (combine (copy_names ti) xs) p /\
    answer (counterfactual_query heur so m1 (map fst ti') (DoList dos) e (Some (map snd ti'))) (combine (copy_names ti') xs) p.
Proof. exact composed. Qed.
Print Assumptions C74_composition.

(** Evidence about variables on which the intervention does not act may be
    taken as observed before or after it: the counterfactual answer is the
    interventional one. *)
Theorem C74_nondescendants : forall m D F vt endo cast, causal m D F vt endo cast -> plain_roots m -> forall X, roots (m_graph m) X ->
  forall heur so, is_heuristic heur -> is_set_order so ->
  forall d T, states_for (m_graph m) D d -> (forall v, In v (keys d) -> ~ In v X /\ keeps_child (m_graph m) d v) -> fresh_names (m_graph m) X [d] ->
  NoDup T -> T <> [] -> incl T (nodes (m_graph m)) -> (forall v, In v T -> ~ In v X /\ ~ In v (keys d)) ->
  forall e, states_for (m_graph m) D e -> (forall v, In v T -> ~ In v (keys e)) -> upstream (m_graph m) (keys d) (keys e) -> mass D F e <> 0%Qc ->
  exists m1, cve_init m = Ok m1 /\ forall xs, length xs = length T -> assigns D T (combine T xs) -> exists p,
    answer (counterfactual_query heur so m1 T (DoDict d) e (Some (map (fun _ => 1) T))) (combine (copy_names (map (fun v => (v, 1)) T)) xs) p /\
    answer (causal_query heur so m1 T (DoDict d) e) (combine T xs) p.
Proof. exact nondescendants. Qed.
Print Assumptions C74_nondescendants.

(** The interventional answer is the average of the counterfactual answers
    over what might have been observed: P(t_d) = sum over z of P(z) P(t_d | z). *)
Theorem C74_average : forall m D F vt endo cast, causal m D F vt endo cast -> plain_roots m -> forall X, roots (m_graph m) X ->
  forall heur so, is_heuristic heur -> is_set_order so ->
  forall d T, states_for (m_graph m) D d -> (forall v, In v (keys d) -> ~ In v X /\ keeps_child (m_graph m) d v) -> fresh_names (m_graph m) X [d] ->
  NoDup T -> T <> [] -> incl T (nodes (m_graph m)) -> (forall v, In v T -> ~ In v X /\ ~ In v (keys d)) ->
  forall Z, keys (pick Z D) = Z -> Z <> [] -> (forall z, assigns D Z z -> mass D F z <> 0%Qc) ->
  forall xs, length xs = length T -> assigns D T (combine T xs) -> exists m1 pz pt, cve_init m = Ok m1 /\
    (forall z, assigns D Z z -> answer (causal_query heur so m1 Z (DoDict []) []) z (pz z) /\
       answer (counterfactual_query heur so m1 T (DoDict d) z (Some (map (fun _ => 1) T))) (combine (copy_names (map (fun v => (v, 1)) T)) xs) (pt z)) /\
    answer (causal_query heur so m1 T (DoDict d) []) (combine T xs) (total (map (fun z => pz z * pt z)%Qc (all_assignments (pick Z D)))).
Proof. exact average. Qed.
Print Assumptions C74_average.

(** The model with the mediator M: X = 1 and Y = 1 in the factual world, where
    Y may also be taken from the world with X = 1; X with and without an
    intervention on M; and what Y would be under X = 0 and under X = 1. *)
Example C74_case : forall vt, let F := table_of vt ts_med in let g := m_graph (m_med vt) in let X := ["U"; "B"] in
  let do x : obs := [("X", SInt x)] in
  (causal (m_med vt) D_med F vt ["X"; "Y"; "M"] false /\ plain_roots (m_med vt) /\ roots g X) /\
  (* worlds *)
  (well_posed g D_med F X [do 0%Z; do 1%Z] [("M", SInt 1); ("X", SInt 1)] [("Y", 1); ("Y", 2)] /\
   well_posed g D_med F X [do 1%Z; [("M", SInt 0)]; do 0%Z] [("X", SInt 1); ("M", SInt 1)] [("Y", 3); ("Y", 1)] /\
   moved (fun _ => same_obs) [do 0%Z; do 1%Z] [do 1%Z; [("M", SInt 0)]; do 0%Z] [("Y", 1); ("Y", 2)] [("Y", 3); ("Y", 1)]) /\
  (* exclusion *)
  (well_posed g D_med F X [[("M", SInt 1)]; []] [] [("X", 1); ("Y", 1)] /\
   well_posed g D_med F X [[("M", SInt 1)]; []] [] [("X", 2); ("Y", 1)] /\
   idle_for g "X" [] [("M", SInt 1)] /\ ~ idle_for g "Y" [] [("M", SInt 1)]) /\
  (* composition *)
  (well_posed g D_med F X [[]; do 1%Z] [] [("X", 1); ("Y", 1)] /\ well_posed g D_med F X [[]; do 1%Z] [] [("X", 1); ("Y", 2)]) /\
  (* evidence about X and an intervention on M *)
  (upstream g ["M"] ["X"] /\ mass D_med F [("X", SInt 1)] <> 0%Qc) /\
  (* averages over M *)
  (forall z, assigns D_med ["M"] z -> mass D_med F z <> 0%Qc) /\
  (let h := heuristic_fn MIN_FILL first_choice in
   let* m1 := cve_init (m_med vt) in
   let what ti dos e t p := match counterfactual_query h plain_order m1 (map fst ti) (DoList dos) e (Some (map snd ti)) with
                            | Ok r => okb (mf_get_value r (combine (copy_names ti) t)) (q p) | Raise _ => false end in
   Ok [what [("Y", 1); ("Y", 2)] [do 0%Z; do 1%Z] [("M", SInt 1); ("X", SInt 1)] [SInt 1; SInt 1] (1#2);
       what [("Y", 3); ("Y", 1)] [do 1%Z; [("M", SInt 0)]; do 0%Z] [("X", SInt 1); ("M", SInt 1)] [SInt 1; SInt 1] (1#2);
       what [("X", 1); ("Y", 1)] [[("M", SInt 1)]; []] [] [SInt 1; SInt 1] (3#10);
       what [("X", 2); ("Y", 1)] [[("M", SInt 1)]; []] [] [SInt 1; SInt 1] (3#10);
       what [("X", 2); ("Y", 2)] [[("M", SInt 1)]; []] [] [SInt 1; SInt 1] (3#8);
       what [("X", 1); ("Y", 1)] [[]; do 1%Z] [] [SInt 1; SInt 1] (3#8);
       what [("X", 1); ("Y", 2)] [[]; do 1%Z] [] [SInt 1; SInt 1] (3#8);
       what [("X", 1); ("Y", 1)] [[]; do 1%Z] [] [SInt 0; SInt 1] (1#10);
       what [("X", 1); ("Y", 2)] [[]; do 1%Z] [] [SInt 0; SInt 1] (3#10);
       what [("Y", 1)] [[("M", SInt 1)]] [("X", SInt 1)] [SInt 1] (1#2);
       what [("Y", 1)] [do 1%Z] [("M", SInt 0)] [SInt 1] (1#1); what [("Y", 1)] [do 1%Z] [("M", SInt 1)] [SInt 1] (9#22)]) =
  Ok [true; true; true; true; true; true; true; true; true; true; true; true].
Proof.
  intros vt F g X do. split; [split; [apply med_ok|split; [apply med_plain|]]|].
  { apply rootsb_sound. destruct vt; vm_compute; reflexivity. }
  assert (Eg : g = g_med) by apply med_graph. rewrite Eg. clear Eg g. unfold F. clear F.
  split; [split; [|split]|].
  { apply posed_check; [apply fresh_check|destruct vt]; vm_compute; reflexivity. }
  { apply posed_check; [apply fresh_check|destruct vt]; vm_compute; reflexivity. }
  { constructor; [|constructor; [|constructor]]; (split; [reflexivity|]).
    - exists (do 0%Z), (do 0%Z). split; [now left|]. split; [right; right; now left|intros v; reflexivity].
    - exists (do 1%Z), (do 1%Z). split; [right; now left|]. split; [now left|intros v; reflexivity]. }
  split; [split; [|split; [|split]]|].
  { apply posed_check; [apply fresh_check|destruct vt]; vm_compute; reflexivity. }
  { apply posed_check; [apply fresh_check|destruct vt]; vm_compute; reflexivity. }
  { exists [("M", SInt 1)]. split; [intros v; reflexivity|]. apply upstreamb_sound. vm_compute. reflexivity. }
  { intros (z & E & Up). specialize (E "M"). rewrite app_nil_r in E. apply (Up "M" "Y"); [|now left|right; apply walk_one; vm_compute; tauto].
    apply PyFacts.dget_keys. exists (SInt 1). rewrite <- E. reflexivity. }
  split; [split|].
  { apply posed_check; [apply fresh_check|destruct vt]; vm_compute; reflexivity. }
  { apply posed_check; [apply fresh_check|destruct vt]; vm_compute; reflexivity. }
  split; [split; [apply upstreamb_sound; vm_compute; reflexivity|]|].
  { rewrite <- (do_none D_med). apply positive_sound. destruct vt; vm_compute; reflexivity. }
  split; [|destruct vt; vm_compute; reflexivity].
  intros z A. assert (P := all_positive_sound D_med (table_of vt ts_med) ["M"] []). specialize (P ltac:(destruct vt; vm_compute; reflexivity) z A).
  now rewrite app_nil_r in P.
Qed.
