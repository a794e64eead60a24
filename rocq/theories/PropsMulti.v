(** Properties C43, C44: aggregators of learned models and inference with
    several models. *)

From Coq Require Import String Ascii Bool Arith ZArith QArith Qcanon Permutation List.
From Verif Require Import PyBase PyFacts Num DomainModel NdArray StoreModel NumStore FactorModel GenModel GraphModel ModelModel InferModel
  CausalModel LearnModel AggModel MultiModel Spec StoreSpec FactorSpec GenSpec GraphSpec ModelSpec NetSpec OrderSpec CausalSpec LearnSpec AggSpec
  AggFacts AggFacts2 MultiSpec MultiFacts MultiFacts2 Checks FactorChecks GraphChecks InferChecks CausalChecks LearnChecks AggChecks MultiChecks.
Import ListNotations.
Local Open Scope string_scope.
Local Open Scope nat_scope.
Local Open Scope list_scope.

(** ** C43 *)
(** The models after any sequence of calls of run: those of the calls that
    deliver, in the order of the calls and of the tasks of each. *)
Theorem C43_models : forall (L M : Type) (parallel : bool) (ts : list (tasks L M)), exists pss,
  Forall2 (fun t ps => delivers t ps \/ (fails t /\ ps = [])) ts pss /\
  a_models (runs (a_new parallel) ts) = map snd (concat pss).
Proof. exact @runs_models. Qed.
Print Assumptions C43_models.

(** A call delivers n models or raises.  A call that raises leaves the models
    as they were; with n < 1 it raises a ValueError and changes nothing. *)
Theorem C43_delivers : forall (L M : Type) (a : aggregator L M) (t : tasks L M) ps, delivers t ps ->
  exists os, a_run a t = (MkA (a_parallel a) (a_generated a ++ map snd ps) true (a_objects a ++ os), None) /\
    (a_parallel a = false -> os = map fst ps) /\
    os = (if a_parallel a then flat_map (fun i => match t_make t i with Ok (l, _) => [l] | Raise _ => [] end) (t_schedule t) else map fst ps).
Proof. exact @run_delivers. Qed.
Print Assumptions C43_delivers.
Theorem C43_raises : forall (L M : Type) (a : aggregator L M) (t : tasks L M), fails t ->
  exists os e, a_run a t = (MkA (a_parallel a) (a_generated a) (a_merged a) (a_objects a ++ os), Some e) /\
    ((t_number t < 1)%Z -> e = ValueError /\ os = []) /\
    ((1 <= t_number t)%Z -> exists i, In i (task_list t) /\ t_make t i = Raise e).
Proof. exact @run_fails. Qed.
Print Assumptions C43_raises.
Theorem C43_outcome : forall (L M : Type) (t : tasks L M), (exists ps, delivers t ps) \/ fails t.
Proof. exact @delivers_or_fails. Qed.
Print Assumptions C43_outcome.

(** reset makes a new aggregator. *)
Theorem C43_reset : forall (L M : Type) (a : aggregator L M), a_models (a_reset a) = [] /\ a_objects (a_reset a) = [] /\
  (forall ts, runs (a_reset a) ts = runs (a_new (a_parallel a)) ts) /\ (forall ts, generates (a_reset a) ts = generates (a_new (a_parallel a)) ts).
Proof. exact @reset_ok. Qed.
Print Assumptions C43_reset.
(** What generate makes is to be seen only after a merge; what it makes after
    that is to be seen at once, without another merge. *)
Theorem C43_merge : forall (L M : Type) parallel (ts1 ts2 : list (tasks L M)) pss1 pss2, Forall2 delivers ts1 pss1 -> Forall2 delivers ts2 pss2 ->
  let a := generates (a_new parallel) ts1 in
  a_models a = [] /\ a_models (a_merge a) = map snd (concat pss1) /\
  a_models (generates (a_merge a) ts2) = map snd (concat pss1) ++ map snd (concat pss2).
Proof. intros L M parallel ts1 ts2 pss1 pss2. exact (merge_shows parallel ts1 pss1 ts2 pss2). Qed.
Print Assumptions C43_merge.
Example C43_merge_case : let a := generates (a_new true) [call_ 0 2 [1; 0]] in
  a_models a = [] /\ a_models (generates (a_merge a) [call_ 5 1 [0]]) = [0; 10; 50] /\ a_models (a_reset (a_merge a)) = [].
Proof. repeat split; reflexivity. Qed.

(** If no call raises: one after the other, the learners are in the order of the
    models; in threads, those of every call are the call's learners in some
    order. *)
Theorem C43_learners : forall (L M : Type) (parallel : bool) (ts : list (tasks L M)) (pss : list (list (L * M))),
  Forall2 delivers ts pss -> (parallel = true -> Forall scheduled ts) ->
  a_models (runs (a_new parallel) ts) = map snd (concat pss) /\
  (parallel = false -> a_objects (runs (a_new parallel) ts) = map fst (concat pss)) /\
  exists oss, a_objects (runs (a_new parallel) ts) = concat oss /\
    Forall2 (fun os (ps : list (L * M)) => Permutation os (map fst ps)) oss pss.
Proof. exact @runs_objects. Qed.
Print Assumptions C43_learners.

(** In threads the learners need not be in the order of the models. *)
Theorem C43_threaded_refuted : exists t : tasks nat nat, exists ps, delivers t ps /\ scheduled t /\
  a_models (runs (a_new true) [t]) = map snd ps /\ a_objects (runs (a_new true) [t]) <> map fst ps.
Proof.
  exists (call_ 0 2 [1; 0]), [(0, 0); (1, 10)]. split; [split; [discriminate|repeat constructor]|].
  split; [apply perm_swap|]. split; [reflexivity|discriminate].
Qed.
Print Assumptions C43_threaded_refuted.

(** After a call that raises, the learners of the next ones are misplaced: the
    learners of the tasks before the one that raised stay in the list. *)
Theorem C43_failed_refuted : exists t1 t2 : tasks nat nat, exists ps, fails t1 /\ delivers t2 ps /\
  a_models (runs (a_new false) [t1; t2]) = map snd ps /\
  length (a_objects (runs (a_new false) [t1; t2])) <> length (a_models (runs (a_new false) [t1; t2])) /\
  nth_error (a_objects (runs (a_new false) [t1; t2])) 0 <> nth_error (map fst ps) 0.
Proof.
  exists (bad_call 0 2 1 []), (call_ 7 2 []), [(7, 70); (8, 80)].
  split; [right; exists 1, KeyError; split; [vm_compute; tauto|reflexivity]|].
  split; [split; [discriminate|repeat constructor]|]. split; [reflexivity|]. split; discriminate.
Qed.
Print Assumptions C43_failed_refuted.

(** What a task of the aggregator of EM runs delivers: the model of its learner,
    which ran (to its end, see C43_em_ends) from a randomised copy of the model. *)
Theorem C43_em : forall query set_iter no_divergence dflt, iterates set_iter -> forall m data trainable max_iter draw i l m',
  wf_graph (m_graph m) -> acyclic (m_graph m) -> LearnSpec.settled m -> NoDup (keys (m_factors m)) ->
  em_generate query set_iter no_divergence dflt m data trainable max_iter draw i = Ok (l, m') ->
  exists tr, to_train m trainable tr /\
  l_model l = Some m' /\ m_graph m' = m_graph m /\
  (exists prior, randomize_factors dflt m tr false (draw i) = Ok prior /\ l_prior l = prior /\
     em_run query set_iter no_divergence dflt (Z.to_nat max_iter) (em_init prior (Some tr)) data (Some max_iter) = (l, Done)) /\
  (tr <> [] -> forall v f, In v (nodes (m_graph m)) -> stored m v f -> ~ In v tr -> stored m' v f).
Proof. exact em_generate_trains. Qed.
Print Assumptions C43_em.
Theorem C43_em_ends : forall query set_iter no_divergence dflt, iterates set_iter -> forall l data max_iter l' o,
  em_run query set_iter no_divergence dflt (Z.to_nat max_iter) l data (Some max_iter) = (l', o) -> o <> Running.
Proof. exact em_finishes. Qed.
Print Assumptions C43_em_ends.

(** run(2), run(0), run(3) one after the other and in threads; a failing call
    in between; the aggregator of EM runs with two draws. *)
Example C43_case :
  let ts := [call_ 0 2 [1; 0]; call_ 2 0 []; bad_call 2 3 1 [0; 2]; call_ 5 3 [2; 0; 1]] in
  (a_models (runs (a_new false) ts) = [0; 10; 50; 60; 70] /\ a_models (runs (a_new true) ts) = [0; 10; 50; 60; 70]) /\
  (a_run (a_new true) (call_ 2 0 []) = (a_new true, Some ValueError)) /\
  (let ts := [call_ 0 2 [1; 0]; call_ 5 3 [2; 0; 1]] in
   Forall2 delivers ts [[(0, 0); (1, 10)]; [(5, 50); (6, 60); (7, 70)]] /\ Forall scheduled ts /\
   a_objects (runs (a_new true) ts) = [1; 0; 7; 5; 6] /\ a_objects (runs (a_new false) ts) = [0; 1; 5; 6; 7]) /\
  (iterates plain_iter /\ wf_graph (m_graph m_em) /\ acyclic (m_graph m_em) /\ LearnSpec.settled m_em /\ NoDup (keys (m_factors m_em)) /\
   agg_trainable m_em None = ["U"] /\
   value_of (gen_em 0) [("U", SInt 0)] (q (3#4)) = true /\ value_of (gen_em 1) [("U", SInt 0)] (q (3#4)) = true /\
   prior_of (gen_em 0) [("U", SInt 0)] (q (1#2)) = true /\ prior_of (gen_em 1) [("U", SInt 0)] (q (1#4)) = true).
Proof.
  cbv zeta. split; [split; reflexivity|]. split; [reflexivity|]. split.
  - split; [apply Forall2_cons; [split; [discriminate|repeat constructor]|apply Forall2_cons; [split; [discriminate|repeat constructor]|apply Forall2_nil]]|].
    split; [|split; reflexivity]. apply Forall_cons; [apply perm_swap|]. apply Forall_cons; [|apply Forall_nil].
    unfold scheduled. change (Permutation [2; 0; 1] [0; 1; 2]). apply (Permutation_app_comm [2] [0; 1]).
  - split; [apply plain_iter_ok|]. split; [apply m_em_graph|]. split; [apply m_em_graph|]. split; [apply m_em_settled|].
    split; [apply nodupb_sound; vm_compute; reflexivity|]. split; [apply m_em_trainable|]. apply gen_em_ok.
Qed.

(** ** C44 *)
(** The statements of a program lead to the world [w], in which object [i] holds
    the models [fst (h i)], those set or added so far.  For any kind of
    inference, the answer is computed from the precise answers of these models;
    without models, or if a precise answer does not exist, the query raises. *)
Theorem C44_query : forall (I : Type) (make : pgm -> res I) ask dflt ss w h i rq,
  reaches make ask dflt ss w h -> i < length (w_objects w) ->
  (fst (h i) = [] -> query_answer make ask dflt w i rq = Raise ValueError) /\
  (forall fs, Forall2 (precise make ask rq) (fst (h i)) fs -> fs <> [] ->
     query_answer make ask dflt w i rq = (if snd (h i) then let* f := from_precise dflt fs in Ok (AInterval f) else Ok (AFactors fs))) /\
  ((exists m, In m (fst (h i)) /\ forall f, ~ precise make ask rq m f) -> exists e, query_answer make ask dflt w i rq = Raise e).
Proof. exact @answer_ok. Qed.
Print Assumptions C44_query.

(** The interval at an observation is the range of the precise values. *)
Theorem C44_range : forall (I : Type) (make : pgm -> res I) ask dflt ss w h i rq fs f0,
  reaches make ask dflt ss w h -> i < length (w_objects w) -> snd (h i) = true ->
  Forall2 (precise make ask rq) (fst (h i)) fs -> In f0 fs ->
  (forall f, In f fs -> wf_mf f /\ mf_domain f = mf_domain f0 /\ all_finite f) ->
  exists g, query_answer make ask dflt w i rq = Ok (AInterval g) /\ if_domain g = mf_domain f0 /\ st_type (if_store g) = dflt /\
    forall o, full (mf_domain f0) o -> exists xs lo hi, Forall2 (fun f x => mf_get_value f o = Ok (Fin x)) fs xs /\ range xs lo hi /\ interval g o lo hi.
Proof. exact @range_query. Qed.
Print Assumptions C44_range.
Theorem C44_probability_range : forall (I : Type) (make : pgm -> res I) ask dflt, dflt <> VTree ->
  forall ss w h i p cause effect tfc tfe tc fc te fe fs f0,
  reaches make ask dflt ss w h -> i < length (w_objects w) ->
  settled w h i cause tfc tc fc -> settled w h i effect tfe te fe ->
  let rq := fst (prob_request p cause effect tc fc te fe) in
  let at_ := snd (prob_request p cause effect tc fc te fe) in
  Forall2 (precise make ask rq) (fst (h i)) fs -> In f0 fs ->
  (forall f, In f fs -> wf_mf f /\ (snd (h i) = true -> mf_domain f = mf_domain f0) /\ all_finite f /\ full (mf_domain f) at_ /\ incl (keys at_) (mf_vars f)) ->
  exists xs lo hi, Forall2 (fun f x => mf_get_value f at_ = Ok (Fin x)) fs xs /\ range xs lo hi /\
    prob_answer make ask dflt w i p cause effect tfc tfe = Ok (ANums (if snd (h i) then [Fin lo; Fin hi] else map Fin xs)).
Proof. exact @prob_ok. Qed.
Print Assumptions C44_probability_range.

(** With variable elimination: the effects of an intervention on a variable are
    between the least and the greatest of the models, ... *)
Theorem C44_effect : forall heur so, is_heuristic heur -> is_set_order so ->
  forall dflt ss w h i D d e v l xs,
  reaches ve_make (ve_ask heur so) dflt ss w h -> i < length (w_objects w) -> In (v, l) D ->
  fst (h i) <> [] -> Forall2 (has_effect D d e v) (fst (h i)) xs ->
  let ans := query_answer ve_make (ve_ask heur so) dflt w i (MkR [v] (DoDict d) e false None) in
  (snd (h i) = false -> exists fs, ans = Ok (AFactors fs) /\
     Forall2 (fun f x => mf_domain f = [(v, l)] /\ forall s, In s l -> mf_get_value f [(v, s)] = Ok (Fin (x s))) fs xs) /\
  (snd (h i) = true -> exists g, ans = Ok (AInterval g) /\ if_domain g = [(v, l)] /\ st_type (if_store g) = dflt /\
     forall s, In s l -> exists lo hi, interval g [(v, s)] lo hi /\ range (map (fun x => x s) xs) lo hi).
Proof. exact ve_effect_ok. Qed.
Print Assumptions C44_effect.
(** ... and the probabilities of causation are the least and the greatest of the
    models' (for PNS intervals, if the answers list the two copies of the effect
    in one order: see C44_order_refuted). *)
Theorem C44_probability : forall heur so, is_heuristic heur -> is_set_order so ->
  forall dflt, dflt <> VTree -> forall ss w h i p D cause effect tfc tfe tc fc te fe xs,
  reaches ve_make (ve_ask heur so) dflt ss w h -> i < length (w_objects w) ->
  settled w h i cause tfc tc fc -> settled w h i effect tfe te fe ->
  truth_states D cause (Some (tc, fc)) tc fc -> truth_states D effect (Some (te, fe)) te fe -> cause <> effect ->
  fst (h i) <> [] -> Forall2 (has_probability p D cause effect tc fc te fe) (fst (h i)) xs ->
  (snd (h i) = true -> p = PNS -> exists vs, forall m f, In m (fst (h i)) ->
     precise ve_make (ve_ask heur so) (fst (prob_request p cause effect tc fc te fe)) m f -> mf_vars f = vs) ->
  exists lo hi, range xs lo hi /\
    prob_answer ve_make (ve_ask heur so) dflt w i p cause effect tfc tfe = Ok (ANums (if snd (h i) then [Fin lo; Fin hi] else map Fin xs)).
Proof. exact ve_prob_ok. Qed.
Print Assumptions C44_probability.

(** Where the literal property fails. *)
(** Two objects made from one list: a model added through one is in the list of
    the other, which answers without it. *)
Theorem C44_shared_refuted : exists ss, 
  models_of (world_after ss) 1 = [mA; mB] /\
  shows_bounds (query_answer ve_make sample_ask VNumpy (world_after ss) 1 effect_rq) (map q [4#5; 1#5; 4#5; 1#5]) = true /\
  shows_bounds (query_answer ve_make sample_ask VNumpy (world_after ss) 0 effect_rq) (map q [1#2; 1#5; 4#5; 1#2]) = true.
Proof. exists shared. split; [exact shared_models|exact shared_answers]. Qed.
Print Assumptions C44_shared_refuted.
(** An object that trains its models forgets those added when it is asked. *)
Theorem C44_emcc_refuted : exists ss,
  models_of (world_after ss) 0 = [mA; mB] /\
  shows_bounds (query_answer ve_make sample_ask VNumpy (world_after ss) 0 effect_rq) (map q [4#5; 1#5; 4#5; 1#5]) = true.
Proof. exists trained. split; [exact trained_models|exact trained_answers]. Qed.
Print Assumptions C44_emcc_refuted.
(** A new object cannot look up the states true and false: it has no model
    before it is compiled. *)
Theorem C44_probability_raises : forall (I : Type) (make : pgm -> res I) ask dflt w models interval p cause effect tfe,
  prob_answer make ask dflt (fst (exec make ask dflt w (OMulti models interval))) (length (w_objects w)) p cause effect None tfe = Raise AttributeError.
Proof. exact @prob_new. Qed.
Print Assumptions C44_probability_raises.
(** After set_models the states are looked up in the first of the old models. *)
Theorem C44_stale_domain_refuted : exists ss,
  prob_answer ve_make sample_ask VNumpy (world_after ss) 0 PNS "Z" "Y" None None = Raise ValueError /\
  shows (prob_answer ve_make sample_ask VNumpy (world_after (ss ++ [OCompile 0])) 0 PNS "Z" "Y" None None) (map q [1#2; 1#2]) = true.
Proof. exists replaced. exact replaced_answers. Qed.
Print Assumptions C44_stale_domain_refuted.
(** Precise answers that list the target variables in different orders have no
    interval. *)
Theorem C44_order_refuted : exists ss F1 F2 en1 en2,
  models_of (world_after ss) 0 = [m_ab; m_ba] /\ causal m_ab D_ab F1 VNumpy en1 false /\ causal m_ba D_ab F2 VNumpy en2 false /\
  (forall m, In m [m_ab; m_ba] -> exists f, precise ve_make sample_ask (MkR ["A"; "B"] (DoDict []) [] false None) m f) /\
  query_answer ve_make sample_ask VNumpy (world_after ss) 0 (MkR ["A"; "B"] (DoDict []) [] false None) = Raise ValueError.
Proof.
  exists both, (table_of VNumpy ts_ab), (table_of VNumpy ts_ba), ["A"; "B"], ["B"; "A"].
  split; [vm_compute; reflexivity|]. split; [exact ab_ok|]. split; [exact ba_ok|]. split; [exact both_precise|exact both_answers].
Qed.
Print Assumptions C44_order_refuted.

(** A program sets one model, asks, adds a second, and asks again. *)
Example C44_case : 
  reaches ve_make sample_ask VNumpy story w_story h_story /\ 0 < length (w_objects w_story) /\ h_story 0 = ([mA; mB], true) /\
  settled w_story h_story 0 "Y" None (SStr "y1") (SStr "y0") /\
  (forall p, exists a b, Forall2 (has_probability p D_cf "Z" "Y" (SInt 0) (SInt 1) (SStr "y1") (SStr "y0")) (fst (h_story 0)) [a; b] /\
     match p with PS => qeqb a 1 && qeqb b 1 | _ => qeqb a (1#5) && qeqb b (1#2) end = true) /\
  (exists xs, Forall2 (has_effect D_cf [("Z", SInt 1)] [] "Y") (fst (h_story 0)) xs) /\
  (exists vs, forall m f, In m (fst (h_story 0)) ->
     precise ve_make sample_ask (fst (prob_request PNS "Z" "Y" (SInt 0) (SInt 1) (SStr "y1") (SStr "y0"))) m f -> mf_vars f = vs) /\
  shows (prob_answer ve_make sample_ask VNumpy w_story 0 PN "Z" "Y" (Some (SInt 0, SInt 1)) None) (map q [1#5; 1#2]) = true /\
  shows (prob_answer ve_make sample_ask VNumpy w_story 0 PS "Z" "Y" (Some (SInt 0, SInt 1)) None) (map q [1#1; 1#1]) = true /\
  shows (prob_answer ve_make sample_ask VNumpy w_story 0 PNS "Z" "Y" (Some (SInt 0, SInt 1)) None) (map q [1#5; 1#2]) = true /\
  shows_bounds (query_answer ve_make sample_ask VNumpy w_story 0 effect_rq) (map q [1#2; 1#5; 4#5; 1#2]) = true.
Proof.
  split; [exact story_reaches|]. split; [exact story_object|]. split; [exact story_holds|]. split; [exact story_settled|].
  split; [exact story_probs|]. split; [exact story_effects|]. split; [exact story_order|]. exact story_answers.
Qed.
