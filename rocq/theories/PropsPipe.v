(** Theorems about the objects that train their models from data, EMCC and
    GDCC. *)

From Coq Require Import String ZArith QArith Qcanon Permutation List.
From Verif Require Import PyBase Num DomainModel NdArray StoreModel NumStore FactorModel GenModel GraphModel ModelModel InferModel CausalModel
  MultiModel LearnModel GradModel AggModel PipeModel Spec FactorSpec GraphSpec ModelSpec NetSpec CausalSpec GenSpec MultiSpec LearnSpec EmSpec QSpec
  ConvSpec GradSpec PipeSpec Checks InferChecks CausalChecks EmChecks LearnChecks MultiChecks QChecks GradChecks PipeFacts2 PipeFacts3 PipeFacts4 PipeFacts6 PipeFacts5 PipeChecks.
Import ListNotations.
Local Open Scope nat_scope.
Local Open Scope string_scope.
Local Open Scope list_scope.

(** ** C61 *)
(** EMCC: each training returns as many models as runs are wanted.  Each has the
    structure and the equations of the given model, and with it the data has a
    positive probability, not less than with the random exogenous tables that
    its run started from. *)
Theorem C61_emcc : forall m D F vt endo data E, structural m D F vt endo -> about m D endo data E -> (exists u, exogenous m endo u) ->
  forall num_runs, (1 <= num_runs)%Z -> forall parallel draw schedule, (forall k, drawn_exogenous m D endo (draw k)) ->
  forall query set_iter no_divergence, exact_query query -> iterates set_iter -> decides no_divergence -> explained D F endo data ->
  (forall u, exogenous m endo u -> exists v, arc (m_graph m) u v) ->
  forall max_iter k, exists ms,
    emcc_trainer query set_iter no_divergence vt m data max_iter num_runs parallel draw schedule k = Ok ms /\
    length ms = Z.to_nat num_runs /\
    forall i m', nth_error ms i = Some m' -> exists F', improved m D F vt endo data (draw k i) m' F'.
Proof. exact emcc_models. Qed.
Print Assumptions C61_emcc.

(** GDCC: likewise, for an optimiser that returns distributions; the exogenous
    tables are what the optimiser returned for the random start.  If it returns
    nothing worse than its start, the data has not become less likely.  When run
    one after another, the learners are in the order of the models. *)
Theorem C61_gdcc : forall m D F vt endo data E, structural m D F vt endo -> about m D endo data E -> (exists u, exogenous m endo u) ->
  forall num_runs, (1 <= num_runs)%Z -> forall parallel draw schedule, (forall k, drawn_exogenous m D endo (draw k)) ->
  forall (L : Type) (l0 : L) ladd lopp lg lnan, logarithm l0 ladd lg -> forall minimize, stays_feasible minimize ->
  (forall u, exogenous m endo u -> sole_cause (m_graph m) F endo u /\ distinct_name (m_graph m) u) ->
  forall max_iter k, exists ms a,
    gdcc_trainer L l0 ladd lopp lg lnan minimize vt m data max_iter num_runs parallel draw schedule k = Ok ms /\
    length ms = Z.to_nat num_runs /\
    train_agg parallel num_runs (gd_generate L l0 ladd lopp lg lnan minimize vt m data None max_iter (draw k)) (schedule k) = (a, None) /\
    (parallel = false -> length (a_objects a) = Z.to_nat num_runs) /\
    forall i m', nth_error ms i = Some m' -> exists F' m0 F0,
      keeps_equations m D F vt endo m' F' /\ random_start m D F vt endo (draw k i) m0 F0 /\
      fitted lopp lg minimize max_iter D (m_graph m) data (exogenous m endo) F0 F' /\
      (explained D F endo data -> forall lle, orders lopp lg lle -> descends lle minimize -> improved m D F vt endo data (draw k i) m' F') /\
      (parallel = false -> exists l, nth_error (a_objects a) i = Some l /\ model_evolution l = [m0; m']).
Proof. exact @gdcc_models. Qed.
Print Assumptions C61_gdcc.

(** After any statements that leave its models alone, the object answers every
    question as an object with the models of the last training would that was
    compiled just before; the first question trains. *)
Theorem C61_questions : forall (I : Type) (make : pgm -> res I) ask dflt gen i w n b,
  (forall k, exists ms, gen k = Ok ms /\ ms <> [] /\ forall m, In m ms -> exists x, make m = Ok x) ->
  comes make ask dflt gen i w (n, b) -> forall ms, gen (pred (Nat.max n 1)) = Ok ms ->
  (forall rq, query_answer make ask dflt w i rq = query_answer make ask dflt (plain make ask dflt ms b) 0 rq) /\
  (forall p cause effect tfc tfe, 0 < n \/ (tfc <> None /\ tfe <> None) ->
     prob_answer make ask dflt w i p cause effect tfc tfe = prob_answer make ask dflt (plain make ask dflt ms b) 0 p cause effect tfc tfe).
Proof. exact @trained_answers. Qed.
Print Assumptions C61_questions.

(** The answer of an EMCC object about the effect of an intervention are the
    effects in models that agree with the given equations and explain the data
    at least as well as their random starts, or the range of those effects. *)
Theorem C61_emcc_effect : forall heur so, is_heuristic heur -> is_set_order so ->
  forall m D F vt endo data E, structural m D F vt endo -> about m D endo data E -> (exists u, exogenous m endo u) ->
  forall num_runs, (1 <= num_runs)%Z -> forall parallel draw schedule, (forall k, drawn_exogenous m D endo (draw k)) ->
  forall query set_iter no_divergence, exact_query query -> iterates set_iter -> decides no_divergence -> explained D F endo data ->
  (forall u, exogenous m endo u -> exists v, arc (m_graph m) u v) ->
  forall max_iter i w n b, let gen := emcc_trainer query set_iter no_divergence vt m data max_iter num_runs parallel draw schedule in
  let k := pred (Nat.max n 1) in
  comes ve_make (ve_ask heur so) vt gen i w (n, b) ->
  forall d v l, NoDup (keys d) -> incl (keys d) (nodes (m_graph m)) -> Spec.known D d -> In (v, l) D -> ~ In v (keys d) ->
  exists ms xs, gen k = Ok ms /\ length ms = Z.to_nat num_runs /\
    Forall2 (fun m' x => exists j F', improved m D F vt endo data (draw k j) m' F' /\ forall s, x s = do_mass D F' d [(v, s)]) ms xs /\
    gives vt b v l (query_answer ve_make (ve_ask heur so) vt w i (MkR [v] (DoDict d) [] false None)) xs.
Proof. exact emcc_effect. Qed.
Print Assumptions C61_emcc_effect.

(** The same for GDCC. *)
Theorem C61_gdcc_effect : forall heur so, is_heuristic heur -> is_set_order so ->
  forall m D F vt endo data E, structural m D F vt endo -> about m D endo data E -> (exists u, exogenous m endo u) ->
  forall num_runs, (1 <= num_runs)%Z -> forall parallel draw schedule, (forall k, drawn_exogenous m D endo (draw k)) ->
  forall (L : Type) (l0 : L) ladd lopp lg lnan, logarithm l0 ladd lg -> forall minimize, stays_feasible minimize ->
  (forall u, exogenous m endo u -> sole_cause (m_graph m) F endo u /\ distinct_name (m_graph m) u) ->
  forall max_iter i w n b, let gen := gdcc_trainer L l0 ladd lopp lg lnan minimize vt m data max_iter num_runs parallel draw schedule in
  let k := pred (Nat.max n 1) in
  comes ve_make (ve_ask heur so) vt gen i w (n, b) ->
  forall d v l, NoDup (keys d) -> incl (keys d) (nodes (m_graph m)) -> Spec.known D d -> In (v, l) D -> ~ In v (keys d) ->
  exists ms xs, gen k = Ok ms /\ length ms = Z.to_nat num_runs /\
    Forall2 (fun m' x => exists j F' m0 F0, keeps_equations m D F vt endo m' F' /\ random_start m D F vt endo (draw k j) m0 F0 /\
        fitted lopp lg minimize max_iter D (m_graph m) data (exogenous m endo) F0 F' /\ forall s, x s = do_mass D F' d [(v, s)]) ms xs /\
    gives vt b v l (query_answer ve_make (ve_ask heur so) vt w i (MkR [v] (DoDict d) [] false None)) xs.
Proof. exact gdcc_effect. Qed.
Print Assumptions C61_gdcc_effect.

(** One exogenous variable with four states, X and Y; two runs each.  EMCC finds
    that Y is 1 under do(X = 1) with a probability from 5/6 to 11/12, GDCC from
    3/4 to 5/6. *)
Example C61_case : structural m_pi D_pi F_pi VNumpy endo_pi /\ about m_pi D_pi endo_pi fr_pi ["X"; "Y"] /\ (exists u, exogenous m_pi endo_pi u) /\
  (forall k, drawn_exogenous m_pi D_pi endo_pi (draw_pi k)) /\
  exact_query em_query /\ iterates plain_iter /\ decides equality_test /\ explained D_pi F_pi endo_pi fr_pi /\
  (forall u, exogenous m_pi endo_pi u -> exists v, arc (m_graph m_pi) u v) /\
  logarithm 1%Qc Qcmult lg_id /\ stays_feasible best /\ orders Qcinv lg_id Qcle /\ descends Qcle best /\
  (forall u, exogenous m_pi endo_pi u -> sole_cause (m_graph m_pi) F_pi endo_pi u /\ distinct_name (m_graph m_pi) u) /\
  comes ve_make sample_ask VNumpy em_pi 0 w_em (0, true) /\ comes ve_make sample_ask VNumpy em_pi 0 w_pi (2, false) /\
  map (fun m => map this (params D_pi (table_in m) "U")) (models_in (em_pi 0)) = [[1#6; 1#3; 1#6; 1#3]; [1#12; 1#3; 1#4; 1#3]]%Q /\
  shows_bounds (query_answer ve_make sample_ask VNumpy w_em 0 rq_pi) (map q [1#12; 5#6; 1#6; 11#12]) = true /\
  map (fun m => map this (params D_pi (table_in m) "U")) (models_in (gd_pi true 0)) = [[1#6; 1#3; 1#6; 1#3]; [1#4; 1#4; 1#4; 1#4]]%Q /\
  shows_bounds (query_answer ve_make sample_ask VNumpy w_gd 0 rq_pi) (map q [1#6; 3#4; 1#4; 5#6]) = true.
Proof.
  split; [exact pi_structural|]. split; [exact pi_about|]. split; [exact pi_exogenous|]. split; [exact pi_drawn|].
  split; [exact em_query_exact|]. split; [exact plain_iter_ok|]. split; [exact equality_decides|]. split; [exact pi_explained|].
  split; [exact pi_children|]. split; [exact lg_id_ok|]. split; [exact best_feasible|]. split; [exact inverse_orders|]. split; [exact best_descends|].
  split; [exact pi_sole|]. split; [exact comes_em|]. split; [exact comes_pi|]. exact pi_answers.
Qed.

(** The interval need not contain the effects in all models that agree with the
    equations and explain the data: a model that explains it at least as well as
    all the trained ones can have an effect outside. *)
Theorem C61_inner_refuted : exists m2 F2 ms g lo hi, keeps_equations m_pi D_pi F_pi VNumpy endo_pi m2 F2 /\
  em_pi 0 = Ok ms /\ (forall m', In m' ms -> (likelihood D_pi (table_in m') fr_pi <= likelihood D_pi F2 fr_pi)%Qc) /\
  query_answer ve_make sample_ask VNumpy w_em 0 rq_pi = Ok (AInterval g) /\ interval g [("Y", SInt 1)] lo hi /\
  (do_mass D_pi F2 [("X", SInt 1)] [("Y", SInt 1)] < lo)%Qc.
Proof. exact inner_ok. Qed.
Print Assumptions C61_inner_refuted.

(** With fewer than one run the first question raises ValueError. *)
Theorem C61_number_raises : forall (I : Type) (make : pgm -> res I) ask dflt num_runs (w : world I) b rq, (num_runs < 1)%Z ->
  (forall query set_iter nd vt m data max_iter parallel draw schedule,
     query_answer make ask dflt (fst (exec make ask dflt w (OTrained (emcc_trainer query set_iter nd vt m data max_iter num_runs parallel draw schedule) b)))
       (length (w_objects w)) rq = Raise ValueError) /\
  (forall L (l0 : L) ladd lopp lg lnan minimize vt m data max_iter parallel draw schedule,
     query_answer make ask dflt (fst (exec make ask dflt w (OTrained (gdcc_trainer L l0 ladd lopp lg lnan minimize vt m data max_iter num_runs parallel draw schedule) b)))
       (length (w_objects w)) rq = Raise ValueError).
Proof. exact @number_raises. Qed.
Print Assumptions C61_number_raises.

(** What the first training raises, the first question raises. *)
Theorem C61_training_raises : forall (I : Type) (make : pgm -> res I) ask dflt gen w b rq x, gen 0 = Raise x ->
  query_answer make ask dflt (fst (exec make ask dflt w (OTrained gen b))) (length (w_objects w)) rq = Raise x.
Proof. exact @trained_raises. Qed.
Print Assumptions C61_training_raises.

(** What the optimiser raises, a GDCC training raises. *)
Theorem C61_optimiser_raises : forall m D F vt endo, structural m D F vt endo -> forall data E, about m D endo data E -> (exists u, exogenous m endo u) ->
  forall num_runs, (1 <= num_runs)%Z -> forall parallel draw schedule, (forall k, drawn_exogenous m D endo (draw k)) ->
  forall (L : Type) (l0 : L) ladd lopp lg lnan, logarithm l0 ladd lg -> forall minimize e, (forall k f x, minimize k f x = Raise e) ->
  (forall u, exogenous m endo u -> sole_cause (m_graph m) F endo u /\ distinct_name (m_graph m) u) ->
  forall max_iter k, gdcc_trainer L l0 ladd lopp lg lnan minimize vt m data max_iter num_runs parallel draw schedule k = Raise e.
Proof. exact @gdcc_raises. Qed.
Print Assumptions C61_optimiser_raises.

Example C61_optimiser_case : structural m_pi D_pi F_pi VNumpy endo_pi /\ about m_pi D_pi endo_pi fr_pi ["X"; "Y"] /\ (exists u, exogenous m_pi endo_pi u) /\
  (forall k, drawn_exogenous m_pi D_pi endo_pi (draw_pi k)) /\
  (forall u, exogenous m_pi endo_pi u -> sole_cause (m_graph m_pi) F_pi endo_pi u /\ distinct_name (m_graph m_pi) u).
Proof. exact (conj pi_structural (conj pi_about (conj pi_exogenous (conj pi_drawn pi_sole)))). Qed.

(** A new object cannot recognise the states true and false of the cause: it has
    no model yet. *)
Theorem C61_unknown_raises : forall (I : Type) (make : pgm -> res I) ask dflt gen w b p cause effect tfe,
  prob_answer make ask dflt (fst (exec make ask dflt w (OTrained gen b))) (length (w_objects w)) p cause effect None tfe = Raise AttributeError.
Proof. exact @trained_unknown. Qed.
Print Assumptions C61_unknown_raises.

(** The evolution of the models of a run: of the learner with this index, also
    counted from the end; before the first training there is none. *)
Theorem C61_evolution : forall (S : Type) (a : aggregator (learner S) pgm) (index : Z),
  (@get_model_evolution S None index = Ok None) /\
  let n := Z.of_nat (length (a_objects a)) in
  (forall l, (0 <= index < n)%Z -> nth_error (a_objects a) (Z.to_nat index) = Some l -> get_model_evolution (Some a) index = Ok (Some (model_evolution l))) /\
  (forall l, (- n <= index < 0)%Z -> nth_error (a_objects a) (Z.to_nat (n + index)) = Some l -> get_model_evolution (Some a) index = Ok (Some (model_evolution l))) /\
  ((index < - n \/ n <= index)%Z -> get_model_evolution (Some a) index = Raise IndexError).
Proof. exact (fun S a index => conj eq_refl (@evolution_ok S a index)). Qed.
Print Assumptions C61_evolution.

Example C61_evolution_case : last_table (get_model_evolution (Some agg_pi) 0) = [1#4; 1#4; 1#4; 1#4]%Q /\
  last_table (get_model_evolution (Some agg_pi) 1) = [1#6; 1#3; 1#6; 1#3]%Q /\
  last_table (get_model_evolution (Some agg_pi) (-1)) = [1#6; 1#3; 1#6; 1#3]%Q /\
  get_model_evolution (Some agg_pi) 2 = Raise IndexError /\ get_model_evolution (Some agg_pi) (-3) = Raise IndexError.
Proof. exact evolution_pi. Qed.

(** With threads the learners are in the order in which they finished: the
    evolution with index 0 can end in another model than the first one. *)
Theorem C61_threads_refuted : exists l m', nth_error (a_objects agg_pi) 0 = Some l /\ nth_error (a_models agg_pi) 0 = Some m' /\
  get_model_evolution (Some agg_pi) 0 = Ok (Some (model_evolution l)) /\
  map this (params D_pi (table_in (last (model_evolution l) m_pi)) "U") = [1#4; 1#4; 1#4; 1#4]%Q /\
  map this (params D_pi (table_in m') "U") = [1#6; 1#3; 1#6; 1#3]%Q.
Proof. exact threads_ok. Qed.
Print Assumptions C61_threads_refuted.

(** ** C62 *)
(** compile_incremental of an EMCC object, with other statements before,
    between and after its turns: each turn adds [step_runs] models and yields as
    long as there are fewer than [num_runs]; then the generator ends and changes
    nothing. *)
Theorem C62_turns : forall heur so, is_heuristic heur -> is_set_order so ->
  forall m D F vt endo data E, structural m D F vt endo -> about m D endo data E -> (exists u, exogenous m endo u) ->
  forall step_runs, (1 <= step_runs)%Z -> forall parallel draw schedule, (forall k, drawn_exogenous m D endo (draw k)) ->
  forall query set_iter no_divergence, exact_query query -> iterates set_iter -> decides no_divergence -> explained D F endo data ->
  (forall u, exogenous m endo u -> exists v, arc (m_graph m) u v) ->
  forall max_iter, let gen := emcc_trainer query set_iter no_divergence vt m data max_iter step_runs parallel draw schedule in
  forall num_runs i w t b, grows ve_make (ve_ask heur so) vt gen i w (t, b) ->
  ((Z.of_nat t * step_runs < num_runs)%Z ->
     compile_next ve_make num_runs w i = (fst (exec ve_make (ve_ask heur so) vt w (OMore i)), Some (Ok tt)) /\
     grows ve_make (ve_ask heur so) vt gen i (fst (exec ve_make (ve_ask heur so) vt w (OMore i))) (S t, b)) /\
  ((num_runs <= Z.of_nat t * step_runs)%Z -> compile_next ve_make num_runs w i = (w, None)).
Proof. exact emcc_next. Qed.
Print Assumptions C62_turns.

(** After [t] turns the object answers as one with the models of these turns
    would that was just compiled. *)
Theorem C62_questions : forall (I : Type) (make : pgm -> res I) ask dflt gen,
  (forall k, exists ms, gen k = Ok ms /\ ms <> [] /\ forall m, In m ms -> exists x, make m = Ok x) ->
  forall i w t b, grows make ask dflt gen i w (t, b) -> 0 < t ->
  (forall rq, query_answer make ask dflt w i rq = query_answer make ask dflt (plain make ask dflt (so_far gen t) b) 0 rq) /\
  (forall p cause effect tfc tfe,
     prob_answer make ask dflt w i p cause effect tfc tfe = prob_answer make ask dflt (plain make ask dflt (so_far gen t) b) 0 p cause effect tfc tfe).
Proof. exact @grown_answers. Qed.
Print Assumptions C62_questions.

(** The answer about an intervention: the effects in the models of all turns,
    which keep the equations and explain the data, or their range. *)
Theorem C62_effect : forall heur so, is_heuristic heur -> is_set_order so ->
  forall m D F vt endo data E, structural m D F vt endo -> about m D endo data E -> (exists u, exogenous m endo u) ->
  forall step_runs, (1 <= step_runs)%Z -> forall parallel draw schedule, (forall k, drawn_exogenous m D endo (draw k)) ->
  forall query set_iter no_divergence, exact_query query -> iterates set_iter -> decides no_divergence -> explained D F endo data ->
  (forall u, exogenous m endo u -> exists v, arc (m_graph m) u v) ->
  forall max_iter, let gen := emcc_trainer query set_iter no_divergence vt m data max_iter step_runs parallel draw schedule in
  forall i w t b d v l, grows ve_make (ve_ask heur so) vt gen i w (t, b) -> 0 < t ->
  NoDup (keys d) -> incl (keys d) (nodes (m_graph m)) -> Spec.known D d -> In (v, l) D -> ~ In v (keys d) ->
  length (so_far gen t) = t * Z.to_nat step_runs /\ exists xs,
  Forall2 (fun m' x => exists k j F', k < t /\ improved m D F vt endo data (draw k j) m' F' /\ forall s, x s = do_mass D F' d [(v, s)]) (so_far gen t) xs /\
  gives vt b v l (query_answer ve_make (ve_ask heur so) vt w i (MkR [v] (DoDict d) [] false None)) xs.
Proof. exact emcc_grown. Qed.
Print Assumptions C62_effect.

(** The intervals only grow from turn to turn. *)
Theorem C62_nested : forall heur so, is_heuristic heur -> is_set_order so ->
  forall m D F vt endo data E, structural m D F vt endo -> about m D endo data E -> (exists u, exogenous m endo u) ->
  forall step_runs, (1 <= step_runs)%Z -> forall parallel draw schedule, (forall k, drawn_exogenous m D endo (draw k)) ->
  forall query set_iter no_divergence, exact_query query -> iterates set_iter -> decides no_divergence -> explained D F endo data ->
  (forall u, exogenous m endo u -> exists v, arc (m_graph m) u v) ->
  forall max_iter, let gen := emcc_trainer query set_iter no_divergence vt m data max_iter step_runs parallel draw schedule in
  forall i w t i' w' t' d v l, grows ve_make (ve_ask heur so) vt gen i w (t, true) -> grows ve_make (ve_ask heur so) vt gen i' w' (t', true) -> 0 < t <= t' ->
  NoDup (keys d) -> incl (keys d) (nodes (m_graph m)) -> Spec.known D d -> In (v, l) D -> ~ In v (keys d) -> exists g g',
  query_answer ve_make (ve_ask heur so) vt w i (MkR [v] (DoDict d) [] false None) = Ok (AInterval g) /\
  query_answer ve_make (ve_ask heur so) vt w' i' (MkR [v] (DoDict d) [] false None) = Ok (AInterval g') /\
  forall s, In s l -> exists lo hi lo' hi', interval g [(v, s)] lo hi /\ interval g' [(v, s)] lo' hi' /\ (lo' <= lo)%Qc /\ (hi <= hi')%Qc.
Proof. exact emcc_nested. Qed.
Print Assumptions C62_nested.

(** The model of C61_case, one run per turn: after one turn the effect is 5/6,
    after two between 5/6 and 11/12. *)
Example C62_case : (forall k, drawn_exogenous m_pi D_pi endo_pi (draw_one k)) /\
  grows ve_make sample_ask VNumpy em_one 0 w_two (1, true) /\ grows ve_make sample_ask VNumpy em_one 0 w_three (2, true) /\
  stops (compile_next ve_make 2 w_one 0) = false /\ stops (compile_next ve_make 2 w_other 0) = false /\ stops (compile_next ve_make 2 w_three 0) = true /\
  shows_bounds (query_answer ve_make sample_ask VNumpy w_two 0 rq_pi) (map q [1#6; 5#6; 1#6; 5#6]) = true /\
  shows_bounds (query_answer ve_make sample_ask VNumpy w_three 0 rq_pi) (map q [1#12; 5#6; 1#6; 11#12]) = true.
Proof. split; [exact one_drawn|]. split; [exact two_grows|]. split; [exact three_grows|]. exact one_answers. Qed.

(** If the list of models is given to another object, what that object adds
    counts: the generator ends after one of two models, and the next turn would
    mix them. *)
Theorem C62_shared_refuted : grows ve_make sample_ask VNumpy em_one 0 w_two (1, true) /\
  w_shared = next_pi (next_pi (next_pi w_two (OList [m_wide])) (OMulti (Some 1) true)) (OAdd 1 (Some 3)) /\
  stops (compile_next ve_make 2 w_shared 0) = true /\
  shows_bounds (query_answer ve_make sample_ask VNumpy w_shared 0 rq_pi) (map q [1#6; 5#6; 1#6; 5#6]) = true /\
  shows_bounds (query_answer ve_make sample_ask VNumpy (next_pi w_shared (OMore 0)) 0 rq_pi) (map q [1#12; 2#3; 1#3; 11#12]) = true.
Proof. exact (conj two_grows (conj eq_refl shared_ok)). Qed.
Print Assumptions C62_shared_refuted.

(** With fewer than one model per turn the first turn raises ValueError; what
    the first training raises, the first turn raises. *)
Theorem C62_step_raises : forall (I : Type) (make : pgm -> res I) ask dflt step_runs num_runs (w : world I) b query set_iter nd vt m data max_iter parallel draw schedule,
  (step_runs < 1)%Z -> (1 <= num_runs)%Z ->
  snd (compile_next make num_runs (fst (exec make ask dflt w (OTrained (emcc_trainer query set_iter nd vt m data max_iter step_runs parallel draw schedule) b)))
    (length (w_objects w))) = Some (Raise ValueError).
Proof. exact @step_raises. Qed.
Print Assumptions C62_step_raises.
Theorem C62_training_raises : forall (I : Type) (make : pgm -> res I) ask dflt gen w b x num_runs, gen 0 = Raise x -> (1 <= num_runs)%Z ->
  snd (compile_next make num_runs (fst (exec make ask dflt w (OTrained gen b))) (length (w_objects w))) = Some (Raise x).
Proof. exact @next_raises. Qed.
Print Assumptions C62_training_raises.
(** Objects that are given their models have no compile_incremental. *)
Theorem C62_other_raises : forall (I : Type) (make : pgm -> res I) ask dflt w models b,
  let w1 := fst (exec make ask dflt w (OMulti models b)) in
  exec make ask dflt w1 (OMore (length (w_objects w))) = (w1, Raise AttributeError).
Proof. exact @more_raises. Qed.
Print Assumptions C62_other_raises.
