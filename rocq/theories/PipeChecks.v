(** Sample EMCC and GDCC objects. *)

From Coq Require Import String Bool Arith ZArith QArith Qcanon Lia Permutation List.
From Verif Require Import PyBase PyFacts Num DomainModel NdArray StoreModel NumStore FactorModel GenModel GraphModel ModelModel InferModel
  CausalModel MultiModel LearnModel AggModel GradModel Spec StoreSpec FactorSpec GraphSpec ModelSpec NetSpec OrderSpec CausalSpec MultiSpec GenSpec LearnSpec EmSpec
  QSpec ConvSpec GradSpec PipeModel PipeSpec Checks FactorChecks GraphChecks InferChecks CausalChecks MultiChecks
  LearnChecks EmChecks AggChecks QChecks ConvChecks GradChecks PipeFacts PipeFacts2 PipeFacts3 PipeFacts4 PropFacts1 DomainFacts.
From Coq Require Import List.
Import ListNotations.
Local Open Scope nat_scope.
Local Open Scope string_scope.
Local Open Scope list_scope.
Local Arguments eqd : simpl never.

(** ** Checks *)

Definition agreesb (r o : obs) : bool := forallb (fun vs => match dget (fst vs) o with Some s => if eqd s (snd vs) then true else false | None => false end) r.
Definition explainedb (D : domain) (F : var -> mfactor) (endo : list var) (data : frame) : bool :=
  forallb (fun r => existsb (fun o => agreesb (row_obs data r) o && forallb (fun v => okb (mf_get_value (F v) o) n1) endo) (all_assignments D)) (f_rows data).
Lemma explainedb_sound D F endo data : NoDup (keys D) -> explainedb D F endo data = true -> explained D F endo data.
Proof.
  intros N E r J. unfold explainedb in E. rewrite forallb_forall in E. apply E, existsb_exists in J as (o & Jo & B).
  apply andb_true_iff in B as [B1 B2]. exists o. split; [apply (all_assignments_In_full D o N); exact Jo|]. split.
  - intros v s K. unfold agreesb in B1. rewrite forallb_forall in B1. specialize (B1 _ K). cbn [fst snd] in B1.
    destruct (dget v o) as [x|]; [|discriminate]. destruct (eqd x s) as [-> | ]; [reflexivity|discriminate].
  - intros v K. rewrite forallb_forall in B2. specialize (B2 v K). now apply okb_sound in B2.
Qed.
Definition drawn_exogenousb (m : pgm) (D : domain) (endo : list var) (draw : var -> list num) : bool :=
  forallb (fun u => mem u endo || drawnb [(u, GradSpec.states_of D u)] [] false (draw u)) (nodes (m_graph m)).
Lemma drawn_exogenous_check m D endo draw : (forall i, drawn_exogenousb m D endo (draw i) = true) -> drawn_exogenous m D endo draw.
Proof.
  intros E i u [J N]. specialize (E i). unfold drawn_exogenousb in E. rewrite forallb_forall in E. specialize (E u J).
  apply orb_true_iff in E as [E | E]; [apply mem_In in E; contradiction|]. now apply drawnb_sound.
Qed.
Definition exogenousb (m : pgm) (endo : list var) (u : var) : bool := mem u (nodes (m_graph m)) && negb (mem u endo).
Lemma exogenousb_iff m endo u : exogenousb m endo u = true <-> exogenous m endo u.
Proof. unfold exogenousb, exogenous. rewrite andb_true_iff, negb_true_iff, mem_In, mem_nIn. tauto. Qed.
Definition aboutb (m : pgm) (D : domain) (endo : list var) (data : frame) (E : list var) : bool :=
  observesb D data E && inclb endo E && forallb (fun u => mem u endo || negb (mem u E)) (nodes (m_graph m)) &&
  match f_rows data with [] => false | _ => true end.
Lemma aboutb_sound m D endo data E : aboutb m D endo data E = true -> about m D endo data E.
Proof.
  unfold aboutb. rewrite !andb_true_iff. intros [[[E1 E2] E3] E4]. split; [now apply observesb_sound|]. split; [now apply inclb_sound|].
  split; [|destruct (f_rows data); [discriminate|congruence]].
  intros u [J N] K. rewrite forallb_forall in E3. specialize (E3 u J). apply orb_true_iff in E3 as [X | X]; [apply mem_In in X; auto|].
  apply negb_true_iff, mem_nIn in X. auto.
Qed.
Lemma structural_check m D endo : causal_tables m D (table_in m) VNumpy endo -> forallb (fun v => zero_oneb (table_in m v)) endo = true ->
  structural m D (table_in m) VNumpy endo.
Proof. intros HC Z. split; [exact HC|]. now apply (deterministic_check m D _ VNumpy endo HC). Qed.
Lemma equality_decides : decides equality_test.
Proof. intros P Q _. eexists. reflexivity. Qed.

(** ** A model whose effects are not determined by the data *)

(** X = U mod 2.  Y is 0 for U = 0, 1 for U = 1 and X otherwise. *)
Definition g_pi : digraph := graph_of [("U", "X"); ("U", "Y"); ("X", "Y")].
Definition D_pi : domain := [("U", l03); ("X", l01); ("Y", l01)].
Definition endo_pi : list var := ["X"; "Y"].
Definition ts_pi (u : list Q) : tables :=
  [("U", ([("U", l03)], u, []));
   ("X", ([("U", l03); ("X", l01)], [1; 0; 0; 1; 1; 0; 0; 1]%Q, ["U"]));
   ("Y", ([("U", l03); ("X", l01); ("Y", l01)], [1; 0; 1; 0; 0; 1; 0; 1; 1; 0; 0; 1; 1; 0; 0; 1]%Q, ["U"; "X"]))].
Definition m_pi : pgm := scm_of VNumpy g_pi (ts_pi [1#2; 1#4; 1#8; 1#8]%Q) [] (Some endo_pi) false.
Definition F_pi : var -> mfactor := table_in m_pi.
Definition fr_pi : frame := mkF ["X"; "Y"] (rows [[Some 0; Some 0]; [Some 1; Some 1]; [Some 1; Some 1]]%Z).
(** the same numbers in every training, others in the second run *)
Definition draw_pi (k i : nat) (v : var) : list num :=
  match i with 0 => map q [-1#6; -1#3; -1#6; -1#3] | _ => map q [-1#8; -1#8; -3#8; -1#8] end.

Lemma pi_tables : causal_tables m_pi D_pi F_pi VNumpy endo_pi.
Proof. apply causal_tablesb_sound. vm_compute. reflexivity. Qed.
Lemma pi_structural : structural m_pi D_pi F_pi VNumpy endo_pi.
Proof. apply structural_check; [exact pi_tables|]. vm_compute. reflexivity. Qed.
Lemma pi_about : about m_pi D_pi endo_pi fr_pi ["X"; "Y"].
Proof. apply aboutb_sound. vm_compute. reflexivity. Qed.
Lemma pi_graph : m_graph m_pi = g_pi /\ keys (m_domains m_pi) = nodes g_pi.
Proof. vm_compute. split; reflexivity. Qed.
Lemma pi_only u : exogenous m_pi endo_pi u <-> u = "U".
Proof.
  rewrite <- exogenousb_iff. split; [|intros ->; vm_compute; reflexivity]. intros E. unfold exogenousb in E.
  apply andb_true_iff in E as [E1 E2]. apply mem_In in E1. rewrite (proj1 pi_graph) in E1.
  destruct E1 as [<- | [<- | [<- | []]]]; [reflexivity|discriminate E2|discriminate E2].
Qed.
Lemma pi_exogenous : exists u, exogenous m_pi endo_pi u.
Proof. exists "U". now apply pi_only. Qed.
Lemma pi_drawn k : drawn_exogenous m_pi D_pi endo_pi (draw_pi k).
Proof. apply drawn_exogenous_check. intros [|i]; vm_compute; reflexivity. Qed.
Lemma pi_explained : explained D_pi F_pi endo_pi fr_pi.
Proof. apply explainedb_sound; [apply nodupb_sound; vm_compute; reflexivity|]. vm_compute. reflexivity. Qed.
Lemma pi_children u : exogenous m_pi endo_pi u -> exists v, arc (m_graph m_pi) u v.
Proof. intros J. assert (Q := proj1 (pi_only u) J). rewrite Q. clear Q J. exists "X". rewrite (proj1 pi_graph). now left. Qed.
Lemma pi_sole u : exogenous m_pi endo_pi u -> sole_cause (m_graph m_pi) F_pi endo_pi u /\ distinct_name (m_graph m_pi) u.
Proof.
  intros J. assert (Q := proj1 (pi_only u) J). rewrite Q. clear Q J. split; [apply (sole_causeb_sound m_pi D_pi F_pi VNumpy endo_pi pi_tables); vm_compute; reflexivity|].
  assert (X : name_apartb m_pi "U" = true) by (vm_compute; reflexivity). apply name_apartb_sound in X.
  intros w a b Jw. apply X. rewrite (proj1 pi_graph) in Jw. now rewrite (proj2 pi_graph).
Qed.

Definition em_pi : nat -> res (list pgm) := emcc_trainer em_query plain_iter equality_test VNumpy m_pi fr_pi 2 2 false draw_pi (fun _ => []).
Definition gd_pi (parallel : bool) : nat -> res (list pgm) :=
  gdcc_trainer Qc 1%Qc Qcmult Qcinv lg_id 0%Qc best VNumpy m_pi fr_pi None 2 parallel draw_pi (fun _ => [1; 0]).
Definition rq_pi : request := MkR ["Y"] (DoDict [("X", SInt 1)]) [] false None.
Definition w_em : world pgm := fst (exec ve_make sample_ask VNumpy (MkW [] []) (OTrained em_pi true)).
Definition w_gd : world pgm := fst (exec ve_make sample_ask VNumpy (MkW [] []) (OTrained (gd_pi true) true)).
Definition models_in (r : res (list pgm)) : list pgm := match r with Ok ms => ms | Raise _ => [] end.
Lemma pi_answers :
  map (fun m => map this (params D_pi (table_in m) "U")) (models_in (em_pi 0)) = [[1#6; 1#3; 1#6; 1#3]; [1#12; 1#3; 1#4; 1#3]]%Q /\
  shows_bounds (query_answer ve_make sample_ask VNumpy w_em 0 rq_pi) (map q [1#12; 5#6; 1#6; 11#12]) = true /\
  map (fun m => map this (params D_pi (table_in m) "U")) (models_in (gd_pi true 0)) = [[1#6; 1#3; 1#6; 1#3]; [1#4; 1#4; 1#4; 1#4]]%Q /\
  shows_bounds (query_answer ve_make sample_ask VNumpy w_gd 0 rq_pi) (map q [1#6; 3#4; 1#4; 5#6]) = true.
Proof. vm_compute. repeat split. Qed.

(** Another model with the same equations. *)
Definition m_wide : pgm := scm_of VNumpy g_pi (ts_pi [1#3; 1#3; 0; 1#3]%Q) [] (Some endo_pi) false.
Lemma wide_keeps : keeps_equations m_pi D_pi F_pi VNumpy endo_pi m_wide (table_in m_wide).
Proof.
  split; [vm_compute; reflexivity|]. split; [vm_compute; reflexivity|]. split.
  - apply structural_check; [apply causal_tablesb_sound|]; vm_compute; reflexivity.
  - intros v [<- | [<- | []]]; vm_compute; reflexivity.
Qed.
Lemma likely_check D data ms F2 : forallb (fun m' => Qle_bool (likelihood D (table_in m') data) (likelihood D F2 data)) ms = true ->
  forall m', In m' ms -> (likelihood D (table_in m') data <= likelihood D F2 data)%Qc.
Proof. intros E m' J. rewrite forallb_forall in E. specialize (E m' J). now apply Qle_bool_iff in E. Qed.
Lemma wide_likely m' : In m' (models_in (em_pi 0)) -> (likelihood D_pi (table_in m') fr_pi <= likelihood D_pi (table_in m_wide) fr_pi)%Qc.
Proof. apply likely_check. vm_compute. reflexivity. Qed.
Lemma wide_effect : this (do_mass D_pi (table_in m_wide) [("X", SInt 1)] [("Y", SInt 1)]) = (2#3)%Q.
Proof. vm_compute. reflexivity. Qed.
Lemma em_returns : em_pi 0 = Ok (models_in (em_pi 0)).
Proof.
  assert (X : match em_pi 0 with Ok _ => true | Raise _ => false end = true) by (vm_compute; reflexivity).
  unfold models_in. destruct (em_pi 0); [reflexivity|discriminate].
Qed.

(** The learners of the two runs, finished in the other order. *)
Definition agg_pi : aggregator (learner gr_state) pgm :=
  fst (train_agg true 2 (gd_generate Qc 1%Qc Qcmult Qcinv lg_id 0%Qc best VNumpy m_pi fr_pi None None (draw_pi 0)) [1; 0]).
Definition last_table (r : res (option (list pgm))) : list Q :=
  match r with Ok (Some ms) => map this (params D_pi (table_in (last ms m_pi)) "U") | _ => [] end.
Lemma evolution_pi : last_table (get_model_evolution (Some agg_pi) 0) = [1#4; 1#4; 1#4; 1#4]%Q /\
  last_table (get_model_evolution (Some agg_pi) 1) = [1#6; 1#3; 1#6; 1#3]%Q /\
  last_table (get_model_evolution (Some agg_pi) (-1)) = [1#6; 1#3; 1#6; 1#3]%Q /\
  get_model_evolution (Some agg_pi) 2 = Raise IndexError /\ get_model_evolution (Some agg_pi) (-3) = Raise IndexError.
Proof. vm_compute. repeat split. Qed.
Lemma evolution_models : map (fun m => map this (params D_pi (table_in m) "U")) (a_models agg_pi) = [[1#6; 1#3; 1#6; 1#3]; [1#4; 1#4; 1#4; 1#4]]%Q.
Proof. vm_compute. reflexivity. Qed.
(** the program of C61_case: the object is asked, asked again with another
    kind of answer, trained anew and asked *)
Definition next_pi (w : world pgm) (s : op) : world pgm := fst (exec ve_make sample_ask VNumpy w s).
Definition w_pi : world pgm := next_pi (next_pi (next_pi (next_pi w_em (OQuery 0 rq_pi)) (OInterval 0 false)) (OCompile 0)) (OProb 0 PNS "X" "Y" None None).
Lemma next_comes w nb s nb' : comes ve_make sample_ask VNumpy em_pi 0 w nb -> undisturbed 0 nb s -> turn 0 nb s = nb' ->
  comes ve_make sample_ask VNumpy em_pi 0 (next_pi w s) nb'.
Proof. intros C U <-. now apply comes_next. Qed.
Lemma comes_em : comes ve_make sample_ask VNumpy em_pi 0 w_em (0, true).
Proof. unfold w_em. apply comes_new. reflexivity. Qed.
Lemma comes_pi : comes ve_make sample_ask VNumpy em_pi 0 w_pi (2, false).
Proof.
  unfold w_pi. apply next_comes with (nb := (2, false)); [|intros _; left; cbn; lia|reflexivity].
  apply next_comes with (nb := (1, false)); [|exact Logic.I|reflexivity].
  apply next_comes with (nb := (1, true)); [|exact Logic.I|reflexivity].
  apply next_comes with (nb := (0, true)); [exact comes_em|exact Logic.I|reflexivity].
Qed.

(** The interval of the object does not contain the effect in [m_wide]. *)
Definition bounds_at (r : res answer) (o : obs) : option (Q * Q) :=
  match r with
  | Ok (AInterval g) =>
      match store_low g, store_up g with
      | Ok sl, Ok su => match get_value sl o, get_value su o with Ok (Fin lo), Ok (Fin hi) => Some (this lo, this hi) | _, _ => None end
      | _, _ => None
      end
  | _ => None
  end.
Lemma bounds_at_sound r o lo hi : bounds_at r o = Some (lo, hi) -> exists g a b, r = Ok (AInterval g) /\ interval g o a b /\ this a = lo /\ this b = hi.
Proof.
  unfold bounds_at, interval. destruct r as [[? | g | ? | ]|]; try discriminate. intros E.
  destruct (store_low g) as [sl|] eqn:E1; [|discriminate]. destruct (store_up g) as [su|] eqn:E2; [|discriminate].
  destruct (get_value sl o) as [[x| | |]|] eqn:E3; try discriminate. destruct (get_value su o) as [[y| | |]|] eqn:E4; try discriminate.
  injection E as <- <-. exists g, x, y. split; [reflexivity|]. split; [|auto]. exists sl, su. auto.
Qed.
Lemma inner_pi : exists g lo hi, query_answer ve_make sample_ask VNumpy w_em 0 rq_pi = Ok (AInterval g) /\ interval g [("Y", SInt 1)] lo hi /\
  this lo = (5#6)%Q /\ this hi = (11#12)%Q.
Proof. apply bounds_at_sound. vm_compute. reflexivity. Qed.
Lemma inner_ok : exists m2 F2 ms g lo hi, keeps_equations m_pi D_pi F_pi VNumpy endo_pi m2 F2 /\
  em_pi 0 = Ok ms /\ (forall m', In m' ms -> (likelihood D_pi (table_in m') fr_pi <= likelihood D_pi F2 fr_pi)%Qc) /\
  query_answer ve_make sample_ask VNumpy w_em 0 rq_pi = Ok (AInterval g) /\ interval g [("Y", SInt 1)] lo hi /\
  (do_mass D_pi F2 [("X", SInt 1)] [("Y", SInt 1)] < lo)%Qc.
Proof.
  destruct inner_pi as (g & lo & hi & E & I & L & _). exists m_wide, (table_in m_wide), (models_in (em_pi 0)), g, lo, hi.
  split; [exact wide_keeps|]. split; [exact em_returns|]. split; [exact wide_likely|]. split; [exact E|]. split; [exact I|].
  unfold Qclt. rewrite L, wide_effect. reflexivity.
Qed.
Lemma threads_ok : exists l m', nth_error (a_objects agg_pi) 0 = Some l /\ nth_error (a_models agg_pi) 0 = Some m' /\
  get_model_evolution (Some agg_pi) 0 = Ok (Some (model_evolution l)) /\
  map this (params D_pi (table_in (last (model_evolution l) m_pi)) "U") = [1#4; 1#4; 1#4; 1#4]%Q /\
  map this (params D_pi (table_in m') "U") = [1#6; 1#3; 1#6; 1#3]%Q.
Proof.
  assert (E := proj1 evolution_pi). assert (M := evolution_models). unfold get_model_evolution in *. revert E M. generalize agg_pi.
  intros a. cbn [Z.ltb Z.compare Z.to_nat]. destruct (nth_error (a_objects a) 0) as [l|]; [|discriminate].
  destruct (a_models a) as [|m' ms]; [discriminate|]. intros E M. exists l, m'.
  split; [reflexivity|]. split; [reflexivity|]. split; [reflexivity|]. split; [exact E|exact (f_equal (hd []) M)].
Qed.

(** ** Incremental compilation, one model per turn *)
Definition draw_one (k i : nat) : var -> list num := draw_pi 0 (k + i).
Lemma one_drawn k : drawn_exogenous m_pi D_pi endo_pi (draw_one k).
Proof. intros i u J. exact (pi_drawn 0 (k + i) u J). Qed.
Definition em_one : nat -> res (list pgm) := emcc_trainer em_query plain_iter equality_test VNumpy m_pi fr_pi 2 1 false draw_one (fun _ => []).
Definition w_one : world pgm := fst (exec ve_make sample_ask VNumpy (program ve_make sample_ask VNumpy (MkW [] []) []) (OTrained em_one true)).
Definition w_two : world pgm := next_pi w_one (OMore 0).
(** in between another object gets its own models *)
Definition w_other : world pgm := next_pi (next_pi (next_pi w_two (OQuery 0 rq_pi)) (OList [m_wide])) (OMulti (Some 3) true).
Definition w_three : world pgm := next_pi w_other (OMore 0).
Lemma one_grows : grows ve_make sample_ask VNumpy em_one 0 w_one (0, true).
Proof. unfold w_one. now apply grows_new. Qed.
Lemma one_list w t : grows ve_make sample_ask VNumpy em_one 0 w (t, true) -> forall s,
  match nth_error (w_objects w) 0 with Some o => match s with OMulti (Some k) _ | OSet _ (Some k) => negb (k =? mi_models o)%nat | _ => true end | None => true end = true ->
  aside 0 t s -> match s with OInterval 0 _ => False | _ => True end -> grows ve_make sample_ask VNumpy em_one 0 (next_pi w s) (t, true).
Proof.
  intros G s E A N. assert (X := grows_next ve_make sample_ask VNumpy em_one 0 w t true s G A).
  assert (Y : ~ gives_away w 0 s).
  { intros (o & Eo & Q). rewrite Eo in E. destruct s as [| [k|] ? | | j [k|] | | | | | |]; try contradiction; subst k; rewrite Nat.eqb_refl in E; discriminate. }
  specialize (X Y). destruct s; try exact X. destruct i; [contradiction|exact X].
Qed.
Lemma two_grows : grows ve_make sample_ask VNumpy em_one 0 w_two (1, true).
Proof. apply grows_more. exact one_grows. Qed.
Lemma three_grows : grows ve_make sample_ask VNumpy em_one 0 w_three (2, true).
Proof.
  apply grows_more. unfold w_other. apply one_list; [|vm_compute; reflexivity|exact Logic.I|exact Logic.I].
  apply one_list; [|vm_compute; reflexivity|exact Logic.I|exact Logic.I].
  apply one_list; [exact two_grows|vm_compute; reflexivity|intros _; lia|exact Logic.I].
Qed.
Definition stops (r : world pgm * option (res unit)) : bool := match snd r with None => true | Some _ => false end.
Lemma one_answers : stops (compile_next ve_make 2 w_one 0) = false /\ stops (compile_next ve_make 2 w_other 0) = false /\ stops (compile_next ve_make 2 w_three 0) = true /\
  shows_bounds (query_answer ve_make sample_ask VNumpy w_two 0 rq_pi) (map q [1#6; 5#6; 1#6; 5#6]) = true /\
  shows_bounds (query_answer ve_make sample_ask VNumpy w_three 0 rq_pi) (map q [1#12; 5#6; 1#6; 11#12]) = true.
Proof. repeat split; vm_compute; reflexivity. Qed.

(** The list of the object given to another one, which adds a model. *)
Definition w_shared : world pgm := next_pi (next_pi (next_pi w_two (OList [m_wide])) (OMulti (Some 1) true)) (OAdd 1 (Some 3)).
Lemma shared_ok : stops (compile_next ve_make 2 w_shared 0) = true /\
  shows_bounds (query_answer ve_make sample_ask VNumpy w_shared 0 rq_pi) (map q [1#6; 5#6; 1#6; 5#6]) = true /\
  shows_bounds (query_answer ve_make sample_ask VNumpy (next_pi w_shared (OMore 0)) 0 rq_pi) (map q [1#12; 2#3; 1#3; 11#12]) = true.
Proof. repeat split; vm_compute; reflexivity. Qed.
