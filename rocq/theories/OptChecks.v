(** Sample runs of EM that stop. *)

From Coq Require Import String Bool Arith ZArith QArith Qcanon Lia Permutation List.
From Verif Require Import PyBase PyFacts Num DomainModel NdArray StoreModel NumStore FactorModel GraphModel ModelModel InferModel
  CausalModel LearnModel Spec StoreSpec FactorSpec GraphSpec ModelSpec NetSpec CausalSpec LearnSpec EmSpec
  QSpec GradSpec PipeSpec OptSpec Checks FactorChecks GraphChecks InferChecks CausalChecks
  LearnChecks EmChecks QChecks GradChecks PipeChecks PropFacts1 DomainFacts.
From Coq Require Import List.
Import ListNotations.
Local Open Scope nat_scope.
Local Open Scope string_scope.
Local Open Scope list_scope.
Local Arguments eqd : simpl never.

(** ** Checks *)

Definition rulesb (D : domain) (F : var -> mfactor) (data : frame) (v : var) : bool :=
  forallb (fun r => forallb (fun p => implb (consistent (row_obs data r) p && forallb (fun w => mem w [v] || negb (qeqb (entry (F w) p) 0)) (keys D))
    (negb (qeqb (entry (F v) p) 0))) (all_assignments D)) (f_rows data).
Lemma qeqb_nz x : negb (qeqb x 0) = true <-> x <> 0%Qc.
Proof.
  rewrite negb_true_iff. split.
  - intros E ->. discriminate E.
  - intros N. destruct (qeqb x 0) eqn:E; [|reflexivity]. exfalso. apply N. unfold qeqb in E. apply Qc_is_canon. now apply Qeq_bool_iff in E.
Qed.
Lemma rulesb_sound D F data v : rulesb D F data v = true -> rules_nothing_out D F data v.
Proof.
  unfold rulesb. intros E r p Jr Jp C O. rewrite forallb_forall in E. specialize (E r Jr). rewrite forallb_forall in E. specialize (E p Jp).
  rewrite C in E. cbn [andb] in E.
  assert (X : forallb (fun w => mem w [v] || negb (qeqb (entry (F w) p) 0)) (keys D) = true).
  { apply forallb_forall. intros w J. destruct (eqd w v) as [-> | N]; [rewrite (proj2 (mem_In v [v])); [reflexivity|now left]|]. rewrite (proj2 (mem_nIn w [v])); [|intros [X | []]; congruence]. cbn [orb]. apply qeqb_nz. auto. }
  rewrite X in E. cbn [implb] in E. now apply qeqb_nz.
Qed.

Definition l02 : list state := [SInt 0; SInt 1; SInt 2].
(** Z = V.  X = Z for two of the three states of U, X = 1 - Z for the other. *)
Definition g_op : digraph := graph_of [("V", "Z"); ("U", "X"); ("Z", "X")].
Definition D_op : domain := [("V", l01); ("U", l02); ("Z", l01); ("X", l01)].
Definition endo_op : list var := ["Z"; "X"].
Definition ts_op (u v : list Q) (x : list Q) : tables :=
  [("V", ([("V", l01)], v, [])); ("U", ([("U", l02)], u, []));
   ("Z", ([("V", l01); ("Z", l01)], [1; 0; 0; 1]%Q, ["V"]));
   ("X", ([("U", l02); ("Z", l01); ("X", l01)], x, ["U"; "Z"]))].
Definition x_op : list Q := [1; 0; 0; 1; 1; 0; 0; 1; 0; 1; 1; 0]%Q.
Definition m_op : pgm := scm_of VNumpy g_op (ts_op [1#2; 1#4; 1#4] [1#2; 1#2] x_op)%Q [] (Some endo_op) false.
Definition F_op : var -> mfactor := table_in m_op.
Definition fr_op : frame := mkF ["Z"; "X"] (rows [[Some 0; Some 0]; [Some 1; Some 1]; [Some 0; Some 1]]%Z).
Definition run_op : learner em_state * outcome := em_run em_query plain_iter equality_test VNumpy 5 (em_init m_op None) fr_op None.
Definition F_end : var -> mfactor := table_in (model_of (fst run_op)).
Definition Us : list var := ["V"; "U"].

Lemma op_tables : causal_tables m_op D_op F_op VNumpy endo_op.
Proof. apply causal_tablesb_sound. vm_compute. reflexivity. Qed.
Lemma op_structural : structural m_op D_op F_op VNumpy endo_op.
Proof. apply structural_check; [exact op_tables|]. vm_compute. reflexivity. Qed.
Lemma op_about : about m_op D_op endo_op fr_op ["Z"; "X"].
Proof. apply aboutb_sound. vm_compute. reflexivity. Qed.
Lemma op_describes : describes D_op m_op.
Proof. apply describesb_sound. vm_compute. reflexivity. Qed.
Lemma op_possible r : In r (f_rows fr_op) -> mass D_op F_op (row_obs fr_op r) <> 0%Qc.
Proof. intros J. apply possibleb_sound. revert r J. apply forallb_forall. vm_compute. reflexivity. Qed.
Lemma op_nodes : m_graph m_op = g_op.
Proof. vm_compute. reflexivity. Qed.
Lemma op_trained m data U : m_graph m = g_op -> f_cols data = ["Z"; "X"] -> to_train None (m_graph m) data ["Z"; "X"] U -> In U Us.
Proof.
  unfold to_train. intros -> -> [N J]. unfold Us.
  assert (K : In U ["V"; "Z"; "U"; "X"]). { destruct J as [J | [<- | [<- | []]]]; [exact J| |]; vm_compute; auto. }
  destruct K as [<- | [<- | [<- | [<- | []]]]]; [left; reflexivity| |right; left; reflexivity|]; exfalso; apply N; vm_compute; auto.
Qed.
Lemma op_sole : forall U, to_train None (m_graph m_op) fr_op ["Z"; "X"] U -> sole_cause (m_graph m_op) F_op endo_op U /\ ~ In U ["Z"; "X"] /\ rules_nothing_out D_op F_op fr_op U.
Proof.
  intros U J. apply (op_trained m_op fr_op U op_nodes eq_refl) in J. 
  destruct J as [<- | [<- | []]]; (split; [apply (sole_causeb_sound m_op D_op F_op VNumpy endo_op op_tables); vm_compute; reflexivity|]); (split; [intros [X | [X | []]]; discriminate X|]);
    apply rulesb_sound; vm_compute; reflexivity.
Qed.
Lemma op_result : snd run_op = Done /\ l_model (fst run_op) = Some (model_of (fst run_op)) /\ em_converged (l_sub (fst run_op)) = Us /\
  map (fun v => map this (params D_op F_end v)) Us = [[2#3; 1#3]; [4#9; 2#9; 1#3]]%Q.
Proof. split; [|split; [|split]]; vm_compute; reflexivity. Qed.

(** the learner in the middle of this run *)
Definition fr_op' : frame := add_missing m_op fr_op.
Definition s0_op : learner em_state := start m_op None fr_op.
Definition s1_op : learner em_state := fst (em_step em_query plain_iter VNumpy s0_op None).
Definition s2_op : learner em_state := fst (em_step em_query plain_iter VNumpy s1_op None).
Definition tables_of (l : learner em_state) : var -> mfactor := table_in (model_of l).
Definition readyb (D : domain) (E : list var) (data : frame) (l : learner em_state) : bool :=
  set_upb D data l && match em_trainable (l_sub l) with Some tr => forallb (learnableb D (tables_of l) (m_graph (model_of l)) data E) tr | None => false end.
Lemma ready_check D E data l : readyb D E data l = true -> l_model l = Some (model_of l) ->
  m_graph (l_prior l) = m_graph (model_of l) -> em_data (l_sub l) = Some (m_graph (model_of l), data) ->
  ready D VNumpy E data l (model_of l) (tables_of l).
Proof.
  unfold readyb. rewrite andb_true_iff. intros [A B] E1 E2 E3. split; [now apply set_up_check|]. intros v (tr & T & J) _.
  rewrite T in B. rewrite forallb_forall in B. apply learnableb_sound. auto.
Qed.
Lemma op_ready : ready D_op VNumpy ["Z"; "X"] fr_op' s0_op (model_of s0_op) (tables_of s0_op) /\
  ready D_op VNumpy ["Z"; "X"] fr_op' s1_op (model_of s1_op) (tables_of s1_op).
Proof. split; (apply ready_check; vm_compute; reflexivity). Qed.
Lemma op_observes : observes D_op fr_op' ["Z"; "X"].
Proof. apply observesb_sound. vm_compute. reflexivity. Qed.
Lemma step_check l : l_model (fst (em_step em_query plain_iter VNumpy l None)) = Some (model_of (fst (em_step em_query plain_iter VNumpy l None))) ->
  snd (em_step em_query plain_iter VNumpy l None) = None ->
  em_step em_query plain_iter VNumpy l None = (fst (em_step em_query plain_iter VNumpy l None), None).
Proof. intros _ E. destruct (em_step em_query plain_iter VNumpy l None) as [a b]. cbn in *. now subst. Qed.
Lemma op_steps : em_step em_query plain_iter VNumpy s0_op None = (s1_op, None) /\ em_step em_query plain_iter VNumpy s1_op None = (s2_op, None).
Proof. split; (apply step_check; vm_compute; reflexivity). Qed.
Lemma op_models : l_model s1_op = Some (model_of s1_op) /\ network (model_of s1_op) D_op (tables_of s1_op) VNumpy /\
  l_model s2_op = Some (model_of s2_op) /\ network (model_of s2_op) D_op (tables_of s2_op) VNumpy.
Proof. split; [vm_compute; reflexivity|]. split; [apply networkb_sound; vm_compute; reflexivity|]. split; [vm_compute; reflexivity|]. apply networkb_sound; vm_compute; reflexivity. Qed.
Lemma op_trains v : In v Us -> trains s0_op v /\ ~ has_converged s0_op v /\ trains s1_op v /\ ~ has_converged s1_op v.
Proof.
  intros J. assert (T : em_trainable (l_sub s0_op) = Some ["V"; "U"] /\ em_trainable (l_sub s1_op) = Some ["V"; "U"]) by (vm_compute; auto).
  assert (C : em_converged (l_sub s0_op) = [] /\ em_converged (l_sub s1_op) = []) by (vm_compute; auto).
  unfold trains, has_converged. rewrite (proj1 C), (proj2 C). assert (K : In v ["V"; "U"]). { exact J. }
  split; [exists ["V"; "U"]; split; [apply T|exact K]|]. split; [intros []|]. split; [|intros []]. exists ["V"; "U"]. split; [apply T|exact K].
Qed.
Lemma op_rules v : In v Us -> rules_nothing_out D_op (tables_of s0_op) fr_op' v /\ rules_nothing_out D_op (tables_of s1_op) fr_op' v.
Proof. intros [<- | [<- | []]]; split; apply rulesb_sound; vm_compute; reflexivity. Qed.
Definition grows (D : domain) (x : Qc) (F F' : var -> mfactor) (v : var) : bool :=
  forallb (fun o => Qle_bool (entry (F' v) o) (x * entry (F v) o)%Qc) (all_assignments D).
Lemma grows_sound D x F F' v : grows D x F F' v = true -> forall o, In o (all_assignments D) -> (entry (F' v) o <= x * entry (F v) o)%Qc.
Proof. intros G o J. unfold grows in G. rewrite forallb_forall in G. apply G in J. now apply Qle_bool_iff in J. Qed.
Lemma op_grows v : In v Us -> forall o, In o (all_assignments D_op) -> (entry (tables_of s1_op v) o <= Q2Qc (4#3) * entry (tables_of s0_op v) o)%Qc.
Proof. intros [<- | [<- | []]]; apply grows_sound; vm_compute; reflexivity. Qed.
Definition sameb (D : domain) (F F' : var -> mfactor) (v : var) : bool :=
  forallb (fun o => qeqb (entry (F' v) o) (entry (F v) o)) (all_assignments D).
Lemma sameb_sound D F F' v : sameb D F F' v = true -> forall o, In o (all_assignments D) -> entry (F' v) o = entry (F v) o.
Proof. intros X o K. unfold sameb in X. rewrite forallb_forall in X. apply X in K. apply Qc_is_canon. now apply Qeq_bool_iff in K. Qed.
Lemma op_same v : In v Us -> forall o, In o (all_assignments D_op) -> entry (tables_of s2_op v) o = entry (tables_of s1_op v) o.
Proof. intros [<- | [<- | []]]; apply sameb_sound; vm_compute; reflexivity. Qed.

Lemma run_check fuel prior tr data max : match snd (em_run em_query plain_iter equality_test VNumpy fuel (em_init prior tr) data max) with Done => true | _ => false end = true ->
  em_run em_query plain_iter equality_test VNumpy fuel (em_init prior tr) data max = (fst (em_run em_query plain_iter equality_test VNumpy fuel (em_init prior tr) data max), Done).
Proof. intros E. destruct (em_run em_query plain_iter equality_test VNumpy fuel (em_init prior tr) data max) as [a []]; [reflexivity|discriminate E..]. Qed.
Lemma converged_check l v : mem v (em_converged (l_sub l)) = true -> has_converged l v.
Proof. apply mem_In. Qed.

(** ** A better table *)

Definition with_table (F : var -> mfactor) (v : var) (f : mfactor) (w : var) : mfactor := if eqd w v then f else F w.
Lemma better_table m' D g data F v : network m' D (table_in m') VNumpy -> nonnegativeb m' D = true -> m_graph m' = g -> mem v (nodes g) = true ->
  Qle_bool (likelihood D (with_table F v (table_in m' v)) data) (likelihood D F data) = false -> ~ best_table D VNumpy g data F v.
Proof.
  intros N P <- M L B. apply mem_In in M.
  assert (R : retabled D VNumpy (m_graph m') F v (with_table F v (table_in m' v))).
  { split; [|split].
    - intros w Nw. unfold with_table. destruct (eqd w v) as [-> | ]; [now elim Nw|reflexivity].
    - unfold with_table. rewrite eqd_refl. apply N. exact M.
    - unfold with_table. rewrite eqd_refl. intros o. apply (nonneg_check D (table_in m') VNumpy m' N P). apply N. exact M. }
  apply B in R. apply Qle_bool_iff in R. congruence.
Qed.

(** ** A table that rules out too much *)

(** X = 0, X = Z or X = 1; the second is given the probability 0. *)
Definition x_zr : list Q := [1; 0; 1; 0; 1; 0; 0; 1; 0; 1; 0; 1]%Q.
Definition m_zr : pgm := scm_of VNumpy g_op (ts_op [1#2; 0; 1#2] [1#2; 1#2] x_zr)%Q [] (Some endo_op) false.
Definition m_zr' : pgm := scm_of VNumpy g_op (ts_op [0; 1; 0] [1#2; 1#2] x_zr)%Q [] (Some endo_op) false.
Definition fr_zr : frame := mkF ["Z"; "X"] (rows [[Some 0; Some 0]; [Some 1; Some 1]]%Z).
Definition run_zr : learner em_state * outcome := em_run em_query plain_iter equality_test VNumpy 5 (em_init m_zr None) fr_zr None.

(** ** Two causes of one variable *)

(** X = 1 if U = 1 and V is not 0.  Y = 1 if V = 2. *)
Definition g_sh : digraph := graph_of [("U", "X"); ("V", "X"); ("V", "Y")].
Definition D_sh : domain := [("U", l01); ("V", l02); ("X", l01); ("Y", l01)].
Definition ts_sh (u v : list Q) : tables :=
  [("U", ([("U", l01)], u, [])); ("V", ([("V", l02)], v, []));
   ("X", ([("U", l01); ("V", l02); ("X", l01)], [1; 0; 1; 0; 1; 0; 1; 0; 0; 1; 0; 1]%Q, ["U"; "V"]));
   ("Y", ([("V", l02); ("Y", l01)], [1; 0; 1; 0; 0; 1]%Q, ["V"]))].
Definition m_sh : pgm := scm_of VNumpy g_sh (ts_sh [1#2; 1#2] [1#4; 1#2; 1#4])%Q [] (Some ["X"; "Y"]) false.
Definition m_sh' : pgm := scm_of VNumpy g_sh (ts_sh [1#3; 2#3] [1#3; 1#3; 1#3])%Q [] (Some ["X"; "Y"]) false.
Definition fr_sh : frame := mkF ["X"; "Y"] (rows [[Some 0; Some 0]; [Some 0; Some 0]; [Some 1; Some 1]]%Z).
Definition run_sh : learner em_state * outcome := em_run em_query plain_iter equality_test VNumpy 5 (em_init m_sh None) fr_sh (Some 1%Z).

(** ** The two runs *)

Lemma zero : exists prior D F endo E data l' m' F' U,
  causal_tables prior D F VNumpy endo /\ describes D prior /\ observes D data E /\ incl endo E /\ f_rows data <> [] /\
  (forall r, In r (f_rows data) -> mass D F (row_obs data r) <> 0%Qc) /\
  (forall u, to_train None (m_graph prior) data E u -> sole_cause (m_graph prior) F endo u /\ ~ In u E) /\
  em_run em_query plain_iter equality_test VNumpy 5 (em_init prior None) data None = (l', Done) /\ l_model l' = Some m' /\ network m' D F' VNumpy /\
  has_converged l' U /\ ~ best_table D VNumpy (m_graph prior) data F' U.
Proof.
  assert (HC : causal_tables m_zr D_op (table_in m_zr) VNumpy endo_op) by (apply causal_tablesb_sound; vm_compute; reflexivity).
  exists m_zr, D_op, (table_in m_zr), endo_op, ["Z"; "X"], fr_zr, (fst run_zr), (model_of (fst run_zr)), (table_in (model_of (fst run_zr))), "U".
  split; [exact HC|]. split; [apply describesb_sound; vm_compute; reflexivity|]. split; [apply observesb_sound; vm_compute; reflexivity|].
  split; [apply inclb_sound; vm_compute; reflexivity|]. split; [discriminate|].
  split; [intros r J; apply possibleb_sound; revert r J; apply forallb_forall; vm_compute; reflexivity|].
  split.
  { intros u J. assert (G : m_graph m_zr = g_op) by (vm_compute; reflexivity). apply (op_trained m_zr fr_zr u G eq_refl) in J.
    split; [apply (sole_causeb_sound m_zr D_op (table_in m_zr) VNumpy endo_op HC)|]; destruct J as [<- | [<- | []]];
      [vm_compute; reflexivity|vm_compute; reflexivity|intros [X | [X | []]]; discriminate X|intros [X | [X | []]]; discriminate X]. }
  split; [apply run_check; vm_compute; reflexivity|]. split; [vm_compute; reflexivity|]. split; [apply networkb_sound; vm_compute; reflexivity|].
  split; [apply converged_check; vm_compute; reflexivity|].
  apply (better_table m_zr'); [apply networkb_sound| | | |]; vm_compute; reflexivity.
Qed.

Lemma shared : exists prior D F endo E data l' m' F' U,
  causal_tables prior D F VNumpy endo /\ describes D prior /\ observes D data E /\ incl endo E /\ f_rows data <> [] /\
  (forall r, In r (f_rows data) -> mass D F (row_obs data r) <> 0%Qc) /\
  (forall u, to_train None (m_graph prior) data E u -> learnable D F (m_graph prior) data E u /\ rules_nothing_out D F data u) /\
  em_run em_query plain_iter equality_test VNumpy 5 (em_init prior None) data (Some 1%Z) = (l', Done) /\ l_model l' = Some m' /\ network m' D F' VNumpy /\
  has_converged l' U /\ ~ best_table D VNumpy (m_graph prior) data F' U.
Proof.
  assert (HC : causal_tables m_sh D_sh (table_in m_sh) VNumpy ["X"; "Y"]) by (apply causal_tablesb_sound; vm_compute; reflexivity).
  exists m_sh, D_sh, (table_in m_sh), ["X"; "Y"], ["X"; "Y"], fr_sh, (fst run_sh), (model_of (fst run_sh)), (table_in (model_of (fst run_sh))), "U".
  split; [exact HC|]. split; [apply describesb_sound; vm_compute; reflexivity|]. split; [apply observesb_sound; vm_compute; reflexivity|].
  split; [apply inclb_sound; vm_compute; reflexivity|]. split; [discriminate|].
  split; [intros r J; apply possibleb_sound; revert r J; apply forallb_forall; vm_compute; reflexivity|].
  split.
  { intros u [N J]. assert (G : m_graph m_sh = g_sh) by (vm_compute; reflexivity). rewrite G in J.
    assert (K : In u ["U"; "V"]).
    { assert (K : In u ["U"; "X"; "V"; "Y"]). { destruct J as [J | [<- | [<- | []]]]; [exact J| |]; vm_compute; auto. }
      destruct K as [<- | [<- | [<- | [<- | []]]]]; [now left| |right; now left|]; exfalso; apply N; vm_compute; auto. }
    split; [apply learnableb_sound|apply rulesb_sound]; (destruct K as [<- | [<- | []]]; vm_compute; reflexivity). }
  split; [apply run_check; vm_compute; reflexivity|]. split; [vm_compute; reflexivity|]. split; [apply networkb_sound; vm_compute; reflexivity|].
  split; [apply converged_check; vm_compute; reflexivity|].
  apply (better_table m_sh'); [apply networkb_sound| | | |]; vm_compute; reflexivity.
Qed.

(** The run with the model of [m_op] and another model with the same equations. *)
Definition m_op2 : pgm := scm_of VNumpy g_op (ts_op [1#8; 1#2; 3#8] [3#4; 1#4] x_op)%Q [] (Some endo_op) false.
Lemma op_keeps : keeps_equations m_op D_op F_op VNumpy endo_op m_op2 (table_in m_op2).
Proof.
  split; [vm_compute; reflexivity|]. split; [vm_compute; reflexivity|]. split.
  - apply structural_check; [apply causal_tablesb_sound|]; vm_compute; reflexivity.
  - intros v [<- | [<- | []]]; vm_compute; reflexivity.
Qed.
Lemma op_run : em_run em_query plain_iter equality_test VNumpy 5 (em_init m_op None) fr_op None = (fst run_op, Done) /\
  l_model (fst run_op) = Some (model_of (fst run_op)) /\ network (model_of (fst run_op)) D_op F_end VNumpy.
Proof.
  split; [apply run_check; vm_compute; reflexivity|]. split; [vm_compute; reflexivity|]. apply networkb_sound. vm_compute. reflexivity.
Qed.
Lemma op_exogenous u : exogenous m_op endo_op u <-> In u Us.
Proof.
  rewrite <- exogenousb_iff. unfold exogenousb. rewrite op_nodes. split.
  - intros E. apply andb_true_iff in E as [E1 E2]. apply mem_In in E1.
    destruct E1 as [<- | [<- | [<- | [<- | []]]]]; [now left|discriminate E2|right; now left|discriminate E2].
  - intros [<- | [<- | []]]; vm_compute; reflexivity.
Qed.
Lemma op_converged u : exogenous m_op endo_op u -> has_converged (fst run_op) u.
Proof. intros J. assert (K := proj1 (op_exogenous u) J). clear J. apply converged_check. destruct K as [<- | [<- | []]]; vm_compute; reflexivity. Qed.
Lemma op_numbers : map (fun v => map this (params D_op F_end v)) Us = [[2#3; 1#3]; [4#9; 2#9; 1#3]]%Q /\
  this (likelihood D_op F_op fr_op) = (9#512)%Q /\ this (likelihood D_op F_end fr_op) = (16#729)%Q /\ this (likelihood D_op (table_in m_op2) fr_op) = (675#32768)%Q.
Proof. split; [|split; [|split]]; vm_compute; reflexivity. Qed.


