(** Sample learners for the examples about parameter learning. *)

From Coq Require Import String Ascii Bool Arith ZArith QArith Qcanon Lia List.
From Verif Require Import PyBase PyFacts Num DomainModel NdArray StoreModel NumStore FactorModel GraphModel ModelModel InferModel LearnModel
  Spec StoreSpec FactorSpec GraphSpec ModelSpec Checks FactorChecks GraphChecks NetSpec OrderSpec InferChecks CausalChecks LearnSpec.
Import ListNotations.
Local Open Scope nat_scope.
Local Open Scope string_scope.
Local Open Scope list_scope.
Local Arguments eqd : simpl never.

(** set iteration in the order of first occurrence *)
Definition plain_iter (l : list var) : list var := nodup eqd l.
Lemma plain_iter_ok : iterates plain_iter.
Proof. intros l. split; [apply NoDup_nodup|]. intros x. apply nodup_In. Qed.

(** the divergence of two lists of probabilities is zero if they are equal *)
Fixpoint equal_values (P Q : list num) : bool :=
  match P, Q with
  | [], [] => true
  | x :: P, y :: Q => num_eqb x y && equal_values P Q
  | _, _ => false
  end.
Lemma equal_values_sound P : forall Q, equal_values P Q = true -> P = Q.
Proof.
  induction P as [|x P IH]; intros [|y Q] E; try discriminate; auto. cbn in E. apply andb_true_iff in E as [A B].
  apply num_eqb_sound in A as ->. f_equal. auto.
Qed.
Lemma num_eqb_refl_fin q : num_eqb (Fin q) (Fin q) = true.
Proof. cbn. apply Qeq_bool_iff. reflexivity. Qed.
Definition equality_test (P Q : list num) : res bool := Ok (equal_values P Q).
Lemma equality_test_ok : divergence_test equality_test.
Proof.
  intros P Q FP FQ _. unfold equality_test. destruct (equal_values P Q) eqn:E.
  - apply equal_values_sound in E. split; intros; auto; congruence.
  - split; intros H; auto. exfalso. subst Q. enough (equal_values P P = true) by congruence. clear E FQ.
    induction FP as [|x P (q & -> & _) FP IH]; auto. cbn [equal_values]. now rewrite num_eqb_refl_fin, IH.
Qed.

Definition em_query (m : pgm) (target : list var) (e : obs) : res mfactor :=
  ve_query (heuristic_fn MIN_SIZE last_choice) plain_order m target None e.

(** X copies the hidden U *)
Definition ts_em : tables :=
  [("U", ([("U", l01)], [1#2; 1#2]%Q, [])); ("X", ([("U", l01); ("X", l01)], [1; 0; 0; 1]%Q, ["U"]))].
Definition g_em : digraph := graph_of [("U", "X")].
Definition m_em : pgm := scm_of VNumpy g_em ts_em [] None true.
Definition fr_em : frame := mkF ["X"] (map (fun z => [Some (SInt z)]) [0; 0; 1; 0]%Z).

Definition em_go (l : learner em_state) (max : option Z) := em_run em_query plain_iter equality_test VNumpy 5 l fr_em max.
Definition e0 : learner em_state := em_init m_em None.
Definition e1 : learner em_state := fst (em_go e0 None).
Definition e2 : learner em_state := fst (em_go e1 None).

(** the value of the factor of [v] at [o] in a model *)
Definition value_in (m : pgm) (v : var) (o : obs) : res num :=
  match dget v (m_factors m) with Some (Some (FM f)) => mf_get_value f o | _ => Raise KeyError end.
Definition model_value (l : learner em_state) (v : var) (o : obs) : res num :=
  match l_model l with Some m => value_in m v o | None => Raise AttributeError end.

Lemma m_em_settled : settled m_em /\ NoDup (keys (m_factors m_em)).
Proof.
  split; [|apply nodupb_sound; vm_compute; reflexivity].
  change (m_kind m_em) with (KScm ["X"] true). unfold settled. cbn [m_kind].
  split; [discriminate|]. intros _ v d [<- | []]. unfold stored.
  replace (dget "X" (m_factors m_em)) with (Some (Some (FM (table_of VNumpy ts_em "X")))) by (vm_compute; reflexivity).
  congruence.
Qed.

Definition stored_value (l : learner em_state) (v : var) (o : obs) (q : Q) : bool := okb (model_value l v o) (Fin (Q2Qc q)).
Lemma stored_value_sound l v o q : stored_value l v o q = true ->
  exists m f, l_model l = Some m /\ stored m v (FM f) /\ mf_get_value f o = Ok (Fin (Q2Qc q)).
Proof.
  unfold stored_value, model_value. intros E. apply okb_sound in E. destruct (l_model l) as [m|]; [|discriminate].
  unfold value_in in E. destruct (dget v (m_factors m)) as [[[f| |]|]|] eqn:Ef; try discriminate.
  exists m, f. auto.
Qed.

(** the learner after one run *)
Definition e1h : learner em_state :=
  history em_process_data (em_calculate em_query plain_iter VNumpy) (em_stop equality_test) e0 [CRun 5 fr_em None].
Lemma e1h_trainable : em_trainable (l_sub e1h) = Some ["U"].
Proof. vm_compute. reflexivity. Qed.
Lemma e1h_converged : em_converged (l_sub e1h) = ["U"].
Proof. vm_compute. reflexivity. Qed.
Lemma e1h_value : stored_value e1h "U" [("U", SInt 0)] (3#4) = true.
Proof. vm_compute. reflexivity. Qed.
Lemma e1h_step : snd (em_step em_query plain_iter VNumpy e1h None) = None.
Proof. vm_compute. reflexivity. Qed.
Lemma m_em_nodes : nodes (m_graph m_em) = ["U"; "X"].
Proof. vm_compute. reflexivity. Qed.
Lemma m_em_stored : stored m_em "X" (FM (table_of VNumpy ts_em "X")).
Proof. vm_compute. reflexivity. Qed.
