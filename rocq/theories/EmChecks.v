(** Sample learners for the examples about the likelihood. *)

From Coq Require Import String Ascii Bool Arith ZArith QArith Qcanon Lia List.
From Verif Require Import PyBase PyFacts Num DomainModel NdArray StoreModel NumStore FactorModel GraphModel ModelModel InferModel LearnModel
  Spec StoreSpec FactorSpec GraphSpec GraphFacts ModelSpec Checks FactorChecks GraphChecks NetSpec OrderSpec InferChecks CausalChecks LearnSpec
  LearnChecks OrderFacts EmSpec EmFacts7.
Import ListNotations.
Local Open Scope nat_scope.
Local Open Scope string_scope.
Local Open Scope list_scope.
Local Arguments eqd : simpl never.

(** ** The networks of computed models *)
Definition wf_mfb (f : mfactor) : bool :=
  match mf_store f with
  | StNumpy d a => usableb d && (if eqd (shape a) (card d) then true else false) && Nat.eqb (length (flat a)) (prodl (card d))
  | _ => false
  end && nodupb (mf_right f) && inclb (mf_right f) (mf_vars f).
Lemma wf_mfb_sound f : wf_mfb f = true -> wf_mf f /\ mf_vtype f = VNumpy.
Proof.
  unfold wf_mfb. rewrite !andb_true_iff. intros [[E N] I]. unfold wf_mf, mf_domain, mf_vtype, mf_vars in *.
  destruct (mf_store f) as [d a| | |] eqn:Es; try discriminate. rewrite !andb_true_iff in E. destruct E as [[U S] L].
  apply usableb_sound in U. cbn [st_domain]. apply Nat.eqb_eq in L. destruct (eqd (shape a) (card d)) as [Ea|]; [|discriminate].
  split; [|reflexivity]. split; [split; [apply U|auto]|]. split; [exact U|]. split; [now apply nodupb_sound|].
  now apply inclb_sound.
Qed.

(** the table of a variable in a model *)
Definition table_in (m : pgm) (v : var) : mfactor :=
  match dget v (m_factors m) with Some (Some (FM f)) => f | _ => fac VNumpy [] [1%Q] [] end.
Definition has_table (m : pgm) (v : var) : bool :=
  match dget v (m_factors m) with Some (Some (FM _)) => true | _ => false end.
Definition networkb (m : pgm) (D : domain) : bool :=
  dagb (m_graph m) && wf_domb D && same_setb (keys D) (nodes (m_graph m)) && nodupb (keys (m_factors m)) &&
  same_setb (keys (m_factors m)) (nodes (m_graph m)) &&
  forallb (fun v => has_table m v && wf_mfb (table_in m v) && cptb D v (preds (m_graph m) v) (table_in m v)) (nodes (m_graph m)).
Lemma networkb_sound m D : networkb m D = true -> network m D (table_in m) VNumpy.
Proof.
  unfold networkb. rewrite !andb_true_iff. intros [[[[[E1 E2] E3] E4] E5] E6]. destruct (dagb_sound _ E1) as [W A].
  split; [exact W|]. split; [exact A|]. split; [now apply wf_domb_sound|]. split; [now apply same_setb_sound|].
  split; [now apply nodupb_sound|]. split; [now apply same_setb_sound|]. intros v J.
  rewrite forallb_forall in E6. specialize (E6 v J). rewrite !andb_true_iff in E6. destruct E6 as [[H T] C].
  split.
  - unfold stored, has_table, table_in in *. destruct (dget v (m_factors m)) as [[[f| |]|]|]; try discriminate. reflexivity.
  - destruct (wf_mfb_sound _ T) as [Wf Tf]. unfold cptb in C. rewrite !andb_true_iff in C. destruct C as [[[[C1 C2] C3] C4] C5].
    split; [exact Wf|]. split; [exact Tf|]. split; [now apply same_setb_sound|]. split; [now apply same_setb_sound|].
    split. { intros w k K. apply (inclb_sound _ _ C3). auto. }
    split; [now apply finiteb_sound|]. now apply normb_sound.
Qed.
Definition nonnegativeb (m : pgm) (D : domain) : bool := forallb (fun v => nonnegb (table_in m v)) (keys D).

(** ** Starting a learner *)
Definition start (prior : pgm) (tr : option (list var)) (data : frame) : learner em_state :=
  fst (initialize em_process_data (em_init prior tr) data).
Definition model_of (l : learner em_state) : pgm := match l_model l with Some m => m | None => fresh (mkG [] []) true KBn end.

Definition describesb (D : domain) (m : pgm) : bool :=
  nodupb (keys (m_domains m)) && forallb (fun vl => match dget (fst vl) (m_domains m) with Some (Some l) => if eqd l (snd vl) then true else false | _ => false end) D.
Lemma describesb_sound D m : describesb D m = true -> describes D m.
Proof.
  unfold describesb. rewrite andb_true_iff. intros [N A]. split; [now apply nodupb_sound|]. intros v l J.
  rewrite forallb_forall in A. specialize (A _ J). cbn [fst snd] in A. unfold has_domain.
  destruct (dget v (m_domains m)) as [[k|]|]; try discriminate. destruct (eqd k l) as [-> | ]; [auto|discriminate].
Qed.
Definition possibleb (D : domain) (F : var -> mfactor) (o : obs) : bool := negb (qeqb (mass D F o) 0).
Lemma possibleb_sound D F o : possibleb D F o = true -> mass D F o <> 0%Qc.
Proof. unfold possibleb. intros E Z. rewrite Z in E. discriminate E. Qed.
Definition set_upb (D : domain) (data : frame) (l : learner em_state) : bool :=
  let m := model_of l in
  networkb m D && nonnegativeb m D && describesb D (l_prior l) &&
  forallb (fun r => possibleb D (table_in m) (row_obs data r)) (f_rows data) &&
  match em_trainable (l_sub l) with Some tr => inclb tr (nodes (m_graph m)) | None => false end.
Lemma set_up_check D data l : set_upb D data l = true -> l_model l = Some (model_of l) ->
  m_graph (l_prior l) = m_graph (model_of l) -> em_data (l_sub l) = Some (m_graph (model_of l), data) ->
  set_up D VNumpy data l (model_of l) (table_in (model_of l)).
Proof.
  unfold set_upb. rewrite !andb_true_iff. intros [[[[A B] C] R] T] E G M. apply networkb_sound in A.
  split; [exact E|]. split; [exact A|]. split; [now apply (nonneg_check _ _ _ _ A)|]. split; [exact G|].
  split; [now apply describesb_sound|]. split; [exact M|]. split.
  - intros r J. rewrite forallb_forall in R. apply possibleb_sound. auto.
  - destruct (em_trainable (l_sub l)) as [tr|]; [|discriminate]. exists tr. split; [auto|]. now apply inclb_sound.
Qed.

Definition knownb (D : domain) (o : obs) : bool :=
  forallb (fun vl => match dget (fst vl) o with Some s => mem s (snd vl) | None => true end) D.
Lemma knownb_sound D o : knownb D o = true -> Spec.known D o.
Proof.
  intros E v l s J Q. unfold knownb in E. rewrite forallb_forall in E. specialize (E _ J). cbn [fst snd] in E. rewrite Q in E. now apply mem_In.
Qed.
Definition observesb (D : domain) (data : frame) (E : list var) : bool :=
  nodupb (f_cols data) && inclb E (keys D) &&
  forallb (fun r => Nat.eqb (length r) (length (f_cols data)) && (if eqd (keys (row_obs data r)) E then true else false) && knownb D (row_obs data r)) (f_rows data).
Lemma observesb_sound D data E : observesb D data E = true -> observes D data E.
Proof.
  unfold observesb. rewrite !andb_true_iff. intros [[N I] A]. split; [now apply nodupb_sound|]. split; [now apply inclb_sound|].
  intros r J. rewrite forallb_forall in A. specialize (A r J). rewrite !andb_true_iff in A. destruct A as [[A B] C].
  split; [now apply Nat.eqb_eq|]. split; [destruct (eqd (keys (row_obs data r)) E); [auto|discriminate]|now apply knownb_sound].
Qed.

(** all ways to give states to variables *)
Fixpoint ways (D : domain) (vs : list var) : list obs :=
  match vs with
  | [] => [[]]
  | v :: vs => flat_map (fun t => map (fun s => (v, s) :: t) (match dget v D with Some l => l | None => [] end)) (ways D vs)
  end.
Lemma ways_complete D : NoDup (keys D) -> forall vs, NoDup vs -> incl vs (keys D) -> forall t, assigns D vs t -> In t (ways D vs).
Proof.
  intros ND. induction vs as [|v vs IH]; intros N I t [K Fu].
  - destruct t; [now left|discriminate].
  - destruct t as [|(w, s) t]; [discriminate|]. change (w :: keys t = v :: vs) in K. injection K as Kw K. subst w. apply NoDup_cons_iff in N as [Nv N].
    cbn [ways]. apply in_flat_map. exists t. split.
    + apply IH; [auto|intros x J; apply I; now right|]. split; [exact K|]. intros x l J. apply filter_In in J as [J M]. cbn [fst] in M.
      apply mem_In in M. destruct (Fu x l) as (s' & Q & Js).
      { apply filter_In. split; [auto|]. cbn [fst]. apply mem_In. now right. }
      exists s'. split; [|auto]. cbn [dget] in Q. destruct (eqd x v) as [-> | ]; [contradiction|exact Q].
    + assert (Jv : In v (keys D)) by (apply I; now left). apply keys_In in Jv as (l & Jl).
      destruct (Fu v l) as (s' & Q & Js). { apply filter_In. split; [auto|]. cbn [fst]. apply mem_In. now left. }
      cbn [dget] in Q. rewrite eqd_refl in Q. injection Q as <-.
      replace (dget v D) with (Some l) by (symmetry; now apply In_dget). apply in_map_iff. eauto.
Qed.
Definition coveredb (D : domain) (F : var -> mfactor) (g : digraph) (data : frame) (v : var) : bool :=
  forallb (fun t => existsb (fun r => possibleb D F (t ++ row_obs data r)) (f_rows data)) (ways D (preds g v)).
Definition parentsb (D : domain) (g : digraph) (v : var) : bool := wf_domb D && nodupb (preds g v) && inclb (preds g v) (keys D).
Lemma covered_check D F g data v : parentsb D g v && coveredb D F g data v = true ->
  forall t, assigns D (preds g v) t -> exists r, In r (f_rows data) /\ mass D F (t ++ row_obs data r) <> 0%Qc.
Proof.
  unfold parentsb, coveredb. rewrite !andb_true_iff. intros [[[W N] I] A] t At. apply wf_domb_sound in W. rewrite forallb_forall in A.
  assert (J : In t (ways D (preds g v))).
  { apply ways_complete; [apply W|now apply nodupb_sound|now apply inclb_sound|auto]. }
  specialize (A t J). apply existsb_exists in A as (r & Jr & P). exists r. split; [auto|now apply possibleb_sound].
Qed.
Definition learnableb (D : domain) (F : var -> mfactor) (g : digraph) (data : frame) (E : list var) (v : var) : bool :=
  mem v (nodes g) && negb (mem v E) && forallb (fun x => negb (mem x E)) (preds g v) && (parentsb D g v && coveredb D F g data v).
Lemma learnableb_sound D F g data E v : learnableb D F g data E v = true -> learnable D F g data E v.
Proof.
  unfold learnableb. rewrite andb_true_iff. intros [A C]. rewrite !andb_true_iff in A. destruct A as [[A B] P].
  split; [now apply mem_In|]. split; [apply mem_nIn; now apply negb_true_iff|]. split; [|now apply covered_check].
  intros x Ax. rewrite forallb_forall in P. apply mem_nIn, negb_true_iff, P. now apply in_preds.
Qed.

(** a directed path through unobserved variables to an observed one *)
Fixpoint downb (fuel : nat) (g : digraph) (E : list var) (v : var) : bool :=
  match fuel with
  | 0 => false
  | S n => negb (mem v E) && existsb (fun c => mem v (preds g c) && (mem c E || downb n g E c)) (nodes g)
  end.
Lemma downb_sound g E : forall n v, downb n g E v = true -> exists w, In w E /\ reach g v w /\ forall S, incl E S -> linked (open_arc g E S) v w.
Proof.
  induction n as [|n IH]; intros v H; [discriminate|]. cbn [downb] in H. apply andb_true_iff in H as [Nv H].
  apply negb_true_iff, mem_nIn in Nv. apply existsb_exists in H as (c & _ & H). apply andb_true_iff in H as [A H]. apply mem_In, in_preds in A.
  apply orb_true_iff in H as [H|H].
  - apply mem_In in H. exists c. split; [auto|]. split; [right; now constructor|]. intros S I. eapply linked_fwd; [|constructor].
    split; [auto|]. split; [auto|]. exists c. split; [auto|now left].
  - destruct (IH c H) as (w & Jw & R & L). exists w. split; [auto|]. split; [right; eapply arc_reach; eauto|]. intros S I.
    eapply linked_fwd; [|now apply L]. split; [auto|]. split; [auto|]. exists w. split; [auto|exact R].
Qed.
Definition informedb (g : digraph) (E : list var) (v : var) : bool := downb (length (nodes g)) g E v.
Lemma informedb_sound g E v : informedb g E v = true -> informed g E v.
Proof.
  intros H. destruct (downb_sound _ _ _ _ H) as (w & J & _ & L). exists w. split; [auto|]. exists w. split; [now left|]. apply L. apply incl_tl, incl_refl.
Qed.

(** after a step of the learner *)
Definition fallsb (D : domain) (data : frame) (l : learner em_state) : bool :=
  let (l', e) := em_step em_query plain_iter VNumpy l None in
  match e, l_model l' with
  | None, Some m' => networkb m' D && nonnegativeb m' D &&
                     negb (Qle_bool (likelihood D (table_in (model_of l)) data) (likelihood D (table_in m') data))
  | _, _ => false
  end.
Lemma falls_check D data l : fallsb D data l = true -> falls em_query plain_iter D VNumpy data l (table_in (model_of l)).
Proof.
  unfold fallsb, falls. destruct (em_step em_query plain_iter VNumpy l None) as (l' & e). destruct e; [discriminate|].
  destruct (l_model l') as [m'|] eqn:Em; [|discriminate]. rewrite !andb_true_iff. intros [[A B] C]. apply networkb_sound in A.
  exists l', m', (table_in m'). split; [auto|]. split; [auto|]. split; [auto|]. split; [now apply (nonneg_check _ _ _ _ A)|].
  apply Qcnot_le_lt. intros Q. apply Qle_bool_iff in Q. rewrite Q in C. discriminate C.
Qed.

Lemma em_query_exact : exact_query em_query.
Proof. exact (ve_exact _ _ (heuristic_ok MIN_SIZE _ last_chooses) plain_order_ok). Qed.

(** ** Sample data *)
Definition rows (l : list (list (option Z))) : list (list (option state)) := map (map (option_map SInt)) l.

(** U -> V -> X, with only X observed *)
Definition g_ch : digraph := graph_of [("U", "V"); ("V", "X")].
Definition D_ch : domain := [("U", l01); ("V", l01); ("X", l01)].
Definition ts_ch : tables :=
  [("U", ([("U", l01)], [1#3; 2#3]%Q, [])); ("V", ([("U", l01); ("V", l01)], [3#4; 1#4; 1#2; 1#2]%Q, ["U"]));
   ("X", ([("V", l01); ("X", l01)], [9#10; 1#10; 1#5; 4#5]%Q, ["V"]))].
Definition m_ch : pgm := bn_of VNumpy g_ch ts_ch.
Definition F_ch : var -> mfactor := table_in m_ch.
Definition fr_ch : frame := mkF ["X"] (rows [[Some 0]; [Some 0]; [Some 1]]%Z).
Definition l_ch : learner em_state := em_init m_ch None.
Definition run_ch : learner em_state * outcome := em_run em_query plain_iter equality_test VNumpy 2 l_ch fr_ch (Some 2%Z).

Lemma ch_network : network m_ch D_ch F_ch VNumpy.
Proof. apply networkb_sound. vm_compute. reflexivity. Qed.
Lemma ch_nonnegative : nonnegative D_ch F_ch.
Proof. apply (nonneg_check _ _ _ _ ch_network). vm_compute. reflexivity. Qed.
Lemma ch_describes : describes D_ch m_ch.
Proof. apply describesb_sound. vm_compute. reflexivity. Qed.
Lemma ch_observes : observes D_ch fr_ch ["X"].
Proof. apply observesb_sound. vm_compute. reflexivity. Qed.
Lemma ch_possible r : In r (f_rows fr_ch) -> mass D_ch F_ch (row_obs fr_ch r) <> 0%Qc.
Proof.
  assert (E : forallb (fun r => possibleb D_ch F_ch (row_obs fr_ch r)) (f_rows fr_ch) = true) by (vm_compute; reflexivity).
  rewrite forallb_forall in E. intros J. apply possibleb_sound. auto.
Qed.
Lemma ch_learnable v : to_train None (m_graph m_ch) fr_ch ["X"] v -> learnable D_ch F_ch (m_graph m_ch) fr_ch ["X"] v.
Proof.
  intros [N J]. assert (J' : In v ["U"; "V"]).
  { assert (E : nodes (m_graph m_ch) = ["U"; "V"; "X"]) by (vm_compute; reflexivity). rewrite E in J. cbn in *. tauto. }
  clear N J. apply learnableb_sound. destruct J' as [<- | [<- | []]]; vm_compute; reflexivity.
Qed.
(** the data gets strictly more likely *)
Definition last_F : var -> mfactor := table_in (last (model_evolution (fst run_ch)) m_ch).
Lemma ch_result : snd run_ch = Done /\ length (model_evolution (fst run_ch)) = 3 /\
  (likelihood D_ch F_ch fr_ch < likelihood D_ch last_F fr_ch)%Qc.
Proof. split; [vm_compute; reflexivity|]. split; [vm_compute; reflexivity|]. vm_compute. reflexivity. Qed.

(** the same learner in the middle of a run *)
Definition start_ch : learner em_state := start m_ch None fr_ch.
Definition fr_ch' : frame := mkF ["X"; "U"; "V"] (rows [[Some 0; None; None]; [Some 0; None; None]; [Some 1; None; None]]%Z).
Lemma ch_ready : ready D_ch VNumpy ["X"] fr_ch' start_ch (model_of start_ch) (table_in (model_of start_ch)).
Proof.
  split; [apply set_up_check; vm_compute; reflexivity|]. intros v (tr & E & J) _.
  assert (E' : em_trainable (l_sub start_ch) = Some ["U"; "V"]) by (vm_compute; reflexivity). rewrite E' in E. injection E as <-.
  apply learnableb_sound. destruct J as [<- | [<- | []]]; vm_compute; reflexivity.
Qed.
Lemma ch_observes' : observes D_ch fr_ch' ["X"].
Proof. apply observesb_sound. vm_compute. reflexivity. Qed.
Lemma ch_informed v : trains start_ch v -> ~ has_converged start_ch v -> informed (m_graph (model_of start_ch)) ["X"] v.
Proof.
  intros (tr & E & J) _.
  assert (E' : em_trainable (l_sub start_ch) = Some ["U"; "V"]) by (vm_compute; reflexivity). rewrite E' in E. injection E as <-.
  apply informedb_sound. destruct J as [<- | [<- | []]]; vm_compute; reflexivity.
Qed.

(** X -> U -> Y, with X and Y observed *)
Definition g_op : digraph := graph_of [("X", "U"); ("U", "Y")].
Definition D_op : domain := [("X", l01); ("U", l01); ("Y", l01)].
Definition ts_op : tables :=
  [("X", ([("X", l01)], [1#2; 1#2]%Q, [])); ("U", ([("X", l01); ("U", l01)], [1; 0; 0; 1]%Q, ["X"]));
   ("Y", ([("U", l01); ("Y", l01)], [1; 0; 0; 1]%Q, ["U"]))].
Definition m_op : pgm := bn_of VNumpy g_op ts_op.
Definition fr_op : frame := mkF ["X"; "U"; "Y"] (rows [[Some 0; None; Some 0]; [Some 1; None; Some 1]]%Z).
Definition l_op : learner em_state := start m_op None fr_op.

(** U -> X, U -> Y, with Y missing in one row *)
Definition g_mp : digraph := graph_of [("U", "X"); ("U", "Y")].
Definition D_mp : domain := [("U", l01); ("X", l01); ("Y", l01)].
Definition ts_mp : tables :=
  [("U", ([("U", l01)], [1#2; 1#2]%Q, [])); ("X", ([("U", l01); ("X", l01)], [1; 0; 1#2; 1#2]%Q, ["U"]));
   ("Y", ([("U", l01); ("Y", l01)], [3#4; 1#4; 0; 1]%Q, ["U"]))].
Definition m_mp : pgm := bn_of VNumpy g_mp ts_mp.
Definition fr_mp : frame := mkF ["U"; "X"; "Y"] (rows [[None; Some 0; None]; [None; Some 0; Some 1]]%Z).
Definition l_mp : learner em_state := start m_mp (Some ["U"]) fr_mp.

(** U -> X, with X observed and trained *)
Definition g_to : digraph := graph_of [("U", "X")].
Definition D_to : domain := [("U", l01); ("X", l01)].
Definition ts_to : tables :=
  [("U", ([("U", l01)], [1#2; 1#2]%Q, [])); ("X", ([("U", l01); ("X", l01)], [9#10; 1#10; 1#2; 1#2]%Q, ["U"]))].
Definition m_to : pgm := bn_of VNumpy g_to ts_to.
Definition fr_to : frame := mkF ["U"; "X"] (rows [[None; Some 0]]%Z).
Definition l_to : learner em_state := start m_to (Some ["X"]) fr_to.

(** U -> V -> X with an impossible state of U *)
Definition ts_un : tables :=
  [("U", ([("U", l01)], [1; 0]%Q, [])); ("V", ([("U", l01); ("V", l01)], [3#4; 1#4; 1#2; 1#2]%Q, ["U"]));
   ("X", ([("V", l01); ("X", l01)], [9#10; 1#10; 1#5; 4#5]%Q, ["V"]))].
Definition m_un : pgm := bn_of VNumpy g_ch ts_un.
Definition fr_un : frame := mkF ["U"; "V"; "X"] (rows [[None; None; Some 0]; [None; None; Some 1]]%Z).
Definition l_un : learner em_state := start m_un None fr_un.
Definition un' : learner em_state := fst (em_step em_query plain_iter VNumpy l_un None).

Ltac is_trained l vs J := 
  let E := fresh "E" in let E' := fresh "E" in let tr := fresh "tr" in
  destruct J as (tr & E & J); assert (E' : em_trainable (l_sub l) = Some vs) by (vm_compute; reflexivity);
  rewrite E' in E; injection E as <-; clear E'.

Lemma values_mapM {A B} (g : A -> res B) ps xs : Forall2 (fun p x => g p = Ok x) ps xs -> mapM g ps = Ok xs.
Proof. induction 1 as [|p x ps xs E H IH]; [reflexivity|]. cbn [mapM]. rewrite E. cbn [bind]. now rewrite IH. Qed.

(** the hypotheses of a step, without those on observed parents *)
Lemma observed_parent : exists (l : learner em_state) m F D E data,
  set_up D VNumpy data l m F /\ observes D data E /\
  (forall v, trains l v -> In v (nodes (m_graph m)) /\ ~ In v E /\ informed (m_graph m) E v /\
     forall t, assigns D (preds (m_graph m) v) t -> exists r, In r (f_rows data) /\ mass D F (t ++ row_obs data r) <> 0%Qc) /\
  falls em_query plain_iter D VNumpy data l F.
Proof.
  exists l_op, (model_of l_op), (table_in (model_of l_op)), D_op, ["X"; "Y"], fr_op.
  split; [apply set_up_check; vm_compute; reflexivity|]. split; [apply observesb_sound; vm_compute; reflexivity|].
  split; [|apply falls_check; vm_compute; reflexivity].
  intros v J. is_trained l_op ["U"] J. destruct J as [<- | []].
  split; [apply mem_In; vm_compute; reflexivity|]. split; [apply mem_nIn; vm_compute; reflexivity|].
  split; [apply informedb_sound; vm_compute; reflexivity|]. apply covered_check. vm_compute. reflexivity.
Qed.
(** ... without those on the same variables being observed in all rows *)
Lemma different_rows : exists (l : learner em_state) m F D data,
  set_up D VNumpy data l m F /\
  (forall r, In r (f_rows data) -> exists E, observes D (mkF (f_cols data) [r]) E /\
     forall v, trains l v -> informed (m_graph m) E v /\ learnable D F (m_graph m) data E v) /\
  falls em_query plain_iter D VNumpy data l F.
Proof.
  exists l_mp, (model_of l_mp), (table_in (model_of l_mp)), D_mp, fr_mp.
  split; [apply set_up_check; vm_compute; reflexivity|]. split; [|apply falls_check; vm_compute; reflexivity].
  intros r [<- | [<- | []]].
  - exists ["X"]. split; [apply observesb_sound; vm_compute; reflexivity|]. intros v J. is_trained l_mp ["U"] J. destruct J as [<- | []].
    split; [apply informedb_sound; vm_compute; reflexivity|apply learnableb_sound; vm_compute; reflexivity].
  - exists ["X"; "Y"]. split; [apply observesb_sound; vm_compute; reflexivity|]. intros v J. is_trained l_mp ["U"] J. destruct J as [<- | []].
    split; [apply informedb_sound; vm_compute; reflexivity|apply learnableb_sound; vm_compute; reflexivity].
Qed.
(** ... without those on the trained variables being unobserved *)
Lemma observed_trained : exists (l : learner em_state) m F D E data,
  set_up D VNumpy data l m F /\ observes D data E /\
  (forall v, trains l v -> In v E /\ (forall x, arc (m_graph m) x v -> ~ In x E) /\
     forall t, assigns D (preds (m_graph m) v) t -> exists r, In r (f_rows data) /\ mass D F (t ++ row_obs data r) <> 0%Qc) /\
  falls em_query plain_iter D VNumpy data l F.
Proof.
  exists l_to, (model_of l_to), (table_in (model_of l_to)), D_to, ["X"], fr_to.
  split; [apply set_up_check; vm_compute; reflexivity|]. split; [apply observesb_sound; vm_compute; reflexivity|].
  split; [|apply falls_check; vm_compute; reflexivity].
  intros v J. is_trained l_to ["X"] J. destruct J as [<- | []]. split; [now left|]. split.
  - intros x A. apply in_preds in A. assert (E : preds (m_graph (model_of l_to)) "X" = ["U"]) by (vm_compute; reflexivity).
    rewrite E in A. destruct A as [<- | []]. apply mem_nIn. vm_compute. reflexivity.
  - apply covered_check. vm_compute. reflexivity.
Qed.
(** ... without those on every state of the parents being possible *)
Lemma unseen_parents : exists (l : learner em_state) m F D E data,
  set_up D VNumpy data l m F /\ observes D data E /\
  (forall v, trains l v -> informed (m_graph m) E v /\ In v (nodes (m_graph m)) /\ ~ In v E /\ (forall x, arc (m_graph m) x v -> ~ In x E)) /\
  exists l' m' v f, em_step em_query plain_iter VNumpy l None = (l', None) /\ l_model l' = Some m' /\
    In v (nodes (m_graph m)) /\ stored m' v (FM f) /\ ~ normalised f.
Proof.
  exists l_un, (model_of l_un), (table_in (model_of l_un)), D_ch, ["X"], fr_un.
  split; [apply set_up_check; vm_compute; reflexivity|]. split; [apply observesb_sound; vm_compute; reflexivity|]. split.
  - intros v J. is_trained l_un ["U"; "V"] J.
    assert (E : forall x, In x (preds (m_graph (model_of l_un)) v) -> x = "U").
    { intros x A. destruct J as [<- | [<- | []]]; vm_compute in A; intuition. }
    destruct J as [<- | [<- | []]]; (split; [apply informedb_sound; vm_compute; reflexivity|]);
      (split; [apply mem_In; vm_compute; reflexivity|]); (split; [apply mem_nIn; vm_compute; reflexivity|]);
      intros x A; apply in_preds in A; rewrite (E x A); apply mem_nIn; vm_compute; reflexivity.
  - exists un', (model_of un'), "V", (table_in (model_of un') "V").
    split. { unfold un'. assert (E : snd (em_step em_query plain_iter VNumpy l_un None) = None) by (vm_compute; reflexivity).
      destruct (em_step em_query plain_iter VNumpy l_un None) as (a & b). cbn [fst snd] in *. now subst b. }
    split; [vm_compute; reflexivity|]. split; [apply mem_In; vm_compute; reflexivity|]. split; [vm_compute; reflexivity|].
    intros N. destruct (N [("U", SInt 1)]) as (xs & A & B).
    { intros v k J. vm_compute in J. destruct J as [J|[]]. injection J as <- <-. exists (SInt 1). split; [vm_compute; reflexivity|]. vm_compute. auto. }
    assert (E : mapM (fun p => mf_get_value (table_in (model_of un') "V") (p ++ [("U", SInt 1)])) (all_assignments (drop (mf_right (table_in (model_of un') "V")) (mf_domain (table_in (model_of un') "V")))) = Ok xs).
    { now apply values_mapM. }
    clear A. assert (Z : num_eqb (nsum xs) n1 = true) by (rewrite B; vm_compute; reflexivity).
    assert (W : match mapM (fun p => mf_get_value (table_in (model_of un') "V") (p ++ [("U", SInt 1)])) (all_assignments (drop (mf_right (table_in (model_of un') "V")) (mf_domain (table_in (model_of un') "V")))) with
                | Ok ys => num_eqb (nsum ys) n1 | Raise _ => false end = false) by (vm_compute; reflexivity).
    rewrite E in W. congruence.
Qed.
