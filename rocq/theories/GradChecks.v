(** An optimiser and sample models for the examples about the gradient
    learner. *)

From Coq Require Import String Ascii Bool Arith ZArith QArith Qcanon Lia Lqa List.
From Verif Require Import PyBase PyFacts Num NumFacts DomainModel NdArray StoreModel NumStore FactorModel GraphModel ModelModel InferModel LearnModel GradModel
  Spec StoreSpec FactorSpec GraphSpec GraphFacts ModelSpec NetSpec EmSpec Checks FactorChecks GraphChecks InferChecks
  CausalChecks LearnChecks EmChecks UaiModel UaiFacts QModel QSpec QChecks CausalSpec GradSpec.
From Coq Require Import List.
Import ListNotations.
Local Open Scope nat_scope.
Local Open Scope string_scope.
Local Open Scope list_scope.
Local Arguments eqd : simpl never.

(** ** An optimiser: the better one of the start and the uniform distribution *)
Definition plain_nums (xs : list num) : list Qc := map (fun x => match x with Fin q => q | _ => 0%Qc end) xs.
Definition uniform (n : nat) : list Qc := repeat (/ Q2Qc (inject_Z (Z.of_nat n)))%Qc n.
Definition better (x y : option Qc) : bool :=
  match x, y with
  | Some a, Some b => if Qclt_le_dec a b then true else false
  | Some _, None => true
  | None, _ => false
  end.
Definition best (k : option Z) (f : list Qc -> res (option Qc)) (xs : list num) : res (list Qc) :=
  let theta := plain_nums xs in
  let* c := f theta in
  let* u := f (uniform (length theta)) in
  Ok (if better u c then uniform (length theta) else theta).

Lemma plain_fin theta : plain_nums (map Fin theta) = theta.
Proof. unfold plain_nums. rewrite map_map. apply map_id. Qed.
Lemma total_repeat q n : total (repeat q n) = (Q2Qc (inject_Z (Z.of_nat n)) * q)%Qc.
Proof.
  induction n as [|n IH].
  - change (0%Qc = (0 * q)%Qc). ring.
  - transitivity (q + total (repeat q n))%Qc; [reflexivity|]. rewrite IH.
    assert (E : Q2Qc (inject_Z (Z.of_nat (S n))) = (1 + Q2Qc (inject_Z (Z.of_nat n)))%Qc).
    { apply Qc_is_canon. cbn [this Q2Qc Qcplus]. rewrite !Qred_correct. rewrite Nat2Z.inj_succ, <- Z.add_1_l, inject_Z_plus. reflexivity. }
    rewrite E. ring.
Qed.
Lemma uniform_ok n : n <> 0 -> distribution n (uniform n).
Proof.
  intros N. unfold uniform. assert (P : (0 < Q2Qc (inject_Z (Z.of_nat n)))%Qc).
  { unfold Qclt. cbn [this Q2Qc]. rewrite !Qred_correct. change 0%Q with (inject_Z 0). rewrite <- Zlt_Qlt. lia. }
  split; [apply repeat_length|]. split.
  - intros x J. apply repeat_spec in J as ->. assert (X : (0 < / Q2Qc (inject_Z (Z.of_nat n)))%Qc); [|now apply Qclt_le_weak].
    unfold Qclt, Qcinv in *. cbn [this Q2Qc] in *. rewrite !Qred_correct in *. now apply Qinv_lt_0_compat.
  - rewrite total_repeat. apply Qcmult_inv_r. intros Q. rewrite Q in P. now apply Qclt_not_eq in P.
Qed.
Lemma distribution_pos n theta : distribution n theta -> n <> 0.
Proof. intros (A & _ & C) ->. destruct theta; [|discriminate]. discriminate C. Qed.

Lemma best_feasible : stays_feasible best.
Proof.
  intros k f n theta Dt Hf. unfold best. rewrite plain_fin. assert (Ln : length theta = n) by apply Dt. rewrite Ln.
  assert (Du := uniform_ok n (distribution_pos n theta Dt)). destruct (Hf _ Dt) as (c & ->). destruct (Hf _ Du) as (u & ->). cbn [bind].
  eexists. split; [reflexivity|]. now destruct (better u c).
Qed.
Lemma best_descends : descends Qcle best.
Proof.
  intros k f n theta theta' c c' Dt E Ec Ec'. unfold best in E. rewrite plain_fin, Ec in E. cbn [bind] in E.
  destruct (f (uniform (length theta))) as [u|] eqn:Eu; [|discriminate]. cbn [bind] in E. injection E as <-.
  destruct (better u c) eqn:B.
  - rewrite Eu in Ec'. injection Ec' as <-. unfold better in B. destruct u as [a|], c as [b|]; cbn; auto; try discriminate.
    destruct (Qclt_le_dec a b); [now apply Qclt_le_weak|discriminate].
  - rewrite Ec in Ec'. injection Ec' as <-. destruct c; cbn; [apply Qcle_refl|exact I].
Qed.
(** The numbers themselves in the place of their logarithms, their inverses in
    the place of the opposites. *)
Lemma inverse_orders : orders Qcinv lg_id Qcle.
Proof.
  intros a b Pa Pb E. unfold lg_id in E.
  assert (Na : a <> 0%Qc) by (intros ->; now apply Qclt_not_eq in Pa). assert (Nb : b <> 0%Qc) by (intros ->; now apply Qclt_not_eq in Pb).
  apply Qcmult_le_compat_r with (z := (a * b)%Qc) in E.
  - replace (/ a * (a * b))%Qc with b in E by (field; auto). replace (/ b * (a * b))%Qc with a in E by (field; auto). exact E.
  - rewrite <- (Qcmult_0_l b). apply Qcmult_le_compat_r; now apply Qclt_le_weak.
Qed.
Notation run_best := (gr_run Qc 1%Qc Qcmult Qcinv lg_id 0%Qc best VNumpy).
Notation step_best := (gr_step Qc 1%Qc Qcmult Qcinv lg_id 0%Qc best VNumpy).

(** ** Checks *)
Definition sole_causeb (g : digraph) (F : var -> mfactor) (endo : list var) (U : var) : bool :=
  mem U (nodes g) && negb (mem U endo) &&
  forallb (fun v => forallb (fun w => mem w endo || (if eqd w U then true else false)) (preds g v) && zero_oneb (F v)) (succs g U).
Section Checks.
  Variables (m : pgm) (D : domain) (F : var -> mfactor) (vt : vtype) (endo : list var).
  Hypothesis HC : causal_tables m D F vt endo.
  Lemma deterministic_check : forallb (fun v => zero_oneb (F v)) endo = true -> forall v, In v endo -> zero_one (F v).
  Proof.
    intros E v J. rewrite forallb_forall in E. destruct HC as (H & _ & _ & I & _). destruct H as (_ & _ & _ & _ & _ & _ & H).
    destruct (H v (I v J)) as [_ C]. apply zero_oneb_sound; [apply C|auto].
  Qed.
  Lemma sole_causeb_sound U : sole_causeb (m_graph m) F endo U = true -> sole_cause (m_graph m) F endo U.
  Proof.
    assert (X := HC). destruct X as (H & _ & _ & Ie & Ar). destruct H as (WG & _ & _ & _ & _ & _ & H).
    unfold sole_causeb. rewrite !andb_true_iff. intros [[A B] C]. apply mem_In in A. apply negb_true_iff, mem_nIn in B.
    rewrite forallb_forall in C. split; [auto|]. split; [auto|]. split.
    - intros v w J1 J2 N. apply in_succs in J1. specialize (C v J1). apply andb_true_iff in C as [C _]. rewrite forallb_forall in C.
      apply in_preds in J2. specialize (C w J2). apply orb_true_iff in C as [C|C]; [apply mem_In in C; contradiction|]. destruct (eqd w U); [auto|discriminate].
    - intros v J. assert (J' := J). apply in_succs in J. specialize (C v J). apply andb_true_iff in C as [_ C].
      destruct (H v (Ie v (Ar U v J'))) as [_ K]. apply zero_oneb_sound; [apply K|auto].
  Qed.
End Checks.
Definition name_apartb (m : pgm) (U : var) : bool := forallb (fun w => negb (substr_of w U) || (if eqd w U then true else false)) (keys (m_domains m)).
Lemma name_apartb_sound m U : name_apartb m U = true -> name_apart m U.
Proof.
  unfold name_apartb. rewrite forallb_forall. intros E w a b J Q. specialize (E w J). apply orb_true_iff in E as [E|E].
  - apply negb_true_iff in E. assert (X : substr_of w U = true) by (apply substr_of_spec; eauto). congruence.
  - match type of E with (if ?c then _ else _) = true => destruct c end; [auto|discriminate E].
Qed.

(** ** A run on the model of QChecks: X -> Z -> Y, where U acts on X and Y and W on Z *)
Definition fr_gr : frame := mkF ["X"; "Z"; "Y"] (rows [[Some 0; Some 0; Some 0]; [Some 1; Some 1; Some 1]; [Some 0; Some 1; Some 0]; [Some 1; Some 0; Some 1]]%Z).
Definition l_gr : learner gr_state := gr_init m_fd None.
Lemma gr_deterministic v : In v endo_fd -> zero_one (F_fd v).
Proof. apply (deterministic_check m_fd D_fd F_fd VNumpy endo_fd fd_tables). vm_compute. reflexivity. Qed.
Lemma gr_observes : observes D_fd fr_gr ["X"; "Z"; "Y"].
Proof. apply observesb_sound. vm_compute. reflexivity. Qed.
Lemma gr_trains v : to_train None (m_graph m_fd) fr_gr ["X"; "Z"; "Y"] v ->
  sole_cause (m_graph m_fd) F_fd endo_fd v /\ ~ In v ["X"; "Z"; "Y"] /\ name_apart m_fd v.
Proof.
  intros [N J]. assert (En : nodes (m_graph m_fd) = ["U"; "X"; "Y"; "Z"; "W"]) by (vm_compute; reflexivity). rewrite En in J.
  assert (K : v = "U" \/ v = "W").
  { cbn [fr_gr f_cols In] in *. intuition. }
  split; [|split; [auto|]].
  - apply (sole_causeb_sound m_fd D_fd F_fd VNumpy endo_fd fd_tables). destruct K as [-> | ->]; vm_compute; reflexivity.
  - apply name_apartb_sound. destruct K as [-> | ->]; vm_compute; reflexivity.
Qed.
Definition learned (r : learner gr_state * option err) (D : domain) (vs : list var) : option (list (list Q)) :=
  match r with
  | (l', None) => match l_model l' with Some m' => Some (map (fun v => map this (params D (table_in m') v)) vs) | None => None end
  | _ => None
  end.
Lemma gr_learns : learned (run_best l_gr fr_gr None) D_fd ["U"; "W"] = Some [[1#4; 1#4; 1#4; 1#4]; [1#2; 1#2]]%Q /\
  this (likelihood D_fd F_fd fr_gr) = (9#131072)%Q.
Proof. split; vm_compute; reflexivity. Qed.

(** ** X = 1 when both U1 and U2 are 0 *)
Definition g_two : digraph := graph_of [("U1", "X"); ("U2", "X")].
Definition D_two : domain := [("U1", l01); ("U2", l01); ("X", l01)].
Definition ts_two : tables :=
  [("U1", ([("U1", l01)], [7#10; 3#10]%Q, [])); ("U2", ([("U2", l01)], [7#10; 3#10]%Q, []));
   ("X", ([("U1", l01); ("U2", l01); ("X", l01)], [0; 1; 1; 0; 1; 0; 1; 0]%Q, ["U1"; "U2"]))].
Definition m_two : pgm := scm_of VNumpy g_two ts_two [] (Some ["X"]) false.
Definition F_two : var -> mfactor := table_in m_two.
Definition fr_two : frame := mkF ["X"] (rows [[Some 0]; [Some 1]]%Z).
Definition l_two : learner gr_state := gr_init m_two None.
Lemma two_tables : causal_tables m_two D_two F_two VNumpy ["X"].
Proof. apply causal_tablesb_sound. vm_compute. reflexivity. Qed.
(** The model that a run leaves behind. *)
Definition model_after (r : learner gr_state * option err) : pgm := match l_model (fst r) with Some m' => m' | None => fresh (mkG [] []) true KBn end.
Definition m_two' : pgm := model_after (run_best l_two fr_two None).
Lemma two_run : run_best l_two fr_two None = (fst (run_best l_two fr_two None), None) /\ l_model (fst (run_best l_two fr_two None)) = Some m_two'.
Proof. split; vm_compute; reflexivity. Qed.
Lemma two_tables' : causal_tables m_two' D_two (table_in m_two') VNumpy ["X"].
Proof. apply causal_tablesb_sound. vm_compute. reflexivity. Qed.
Lemma two_deterministic v : In v ["X"] -> zero_one (F_two v).
Proof. apply (deterministic_check m_two D_two F_two VNumpy ["X"] two_tables). vm_compute. reflexivity. Qed.
Lemma two_falls : (likelihood D_two (table_in m_two') fr_two < likelihood D_two F_two fr_two)%Qc.
Proof. vm_compute. reflexivity. Qed.
Lemma two_describes : describes D_two m_two.
Proof. apply describesb_sound. vm_compute. reflexivity. Qed.
Lemma two_observes : observes D_two fr_two ["X"].
Proof. apply observesb_sound. vm_compute. reflexivity. Qed.
Lemma two_apart v : to_train None (m_graph m_two) fr_two ["X"] v -> name_apart m_two v.
Proof.
  intros [N J]. assert (En : nodes (m_graph m_two) = ["U1"; "X"; "U2"]) by (vm_compute; reflexivity). rewrite En in J.
  assert (K : v = "U1" \/ v = "U2") by (cbn [fr_two f_cols In] in *; intuition).
  apply name_apartb_sound. destruct K as [-> | ->]; vm_compute; reflexivity.
Qed.

(** ** The name of the exogenous variable contains the name of its child *)
Definition m_name : pgm := scm_of VNumpy (graph_of [("UX", "X")])
  [("UX", ([("UX", l01)], [1#4; 3#4]%Q, [])); ("X", ([("UX", l01); ("X", l01)], [1; 0; 0; 1]%Q, ["UX"]))] [] (Some ["X"]) false.
Definition D_name : domain := [("UX", l01); ("X", l01)].
Lemma name_tables : causal_tables m_name D_name (table_in m_name) VNumpy ["X"].
Proof. apply causal_tablesb_sound. vm_compute. reflexivity. Qed.
Lemma name_deterministic v : In v ["X"] -> zero_one (table_in m_name v).
Proof. apply (deterministic_check m_name D_name (table_in m_name) VNumpy ["X"] name_tables). vm_compute. reflexivity. Qed.
Lemma name_sole v : to_train None (m_graph m_name) fr_two ["X"] v -> sole_cause (m_graph m_name) (table_in m_name) ["X"] v.
Proof.
  intros [N J]. assert (En : nodes (m_graph m_name) = ["UX"; "X"]) by (vm_compute; reflexivity). rewrite En in J.
  assert (K : v = "UX") by (cbn [fr_two f_cols In] in *; intuition). subst v.
  apply (sole_causeb_sound m_name D_name (table_in m_name) VNumpy ["X"] name_tables). vm_compute. reflexivity.
Qed.
Lemma name_describes : describes D_name m_name.
Proof. apply describesb_sound. vm_compute. reflexivity. Qed.
Lemma name_observes : observes D_name fr_two ["X"].
Proof. apply observesb_sound. vm_compute. reflexivity. Qed.
Lemma name_raises : snd (run_best (gr_init m_name None) fr_two None) = Some ValueError.
Proof. vm_compute. reflexivity. Qed.

(** ** U -> X with the equation of X as a DeterministicFactor *)
Definition ts_det : tables := [("U", ([("U", l01)], [1#4; 3#4]%Q, [])); ("X", ([("U", l01); ("X", l01)], [1; 0; 0; 1]%Q, ["U"]))].
Definition D_det : domain := [("U", l01); ("X", l01)].
Definition m_det : pgm := scm_of VNumpy (graph_of [("U", "X")]) ts_det [("X", l01)] (Some ["X"]) false.
Lemma det_ok : causal m_det D_det (table_of VNumpy ts_det) VNumpy ["X"] false.
Proof.
  apply causal_check with (os := [("X", l01)]); [vm_compute; reflexivity..|].
  assert (En : nodes (m_graph m_det) = ["U"; "X"]) by (vm_compute; reflexivity).
  intros v J. rewrite En in J. destruct J as [<- | [<- | []]]; vm_compute; auto.
Qed.
Lemma det_raises : snd (run_best (gr_init m_det None) fr_two None) = Some KeyError.
Proof. vm_compute. reflexivity. Qed.

(** ** The same as a Bayesian network, and other learners that raise *)
Definition m_bn : pgm := bn_of VNumpy (graph_of [("U", "X")]) ts_det.
Lemma bn_copied : exists m0, m_copy m_bn = Ok m0.
Proof. eexists. vm_compute. reflexivity. Qed.
Lemma fd_copied : exists m0, m_copy m_fd = Ok m0.
Proof. eexists. vm_compute. reflexivity. Qed.
Lemma gr_rows : NoDup (f_cols fr_gr) /\ forall r, In r (f_rows fr_gr) -> length r = length (f_cols fr_gr).
Proof. split; [apply gr_observes|]. intros r J. now apply gr_observes in J. Qed.
Lemma fd_nodes : incl ["U"; "X"] (nodes (m_graph m_fd)).
Proof. apply inclb_sound. vm_compute. reflexivity. Qed.
Lemma fd_kind : m_kind m_fd = KScm endo_fd false.
Proof. vm_compute. reflexivity. Qed.
Lemma fd_wf : wf_graph (m_graph m_fd).
Proof. apply dagb_sound. vm_compute. reflexivity. Qed.
Lemma gr_bad : snd (run_best (gr_init m_fd (Some ["U"; "X"])) fr_gr None) = Some ValueError /\
  snd (run_best (gr_init m_fd (Some ["U"; "A"])) fr_gr None) = Some KeyError /\
  snd (run_best (gr_init m_bn (Some ["U"])) fr_two None) = Some AttributeError /\
  snd (step_best (gr_init m_fd (Some ["U"])) (Some fr_gr)) = Some AttributeError /\ snd (step_best (gr_init m_fd None) None) = Some TypeError.
Proof. repeat split; vm_compute; reflexivity. Qed.
