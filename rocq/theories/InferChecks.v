(** Sample networks for the examples about inference. *)

From Coq Require Import String Ascii Bool Arith ZArith QArith Qcanon Lia Permutation List.
From Verif Require Import PyBase PyFacts Num DomainModel NdArray StoreModel NumStore FactorModel GraphModel ModelModel InferModel
  Spec StoreSpec StoreFacts FactorSpec FactorFacts FactorFacts2 PropFacts1 GraphSpec GraphFacts GraphChecks ModelSpec ModelFacts Checks FactorChecks
  NetSpec OrderSpec.
Import ListNotations.
Local Open Scope nat_scope.
Local Open Scope string_scope.
Local Arguments eqd : simpl never.

Definition same_setb (l1 l2 : list var) : bool := inclb l1 l2 && inclb l2 l1.
Lemma same_setb_sound l1 l2 : same_setb l1 l2 = true -> same_set l1 l2.
Proof. intros E. apply andb_true_iff in E as [A B]. intros v. split; [apply (inclb_sound _ _ A)|apply (inclb_sound _ _ B)]. Qed.

(** the states given by an observation that covers [d], as an assignment of [d] *)
Lemma canonical d o : NoDup (keys d) -> full d o -> In (obs_of (keys d) (asg_of o)) (all_assignments d) /\
  forall v, In v (keys d) -> dget v (obs_of (keys d) (asg_of o)) = dget v o.
Proof.
  intros N F. split.
  - eapply nth_error_In. apply all_assignments_nth. now apply full_valid.
  - intros v J. rewrite obs_of_get by auto. symmetry. now apply full_agrees with (d := d).
Qed.

Definition finiteb (f : mfactor) : bool :=
  forallb (fun o => match mf_get_value f o with Ok (Fin _) => true | _ => false end) (all_assignments (mf_domain f)).
Lemma finiteb_sound f : wf_mf f -> finiteb f = true ->
  forall o, full (mf_domain f) o -> exists q, mf_get_value f o = Ok (Fin q).
Proof.
  intros W E o F. assert (N : NoDup (mf_vars f)) by apply (wf_mf_partitioned f W).
  destruct (canonical (mf_domain f) o N F) as [J K]. unfold finiteb in E. rewrite forallb_forall in E. specialize (E _ J).
  assert (Q : mf_get_value f (obs_of (keys (mf_domain f)) (asg_of o)) = mf_get_value f o) by (apply get_value_agree; auto; apply W).
  rewrite Q in E. destruct (mf_get_value f o) as [[]|]; try discriminate. eauto.
Qed.

Lemma NoDup_keys_filter (p : var * list state -> bool) (d : domain) : NoDup (keys d) -> NoDup (keys (filter p d)).
Proof.
  unfold keys. induction d as [|x d IH]; cbn; auto. intros N. inversion N; subst. destruct (p x); auto. cbn. constructor; auto.
  intros J. apply H1. apply in_map_iff in J as (y & E & J). apply filter_In in J as [J _]. apply in_map_iff. eauto.
Qed.

Definition normb (f : mfactor) : bool :=
  forallb (fun o => match mapM (fun p => mf_get_value f (p ++ o)%list) (all_assignments (drop (mf_right f) (mf_domain f))) with
                    | Ok xs => num_eqb (nsum xs) n1 | Raise _ => false end)
          (all_assignments (pick (mf_right f) (mf_domain f))).
Lemma normb_sound f : wf_mf f -> normb f = true -> normalised f.
Proof.
  intros W E o F. assert (N : NoDup (mf_vars f)) by apply (wf_mf_partitioned f W).
  assert (Np : NoDup (keys (pick (mf_right f) (mf_domain f)))) by (apply NoDup_keys_filter; exact N).
  destruct (canonical _ o Np F) as [J K]. unfold normb in E. rewrite forallb_forall in E. specialize (E _ J).
  set (o' := obs_of (keys (pick (mf_right f) (mf_domain f))) (asg_of o)) in *.
  assert (Q : forall p, In p (all_assignments (drop (mf_right f) (mf_domain f))) -> mf_get_value f (p ++ o')%list = mf_get_value f (p ++ o)%list).
  { intros p Jp. assert (Nd : NoDup (keys (drop (mf_right f) (mf_domain f)))) by (apply NoDup_keys_filter; exact N).
    apply (all_assignments_In_full _ _ Nd) in Jp as [Kp Fp].
    apply get_value_agree; [apply W| |].
    - intros v l Jv. rewrite dget_app. destruct (mem v (mf_right f)) eqn:M.
      + assert (Np' : dget v p = None).
        { apply dget_None. rewrite Kp. intros C. apply keys_In in C as (l' & C). apply filter_In in C as [_ C]. cbn in C. rewrite M in C. discriminate. }
        rewrite Np'. apply F. apply filter_In. split; auto.
      + destruct (Fp v l) as (s & Es & Js). { apply filter_In. split; auto. cbn. now rewrite M. } rewrite Es. eauto.
    - intros v Jv. rewrite !dget_app. destruct (dget v p) eqn:Ep; auto. apply K. apply keys_In in Jv as (l & Jv). apply keys_In. exists l.
      apply filter_In. split; auto. cbn. destruct (mem v (mf_right f)) eqn:M; auto. exfalso.
      destruct (Fp v l) as (s & Es & _); [apply filter_In; split; auto; cbn; now rewrite M|congruence]. }
  destruct (mapM (fun p => mf_get_value f (p ++ o')%list) (all_assignments (drop (mf_right f) (mf_domain f)))) as [xs|] eqn:Em; [|discriminate].
  exists xs. split; [|now apply num_eqb_sound].
  clear - Em Q. revert xs Em. induction (all_assignments (drop (mf_right f) (mf_domain f))) as [|p ps IH]; intros xs Em.
  - injection Em as <-. constructor.
  - cbn [mapM] in Em. destruct (mf_get_value f (p ++ o')%list) as [x|] eqn:Ex; [|discriminate]. cbn [bind] in Em.
    destruct (mapM (fun p => mf_get_value f (p ++ o')%list) ps) as [xs'|]; [|discriminate]. injection Em as <-.
    constructor; [rewrite <- Q by (now left); auto|]. apply IH; auto. intros; apply Q; now right.
Qed.

(** A network given by its arcs and tables. *)
Definition tables := list (var * (domain * list Q * list var)).
Definition table_of (vt : vtype) (ts : tables) (v : var) : mfactor :=
  match dget v ts with Some (d, l, r) => fac vt d l r | None => fac vt [] [1%Q] [] end.
Definition bn_of (vt : vtype) (g : digraph) (ts : tables) : pgm :=
  match bn_init (GDag g) (Some (FsDict (map (fun vt' => (fst vt', FM (table_of vt ts (fst vt')))) ts))) true with
  | Ok m => m | Raise _ => fresh g true KBn
  end.
Definition cptb (D : domain) (v : var) (ps : list var) (f : mfactor) : bool :=
  same_setb (mf_left f) [v] && same_setb (mf_right f) ps && inclb (mf_domain f) D && finiteb f && normb f.
Definition tableb (D : domain) (vt : vtype) (g : digraph) (ts : tables) (v : var) : bool :=
  match dget v ts with
  | Some (d, l, r) => usableb d && (length l =? size d)%nat && nodupb r && inclb r (keys d)
  | None => false
  end && cptb D v (preds g v) (table_of vt ts v).

Lemma network_check vt m D ts : dagb (m_graph m) && wf_domb D && same_setb (keys D) (nodes (m_graph m)) &&
  nodupb (keys (m_factors m)) && same_setb (keys (m_factors m)) (nodes (m_graph m)) &&
  forallb (tableb D vt (m_graph m) ts) (nodes (m_graph m)) = true ->
  (forall v, In v (nodes (m_graph m)) -> stored m v (FM (table_of vt ts v))) ->
  network m D (table_of vt ts) vt.
Proof.
  rewrite !andb_true_iff. intros [[[[[E1 E2] E3] E4] E5] E6] St. destruct (dagb_sound _ E1) as [W A].
  split; [exact W|]. split; [exact A|]. split; [now apply wf_domb_sound|]. split; [now apply same_setb_sound|].
  split; [now apply nodupb_sound|]. split; [now apply same_setb_sound|]. intros v J. split; [auto|].
  rewrite forallb_forall in E6. specialize (E6 v J). unfold tableb in E6. apply andb_true_iff in E6 as [T C].
  unfold table_of in *. destruct (dget v ts) as [[[d l] r]|]; [|discriminate].
  destruct (fac_wf vt d l r T) as (Wf & Df & Tf). unfold cptb in C. rewrite !andb_true_iff in C. destruct C as [[[[C1 C2] C3] C4] C5].
  split; [exact Wf|]. split; [exact Tf|]. split; [now apply same_setb_sound|]. split; [now apply same_setb_sound|].
  split. { intros w k K. apply (inclb_sound _ _ C3). auto. }
  split; [now apply finiteb_sound|]. now apply normb_sound.
Qed.

(** Set orders and tie breaking to run the code with. *)
Definition plain_order (ls : list (list var)) : list var := nodup eqd (concat ls).
Definition back_order (ls : list (list var)) : list var := rev (nodup eqd (concat ls)).
Definition first_choice (n : nat) (l : list var) : var := hd "" l.
Definition last_choice (n : nat) (l : list var) : var := last l "".

Lemma plain_order_ok : is_set_order plain_order.
Proof. intros ls. split; [apply NoDup_nodup|]. intros v. apply nodup_In. Qed.
Lemma back_order_ok : is_set_order back_order.
Proof. intros ls. split; [apply NoDup_rev, NoDup_nodup|]. intros v. unfold back_order. rewrite <- in_rev. apply nodup_In. Qed.
Lemma first_chooses : chooses first_choice.
Proof. intros n [|x l] N; [congruence|now left]. Qed.
Lemma last_chooses : chooses last_choice.
Proof.
  intros n l N. unfold last_choice. destruct (exists_last N) as (l' & x & ->). rewrite last_last. apply in_or_app. right. now left.
Qed.

(** A -> C <- B, C -> E, and E -> H. *)
Definition g_net : digraph := graph_of [("A", "C"); ("B", "C"); ("C", "E"); ("E", "H")].
Definition sA : list state := [SStr "a0"; SStr "a1"].
Definition sB : list state := [SInt 0; SInt 1; SInt 2].
Definition sC : list state := [SBool false; SBool true].
Definition D_net : domain := [("A", sA); ("B", sB); ("C", sC); ("E", sC); ("H", sC)].
Definition ts_net : tables :=
  [("A", ([("A", sA)], [1#4; 3#4]%Q, []));
   ("B", ([("B", sB)], [1#2; 1#3; 1#6]%Q, []));
   ("C", ([("C", sC); ("A", sA); ("B", sB)], [1; 1#2; 1#5; 1; 1#3; 2#3; 0; 1#2; 4#5; 0; 2#3; 1#3]%Q, ["A"; "B"]));
   ("E", ([("C", sC); ("E", sC)], [9#10; 1#10; 1#5; 4#5]%Q, ["C"]));
   ("H", ([("E", sC); ("H", sC)], [1#2; 1#2; 1#8; 7#8]%Q, ["E"]))].

Lemma net_ok vt : network (bn_of vt g_net ts_net) D_net (table_of vt ts_net) vt.
Proof.
  apply network_check; [destruct vt; vm_compute; reflexivity|].
  assert (E : nodes (m_graph (bn_of vt g_net ts_net)) = ["A"; "C"; "B"; "E"; "H"]) by (destruct vt; vm_compute; reflexivity).
  intros v J. rewrite E in J. destruct J as [<-|[<-|[<-|[<-|[<-|[]]]]]]; destruct vt; vm_compute; reflexivity.
Qed.

Definition m_net : pgm := bn_of VNumpy g_net ts_net.
Definition F_net : var -> mfactor := table_of VNumpy ts_net.

Definition qeqb (x : Qc) (y : Q) : bool := Qeq_bool x y.
Lemma qeqb_neq x y z : qeqb x y = true -> ~ (y == z)%Q -> x <> Q2Qc z.
Proof.
  intros E N Z. apply N. unfold qeqb in E. apply Qeq_bool_iff in E. rewrite <- E, Z. cbn. apply Qred_correct.
Qed.

Definition nonnegb (f : mfactor) : bool :=
  forallb (fun o => match mf_get_value f o with Ok (Fin x) => Qle_bool 0 x | _ => true end) (all_assignments (mf_domain f)).
Lemma nonneg_check D F vt m : network m D F vt -> forallb (fun v => nonnegb (F v)) (keys D) = true -> nonnegative D F.
Proof.
  intros (_ & _ & _ & SD & _ & _ & N) E v o J Fo. apply SD in J as Jn. destruct (N v Jn) as [_ (W & _)].
  rewrite forallb_forall in E. specialize (E v J). assert (ND : NoDup (mf_vars (F v))) by apply (wf_mf_partitioned _ W).
  destruct (canonical (mf_domain (F v)) o ND Fo) as [K1 K2]. unfold nonnegb in E. rewrite forallb_forall in E. specialize (E _ K1).
  assert (Q : mf_get_value (F v) (obs_of (keys (mf_domain (F v))) (asg_of o)) = mf_get_value (F v) o) by (apply get_value_agree; auto; apply W).
  rewrite Q in E. unfold entry. destruct (mf_get_value (F v) o) as [[x| | |]|]; try apply Qcle_refl. now apply Qle_bool_iff in E.
Qed.
