(** Sample causal models for the examples about interventions and counterfactuals. *)

From Coq Require Import String Ascii Bool Arith ZArith QArith Qcanon Lia Permutation List.
From Verif Require Import PyBase PyFacts Num DomainModel NdArray StoreModel NumStore FactorModel GraphModel ModelModel InferModel CausalModel
  Spec StoreSpec StoreFacts FactorSpec FactorFacts FactorFacts2 PropFacts1 GraphSpec GraphFacts GraphChecks ModelSpec ModelFacts Checks FactorChecks
  NetSpec OrderSpec InferChecks CausalSpec.
Import ListNotations.
Local Open Scope nat_scope.
Local Open Scope string_scope.
Local Open Scope list_scope.
Local Arguments eqd : simpl never.

Definition zero_oneb (f : mfactor) : bool :=
  forallb (fun o => okb (mf_get_value f o) n0 || okb (mf_get_value f o) n1) (all_assignments (mf_domain f)).
Lemma zero_oneb_sound f : wf_mf f -> zero_oneb f = true -> zero_one f.
Proof.
  intros W E o F. assert (N : NoDup (mf_vars f)) by apply (wf_mf_partitioned f W).
  destruct (canonical (mf_domain f) o N F) as [J K]. unfold zero_oneb in E. rewrite forallb_forall in E. specialize (E _ J).
  assert (Q : mf_get_value f (obs_of (keys (mf_domain f)) (asg_of o)) = mf_get_value f o) by (apply get_value_agree; auto; apply W).
  rewrite Q in E. apply orb_true_iff in E as [E|E]; apply okb_sound in E; auto.
Qed.

Definition tabulatesb (v : var) (d : dfactor) (f : mfactor) : bool :=
  forallb (fun o => match get_value (df_store d) o, dget v o with
                    | Ok y, Some z => okb (mf_get_value f o) (if eqd y z then n1 else n0)
                    | _, _ => false
                    end) (all_assignments (df_domain d)).
Lemma tabulatesb_sound v l d f : wf_df d v l -> usable (df_domain d) -> wf_mf f -> mf_domain f = df_domain d -> mf_right f = df_right d ->
  mf_vtype f = df_vtype d -> tabulatesb v d f = true -> tabulates v (FD d) f.
Proof.
  intros W U Wf E1 E2 E3 B. split; [eauto|]. do 4 (split; [auto|]). intros o Fo.
  destruct W as (WD & _ & Iv & _ & _ & Ws & Ds). destruct (canonical (df_domain d) o (proj1 WD) Fo) as [J K].
  unfold tabulatesb in B. rewrite forallb_forall in B. specialize (B _ J).
  assert (F' : full (df_domain d) (obs_of (keys (df_domain d)) (asg_of o))).
  { apply (all_assignments_In_full (df_domain d)) in J; [apply J|apply WD]. }
  assert (Q1 : mf_get_value f (obs_of (keys (df_domain d)) (asg_of o)) = mf_get_value f o) by (apply get_value_agree; auto; [apply Wf|..]; change (st_domain (mf_store f)) with (mf_domain f); now rewrite E1).
  assert (Q2 : get_value (df_store d) (obs_of (keys (df_domain d)) (asg_of o)) = get_value (df_store d) o).
  { apply get_value_agree; auto; rewrite Ds.
    - intros w k I. apply filter_In in I as [I _]. now apply Fo.
    - intros w I. apply K. unfold drop, keys in I. apply in_map_iff in I as (x & <- & I). apply filter_In in I as [I _]. now apply in_map. }
  rewrite Q1, Q2 in B. rewrite (K v) in B. 2:{ apply in_map_iff. now exists (v, l). }
  destruct (get_value (df_store d) o) as [y|]; [|discriminate]. destruct (dget v o) as [z|]; [|discriminate].
  exists y, z. split; [auto|]. split; [auto|]. now apply okb_sound.
Qed.

(** A causal model given by its arcs, its tables and, for some variables, the
    values of the function as a DeterministicFactor. *)
Definition objects := list (var * list state).
Definition object_of (vt : vtype) (ts : tables) (os : objects) (v : var) : fobj :=
  match dget v os, dget v ts with
  | Some xs, Some (d, _, _) => FD (dfac vt d v xs)
  | _, _ => FM (table_of vt ts v)
  end.
Definition scm_of (vt : vtype) (g : digraph) (ts : tables) (os : objects) (endo : option (list var)) (cast : bool) : pgm :=
  match scm_init (GDag g) (Some (FsDict (map (fun vt' => (fst vt', object_of vt ts os (fst vt'))) ts))) endo cast true with
  | Ok m => m | Raise _ => fresh g true KBn
  end.

Definition objectb (vt : vtype) (ts : tables) (os : objects) (v : var) : bool :=
  match dget v os, dget v ts with
  | Some xs, Some (d, _, r) => wf_domb d && (length xs =? size (drop [v] d))%nat && usableb d && mem v (keys d) &&
      (if eqd (df_right (dfac vt d v xs)) r then true else false) && tabulatesb v (dfac vt d v xs) (table_of vt ts v)
  | Some _, None => false
  | None, _ => true
  end.
Lemma causal_check vt m D ts os endo cast : m_kind m = KScm endo cast ->
  dagb (m_graph m) && wf_domb D && same_setb (keys D) (nodes (m_graph m)) &&
  nodupb (keys (m_factors m)) && same_setb (keys (m_factors m)) (nodes (m_graph m)) &&
  forallb (tableb D vt (m_graph m) ts) (nodes (m_graph m)) && forallb (objectb vt ts os) (nodes (m_graph m)) &&
  forallb (fun v => zero_oneb (table_of vt ts v) && (negb cast || negb (mem v (keys os)))) endo &&
  forallb (fun a => mem (snd a) endo) (edges (m_graph m)) = true ->
  (forall v, In v (nodes (m_graph m)) -> stored m v (object_of vt ts os v)) ->
  causal m D (table_of vt ts) vt endo cast.
Proof.
  rewrite !andb_true_iff. intros Ek [[[[[[[[E1 E2] E3] E4] E5] E6] E7] E8] E9] St. destruct (dagb_sound _ E1) as [W A].
  split; [auto|]. split; [exact W|]. split; [exact A|]. split; [now apply wf_domb_sound|]. split; [now apply same_setb_sound|].
  split; [now apply nodupb_sound|]. split; [now apply same_setb_sound|]. split.
  - intros v J. exists (object_of vt ts os v). split; [auto|].
    rewrite forallb_forall in E6, E7, E8. specialize (E6 v J). specialize (E7 v J). specialize (E8 v).
    unfold tableb in E6. apply andb_true_iff in E6 as [T C]. unfold table_of, object_of, objectb in *. unfold table_of in *.
    destruct (dget v ts) as [[[d l] r]|]; [|discriminate].
    destruct (fac_wf vt d l r T) as (Wf & Df & Tf). unfold cptb in C. rewrite !andb_true_iff in C. destruct C as [[[[C1 C2] C3] C4] C5].
    split; [|split].
    + destruct (dget v os) as [xs|] eqn:Eo; [|reflexivity]. rewrite !andb_true_iff in E7. destruct E7 as [[[[[B1 B2] B3] B4] B5] B6].
      apply mem_In, keys_In in B4 as (k & B4). destruct (dfac_wf vt d v k xs) as (Wd & Dd & Td); [now rewrite B1, B2|auto|].
      destruct (eqd (df_right (dfac vt d v xs)) r) as [Er|]; [|discriminate].
      eapply tabulatesb_sound; [exact Wd|rewrite Dd; now apply usableb_sound|exact Wf|congruence| |congruence|exact B6].
      rewrite Er. reflexivity.
    + split; [exact Wf|]. split; [exact Tf|]. split; [now apply same_setb_sound|]. split; [now apply same_setb_sound|].
      split. { intros w k K. apply (inclb_sound _ _ C3). auto. }
      split; [now apply finiteb_sound|]. now apply normb_sound.
    + intros I. specialize (E8 I). apply andb_true_iff in E8 as [Z K]. split; [now apply zero_oneb_sound|]. intros ->. cbn in K.
      apply negb_true_iff, mem_nIn in K. apply dget_None in K. now rewrite K.
  - intros x v I. rewrite forallb_forall in E9. specialize (E9 (x, v) I). now apply mem_In in E9.
Qed.

Definition rootsb (g : digraph) (X : list var) : bool :=
  forallb (fun v => mem v (nodes g)) X && forallb (fun v => Bool.eqb (mem v X) (match preds g v with [] => true | _ => false end)) (nodes g).
Lemma rootsb_sound g X : rootsb g X = true -> roots g X.
Proof.
  unfold rootsb. rewrite andb_true_iff, !forallb_forall. intros [A B] v.
  assert (Q : In v (nodes g) -> (In v X <-> forall x, ~ arc g x v)).
  { intros I. specialize (B v I). apply Bool.eqb_prop in B. rewrite <- mem_In, B. destruct (preds g v) as [|p l] eqn:E.
    - split; [|auto]. intros _ x C. apply in_preds in C. rewrite E in C. destruct C.
    - split; [discriminate|]. intros N. exfalso. apply (N p). apply in_preds. rewrite E. now left. }
  split; [intros I; assert (J : In v (nodes g)) by (apply mem_In; auto); tauto|]. intros [I N]. now apply Q.
Qed.

(** U -> X, X -> Z, Z -> Y, V -> Y: X copies U or not, Z = not X is kept as a
    DeterministicFactor, and Y depends on Z if V = 0. *)
Definition g_cf : digraph := graph_of [("U", "X"); ("X", "Z"); ("Z", "Y"); ("V", "Y")].
Definition l01 : list state := [SInt 0; SInt 1].
Definition lY : list state := [SStr "y1"; SStr "y0"].
Definition D_cf : domain := [("U", [SStr "u"; SStr "v"; SStr "w"]); ("X", l01); ("Z", l01); ("V", l01); ("Y", lY)].
Definition ts_cf : tables :=
  [("U", ([("U", [SStr "u"; SStr "v"; SStr "w"])], [1#2; 1#3; 1#6]%Q, []));
   ("V", ([("V", l01)], [1#5; 4#5]%Q, []));
   ("X", ([("X", l01); ("U", [SStr "u"; SStr "v"; SStr "w"])], [1; 0; 0; 0; 1; 1]%Q, ["U"]));
   ("Z", ([("X", l01); ("Z", l01)], [0; 1; 1; 0]%Q, ["X"]));
   ("Y", ([("Z", l01); ("V", l01); ("Y", lY)], [1; 0; 1; 0; 0; 1; 1; 0]%Q, ["Z"; "V"]))].
Definition os_cf : objects := [("Z", [SInt 1; SInt 0])].
Definition m_cf (vt : vtype) : pgm := scm_of vt g_cf ts_cf os_cf None false.
Definition X_cf : list var := ["V"; "U"].

Lemma cf_ok vt : causal (m_cf vt) D_cf (table_of vt ts_cf) vt ["X"; "Z"; "Y"] false.
Proof.
  apply causal_check with (os := os_cf); [destruct vt; vm_compute; reflexivity|destruct vt; vm_compute; reflexivity|].
  assert (E : nodes (m_graph (m_cf vt)) = ["U"; "X"; "Z"; "Y"; "V"]) by (destruct vt; vm_compute; reflexivity).
  intros v J. rewrite E in J. destruct J as [<-|[<-|[<-|[<-|[<-|[]]]]]]; destruct vt; vm_compute; reflexivity.
Qed.
Lemma cf_roots vt : roots (m_graph (m_cf vt)) X_cf /\ plain_roots (m_cf vt).
Proof.
  split; [apply rootsb_sound; destruct vt; vm_compute; reflexivity|].
  intros v f S N. assert (J : In v ["U"; "X"; "Z"; "V"; "Y"]).
  { unfold stored in S. apply dget_In in S. apply (in_map fst) in S. destruct vt; vm_compute in S; vm_compute; tauto. }
  assert (B : forall x, In v ["X"; "Z"; "Y"] -> x = hd "" (preds (m_graph (m_cf vt)) v) -> arc (m_graph (m_cf vt)) x v).
  { intros x I ->. apply in_preds. destruct I as [<-|[<-|[<-|[]]]]; destruct vt; vm_compute; tauto. }
  destruct J as [<-|[<-|[<-|[<-|[<-|[]]]]]]; try (exfalso; eapply N, B; [cbn; tauto|reflexivity]);
    unfold stored in S; destruct vt; vm_compute in S; injection S as <-; eexists; reflexivity.
Qed.

Definition knownb (D : domain) (o : obs) : bool :=
  forallb (fun vl => match dget (fst vl) o with Some s => mem s (snd vl) | None => true end) D.
Lemma knownb_sound D o : knownb D o = true -> known D o.
Proof.
  unfold knownb. rewrite forallb_forall. intros B v l s I E. specialize (B _ I). cbn in B. rewrite E in B. now apply mem_In.
Qed.
Lemma fresh_check g X dos :
  forallb (fun v => mem v X || (negb (if eqd v "" then true else false) &&
    forallb (fun i => negb (mem (copy_name v i) (nodes g))) (seq 1 (length dos)))) (nodes g) = true -> fresh_names g X dos.
Proof.
  rewrite forallb_forall. intros B. split.
  - intros v I N E. specialize (B v I). apply orb_true_iff in B as [B|B]; [now apply mem_In in B|].
    apply andb_prop in B as [B _]. subst v. vm_compute in B. discriminate B.
  - intros v i I N L J. specialize (B v I). apply orb_true_iff in B as [B|B]; [now apply mem_In in B|].
    apply andb_prop in B as [_ B]. rewrite forallb_forall in B. specialize (B i). rewrite in_seq in B.
    assert (C : negb (mem (copy_name v i) (nodes g)) = true) by (apply B; lia). apply negb_true_iff, mem_nIn in C. auto.
Qed.

(** A declared endogenous variable without parents that is kept as a
    DeterministicFactor. *)
Definition g_root : digraph := graph_of [("A", "B")].
Definition D_root : domain := [("A", l01); ("B", l01)].
Definition ts_root : tables := [("A", ([("A", l01)], [0; 1]%Q, [])); ("B", ([("A", l01); ("B", l01)], [1; 0; 0; 1]%Q, ["A"]))].
Definition m_root : pgm := scm_of VNumpy g_root ts_root [("A", [SInt 1])] (Some ["A"; "B"]) false.
Lemma root_ok : causal m_root D_root (table_of VNumpy ts_root) VNumpy ["A"; "B"] false.
Proof.
  apply causal_check with (os := [("A", [SInt 1])]); [vm_compute; reflexivity|vm_compute; reflexivity|].
  assert (E : nodes (m_graph m_root) = ["A"; "B"]) by (vm_compute; reflexivity).
  intros v J. rewrite E in J. destruct J as [<-|[<-|[]]]; vm_compute; reflexivity.
Qed.
Lemma deterministic_root : exists m D F vt endo cast, causal m D F vt endo cast /\
  do_mass D F [] [] = 1%Qc /\
  exists m1, cve_init m = Ok m1 /\
    forall h, causal_query (heuristic_fn h first_choice) plain_order m1 ["B"] (DoDict []) [] = Raise NotImplementedError.
Proof.
  exists m_root, D_root, (table_of VNumpy ts_root), VNumpy, ["A"; "B"], false. split; [apply root_ok|].
  split; [apply Qc_is_canon; vm_compute; reflexivity|].
  destruct (cve_init m_root) as [m1|] eqn:E; [|vm_compute in E; discriminate]. exists m1. split; [auto|].
  intros h. assert (Q : forall h, (let* m1 := cve_init m_root in causal_query (heuristic_fn h first_choice) plain_order m1 ["B"] (DoDict []) []) = Raise NotImplementedError).
  { intros []; vm_compute; reflexivity. }
  specialize (Q h). rewrite E in Q. exact Q.
Qed.
