(** Decision procedures for the cases about canonical equations. *)

From Coq Require Import String Bool Arith ZArith QArith Qcanon List.
From Verif Require Import PyBase PyFacts Num DomainModel NdArray StoreModel NumStore FactorModel GraphModel ModelModel Spec StoreSpec FactorSpec ModelSpec NetSpec GenSpec CausalSpec CanonSpec GenModel InferModel CausalModel
  DomainFacts StoreFacts FactorFacts FactorFacts2 Checks FactorChecks GraphChecks InferChecks EmChecks GenChecks.
Import ListNotations.
Local Open Scope nat_scope.
Local Open Scope string_scope.
Local Open Scope list_scope.

Lemma cpt_check D vt v ps d l r : usableb d && (length l =? size d)%nat && nodupb r && inclb r (keys d) && cptb D v ps (fac vt d l r) = true ->
  cpt D vt v ps (fac vt d l r).
Proof.
  rewrite andb_true_iff. intros [T C].
  destruct (fac_wf vt d l r T) as (Wf & Df & Tf). unfold cptb in C. rewrite !andb_true_iff in C. destruct C as [[[[C1 C2] C3] C4] C5].
  split; [exact Wf|]. split; [exact Tf|]. split; [now apply same_setb_sound|]. split; [now apply same_setb_sound|].
  split. { intros w k K. apply (inclb_sound _ _ C3). auto. }
  split; [now apply finiteb_sound|]. now apply normb_sound.
Qed.

Definition no_negativeb (f : mfactor) : bool := forallb (fun o => if Qclt_le_dec (entry f o) 0 then false else true) (all_assignments (mf_domain f)).
Lemma no_negativeb_sound f : wf_mf f -> no_negativeb f = true -> no_negative f.
Proof.
  intros W E o F. assert (N : NoDup (mf_vars f)) by apply (wf_mf_partitioned f W).
  destruct (canonical _ o N F) as [J K]. unfold no_negativeb in E. rewrite forallb_forall in E. specialize (E _ J). cbv beta in E.
  assert (Q : entry f (obs_of (keys (mf_domain f)) (asg_of o)) = entry f o).
  { unfold entry, mf_get_value. rewrite (get_value_agree (mf_store f) o); [reflexivity|apply W|exact F|exact K]. }
  unfold mf_vars in E. rewrite Q in E. destruct (Qclt_le_dec (entry f o) 0); [discriminate|assumption].
Qed.

(** X -> Y, with the new parents U_X and U_Y. *)
Definition g_two : digraph := graph_of [("X", "Y")].
Definition s_two : list state := [SInt 0; SInt 1]%Z.
Definition D_two : domain := [("X", s_two); ("Y", s_two)].
Definition ts_two : tables :=
  [("X", ([("X", s_two)], [1#4; 3#4]%Q, [])); ("Y", ([("Y", s_two); ("X", s_two)], [1#4; 2#3; 3#4; 1#3]%Q, ["X"]))].
Definition U_two (v : var) : var := append "U" v.
Definition lu_two (v : var) : list state := if eqd v "X" then [SStr "a"; SStr "b"] else [SInt 0; SInt 1; SInt 2; SInt 3]%Z.

Lemma two_ok vt : network (bn_of vt g_two ts_two) D_two (table_of vt ts_two) vt.
Proof.
  apply network_check; [destruct vt; vm_compute; reflexivity|].
  assert (E : nodes (m_graph (bn_of vt g_two ts_two)) = ["X"; "Y"]) by (destruct vt; vm_compute; reflexivity).
  intros v J. rewrite E in J. destruct J as [<-|[<-|[]]]; destruct vt; vm_compute; reflexivity.
Qed.
Lemma two_nonneg vt : nonnegative D_two (table_of vt ts_two).
Proof. apply (nonneg_check _ _ vt _ (two_ok vt)). destruct vt; vm_compute; reflexivity. Qed.
Lemma two_parents vt : new_parents D_two (m_graph (bn_of vt g_two ts_two)) U_two lu_two.
Proof.
  split; [apply usableb_sound; vm_compute; reflexivity|].
  intros v l [[= <- <-] | [[= <- <-] | []]]; destruct vt; vm_compute; reflexivity.
Qed.

(** The structural model with the canonical equations. *)
Definition scm_two (vt : vtype) : res pgm :=
  let* fx := canonical_deterministic [("X", s_two); ("UX", lu_two "X")] "UX" [] vt in
  let* fy := canonical_deterministic [("Y", s_two); ("UY", lu_two "Y"); ("X", s_two)] "UY" ["X"] vt in
  scm_init (GDag (exo_graph g_two U_two))
    (Some (FsDict [("X", FD fx); ("Y", FD fy);
                   ("UX", FM (fac vt [("UX", lu_two "X")] [1#4; 3#4]%Q []));
                   ("UY", FM (fac vt [("UY", lu_two "Y")] [1#6; 1#12; 1#2; 1#4]%Q []))])) None false true.
