(** Concrete factors for the examples about operators. *)

From Coq Require Import String Bool Arith ZArith QArith Qcanon Permutation List.
From Verif Require Import PyBase Num DomainModel NdArray StoreModel NumStore FactorModel GenModel PyFacts Spec
  StoreSpec NumFacts FactorSpec FactorFacts PropFacts1 Checks FactorChecks GenChecks OpModel OpSpec.
Import ListNotations.
Local Open Scope nat_scope.

(** The entry of a table listed in row-major order. *)
Definition table (d : domain) (l : list Q) (o : obs) : Qc := nth (rowpos d o) (map Q2Qc l) 0%Qc.

Lemma fac_holds vt d l r : usableb d && (length l =? size d) && nodupb r && inclb r (keys d) = true ->
  holds vt (fac vt d l r) (table d l) /\ mf_domain (fac vt d l r) = d.
Proof.
  intros B. destruct (fac_wf vt d l r B) as (W & D & T). split; [|auto]. split; [auto|]. split; [auto|].
  rewrite !andb_true_iff, Nat.eqb_eq in B. destruct B as [[[U L] N] I]. apply usableb_sound in U.
  assert (WD := usable_wf d U). rewrite D. intros o F.
  destruct (init_store vt d (map q l) WD) as (s & E & Ws & Ds & Ts & V & _); [now rewrite map_length|].
  unfold mf_get_value, fac, tab. cbn [mf_store]. rewrite E.
  destruct (V o F) as (x & -> & X). f_equal. unfold table.
  rewrite nth_error_map in X.
  destruct (nth_error l (rowpos d o)) as [y|] eqn:Y; [|discriminate]. cbn [option_map] in X. injection X as <-.
  assert (Z : nth_error (map Q2Qc l) (rowpos d o) = Some (Q2Qc y)) by now rewrite nth_error_map, Y.
  rewrite (nth_error_nth _ _ _ Z). reflexivity.
Qed.

(** What an expression returns: domain, left and right variables and values. *)
Definition seen (e : pyexp) : res (domain * list var * list var * list num) :=
  view (let* x := py_eval e in match x with PFac f => Ok f | _ => Raise Unmodelled end).

(** A value of a table is never zero: all entries are checked. *)
Lemma table_nonzero d l : wf_domb d && forallb (fun o => negb (Qeq_bool (table d l o) 0)) (all_assignments d) = true ->
  forall o, full d o -> table d l o <> 0%Qc.
Proof.
  rewrite andb_true_iff. intros [W A] o F E. apply wf_domb_sound in W. destruct W as (N & W).
  assert (S : forall D o, full D o -> exists p, In p (all_assignments D) /\ forall v, In v (keys D) -> dget v p = dget v o).
  { induction D as [|[v s] D IH]; intros u Fu; cbn [all_assignments].
    - exists []. split; [left; auto|]. intros ? [].
    - destruct (Fu v s (or_introl eq_refl)) as (y & Y & I).
      destruct (IH u) as (p & Ip & P); [intros w t J; apply Fu; right; auto|].
      exists ((v, y) :: p). split.
      + apply in_flat_map. exists y. split; [auto|]. apply in_map_iff. eauto.
      + intros w [<-|J]; cbn [dget]; [now rewrite eqd_refl|].
        destruct (eqd w v) as [->|]; [auto|]. auto. }
  destruct (S d o F) as (p & Ip & P).
  assert (R : forall D, (forall v, In v (keys D) -> dget v p = dget v o) -> rowpos D p = rowpos D o).
  { induction D as [|[v s] D IH]; intros H; cbn [rowpos]; [auto|].
    rewrite (H v (or_introl eq_refl)), IH; [auto|]. intros w J. apply H. right. auto. }
  apply forallb_forall with (x := p) in A; auto. unfold table in *. rewrite R in A by auto. rewrite E in A. discriminate.
Qed.

(** P(X) and Y = 2 - 2 X. *)
Definition dX : domain := [("X"%string, [SInt 0; SInt 1])].
Definition dXY2 : domain := [("X"%string, [SInt 0; SInt 1]); ("Y"%string, [SInt 0; SInt 1; SInt 2])].
Definition f_X (vt : vtype) : mfactor := fac vt dX [1#4; 3#4]%Q [].
Definition g_Y (vt : vtype) : dfactor := dfac vt dXY2 "Y"%string [SInt 2; SInt 0].

Lemma g_Y_ok vt : wf_df (g_Y vt) "Y"%string [SInt 0; SInt 1; SInt 2] /\ df_domain (g_Y vt) = dXY2 /\ df_vtype (g_Y vt) = vt.
Proof. apply dfac_wf; [vm_compute; reflexivity|right; left; reflexivity]. Qed.
Lemma function_product_refuted (vt : vtype) : exists f g c h h', wf_mf f /\ wf_df g "Y"%string [SInt 0; SInt 1; SInt 2] /\ mf_vtype f = df_vtype g /\
  df_to_multinomial g = Ok c /\ py_binop OpMul (PFac f) (PDet g) = Ok (PFac h) /\ py_binop OpMul (PFac f) (PFac c) = Ok (PFac h') /\
  mf_vars h = ["X"%string] /\ mf_vars h' = ["X"; "Y"]%string /\ mf_get_value h [("X"%string, SInt 0)] = Ok (q (1#2)).
Proof.
  exists (f_X vt), (g_Y vt).
  destruct (df_to_multinomial (g_Y vt)) as [c|] eqn:Ec; [|exfalso; destruct vt; vm_compute in Ec; discriminate Ec].
  destruct (py_binop OpMul (PFac (f_X vt)) (PDet (g_Y vt))) as [[h| | | | | |]|] eqn:Eh; try (exfalso; destruct vt; vm_compute in Eh; discriminate Eh).
  destruct (py_binop OpMul (PFac (f_X vt)) (PFac c)) as [[h'| | | | | |]|] eqn:Eh';
    try (exfalso; destruct vt; vm_compute in Ec; injection Ec as <-; vm_compute in Eh'; discriminate Eh').
  exists c, h, h'. destruct (g_Y_ok vt) as (W & D & T). destruct (fac_wf vt dX [1#4; 3#4]%Q []) as (Wf & Df & Tf); [vm_compute; reflexivity|].
  split; [exact Wf|]. split; [exact W|]. split; [rewrite T; exact Tf|]. split; [first [exact Ec|reflexivity]|]. split; [first [exact Eh|reflexivity]|]. split; [first [exact Eh'|reflexivity]|].
  split; [|split; [|apply okb_sound]]; destruct vt; vm_compute in Ec; injection Ec as <-; vm_compute in Eh, Eh'; injection Eh as <-; injection Eh' as <-; vm_compute; reflexivity.
Qed.
