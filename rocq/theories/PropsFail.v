(** Further statements on C45 (a set_value that raises part of the way) and
    C64 (functions with boolean states). *)

From Coq Require Import String Bool Arith ZArith QArith Qcanon List.
From Verif Require Import PyBase Num DomainModel NdArray StoreModel NumStore FactorModel GenModel GenSpec Spec StoreSpec
  NumFacts FactorSpec Checks FactorChecks OpModel OpSpec OpFacts5 OpChecks HeapModel HeapSpec HeapChecks HeapChecks2.
Import ListNotations.
Local Open Scope nat_scope.

(** A treedict store built from a dictionary that lacks a state (the constructor
    checks nothing): set_value raises KeyError, and what it has written before
    stays written, in the store it was called on. *)
Theorem C45_failed_set_value_refuted : exists h s p F x o h' p' F' ob y y',
  holds h s p F /\ NoDup F /\ hs_set_value 9 s x o h = (Raise KeyError, h') /\
  holds h' s p' F' /\ get_value p ob = Ok y /\ get_value p' ob = Ok y' /\ y <> y'.
Proof. exact failed_set_value. Qed.
Print Assumptions C45_failed_set_value_refuted.

(** * C64, a function with boolean states on the right of an operator: True
    counts as 1 and False as 0. *)
Theorem C64_logical_operand : forall op nop f g v l z, In (op, nop) [(OpMul, nmul); (OpAdd, nadd); (OpSub, nsub)] -> wf_mf f -> wf_df g v l -> mf_vtype f = df_vtype g ->
  usable (drop [v] (df_domain g)) -> compatible (mf_domain f) (drop [v] (df_domain g)) ->
  (forall o, full (drop [v] (df_domain g)) o -> get_value (df_store g) o = Ok (SBool (z o))) ->
  exists h, py_binop op (PFac f) (PDet g) = Ok (PFac h) /\ wf_mf h /\ mf_vtype h = mf_vtype f /\
    mf_domain h = join (mf_domain f) (drop [v] (df_domain g)) /\
    (forall w, In w (mf_left h) <-> In w (mf_left f) \/ w = v /\ In v (mf_vars f)) /\
    forall o, full (mf_domain h) o -> exists x, mf_get_value f o = Ok x /\ mf_get_value h o = Ok (nop x (Fin (Q2Qc (if z o then 1 else 0)%Q))).
Proof. exact logical_arith. Qed.
Print Assumptions C64_logical_operand.

(** P(X) = 1/4, 3/4 with B = not X on the right of the operators. *)
Section C64_logical.
  Local Open Scope string_scope.
  Let dXB : domain := [("X", [SInt 0; SInt 1]); ("B", [SBool true; SBool false])].
  Let g_B (vt : vtype) : dfactor := dfac vt dXB "B" [SBool true; SBool false].
  Example C64_case_logical : forall vt,
    wf_mf (f_X vt) /\ wf_df (g_B vt) "B" [SBool true; SBool false] /\ mf_vtype (f_X vt) = df_vtype (g_B vt) /\
    usable (drop ["B"] (df_domain (g_B vt))) /\ compatible (mf_domain (f_X vt)) (drop ["B"] (df_domain (g_B vt))) /\
    (forall o, full (drop ["B"] (df_domain (g_B vt))) o -> get_value (df_store (g_B vt)) o = Ok (SBool (match dget "X" o with Some (SInt 0) => true | _ => false end))) /\
    map (fun op => let* x := py_binop op (PFac (f_X vt)) (PDet (g_B vt)) in
      match x with PFac h => Ok (map (fun s => okb (mf_get_value h [("X", SInt (fst s))]) (q (snd s))) [(0%Z, 1#4); (1%Z, 0); (0%Z, 5#4); (1%Z, 3#4)]%Q) | _ => Raise Unmodelled end)
      [OpMul; OpAdd] =
    [Ok [true; true; false; false]; Ok [false; false; true; true]].
  Proof.
    intros vt. assert (G : wf_df (g_B vt) "B" [SBool true; SBool false] /\ df_domain (g_B vt) = dXB /\ df_vtype (g_B vt) = vt).
    { apply dfac_wf; [vm_compute; reflexivity|right; left; reflexivity]. }
    destruct G as (W & D & T). destruct (fac_wf vt dX [1#4; 3#4]%Q []) as (Wf & Df & Tf); [vm_compute; reflexivity|].
    split; [exact Wf|]. split; [exact W|]. split; [rewrite T; exact Tf|]. rewrite D. split; [apply usableb_sound; vm_compute; reflexivity|].
    split; [unfold f_X; rewrite Df; apply compatibleb_sound; vm_compute; reflexivity|].
    split; [|destruct vt; vm_compute; reflexivity].
    intros o F. destruct (F "X" [SInt 0; SInt 1] (or_introl eq_refl)) as (x & E & J).
    assert (A : get_value (df_store (g_B vt)) o = get_value (df_store (g_B vt)) [("X", x)]).
    { symmetry. apply FactorFacts.get_value_agree; [apply W| |].
      - destruct W as (_ & _ & _ & _ & _ & _ & ->). rewrite D. exact F.
      - destruct W as (_ & _ & _ & _ & _ & _ & ->). rewrite D. intros v [<- | []]. exact (eq_sym E). }
    assert (E2 : dget "X" o = Some x) by exact E. rewrite A, E2. destruct J as [<- | [<- | []]]; destruct vt; vm_compute; reflexivity.
  Qed.
End C64_logical.
