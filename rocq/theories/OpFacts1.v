(** Expressions evaluate to what they mean. *)

From Coq Require Import String Bool Arith ZArith QArith Qcanon Lia Permutation List.
From Verif Require Import PyBase Num DomainModel NdArray StoreModel NumStore FactorModel GenModel PyFacts Spec
  DomainFacts StoreSpec NumFacts FactorSpec FactorFacts PropFacts1 PropFacts2 OpModel OpSpec.
Import ListNotations.
Local Open Scope nat_scope.
Local Arguments eqd : simpl never.

Lemma without_In vs ws v : In v (without vs ws) <-> In v vs /\ ~ In v ws.
Proof. unfold without. rewrite filter_In, negb_true_iff, mem_nIn. tauto. Qed.

Lemma spells_names x vs : spells x vs -> names_of x = Ok vs.
Proof. intros [v|l]; reflexivity. Qed.

(** [gives vt r d L g]: the computation [r] returns such a factor. *)
Definition gives (vt : vtype) (r : res pyval) (d : domain) (L : list var) (g : obs -> Qc) : Prop :=
  exists f, r = Ok (PFac f) /\ wf_mf f /\ mf_vtype f = vt /\ mf_domain f = d /\
    (forall v, In v (mf_left f) <-> In v L) /\
    forall o, full d o -> mf_get_value f o = Ok (Fin (g o)).

Lemma ndiv_fin vt (a b : Qc) : b <> 0%Qc -> div_op vt (Fin a) (Fin b) = Fin (a / b).
Proof.
  intros N. assert (X : ndiv (Fin a) (Fin b) = Fin (a / b)).
  { unfold ndiv. assert (Z := proj2 (qzero_false b) N). rewrite Z. auto. }
  destruct vt; cbn [div_op]; auto. unfold np_div. rewrite X. reflexivity.
Qed.

Lemma divide_scalar f x : wf_mf f ->
  exists h, mf_divide f (ONum x) = Ok h /\ wf_mf h /\ mf_vtype h = mf_vtype f /\ mf_domain h = mf_domain f /\
    (forall v, In v (mf_left h) <-> In v (mf_left f)) /\
    forall o, full (mf_domain f) o ->
      exists y, mf_get_value f o = Ok y /\ mf_get_value h o = Ok (div_op (mf_vtype f) y x).
Proof.
  intros W. destruct (prepare_scalar f x eq_refl) as (g & E & Wg & Tg & Dg & G).
  assert (J : join (mf_domain f) [] = mf_domain f) by (unfold join; simpl; apply app_nil_r).
  destruct (mf_divide_ok f g W Wg) as (h & Eh & Wh & Th & Dh & Lh & _ & H); auto.
  { rewrite Dg. intros v l1 l2 _ []. }
  exists h. unfold mf_divide in *. rewrite E. cbn [bind prepare_operand] in *. split; [auto|]. split; [auto|].
  split; [auto|]. rewrite Dg, J in *. split; [auto|]. split.
  - intros v. rewrite Lh. unfold mf_vars. rewrite Dg. simpl. tauto.
  - intros o F. destruct (H o F) as (a & b & A & B & C). rewrite G in B. injection B as <-. eauto.
Qed.

Section Steps.
  Variable vt : vtype.

  Lemma step_arith op nop qop x y d1 L1 g1 d2 L2 g2 :
    (op = OpMul /\ nop = nmul /\ qop = Qcmult \/ op = OpAdd /\ nop = nadd /\ qop = Qcplus \/
     op = OpSub /\ nop = nsub /\ qop = Qcminus) ->
    gives vt (Ok x) d1 L1 g1 -> gives vt (Ok y) d2 L2 g2 -> compatible d1 d2 ->
    gives vt (py_binop op x y) (join d1 d2) (L1 ++ L2) (fun o => qop (g1 o) (g2 o)).
  Proof.
    intros O (f & Ef & Wf & Tf & Df & Lf & F) (h & Eh & Wh & Th & Dh & Lh & H) C.
    injection Ef as ->. injection Eh as ->. subst d1 d2.
    destruct (mf_arith_ok nop f h Wf Wh) as (r & Er & Wr & Tr & Dr & Lr & _ & R); auto; [congruence|].
    exists r. split.
    { assert (X : factor_method op f (OFac h) = Ok r)
        by (destruct O as [(-> & -> & ->)|[(-> & -> & ->)|(-> & -> & ->)]]; exact Er).
      cbn [py_binop fac_arith]. destruct O as [(-> & _)|[(-> & _)|(-> & _)]]; rewrite X; reflexivity. }
    split; [auto|]. split; [congruence|]. split; [auto|]. split.
    { intros v. rewrite Lr, Lf, Lh, in_app_iff. tauto. }
    intros o Fo. destruct (R o Fo) as (a & b & A & B & E).
    rewrite F in A by (eapply full_join_l; eauto). rewrite H in B by (eapply full_join_r; eauto).
    injection A as <-. injection B as <-. rewrite E.
    destruct O as [(-> & -> & ->)|[(-> & -> & ->)|(-> & -> & ->)]]; reflexivity.
  Qed.

  Lemma step_div x y d1 L1 g1 d2 L2 g2 :
    gives vt (Ok x) d1 L1 g1 -> gives vt (Ok y) d2 L2 g2 -> compatible d1 d2 ->
    (forall o, full d2 o -> g2 o <> 0%Qc) ->
    gives vt (py_binop OpDiv x y) (join d1 d2) (without L1 (keys d2)) (fun o => g1 o / g2 o)%Qc.
  Proof.
    intros (f & Ef & Wf & Tf & Df & Lf & F) (h & Eh & Wh & Th & Dh & Lh & H) C NZ.
    injection Ef as ->. injection Eh as ->. subst d1 d2.
    destruct (mf_divide_ok f h Wf Wh) as (r & Er & Wr & Tr & Dr & Lr & _ & R); auto; [congruence|].
    exists r. split; [cbn [py_binop fac_arith factor_method]; rewrite Er; reflexivity|].
    split; [auto|]. split; [congruence|]. split; [auto|]. split.
    { intros v. rewrite Lr, Lf, without_In. reflexivity. }
    intros o Fo. destruct (R o Fo) as (a & b & A & B & E).
    assert (F2 := full_join_r _ _ _ C Fo).
    rewrite F in A by (eapply full_join_l; eauto). rewrite H in B by auto.
    injection A as <-. injection B as <-. rewrite E, ndiv_fin; auto.
  Qed.

  Lemma step_number op nop qop x d L g q :
    (op = OpMul /\ nop = nmul /\ qop = Qcmult \/ op = OpAdd /\ nop = nadd /\ qop = Qcplus \/
     op = OpSub /\ nop = nsub /\ qop = Qcminus) ->
    gives vt (Ok x) d L g -> gives vt (py_binop op x (PNum (Fin q))) d L (fun o => qop (g o) q).
  Proof.
    intros O (f & Ef & Wf & Tf & Df & Lf & F). injection Ef as ->. subst d.
    destruct (mf_scalar_ok nop f (Fin q) Wf) as (r & Er & Wr & Tr & Dr & Lr & _ & R).
    exists r. split.
    { assert (X : factor_method op f (ONum (Fin q)) = Ok r)
        by (destruct O as [(-> & -> & ->)|[(-> & -> & ->)|(-> & -> & ->)]]; exact Er).
      cbn [py_binop fac_arith]. destruct O as [(-> & _)|[(-> & _)|(-> & _)]]; rewrite X; reflexivity. }
    split; [auto|]. split; [congruence|]. split; [auto|]. split.
    { intros v. rewrite Lr, Lf. tauto. }
    intros o Fo. destruct (R o Fo) as (a & A & E). rewrite F in A by auto. injection A as <-. rewrite E.
    destruct O as [(-> & -> & ->)|[(-> & -> & ->)|(-> & -> & ->)]]; reflexivity.
  Qed.

  Lemma step_div_number x d L g q : q <> 0%Qc -> gives vt (Ok x) d L g ->
    gives vt (py_binop OpDiv x (PNum (Fin q))) d L (fun o => g o / q)%Qc.
  Proof.
    intros NZ (f & Ef & Wf & Tf & Df & Lf & F). injection Ef as ->. subst d.
    destruct (divide_scalar f (Fin q) Wf) as (r & Er & Wr & Tr & Dr & Lr & R).
    exists r. split; [cbn [py_binop fac_arith factor_method]; rewrite Er; reflexivity|].
    split; [auto|]. split; [congruence|]. split; [auto|]. split.
    { intros v. rewrite Lr, Lf. tauto. }
    intros o Fo. destruct (R o Fo) as (a & A & E). rewrite F in A by auto. injection A as <-. rewrite E, ndiv_fin; auto.
  Qed.

  Lemma step_sum x d L g y vs : gives vt (Ok x) d L g -> spells y vs -> NoDup vs -> incl vs (keys d) ->
    gives vt (py_binop OpPow x y) (drop vs d) (without L vs)
          (fun o => qsum (map (fun p => g (p ++ o)) (all_assignments (pick vs d)))).
  Proof.
    intros (f & Ef & Wf & Tf & Df & Lf & F) S N I. injection Ef as ->. subst d.
    destruct (mf_marginalize_ok f vs Wf N I) as (r & Er & Wr & Tr & Dr & _ & Lr & R).
    exists r. split; [cbn [py_binop]; rewrite (spells_names y vs S); cbn [bind]; rewrite Er; reflexivity|].
    split; [auto|]. split; [congruence|]. split; [auto|]. split.
    { intros v. rewrite Lr, Lf, without_In. reflexivity. }
    intros o Fo. destruct (R o Fo) as (xs & X & Y). rewrite Y. f_equal. rewrite <- nsum_Fin. f_equal.
    rewrite map_map.
    assert (Y' : forall l xs, (forall p, In p l -> In p (all_assignments (pick vs (mf_domain f)))) ->
         Forall2 (fun p x => mf_get_value f (p ++ o) = Ok x) l xs -> xs = map (fun p => Fin (g (p ++ o))) l).
    { intros l ys Hin HF. induction HF as [|p z l ys Hp HF IH]; [auto|]. simpl. f_equal.
      - rewrite F in Hp; [congruence|]. eapply full_app_within; eauto; [apply Wf|apply Hin; left; auto].
      - apply IH. intros; apply Hin; right; auto. }
    apply Y' in X; auto.
  Qed.

  Lemma step_max x d L g m y vs : gives vt (Ok x) d L g -> spells y vs -> NoDup vs -> incl vs (keys d) ->
    vt <> VNumpy1D -> largest vs d g m ->
    gives vt (py_binop OpXor x y) (drop vs d) (without L vs) m.
  Proof.
    intros (f & Ef & Wf & Tf & Df & Lf & F) S N I NV M. injection Ef as ->. subst d.
    destruct (mf_maxmarginalize_ok f vs Wf N I) as (r & Er & Wr & Tr & Dr & _ & Lr & R); [eauto|congruence|].
    exists r. split; [cbn [py_binop]; rewrite (spells_names y vs S); cbn [bind]; rewrite Er; reflexivity|].
    split; [auto|]. split; [congruence|]. split; [auto|]. split.
    { intros v. rewrite Lr, Lf, without_In. reflexivity. }
    intros o Fo. destruct (R o Fo) as (q & Q & (p & Ip & P) & U). destruct (M o Fo) as ((p' & Ip' & Mp) & V).
    assert (FF : forall p, In p (all_assignments (pick vs (mf_domain f))) ->
              mf_get_value f (p ++ o) = Ok (Fin (g (p ++ o)))).
    { intros p0 I0. apply F. eapply full_app_within; eauto. apply Wf. }
    rewrite Q. f_equal. f_equal. apply Qcle_antisym.
    - rewrite FF in P by auto. injection P as <-. auto.
    - rewrite Mp. eauto.
  Qed.

  Lemma step_absent op x d L g y vs : gives vt (Ok x) d L g -> spells y vs -> (op = OpPow \/ op = OpXor) ->
    (forall v, In v vs -> ~ In v (keys d)) -> gives vt (py_binop op x y) d L g.
  Proof.
    intros (f & Ef & Wf & Tf & Df & Lf & F) S O A. injection Ef as ->. subst d.
    exists f. split; [|auto].
    assert (E : existsb (fun v => mem v (mf_vars f)) vs = false).
    { destruct (existsb _ vs) eqn:E; [|auto]. apply existsb_exists in E as (v & Iv & Mv). apply mem_In in Mv.
      destruct (A v Iv Mv). }
    destruct O as [-> | ->]; cbn [py_binop]; rewrite (spells_names y vs S); cbn [bind];
      unfold mf_marginalize, mf_maxmarginalize; rewrite E; reflexivity.
  Qed.

  Lemma step_restrict x d L g o : gives vt (Ok x) d L g -> known d o ->
    gives vt (py_restrict x o) (drop (keys o) d) (without L (keys o)) (fun o' => g (o ++ o')).
  Proof.
    intros (f & Ef & Wf & Tf & Df & Lf & F) K. injection Ef as ->. subst d.
    destruct (mf_restrict_ok f o Wf K) as (r & Er & Wr & Tr & Dr & _ & Lr & R).
    exists r. split; [cbn [py_restrict]; rewrite Er; reflexivity|].
    split; [auto|]. split; [congruence|]. split; [auto|]. split.
    { intros v. rewrite Lr, Lf, without_In. reflexivity. }
    intros o' Fo. destruct (R o' Fo) as (z & Z & Y). rewrite Z. rewrite F in Y; [auto|].
    intros v l Iv. rewrite dget_app. destruct (dget v o) as [s|] eqn:Gy; [eauto|].
    apply Fo. apply filter_In. split; auto. simpl. apply dget_None in Gy. apply mem_nIn in Gy. rewrite Gy. auto.
  Qed.
End Steps.

Theorem means_ok vt e d L g : means vt e d L g -> gives vt (py_eval e) d L g.
Proof.
  induction 1 as [f g (W & T & G)|e1 d1 L1 g1 e2 d2 L2 g2 _ IH1 _ IH2 C|e1 d1 L1 g1 e2 d2 L2 g2 _ IH1 _ IH2 C
    |e1 d1 L1 g1 e2 d2 L2 g2 _ IH1 _ IH2 C|e1 d1 L1 g1 e2 d2 L2 g2 _ IH1 _ IH2 C NZ
    |e d L g q _ IH|e d L g q _ IH|e d L g q _ IH|e d L g q _ IH NZ
    |e d L g x vs _ IH S N I|e d L g m x vs _ IH S N I NV M|op e d L g x vs _ IH S O A|e d L g o _ IH K];
    cbn [py_eval].
  - exists f. split; [auto|]. split; [auto|]. split; [auto|]. split; [auto|]. split; [tauto|auto].
  - destruct IH1 as (f & -> & H1), IH2 as (h & -> & H2). cbn [bind].
    apply (step_arith vt OpMul nmul Qcmult); auto; [exists f; auto|exists h; auto].
  - destruct IH1 as (f & -> & H1), IH2 as (h & -> & H2). cbn [bind].
    apply (step_arith vt OpAdd nadd Qcplus); auto; [exists f; auto|exists h; auto].
  - destruct IH1 as (f & -> & H1), IH2 as (h & -> & H2). cbn [bind].
    apply (step_arith vt OpSub nsub Qcminus); auto 6; [exists f; auto|exists h; auto].
  - destruct IH1 as (f & -> & H1), IH2 as (h & -> & H2). cbn [bind].
    eapply step_div; eauto; [exists f; auto|exists h; split; eauto].
  - destruct IH as (f & -> & H1). cbn [bind]. apply (step_number vt OpMul nmul Qcmult); auto; exists f; auto.
  - destruct IH as (f & -> & H1). cbn [bind]. apply (step_number vt OpAdd nadd Qcplus); auto; exists f; auto.
  - destruct IH as (f & -> & H1). cbn [bind]. apply (step_number vt OpSub nsub Qcminus); auto 6; exists f; auto.
  - destruct IH as (f & -> & H1). cbn [bind]. apply step_div_number; auto; exists f; auto.
  - destruct IH as (f & -> & H1). cbn [bind]. apply step_sum; auto; exists f; auto.
  - destruct IH as (f & -> & H1). cbn [bind]. eapply step_max; eauto; exists f; eauto.
  - destruct IH as (f & -> & H1). cbn [bind]. eapply step_absent; eauto; exists f; auto.
  - destruct IH as (f & -> & H1). cbn [bind]. apply step_restrict; auto; exists f; auto.
Qed.
