(** Property C64: expressions written with the operators of factors. *)

From Coq Require Import String Ascii Bool Arith ZArith QArith Qcanon Permutation List.
From Verif Require Import PyBase Num DomainModel NdArray StoreModel NumStore FactorModel GenModel GenSpec Spec StoreSpec
  NumFacts FactorSpec Checks FactorChecks OpModel OpSpec OpFacts1 OpFacts2 OpFacts3 OpFacts4 OpChecks.
Import ListNotations.
Local Open Scope nat_scope.

(** An expression evaluates, without an exception, to the table it denotes. *)
Theorem C64_expression : forall vt e d L g, means vt e d L g ->
  exists f, py_eval e = Ok (PFac f) /\ wf_mf f /\ mf_vtype f = vt /\ mf_domain f = d /\
    (forall v, In v (mf_left f) <-> In v L) /\
    forall o, full d o -> mf_get_value f o = Ok (Fin (g o)).
Proof. exact means_ok. Qed.
Print Assumptions C64_expression.

(** `(f / (f ** x)) * (f ** x)` is the table of `f`. *)
Theorem C64_chain_rule : forall vt f g x vs, holds vt f g -> spells x vs -> NoDup vs -> incl vs (mf_vars f) ->
  (forall o, full (drop vs (mf_domain f)) o ->
     qsum (map (fun p => g (p ++ o)) (all_assignments (pick vs (mf_domain f)))) <> 0%Qc) ->
  let F := XVal (PFac f) in let M := XOp OpPow F (XVal x) in
  exists h, py_eval (XOp OpMul (XOp OpDiv F M) M) = Ok (PFac h) /\ same_table h f /\ mf_domain h = mf_domain f.
Proof. exact chain_rule. Qed.
Print Assumptions C64_chain_rule.

(** `(f / (f ** x)) ** x` is constantly one. *)
Theorem C64_conditional : forall vt f g x vs, holds vt f g -> spells x vs -> NoDup vs -> incl vs (mf_vars f) ->
  (forall o, full (drop vs (mf_domain f)) o ->
     qsum (map (fun p => g (p ++ o)) (all_assignments (pick vs (mf_domain f)))) <> 0%Qc) ->
  let F := XVal (PFac f) in
  exists h, py_eval (XOp OpPow (XOp OpDiv F (XOp OpPow F (XVal x))) (XVal x)) = Ok (PFac h) /\
    mf_domain h = drop vs (mf_domain f) /\
    forall o, full (mf_domain h) o -> mf_get_value h o = Ok n1.
Proof. exact conditional_sums. Qed.
Print Assumptions C64_conditional.

(** `(f ** x) ** y` and `f ** (x + y)`. *)
Theorem C64_sum_twice : forall vt f g x y z vs ws, holds vt f g -> spells x vs -> spells y ws -> spells z (vs ++ ws) ->
  NoDup (vs ++ ws) -> incl (vs ++ ws) (mf_vars f) ->
  let F := XVal (PFac f) in
  exists r1 r2, py_eval (XOp OpPow (XOp OpPow F (XVal x)) (XVal y)) = Ok (PFac r1) /\
    py_eval (XOp OpPow F (XVal z)) = Ok (PFac r2) /\ same_table r1 r2.
Proof. exact sum_twice. Qed.
Print Assumptions C64_sum_twice.

(** `(f * h) ** x` and `f * (h ** x)` when `f` does not have the variables `x`. *)
Theorem C64_sum_of_product : forall vt f g h k x vs, holds vt f g -> holds vt h k ->
  compatible (mf_domain f) (mf_domain h) ->
  spells x vs -> NoDup vs -> incl vs (mf_vars h) -> (forall v, In v vs -> ~ In v (mf_vars f)) ->
  let F := XVal (PFac f) in let H := XVal (PFac h) in
  exists r1 r2, py_eval (XOp OpPow (XOp OpMul F H) (XVal x)) = Ok (PFac r1) /\
    py_eval (XOp OpMul F (XOp OpPow H (XVal x))) = Ok (PFac r2) /\ mf_domain r1 = mf_domain r2 /\
    (forall v, In v (mf_left r1) <-> In v (mf_left r2)) /\
    forall o, full (mf_domain r1) o -> exists q, mf_get_value r1 o = Ok (Fin q) /\ mf_get_value r2 o = Ok (Fin q).
Proof. exact push_in. Qed.
Print Assumptions C64_sum_of_product.

(** `(a + b) * c` and `a * c + b * c`. *)
Theorem C64_distributive : forall vt f1 g1 f2 g2 f3 g3, holds vt f1 g1 -> holds vt f2 g2 -> holds vt f3 g3 ->
  compatible (mf_domain f1) (mf_domain f2) -> compatible (mf_domain f1) (mf_domain f3) ->
  compatible (mf_domain f2) (mf_domain f3) ->
  let A := XVal (PFac f1) in let B := XVal (PFac f2) in let C := XVal (PFac f3) in
  exists r1 r2, py_eval (XOp OpMul (XOp OpAdd A B) C) = Ok (PFac r1) /\
    py_eval (XOp OpAdd (XOp OpMul A C) (XOp OpMul B C)) = Ok (PFac r2) /\ same_table r1 r2.
Proof. exact distributive. Qed.
Print Assumptions C64_distributive.

(** `Factor.combine_all(...)` is the product of the factors ... *)
Theorem C64_combine_all : forall vt (val : mfactor -> obs -> Qc) fs, fs <> [] ->
  (forall f, In f fs -> holds vt f (val f)) ->
  (forall f h, In f fs -> In h fs -> compatible (mf_domain f) (mf_domain h)) ->
  exists r, py_combine_all (map PFac fs) = Ok (PFac r) /\ wf_mf r /\ mf_vtype r = vt /\
    (forall v l, In (v, l) (mf_domain r) <-> exists f, In f fs /\ In (v, l) (mf_domain f)) /\
    (forall v, In v (mf_left r) <-> exists f, In f fs /\ In v (mf_left f)) /\
    forall o, full (mf_domain r) o -> mf_get_value r o = Ok (Fin (fold_right Qcmult 1%Qc (map (fun f => val f o) fs))).
Proof. exact combine_all_ok. Qed.
Print Assumptions C64_combine_all.

(** ... in any order. *)
Theorem C64_order_irrelevant : forall vt (val : mfactor -> obs -> Qc) fs hs, fs <> [] -> Permutation fs hs ->
  (forall f, In f fs -> holds vt f (val f)) ->
  (forall f h, In f fs -> In h fs -> compatible (mf_domain f) (mf_domain h)) ->
  exists r s, py_combine_all (map PFac fs) = Ok (PFac r) /\ py_combine_all (map PFac hs) = Ok (PFac s) /\ same_table r s.
Proof. exact combine_all_perm. Qed.
Print Assumptions C64_order_irrelevant.

(** A number (or a string or a list) on the left of a factor is an error: `2 * f`
    does not work although `f * 2` does; neither does a number on the right that
    is not a python int or float. *)
Theorem C64_number_left_raises : forall x f,
  (exists n, x = PNum n) \/ (exists s, x = PStr s) \/ (exists l, x = PSeq l) ->
  (forall op, In op [OpMul; OpAdd; OpSub; OpDiv] -> py_binop op x (PFac f) = Raise AttributeError) /\
  (forall op, In op [OpXor; OpPow] -> py_binop op x (PFac f) = Raise TypeError).
Proof.
  exact (fun x f X => match X with
    | or_introl (ex_intro _ n E) => number_left_num x f n E
    | or_intror (or_introl (ex_intro _ s E)) => number_left_str x f s E
    | or_intror (or_intror (ex_intro _ l E)) => number_left_seq x f l E
    end).
Qed.
Print Assumptions C64_number_left_raises.

Theorem C64_operand_raises : forall f,
  (forall op x, In op [OpMul; OpAdd; OpSub; OpDiv] ->
     (exists n, x = POther n) \/ (exists s, x = PStr s) \/ (exists l, x = PSeq l) ->
     py_binop op (PFac f) x = Raise AttributeError) /\
  (forall op x, In op [OpXor; OpPow] ->
     (exists n, x = PNum n) \/ (exists n, x = POther n) \/ (exists h, x = PFac h) \/ (exists h, x = PDet h) \/
     (exists h, x = PIvl h) ->
     py_binop op (PFac f) x = Raise TypeError).
Proof. exact operand_raises. Qed.
Print Assumptions C64_operand_raises.

(** Factors stored in different classes cannot be combined; a factor and an
    interval factor cannot either, because the hidden variable `_bound` is not
    an acceptable name. *)
Theorem C64_classes_raises : forall op f h, In op [OpMul; OpAdd; OpSub; OpDiv] -> mf_vtype f <> mf_vtype h ->
  py_binop op (PFac f) (PFac h) = Raise ValueError.
Proof. exact (fun op f h I => mixed_classes op f h (arith_list op I)). Qed.
Print Assumptions C64_classes_raises.

Theorem C64_interval_raises : forall op f (h : ifactor), In op [OpMul; OpAdd; OpSub; OpDiv] ->
  wf_mf f -> wf_store (if_store h) -> mf_vtype f = if_vtype h ->
  In "_bound"%string (keys (st_domain (if_store h))) -> compatible (mf_domain f) (st_domain (if_store h)) ->
  py_binop op (PFac f) (PIvl h) = Raise ValueError.
Proof. exact (fun op f h I => interval_operand op f h (arith_list op I)). Qed.
Print Assumptions C64_interval_raises.

(** Deterministic and interval factors have no arithmetic. *)
Theorem C64_unavailable : forall (d d' : dfactor) (i : ifactor) (f : mfactor) (n : num) (s : var) (l : list var) (o : obs),
  (forall op y, In op [OpMul; OpAdd; OpSub; OpDiv] -> py_binop op (PIvl i) y = Raise NotImplementedError) /\
  (forall op, In op [OpXor; OpPow] -> py_binop op (PIvl i) (PStr s) = Raise NotImplementedError /\
     py_binop op (PIvl i) (PSeq l) = Raise NotImplementedError /\ py_binop op (PIvl i) (PNum n) = Raise TypeError) /\
  (forall op, In op [OpMul; OpAdd; OpSub; OpDiv] -> py_binop op (PDet d) (PFac f) = Raise NotImplementedError /\
     py_binop op (PDet d) (PDet d') = Raise TypeError /\ py_binop op (PDet d) (PNum n) = Raise TypeError /\
     py_binop op (PNum n) (PDet d) = Raise TypeError) /\
  (forall op, In op [OpXor; OpPow] -> py_binop op (PDet d) (PStr s) = Raise TypeError) /\
  py_restrict (PDet d) o = Raise NotImplementedError.
Proof. exact unavailable. Qed.
Print Assumptions C64_unavailable.

(** Maximising out a variable of a factor stored as a one-dimensional array. *)
Theorem C64_max_raises : forall f x vs, mf_vtype f = VNumpy1D -> spells x vs ->
  (exists v, In v vs /\ In v (mf_vars f)) -> py_binop OpXor (PFac f) x = Raise NotImplementedError.
Proof. exact max_numpy1d. Qed.
Print Assumptions C64_max_raises.

Theorem C64_combine_none_raises : py_combine_all [] = Raise TypeError.
Proof. exact eq_refl. Qed.
Print Assumptions C64_combine_none_raises.

(** The operands of an expression are evaluated from left to right, so the
    exception is that of the first part that fails. *)
Theorem C64_first_raises : forall op e1 e2 x,
  (py_eval e1 = Raise x -> py_eval (XOp op e1 e2) = Raise x) /\
  ((exists y, py_eval e1 = Ok y) -> py_eval e2 = Raise x -> py_eval (XOp op e1 e2) = Raise x) /\
  (forall o, py_eval e1 = Raise x -> py_eval (XRestrict e1 o) = Raise x).
Proof. exact first_raises. Qed.
Print Assumptions C64_first_raises.

(** Nothing can be sampled from interval and deterministic factors. *)
Theorem C64_sampling_raises : forall (i : ifactor) (d : dfactor) os,
  (forall n, (n < 1)%Z -> if_sample i n = Raise ValueError) /\ (forall n, (1 <= n)%Z -> if_sample i n = Raise NotImplementedError) /\
  if_sample_conditional i os = Raise NotImplementedError /\ forall n, df_sample d n = Raise NotImplementedError.
Proof. exact sampling_raises. Qed.
Print Assumptions C64_sampling_raises.

(** With a deterministic factor on the right, the operators compute with the
    states of its left variable as if they were values of a table over the
    other variables; the left variable is not among those of the result,
    unless it is one of [f]. *)
Theorem C64_function_operand : forall op nop f g v l z, In (op, nop) [(OpMul, nmul); (OpAdd, nadd); (OpSub, nsub)] ->
  wf_mf f -> wf_df g v l -> mf_vtype f = df_vtype g ->
  usable (drop [v] (df_domain g)) -> compatible (mf_domain f) (drop [v] (df_domain g)) ->
  (forall o, full (drop [v] (df_domain g)) o -> get_value (df_store g) o = Ok (SInt (z o))) ->
  exists h, py_binop op (PFac f) (PDet g) = Ok (PFac h) /\ wf_mf h /\ mf_vtype h = mf_vtype f /\
    mf_domain h = join (mf_domain f) (drop [v] (df_domain g)) /\
    (forall w, In w (mf_left h) <-> In w (mf_left f) \/ w = v /\ In v (mf_vars f)) /\
    forall o, full (mf_domain h) o -> exists x, mf_get_value f o = Ok x /\ mf_get_value h o = Ok (nop x (Fin (Q2Qc (inject_Z (z o))))).
Proof. exact function_arith. Qed.
Print Assumptions C64_function_operand.

Theorem C64_function_divisor : forall f g v l z, wf_mf f -> wf_df g v l -> mf_vtype f = df_vtype g ->
  usable (drop [v] (df_domain g)) -> compatible (mf_domain f) (drop [v] (df_domain g)) ->
  (forall o, full (drop [v] (df_domain g)) o -> get_value (df_store g) o = Ok (SInt (z o))) ->
  exists h, py_binop OpDiv (PFac f) (PDet g) = Ok (PFac h) /\ wf_mf h /\ mf_vtype h = mf_vtype f /\
    mf_domain h = join (mf_domain f) (drop [v] (df_domain g)) /\
    (forall w, In w (mf_left h) <-> In w (mf_left f) /\ ~ In w (df_vars g)) /\
    forall o, full (mf_domain h) o -> exists x, mf_get_value f o = Ok x /\ mf_get_value h o = Ok (div_op (mf_vtype f) x (Fin (Q2Qc (inject_Z (z o))))).
Proof. exact function_divide. Qed.
Print Assumptions C64_function_divisor.

Theorem C64_function_class_raises : forall op f g, In op [OpMul; OpAdd; OpSub; OpDiv] -> mf_vtype f <> df_vtype g ->
  py_binop op (PFac f) (PDet g) = Raise ValueError.
Proof. exact function_class_raises. Qed.
Print Assumptions C64_function_class_raises.

(** So the product with a function is not the product with its conditional
    table: P(X) times Y = 2 - 2 X is a table over X alone. *)
Theorem C64_function_product_refuted : forall vt : vtype, exists f g c h h', wf_mf f /\ wf_df g "Y"%string [SInt 0; SInt 1; SInt 2] /\ mf_vtype f = df_vtype g /\
  df_to_multinomial g = Ok c /\ py_binop OpMul (PFac f) (PDet g) = Ok (PFac h) /\ py_binop OpMul (PFac f) (PFac c) = Ok (PFac h') /\
  mf_vars h = ["X"%string] /\ mf_vars h' = ["X"; "Y"]%string /\ mf_get_value h [("X"%string, SInt 0)] = Ok (q (1#2)).
Proof. exact function_product_refuted. Qed.
Print Assumptions C64_function_product_refuted.

(** The values of an interval factor are asked for with `_bound` among the
    observed variables. *)
Theorem C64_interval_prob : forall (g : ifactor) d o lo hi, wf_store (if_store g) -> st_domain (if_store g) = (bound_var, [low; up]) :: d ->
  full d o -> interval g o lo hi -> if_prob g [(bound_var, low) :: o; (bound_var, up) :: o] = Ok [Fin lo; Fin hi].
Proof. exact interval_prob. Qed.
Print Assumptions C64_interval_prob.

Section C64_cases.
  Local Open Scope string_scope.
  Local Open Scope list_scope.
  (** P(A|B), a table over B and C, and a table over A. *)
  Let fAB vt := fac vt dAB [1#2; 1#3; 1#4; 1#2; 2#3; 3#4]%Q ["B"].
  Let fBC vt := fac vt dBC [1; 2; 3; 4; 5; 6]%Q ["C"].
  Let fA vt := fac vt dA [1; 2]%Q [].
  Let X vt := XVal (PFac (fAB vt)).
  Let Y vt := XVal (PFac (fBC vt)).
  Let Z vt := XVal (PFac (fA vt)).

  (** `((fAB * fBC - 1) / fA).R(B = 1) ** "C" + 3` *)
  Let e vt := XOp OpAdd (XOp OpPow (XRestrict (XOp OpDiv (XOp OpSub (XOp OpMul (X vt) (Y vt)) (XVal (PNum (q 1)))) (Z vt))
                                              [("B", SInt 1)]) (XVal (PStr "C"))) (XVal (PNum (q 3))).

  Example C64_case_expression : forall vt,
    (exists d L g, means vt (e vt) d L g) /\ seen (e vt) = Ok (dA, [], ["A"], map q [10#3; 13#3]%Q).
  Proof.
    intros vt.
    destruct (fac_holds vt dAB [1#2; 1#3; 1#4; 1#2; 2#3; 3#4]%Q ["B"] eq_refl) as (H1 & D1).
    destruct (fac_holds vt dBC [1; 2; 3; 4; 5; 6]%Q ["C"] eq_refl) as (H2 & D2).
    destruct (fac_holds vt dA [1; 2]%Q [] eq_refl) as (H3 & D3).
    assert (M1 := means_factor vt _ _ H1). assert (M2 := means_factor vt _ _ H2). assert (M3 := means_factor vt _ _ H3).
    rewrite D1 in M1. rewrite D2 in M2. rewrite D3 in M3.
    split; [|apply view_ok; destruct vt; vm_compute; reflexivity].
    do 3 eexists. unfold e. apply means_add_number. eapply means_sum; [|constructor|apply nodupb_sound; reflexivity|].
    - apply means_restrict.
      + eapply means_div; [apply means_sub_number; eapply means_mul; [exact M1|exact M2|apply compatibleb_sound; reflexivity]|exact M3|apply compatibleb_sound; reflexivity|].
        apply table_nonzero. vm_compute. reflexivity.
      + intros v l s [E|[E|[E|[]]]] G; injection E as <- <-; vm_compute in G; try discriminate.
        injection G as <-. right; left; reflexivity.
    - apply inclb_sound. vm_compute. reflexivity.
  Qed.

  (** Both spellings, the maximum, and a variable the factor does not have. *)
  Example C64_case_groups : forall vt,
    seen (XOp OpPow (X vt) (XVal (PSeq ["A"]))) = seen (XOp OpPow (X vt) (XVal (PStr "A"))) /\
    seen (XOp OpPow (X vt) (XVal (PStr "A"))) = Ok ([("B", [SInt 0; SInt 1; SInt 2])], [], ["B"], map q [1; 1; 1]%Q) /\
    seen (XOp OpPow (X vt) (XVal (PStr "C"))) = seen (X vt) /\
    (vt <> VNumpy1D -> seen (XOp OpXor (X vt) (XVal (PStr "B"))) = Ok (dA, ["A"], [], map q [1#2; 3#4]%Q)).
  Proof.
    intros vt. split; [|split; [|split]].
    - transitivity (Ok ([("B", [SInt 0; SInt 1; SInt 2])], @nil var, ["B"], map q [1; 1; 1]%Q)); [|symmetry];
        apply view_ok; destruct vt; vm_compute; reflexivity.
    - apply view_ok; destruct vt; vm_compute; reflexivity.
    - transitivity (Ok (dAB, ["A"], ["B"], map q [1#2; 1#3; 1#4; 1#2; 2#3; 3#4]%Q)); [|symmetry];
        apply view_ok; destruct vt; vm_compute; reflexivity.
    - intros N. apply view_ok; destruct vt; try congruence; vm_compute; reflexivity.
  Qed.

  (** The hypotheses of the laws, and the factors they speak of. *)
  Example C64_case_laws : forall vt,
    holds vt (fAB vt) (table dAB [1#2; 1#3; 1#4; 1#2; 2#3; 3#4]%Q) /\ holds vt (fBC vt) (table dBC [1; 2; 3; 4; 5; 6]%Q) /\
    holds vt (fA vt) (table dA [1; 2]%Q) /\
    compatible (mf_domain (fAB vt)) (mf_domain (fBC vt)) /\ spells (PStr "C") ["C"] /\ incl ["C"] (mf_vars (fBC vt)) /\
    ~ In "C" (mf_vars (fAB vt)) /\
    seen (XOp OpPow (XOp OpMul (X vt) (Y vt)) (XVal (PStr "C"))) = seen (XOp OpMul (X vt) (XOp OpPow (Y vt) (XVal (PStr "C")))) /\
    seen (XOp OpMul (XOp OpDiv (Y vt) (XOp OpPow (Y vt) (XVal (PStr "B")))) (XOp OpPow (Y vt) (XVal (PStr "B")))) =
      Ok (dBC, ["B"], ["C"], map q [1; 2; 3; 4; 5; 6]%Q) /\
    seen (XOp OpMul (XOp OpAdd (X vt) (Z vt)) (Y vt)) = seen (XOp OpAdd (XOp OpMul (X vt) (Y vt)) (XOp OpMul (Z vt) (Y vt))).
  Proof.
    intros vt.
    destruct (fac_holds vt dAB [1#2; 1#3; 1#4; 1#2; 2#3; 3#4]%Q ["B"] eq_refl) as (H1 & D1).
    destruct (fac_holds vt dBC [1; 2; 3; 4; 5; 6]%Q ["C"] eq_refl) as (H2 & D2).
    destruct (fac_holds vt dA [1; 2]%Q [] eq_refl) as (H3 & D3).
    split; [auto|]. split; [auto|]. split; [auto|]. unfold mf_vars, fAB, fBC. rewrite D1, D2.
    split; [apply compatibleb_sound; reflexivity|]. split; [constructor|]. split; [apply inclb_sound; reflexivity|].
    split; [intros [E|[E|[]]]; discriminate E|]. split; [|split].
    - transitivity (Ok ([("A", [SStr "a0"; SStr "a1"]); ("B", [SInt 0; SInt 1; SInt 2])], ["A"; "B"], @nil var,
                         map q [3#2; 7#3; 11#4; 3#2; 14#3; 33#4]%Q)); [|symmetry];
        apply view_ok; destruct vt; vm_compute; reflexivity.
    - apply view_ok; destruct vt; vm_compute; reflexivity.
    - transitivity (Ok (join dAB dBC, ["A"; "B"], ["C"],
                         map q [3#2; 3; 4; 16#3; 25#4; 15#2; 5#2; 5; 8; 32#3; 55#4; 33#2]%Q)); [|symmetry];
        apply view_ok; destruct vt; vm_compute; reflexivity.
  Qed.

  Example C64_case_combine : forall vt,
    (forall f h, In f [fAB vt; fBC vt; fA vt] -> In h [fAB vt; fBC vt; fA vt] -> compatible (mf_domain f) (mf_domain h)) /\
    view (let* x := py_combine_all (map PFac [fA vt; fAB vt]) in match x with PFac f => Ok f | _ => Raise Unmodelled end) =
      Ok (dAB, ["A"], ["B"], map q [1#2; 1#3; 1#4; 1; 4#3; 3#2]%Q).
  Proof.
    intros vt. split; [|apply view_ok; destruct vt; vm_compute; reflexivity].
    destruct (fac_holds vt dAB [1#2; 1#3; 1#4; 1#2; 2#3; 3#4]%Q ["B"] eq_refl) as (H1 & D1).
    destruct (fac_holds vt dBC [1; 2; 3; 4; 5; 6]%Q ["C"] eq_refl) as (H2 & D2).
    destruct (fac_holds vt dA [1; 2]%Q [] eq_refl) as (H3 & D3).
    intros f h [<-|[<-|[<-|[]]]] [<-|[<-|[<-|[]]]]; unfold fAB, fBC, fA; rewrite ?D1, ?D2, ?D3;
      apply compatibleb_sound; reflexivity.
  Qed.

  (** `2 * fA`, `fA ** 2`, `fA * np.float64(2)`, two store classes, and an
      interval factor. *)
  Let iA vt := match if_init dA (flist (map q [0; 1#2]%Q)) (flist (map q [1; 1]%Q)) None None vt with
               | Ok i => i | Raise _ => MkI (StList [] []) [] end.
  (** `2 * f + (f ** 2)` fails with `2 * f`, `(f ** 2) + 2 * f` with `f ** 2`. *)
  Example C64_case_prob : forall vt,
    (let* g := if_init dA (flist (map q [0; 1#2]%Q)) (flist (map q [1#3; 1]%Q)) None None vt in
    let* p := if_prob g (map (fun b => [(bound_var, b); ("A", SStr "a1")]) [up; low]) in
    Ok (st_domain (if_store g), map (fun xy => num_eqb (fst xy) (q (snd xy))) (combine p [1; 1#2]%Q))) = Ok ((bound_var, [low; up]) :: dA, [true; true]).
  Proof. destruct vt; vm_compute; reflexivity. Qed.
  (** P(X) = 1/4, 3/4 with Y = 2 - 2 X on the right of the operators. *)
  Example C64_case_function : forall vt,
    wf_mf (f_X vt) /\ wf_df (g_Y vt) "Y" [SInt 0; SInt 1; SInt 2] /\ mf_vtype (f_X vt) = df_vtype (g_Y vt) /\
    usable (drop ["Y"] (df_domain (g_Y vt))) /\ compatible (mf_domain (f_X vt)) (drop ["Y"] (df_domain (g_Y vt))) /\
    (forall o, full (drop ["Y"] (df_domain (g_Y vt))) o -> get_value (df_store (g_Y vt)) o = Ok (SInt (match dget "X" o with Some (SInt 0) => 2 | _ => 0 end))) /\
    map (fun op => let* x := py_binop op (PFac (f_X vt)) (PDet (g_Y vt)) in
      match x with PFac h => Ok (mf_left h, map (okb (mf_get_value h [("X", SInt 0)])) [q (1#2); q (9#4); q (-7#4); q (1#8)]) | _ => Raise Unmodelled end)
      [OpMul; OpAdd; OpSub; OpDiv] =
    [Ok (["X"], [true; false; false; false]); Ok (["X"], [false; true; false; false]);
     Ok (["X"], [false; false; true; false]); Ok ([], [false; false; false; true])].
  Proof.
    intros vt. destruct (g_Y_ok vt) as (W & D & T). destruct (fac_wf vt dX [1#4; 3#4]%Q []) as (Wf & Df & Tf); [vm_compute; reflexivity|].
    split; [exact Wf|]. split; [exact W|]. split; [rewrite T; exact Tf|]. rewrite D. split; [apply usableb_sound; vm_compute; reflexivity|].
    split; [unfold f_X; rewrite Df; apply compatibleb_sound; vm_compute; reflexivity|].
    split; [|destruct vt; vm_compute; reflexivity].
    intros o F. destruct (F "X" [SInt 0; SInt 1] (or_introl eq_refl)) as (x & E & J).
    assert (A : get_value (df_store (g_Y vt)) o = get_value (df_store (g_Y vt)) [("X", x)]).
    { symmetry. apply FactorFacts.get_value_agree; [apply W| |].
      - destruct W as (_ & _ & _ & _ & _ & _ & ->). rewrite D. exact F.
      - destruct W as (_ & _ & _ & _ & _ & _ & ->). rewrite D. intros v [<- | []]. exact (eq_sym E). }
    assert (E2 : dget "X" o = Some x) by exact E. rewrite A, E2. destruct J as [<- | [<- | []]]; destruct vt; vm_compute; reflexivity.
  Qed.
  Example C64_case_first : forall vt,
    let left := XOp OpMul (XVal (PNum (q 2))) (Z vt) in let right := XOp OpPow (Z vt) (XVal (PNum (q 2))) in
    py_eval left = Raise AttributeError /\ py_eval right = Raise TypeError /\
    py_eval (XOp OpAdd left right) = Raise AttributeError /\ py_eval (XOp OpAdd right left) = Raise TypeError /\
    py_eval (XOp OpAdd (Z vt) right) = Raise TypeError /\ if_sample (iA vt) 0 = Raise ValueError.
  Proof. intros vt. destruct vt; vm_compute; repeat split; reflexivity. Qed.

  Example C64_case_raises :
    py_binop OpMul (PNum (q 2)) (PFac (fA VList)) = Raise AttributeError /\
    py_binop OpPow (PFac (fA VList)) (PNum (q 2)) = Raise TypeError /\
    py_binop OpMul (PFac (fA VList)) (POther (q 2)) = Raise AttributeError /\
    py_binop OpMul (PFac (fA VList)) (PFac (fA VNumpy)) = Raise ValueError /\
    (keys (st_domain (if_store (iA VNumpy))) = ["_bound"; "A"] /\ if_vtype (iA VNumpy) = mf_vtype (fA VNumpy) /\
     wf_store (if_store (iA VNumpy)) /\ compatible (mf_domain (fA VNumpy)) (st_domain (if_store (iA VNumpy))) /\
     py_binop OpMul (PFac (fA VNumpy)) (PIvl (iA VNumpy)) = Raise ValueError) /\
    py_binop OpXor (PFac (fA VNumpy1D)) (PStr "A") = Raise NotImplementedError.
  Proof.
    split; [reflexivity|]. split; [reflexivity|]. split; [reflexivity|]. split; [reflexivity|]. split; [|reflexivity].
    split; [reflexivity|]. split; [reflexivity|]. split; [|split; [apply compatibleb_sound; reflexivity|reflexivity]].
    assert (W : wf_dom [("_bound", [SStr "low"; SStr "up"]); ("A", [SStr "a0"; SStr "a1"])]) by (apply wf_domb_sound; reflexivity).
    split; [exact W|]. split; reflexivity.
  Qed.
End C64_cases.
