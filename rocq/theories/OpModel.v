(** Model of the python operators on factors
    (bcause/factors/mulitnomial.py:168-206, imprecise.py:102-183,
    deterministic.py:82-114, factor.py:40-69) and of expressions written with
    them. *)

From Coq Require Import String Ascii Bool Arith ZArith QArith Qcanon List.
From Verif Require Import PyBase Num DomainModel NdArray StoreModel NumStore FactorModel GenModel.
Import ListNotations.
Local Open Scope nat_scope.

(** The objects that meet at an operator: a MultinomialFactor
    (mulitnomial.py:21), a DeterministicFactor (deterministic.py:20), an
    IntervalProbFactor (imprecise.py:22), a python int or float
    (mulitnomial.py:80: `type(f) in [int,float]`), a number of any other class
    such as np.float64 or bool, a string, and a list or tuple of names. *)
Inductive pyval :=
| PFac (f : mfactor)
| PDet (f : dfactor)
| PIvl (f : ifactor)
| PNum (x : num)
| POther (x : num)
| PStr (s : var)
| PSeq (l : list var).

(** `*`, `+`, `-`, `/`, `^` and `**` (mulitnomial.py:168-206) *)
Inductive pyop := OpMul | OpAdd | OpSub | OpDiv | OpXor | OpPow.

(** mulitnomial.py:83-117 with an IntervalProbFactor as the other operand: its
    store has the extra variable `_bound` (imprecise.py:35), its `left_vars`
    and `variables` hide it (imprecise.py:74-84).  `divide` chooses the right
    variables by line 111-112, the others by lines 87-88, 95-96 and 102-103. *)
Definition with_interval (op : store num -> store num -> res (store num)) (division : bool)
  (f : mfactor) (g : ifactor) : res mfactor :=
  let* s := op (mf_store f) (if_store g) in
  mf_builder f (st_domain s) (st_data s) None
    (Some (filter (fun v => if division then mem v (mf_right f) || mem v (if_vars g)
                            else negb (mem v (mf_left f)) && negb (mem v (if_left g)))
                  (st_variables s))).

(** A state as an operand of arithmetic: python's and numpy's int and bool are
    numbers.  Strings (which raise, or are repeated by an int) are not
    modelled. (mulitnomial.py:83-117) *)
Definition state_num (s : state) : res num :=
  match s with
  | SInt z => Ok (Fin (Q2Qc (inject_Z z)))
  | SBool b => Ok (if b then n1 else n0)
  | SStr _ => Raise Unmodelled
  end.
(** mulitnomial.py:83-117, the leaves as numbers [tree_nums] *)
Fixpoint tree_nums (t : tree state) : res (tree num) :=
  match t with
  | Leaf s => let* x := state_num s in Ok (Leaf x)
  | Node v ch =>
      let* ch' := (fix go l := match l with
                               | [] => Ok []
                               | (s, c) :: r => let* c' := tree_nums c in let* r' := go r in Ok ((s, c') :: r')
                               end) ch in
      Ok (Node v ch')
  end.
(** mulitnomial.py:83-117, the values of a store as numbers [store_nums] *)
Definition store_nums (s : store state) : res (store num) :=
  match s with
  | StNumpy d a => let* l := mapM state_num (flat a) in Ok (StNumpy d (mkNd (shape a) l))
  | StNp1 d l => let* l' := mapM state_num l in Ok (StNp1 d l')
  | StList d l => let* l' := mapM state_num l in Ok (StList d l')
  | StTree d t => let* t' := tree_nums t in Ok (StTree d t')
  end.

(** mulitnomial.py:83-117 with a DeterministicFactor as the other operand: its
    store has the states of the left variable as data, over the right
    variables (deterministic.py:34); `left_vars` and `variables` include the
    left variable (factor.py:131-134, deterministic.py:28).  Stores of different
    classes are rejected first (see [st_combine]). *)
Definition with_function (op : store num -> store num -> res (store num)) (division : bool)
  (f : mfactor) (g : dfactor) : res mfactor :=
  if eqd (mf_vtype f) (st_type (df_store g)) then
    let* t := store_nums (df_store g) in
    let* s := op (mf_store f) t in
    mf_builder f (st_domain s) (st_data s) None
      (Some (filter (fun v => if division then mem v (mf_right f) || mem v (df_vars g)
                              else negb (mem v (mf_left f)) && negb (mem v (df_left g)))
                    (st_variables s)))
  else Raise ValueError.

(** The store operation and the method behind an arithmetic operator
    (mulitnomial.py:83-117). *)
Definition store_op (op : pyop) : store num -> store num -> res (store num) :=
  match op with
  | OpMul => st_multiply | OpAdd => st_addition | OpSub => st_subtract | OpDiv => st_divide
  | OpXor | OpPow => fun _ _ => Raise Unmodelled
  end.
(** mulitnomial.py:83-117 [factor_method] *)
Definition factor_method (op : pyop) (f : mfactor) (g : operand) : res mfactor :=
  match op with
  | OpMul => mf_multiply f g | OpAdd => mf_addition f g | OpSub => mf_subtract f g | OpDiv => mf_divide f g
  | OpXor | OpPow => Raise Unmodelled
  end.

(** mulitnomial.py:168-191: `f * x`, `f + x`, `f - x`, `f / x` call the method
    with the same meaning.  Strings, lists and numbers of other classes are
    left alone by [_prepare_operand] and have no attribute `store`. *)
Definition fac_arith (op : pyop) (f : mfactor) (x : pyval) : res mfactor :=
  match x with
  | PFac g => factor_method op f (OFac g)
  | PNum y => factor_method op f (ONum y)
  | PIvl g => with_interval (store_op op) (match op with OpDiv => true | _ => false end) f g
  | PDet g => with_function (store_op op) (match op with OpDiv => true | _ => false end) f g
  | POther _ | PStr _ | PSeq _ => Raise AttributeError
  end.

(** mulitnomial.py:194-202 [__xor__], [__pow__] (the same code in
    imprecise.py:171-179): one name or an iterable of names; `*vars_remove`
    raises TypeError for an object that cannot be iterated. *)
Definition names_of (x : pyval) : res (list var) :=
  match x with PStr s => Ok [s] | PSeq l => Ok l | _ => Raise TypeError end.

(** A binary operator: python calls the method of the left operand's class;
    when the class has none it calls the reflected method of the right
    operand's class (mulitnomial.py:171-191: `other.multiply(self)` and so on,
    imprecise.py:147-168 likewise), and raises TypeError when there is none
    either.  DeterministicFactor defines no operator; its methods and those of
    IntervalProbFactor raise NotImplementedError (deterministic.py:99-114,
    imprecise.py:104-131).  Numbers, strings and lists have no attribute
    `multiply`, `addition`, `subtract`, `divide`.  There is no [__rxor__] or
    [__rpow__].  Operators between builtin objects are outside the model. *)
Definition is_arith (op : pyop) : bool := match op with OpXor | OpPow => false | _ => true end.
(** mulitnomial.py:168-190 [py_binop] *)
Definition py_binop (op : pyop) (x y : pyval) : res pyval :=
  match x with
  | PFac f =>
      match op with
      | OpXor => let* vs := names_of y in let* h := mf_maxmarginalize f vs in Ok (PFac h)
      | OpPow => let* vs := names_of y in let* h := mf_marginalize f vs in Ok (PFac h)
      | _ => let* h := fac_arith op f y in Ok (PFac h)
      end
  | PIvl f =>
      if is_arith op then Raise NotImplementedError
      else let* _ := names_of y in Raise NotImplementedError
  | PDet f =>
      if is_arith op then
        match y with
        | PFac _ | PIvl _ => Raise NotImplementedError
        | POther _ => Raise Unmodelled
        | _ => Raise TypeError
        end
      else match y with POther _ => Raise Unmodelled | _ => Raise TypeError end
  | PNum _ | PStr _ | PSeq _ =>
      match y with
      | PFac _ | PIvl _ => if is_arith op then Raise AttributeError else Raise TypeError
      | PDet _ => Raise TypeError
      | _ => Raise Unmodelled
      end
  | POther _ => Raise Unmodelled
  end.

(** factor.py:40-41 [R] with mulitnomial.py:70-74, imprecise.py:92-99,
    deterministic.py:88-89 [restrict] *)
Definition py_restrict (x : pyval) (o : obs) : res pyval :=
  match x with
  | PFac f => let* h := mf_restrict f o in Ok (PFac h)
  | PIvl f => let* h := if_restrict f o in Ok (PIvl h)
  | PDet f => Raise NotImplementedError
  | _ => Raise AttributeError
  end.

(** A python expression built from objects with the operators and `.R(...)`;
    operands are evaluated from left to right. (mulitnomial.py:168-201, factor.py:40-41) *)
Inductive pyexp :=
| XVal (x : pyval)
| XOp (op : pyop) (e1 e2 : pyexp)
| XRestrict (e : pyexp) (o : obs).

(** mulitnomial.py:168-202, factor.py:40-41: the value of an expression *)
Fixpoint py_eval (e : pyexp) : res pyval :=
  match e with
  | XVal x => Ok x
  | XOp op e1 e2 => let* x := py_eval e1 in let* y := py_eval e2 in py_binop op x y
  | XRestrict e o => let* x := py_eval e in py_restrict x o
  end.

(** factor.py:67-69 [combine_all]: `reduce(lambda f1, f2: f1 * f2, factors)`
    (TypeError for no factors) *)
Fixpoint combine_from (x : pyval) (l : list pyval) : res pyval :=
  match l with
  | [] => Ok x
  | y :: r => let* z := py_binop OpMul x y in combine_from z r
  end.
(** factor.py:67-69 [py_combine_all] *)
Definition py_combine_all (l : list pyval) : res pyval :=
  match l with [] => Raise TypeError | x :: r => combine_from x r end.

(** imprecise.py:132-133 [IntervalProbFactor.prob] and factor.py:87-88
    [get_value]: the observation must name `_bound` too *)
Definition if_prob (f : ifactor) (os : list obs) : res (list num) := mapM (get_value (if_store f)) os.

(** imprecise.py:140-150 [sample], [sample_conditional], [_sample] and
    deterministic.py:82-86: nothing can be sampled *)
Definition if_sample (f : ifactor) (size : Z) : res (list obs) :=
  if (size <? 1)%Z then Raise ValueError else Raise NotImplementedError.
(** imprecise.py:140-150 [if_sample_conditional] *)
Definition if_sample_conditional (f : ifactor) (os : list obs) : res (list obs) := Raise NotImplementedError.
(** deterministic.py:82-86 [df_sample] *)
Definition df_sample (f : dfactor) (size : Z) : res (list obs) := Raise NotImplementedError.
