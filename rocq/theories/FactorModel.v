(** Model of bcause/factors/factor.py, mulitnomial.py and deterministic.py:
    factors as stores with left and right variables. *)

From Coq Require Import String Ascii Bool Arith ZArith QArith Qcanon List.
From Verif Require Import PyBase Num DomainModel NdArray StoreModel NumStore.
Import ListNotations.
Local Open Scope nat_scope.

(** `v.startswith("_")` (bcause/factors/factor.py:80, imprecise.py:77-97) *)
Definition underscored (v : var) : bool :=
  match v with String c _ => Ascii.eqb c "_"%char | EmptyString => false end.

(** bcause/factors/factor.py:73-81 [_check_domain]: every state list has
    exactly one python type (so it is not empty) and no name starts with "_".
    That the argument is a dict of strings to lists is given by typing. *)
Definition check_domain (d : domain) : res unit :=
  if negb (forallb (fun l => length (nodup eqd (map type_of l)) =? 1) (vals d)) then Raise ValueError
  else if existsb underscored (keys d) then Raise ValueError
  else Ok tt.

(** bcause/factors/factor.py:145-155 [set_variables]: the right variables
    (None = argument not given).  `v not in left_vars` is list membership: the
    sides are modelled as lists (a python string would be searched by
    substring). *)
Definition set_variables (vars : list var) (l r : option (list var)) : res (list var) :=
  match l, r with
  | None, None => Ok []
  | Some l, None => Ok (filter (fun v => negb (mem v l)) vars)
  | Some l, Some r =>
      (* set(right).union(left) == set(variables) and set(right).isdisjoint(left) *)
      if forallb (fun v => mem v vars) (r ++ l) && forallb (fun v => mem v (r ++ l)) vars
         && forallb (fun v => negb (mem v l)) r
      then Ok r else Raise ValueError
  | None, Some r => Ok r
  end.

(** The `values` argument of a factor constructor: a scalar, an array-like or
    a nested dictionary. (mulitnomial.py:26-32) *)
Inductive fvals (V : Type) : Type :=
| FScalar (x : V)
| FArr (a : nd V)
| FTree (t : tree V).
Arguments FScalar {V} x.
Arguments FArr {V} a.
Arguments FTree {V} t.

(** A one-dimensional python list. (mulitnomial.py:28-30) *)
Definition flist {V} (l : list V) : fvals V := FArr (mkNd [length l] l).

(** bcause/factors/mulitnomial.py:26-30 (and imprecise.py:27-33): scalars are
    repeated, one-dimensional values are reshaped to the shape of the domain.
    A 0-d array counts as a scalar (np.ndim = 0). *)
Definition process_values {V} (dom : domain) (v : fvals V) : res (darg V) :=
  let shp := card dom in
  match v with
  | FScalar x => Ok (DArr (mkNd shp (repeat x (prodl shp))))
  | FTree t => Ok (DTree t)
  | FArr a =>
      match shape a, flat a with
      | [], [x] => Ok (DArr (mkNd shp (repeat x (prodl shp))))
      | [], _ => Raise Unmodelled
      | [_], _ => let* b := np_reshape a shp in Ok (DArr b)
      | _, _ => Ok (DArr a)
      end
  end.

(** A MultinomialFactor object (bcause/factors/mulitnomial.py:21-41): its store
    and `_right_vars`.  `_variables` are the keys of the store's domain, and
    `vtype` is the class of the store. *)
Record mfactor := MkM { mf_store : store num; mf_right : list var }.

(** factor.py:83-85 *)
Definition mf_domain (f : mfactor) : domain := st_domain (mf_store f).
(** factor.py:19-21, mulitnomial.py:33 *)
Definition mf_vars (f : mfactor) : list var := keys (mf_domain f).
(** factor.py:133-135 [left_vars] *)
Definition mf_left (f : mfactor) : list var := filter (fun v => negb (mem v (mf_right f))) (mf_vars f).
(** mulitnomial.py:34 *)
Definition mf_vtype (f : mfactor) : vtype := st_type (mf_store f).
(** factor.py:141-143 *)
Definition mf_left_domain (f : mfactor) : domain := dfilter (fun v => mem v (mf_left f)) (mf_domain f).

(** mulitnomial.py:22-34 [MultinomialFactor.__init__] *)
Definition mf_init (dom : domain) (v : fvals num) (l r : option (list var)) (vt : vtype) : res mfactor :=
  let* _ := check_domain dom in
  let* data := process_values dom v in
  let* s := st_init vt dom data in
  let* rv := set_variables (keys dom) l r in
  Ok (MkM s rv).

(** mulitnomial.py:36-41 [builder]: same vtype, and the left variables of the
    factor when neither side is given. *)
Definition mf_builder (f : mfactor) (dom : domain) (v : fvals num) (l r : option (list var)) : res mfactor :=
  match l, r with
  | None, None => mf_init dom v (Some (mf_left f)) None (mf_vtype f)
  | _, _ => mf_init dom v l r (mf_vtype f)
  end.

(** `store.data` (store.py:44-46) as an argument of a constructor *)
Definition st_data {V} (s : store V) : fvals V :=
  match s with
  | StNumpy _ a => FArr a
  | StNp1 _ l | StList _ l => flist l
  | StTree _ (Leaf x) => FScalar x
  | StTree _ t => FTree t
  end.

(** factor.py:87-88 [get_value] *)
Definition mf_get_value (f : mfactor) (o : obs) : res num := get_value (mf_store f) o.
(** factor.py:90-96 [values], [values_list] *)
Definition mf_values (f : mfactor) : res (list num) := values_list (mf_store f).

(** factor.py:102-108 [values_array]; an empty `var_order` is falsy and
    replaced by the domain order. *)
Definition values_array {V} (dom : domain) (s : store V) (order : list var) : res (nd V) :=
  let order := match order with [] => keys dom | _ => order end in
  let* l := mapM (fun v => let* x := dlook v dom in Ok (v, x)) order in
  let dom_order := dict_of l in
  let* shp := mapM (fun v => let* x := dlook v dom_order in Ok (length x)) order in
  let* vs := mapM (get_value s) (assignment_space dom_order) in
  np_reshape (mkNd [length vs] vs) shp.
(** factor.py:102-108 [mf_values_array] *)
Definition mf_values_array (f : mfactor) (order : list var) : res (nd num) :=
  values_array (mf_domain f) (mf_store f) order.

(** factor.py:110-111 [is_degenerate] *)
Definition mf_is_degenerate (f : mfactor) : res bool :=
  let* l := mf_values f in
  Ok (forallb (fun x => match x with
                        | Fin q => qzero q || qzero (q - 1)%Qc
                        | _ => false
                        end) l).

(** `v if v not in names_mapping else names_mapping[v]` (factor.py:117-122) *)
Definition rename1 (m : dict var var) (v : var) : var :=
  match dget v m with Some w => w | None => v end.
(** factor.py:116-117: OrderedDict of renamed pairs (a repeated key keeps its
    first position and its last value) *)
Definition rename_domain (m : dict var var) (d : domain) : domain :=
  dict_of (map (fun vd => (rename1 m (fst vd), snd vd)) d).
(** factor.py:113-124 [rename_vars] *)
Definition mf_rename (f : mfactor) (m : dict var var) : res mfactor :=
  let* l := mf_values f in
  mf_builder f (rename_domain m (mf_domain f)) (flist l)
             (Some (map (rename1 m) (mf_left f))) (Some (map (rename1 m) (mf_right f))).

(** mulitnomial.py:52-66 [constant] *)
Definition mf_constant (f : mfactor) (x : state) : res mfactor :=
  let new_dom := mf_left_domain f in
  let* v0 := py_nth (mf_left f) 0 in
  let* states := dlook v0 new_dom in
  if negb (length new_dom =? 1) then Raise ValueError
  else if negb (mem x states) then Raise ValueError
  else
    let zeros := repeat n0 (length states) in
    let i := match index_of x states with Some i => i | None => 0 end in
    let* data := list_set zeros i n1 in
    mf_builder f new_dom (flist data) None None.

(** mulitnomial.py:70-74 [restrict] *)
Definition mf_restrict (f : mfactor) (o : obs) : res mfactor :=
  if negb (existsb (fun v => mem v (mf_vars f)) (keys o)) then Ok f else
  let* s := st_restrict (mf_store f) o in
  mf_builder f (st_domain s) (st_data s) None
             (Some (filter (fun v => mem v (mf_right f)) (st_variables s))).

(** An operand of an arithmetic operation: a factor or a python int/float. (mulitnomial.py:78-81) *)
Inductive operand := OFac (f : mfactor) | ONum (x : num).

(** mulitnomial.py:78-81 [_prepare_operand] *)
Definition prepare_operand (f : mfactor) (g : operand) : res mfactor :=
  match g with
  | OFac g => Ok g
  | ONum x => mf_builder f [] (flist [x]) None None
  end.

(** mulitnomial.py:83-104 [multiply], [addition], [subtract] *)
Definition mf_arith (op : store num -> store num -> res (store num)) (f : mfactor) (g : operand)
  : res mfactor :=
  let* g := prepare_operand f g in
  let* s := op (mf_store f) (mf_store g) in
  mf_builder f (st_domain s) (st_data s) None
             (Some (filter (fun v => negb (mem v (mf_left f)) && negb (mem v (mf_left g)))
                           (st_variables s))).
(** mulitnomial.py:83-89 [mf_multiply] *)
Definition mf_multiply := mf_arith st_multiply.
(** mulitnomial.py:91-97 [mf_addition] *)
Definition mf_addition := mf_arith st_addition.
(** mulitnomial.py:99-104 [mf_subtract] *)
Definition mf_subtract := mf_arith st_subtract.

(** mulitnomial.py:106-117 [divide] *)
Definition mf_divide (f : mfactor) (g : operand) : res mfactor :=
  let* g := prepare_operand f g in
  let* s := st_divide (mf_store f) (mf_store g) in
  mf_builder f (st_domain s) (st_data s) None
             (Some (filter (fun v => mem v (mf_right f) || mem v (mf_vars g)) (st_variables s))).

(** mulitnomial.py:119-123 [marginalize] *)
Definition mf_marginalize (f : mfactor) (vs : list var) : res mfactor :=
  if negb (existsb (fun v => mem v (mf_vars f)) vs) then Ok f else
  let* s := st_marginalize (mf_store f) vs in
  mf_builder f (st_domain s) (st_data s) None
             (Some (filter (fun v => mem v (mf_right f)) (st_variables s))).

(** mulitnomial.py:126-130 [maxmarginalize] *)
Definition mf_maxmarginalize (f : mfactor) (vs : list var) : res mfactor :=
  if negb (existsb (fun v => mem v (mf_vars f)) vs) then Ok f else
  let* s := st_maxmarginalize (mf_store f) vs in
  mf_builder f (st_domain s) (st_data s) None
             (Some (filter (fun v => mem v (mf_right f)) (st_variables s))).

(** mulitnomial.py:134-135 [prob] *)
Definition mf_prob (f : mfactor) (os : list obs) : res (list num) := mapM (mf_get_value f) os.

(** ** Deterministic factors *)

(** A DeterministicFactor object (bcause/factors/deterministic.py:22-41):
    `_domain`, `_right_vars` and the store of function values (a table of
    states over the right variables). *)
Record dfactor := MkD { df_domain : domain; df_right : list var; df_store : store state }.

(** factor.py:133-143 *)
Definition df_vars (f : dfactor) : list var := keys (df_domain f).
(** factor.py:133-135 [df_left] *)
Definition df_left (f : dfactor) : list var := filter (fun v => negb (mem v (df_right f))) (df_vars f).
(** deterministic.py:34 [df_vtype] *)
Definition df_vtype (f : dfactor) : vtype := st_type (df_store f).
(** factor.py:141-143 [df_left_domain] *)
Definition df_left_domain (f : dfactor) : domain := dfilter (fun v => mem v (df_left f)) (df_domain f).

(** deterministic.py:22-34 [DeterministicFactor.__init__]; the values are an
    array-like (one-dimensional values are reshaped, line 31). *)
Definition df_init (dom : domain) (v : nd state) (l r : option (list var)) (vt : vtype) : res dfactor :=
  let* rv := set_variables (keys dom) l r in
  let lv := filter (fun v => negb (mem v rv)) (keys dom) in
  if negb (length lv =? 1) then Raise ValueError else
  let rdom := dfilter (fun v => mem v rv) dom in
  let* v := match shape v with
            | [_] => np_reshape v (card rdom)
            | _ => Ok v
            end in
  let* s := st_init vt rdom (DArr v) in
  Ok (MkD dom rv s).

(** deterministic.py:36-41 [builder] *)
Definition df_builder (f : dfactor) (dom : domain) (v : nd state) (l r : option (list var)) : res dfactor :=
  match l, r with
  | None, None => df_init dom v (Some (df_left f)) None (df_vtype f)
  | _, _ => df_init dom v l r (df_vtype f)
  end.

(** deterministic.py:61-63 [eval] *)
Definition df_eval (f : dfactor) (o : obs) : res bool :=
  let* ro := mapM (fun v => let* x := dlook v o in Ok (v, x)) (df_right f) in
  let* y := get_value (df_store f) (dict_of ro) in
  let* v0 := py_nth (df_left f) 0 in
  let* z := dlook v0 o in
  Ok (if eqd y z then true else false).

(** deterministic.py:65-69 [to_multinomial] *)
Definition df_to_multinomial (f : dfactor) : res mfactor :=
  let* l := mapM (fun o => let* b := df_eval f o in Ok (if b then n1 else n0))
                 (assignment_space (df_domain f)) in
  mf_init (df_domain f) (flist l) None (Some (df_right f)) (df_vtype f).

(** deterministic.py:71-72 [values_array] (with factor.py:102-108; the factor's
    own domain is used for the shape) *)
Definition df_values_array (f : dfactor) (order : list var) : res (nd state) :=
  let order := match order with [] => df_right f | _ => order end in
  values_array (df_domain f) (df_store f) order.

(** deterministic.py:74-80 [constant] *)
Definition df_constant (f : dfactor) (x : state) : res dfactor :=
  let new_dom := df_left_domain f in
  if negb (length new_dom =? 1) then Raise ValueError else
  let* v0 := py_nth (df_left f) 0 in
  let* states := dlook v0 new_dom in
  if negb (mem x states) then Raise ValueError
  else df_builder f new_dom (mkNd [1] [x]) None None.

(** factor.py:113-124 [rename_vars] for deterministic factors (the values are
    the function table) *)
Definition df_rename (f : dfactor) (m : dict var var) : res dfactor :=
  let* l := values_list (df_store f) in
  df_builder f (rename_domain m (df_domain f)) (mkNd [length l] l)
             (Some (map (rename1 m) (df_left f))) (Some (map (rename1 m) (df_right f))).

(** np.argmax of a 1-d sequence: the first position of the maximum; the first
    NaN wins (mulitnomial.py:48) *)
Fixpoint argmax_from (l : list num) (i : nat) (best : num) (pos : nat) : nat :=
  match l with
  | [] => pos
  | x :: r =>
      match best, x with
      | NaN, _ => argmax_from r (S i) best pos
      | _, NaN => argmax_from r (S i) x i
      | _, _ => if nltb best x then argmax_from r (S i) x i else argmax_from r (S i) best pos
      end
  end.
(** mulitnomial.py:48 [np_argmax] *)
Definition np_argmax (l : list num) : res state :=
  match l with
  | [] => Raise ValueError
  | x :: r => Ok (SInt (Z.of_nat (argmax_from r 1 x 0)))
  end.

(** mulitnomial.py:43-50 [to_deterministic]: the new factor holds the *indices*
    of the most probable states and uses the default store type [dflt]. *)
Definition mf_to_deterministic (dflt : vtype) (f : mfactor) : res dfactor :=
  if negb (length (mf_left f) =? 1) then Raise ValueError else
  let* v := py_nth (mf_left f) 0 in
  let* a := mf_values_array f [] in
  let* i := get_var_index (mf_domain f) v in
  let* b := np_reduce np_argmax a [i] in
  df_init (mf_domain f) b (Some [v]) None dflt.
