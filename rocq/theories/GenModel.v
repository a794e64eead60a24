(** Model of the functions that generate conditional tables
    (bcause/factors/mulitnomial.py:217-245, bcause/util/arrayutils.py:7-13,
    22-26, bcause/util/domainutils.py:73-84), of canonical_deterministic
    (bcause/factors/deterministic.py:132-147) and of IntervalProbFactor
    (bcause/factors/imprecise.py).  Random draws are arguments. *)

From Coq Require Import String Ascii Bool Arith ZArith QArith Qcanon List.
From Verif Require Import PyBase Num DomainModel NdArray StoreModel NumStore FactorModel.
Import ListNotations.
Local Open Scope nat_scope.

(** ** normalize_array *)

(** `l` with position [i] replaced. (arrayutils.py:10-11) *)
Fixpoint put {A} (l : list A) (i : nat) (x : A) : list A :=
  match l, i with
  | [], _ => []
  | _ :: r, 0 => x :: r
  | y :: r, S i' => y :: put r i' x
  end.

(** `a.sum(axis=i, keepdims=1)` (arrayutils.py:11); an axis out of range raises
    AxisError, a ValueError. *)
Definition np_sum_keep (a : nd num) (i : nat) : res (nd num) :=
  if length (shape a) <=? i then Raise ValueError else
  nd_build (put (shape a) i 1) (fun idx =>
    let* l := mapM (fun k => nd_get a (put idx i k)) (seq 0 (nth i (shape a) 0)) in Ok (nsum l)).

(** arrayutils.py:7-13 [normalize_array]; `/` on arrays follows IEEE. *)
Definition normalize_array (a : nd num) (axes : list nat) : res (nd num) :=
  let* sums := foldM np_sum_keep axes a in
  np_binop ndiv a sums.

(** ** random_multinomial, uniform_multinomial *)

(** mulitnomial.py:220, 232: `[i for i,v in enumerate(domain.keys()) if v not in right_vars]` *)
Definition left_dims (dom : domain) (right_vars : list var) : list nat :=
  flat_map (fun iv => if mem (snd iv) right_vars then [] else [fst iv])
           (combine (seq 0 (length (keys dom))) (keys dom)).

(** mulitnomial.py:217-226 [random_multinomial]; [draw] is the array returned
    by np.random.uniform (row-major), in [0,1) or, without zeros, in [-1,0). *)
Definition random_multinomial (dom : domain) (right_vars : list var) (vt : vtype)
           (allow_zero : bool) (draw : list num) : res mfactor :=
  let raw := if allow_zero then draw else map (nmul (Fin (- (1))%Qc)) draw in
  let* data := normalize_array (mkNd (card dom) raw) (left_dims dom right_vars) in
  mf_init dom (FArr data) None (Some right_vars) vt.

(** mulitnomial.py:229-234 [uniform_multinomial] *)
Definition uniform_multinomial (dom : domain) (right_vars : list var) (vt : vtype) : res mfactor :=
  let ones := mkNd (card dom) (repeat n1 (prodl (card dom))) in
  let* data := normalize_array ones (left_dims dom right_vars) in
  mf_init dom (FArr data) None (Some right_vars) vt.

(** ** random_deterministic *)

(** domainutils.py:73-84 [random_assignment] with `iterate_vars` given.
    [choose k v] is the outcome of the np.random.choice for variable [v] at the
    [k]-th assignment of the iterated variables. *)
Definition random_assignment {A} (dom : dict var (list A)) (iter : list var) (choose : nat -> var -> A)
  : res (list (dict var A)) :=
  let* it := mapM (fun v => let* d := dlook v dom in Ok (v, d)) iter in
  let iterate_dom := dict_of it in
  let select := filter (fun v => negb (mem v iter)) (keys dom) in
  mapM (fun ks => let d := dmerge (map (fun v => (v, choose (fst ks) v)) select) (snd ks) in
                  mapM (fun v => let* x := dlook v d in Ok (v, x)) (keys dom))
       (combine (seq 0 (length (assignment_space iterate_dom))) (assignment_space iterate_dom)).

(** arrayutils.py:22-26 [set_value] *)
Definition nd_set {V} (a : nd V) (idx : list nat) (x : V) : res (nd V) :=
  match shape a with
  | [] => Raise IndexError
  | _ => if in_bounds (shape a) idx
         then let* l := list_set (flat a) (ravel (shape a) idx) x in Ok (mkNd (shape a) l)
         else Raise IndexError
  end.

(** mulitnomial.py:236-241 [random_deterministic]; with right_vars = None
    [random_assignment] returns one dictionary, and `.values()` of its keys
    (strings) raises AttributeError. *)
Definition random_deterministic (dom : domain) (right_vars : option (list var)) (vt : vtype)
           (choose : nat -> var -> nat) : res mfactor :=
  match right_vars with
  | None => match dom with
            | [] => mf_init dom (FArr (mkNd [] [n0])) None None vt
            | _ => Raise AttributeError
            end
  | Some r =>
      let zeros := mkNd (card dom) (repeat n0 (prodl (card dom))) in
      let* rows := random_assignment (to_numeric_domains dom) r choose in
      let* data := foldM (fun a row => nd_set a (vals row) n1) rows zeros in
      mf_init dom (FArr data) None (Some r) vt
  end.

(** ** canonical_deterministic *)

(** deterministic.py:132-147.  The values are a list of tuples: a two
    dimensional array with one row per function. *)
Definition canonical_deterministic (dom : domain) (exo : var) (endo : list var) (vt : vtype) : res dfactor :=
  match filter (fun x => negb (mem x endo) && negb (if eqd x exo then true else false)) (keys dom) with
  | [x] =>
      let* pdom := subdomain dom endo in
      let m := length (assignment_space pdom) in
      let* states := dlook x dom in
      let rows := product (repeat states m) in
      let* xdom := subdomain dom [x] in
      let* udom := subdomain dom [exo] in
      df_init (dmerge (dmerge xdom udom) pdom) (mkNd [length rows; m] (concat rows)) (Some [x]) None vt
  | _ => Raise ValueError
  end.

(** mulitnomial.py:243-245 [canonical_multinomial] *)
Definition canonical_multinomial (dom : domain) (exo : var) (endo : list var) (vt : vtype) : res mfactor :=
  let* f := canonical_deterministic dom exo endo vt in df_to_multinomial f.

(** ** IntervalProbFactor *)

(** An IntervalProbFactor object (imprecise.py:23-54): the store over the extra
    variable `_bound` and `_right_vars`. *)
Record ifactor := MkI { if_store : store num; if_right : list var }.

(** imprecise.py:36, 42 [bound_var] *)
Definition bound_var : var := "_bound"%string.
(** imprecise.py:36, 42 [low] *)
Definition low : state := SStr "low"%string.
(** imprecise.py:36, 42 [up] *)
Definition up : state := SStr "up"%string.

(** `[v for v in ... if not v.startswith("_")]` (imprecise.py:74-89) *)
Definition visible (d : domain) : domain := dfilter (fun v => negb (underscored v)) d.
(** imprecise.py:86-88 [domain], 74-76 [variables], 82-84 [left_vars] *)
Definition if_domain (f : ifactor) : domain := visible (st_domain (if_store f)).
(** imprecise.py:74-76 [if_vars] *)
Definition if_vars (f : ifactor) : list var := keys (if_domain f).
(** imprecise.py:82-84 [if_left] *)
Definition if_left (f : ifactor) : list var := filter (fun v => negb (mem v (if_right f))) (if_vars f).
(** imprecise.py:23-54, the class of the store [if_vtype] *)
Definition if_vtype (f : ifactor) : vtype := st_type (if_store f).

(** imprecise.py:27-33: np.array of the processed values.  (A dictionary would
    become a 0-d object array: not modelled.) *)
Definition process_array (dom : domain) (v : fvals num) : res (nd num) :=
  let* d := process_values dom v in
  match d with DArr a => Ok a | DTree _ => Raise Unmodelled end.

(** imprecise.py:23-47 [__init__] *)
Definition if_init (dom : domain) (vlow vup : fvals num) (l r : option (list var)) (vt : vtype) : res ifactor :=
  let* _ := check_domain dom in
  let* alow := process_array dom vlow in
  let* aup := process_array dom vup in
  let dom' := dmerge [(bound_var, [low; up])] dom in
  if eqd (shape alow) (shape aup) then
    let* s := st_init vt dom' (DArr (mkNd (2 :: shape alow) (flat alow ++ flat aup))) in
    let* rv := set_variables (keys dom') l r in
    Ok (MkI s rv)
  else Raise ValueError.

(** python/numpy minimum of a row; NaN propagates (values.min(axis=1)) (imprecise.py:64) *)
Definition np_min2 (x y : num) : num :=
  match x, y with NaN, _ | _, NaN => NaN | _, _ => if nltb y x then y else x end.
(** imprecise.py:64 [red_npmin] *)
Definition red_npmin (l : list num) : res num :=
  match l with [] => Raise ValueError | x :: r => Ok (fold_left np_min2 r x) end.

(** imprecise.py:56-64 [from_precise] (the new factor has the default store
    type [dflt]); OrderedDict equality is sensitive to the order. *)
Definition from_precise (dflt : vtype) (fs : list mfactor) : res ifactor :=
  match fs with
  | [] => Raise IndexError
  | f0 :: _ =>
      let dom := mf_domain f0 in
      if forallb (fun f => if eqd dom (mf_domain f) then true else false) fs then
        let* rows := mapM (fun o => mapM (fun f => mf_get_value f o) fs) (assignment_space dom) in
        let* lo := mapM red_npmin rows in
        let* hi := mapM red_npmax rows in
        if_init dom (flist lo) (flist hi) (Some (mf_left f0)) None dflt
      else Raise ValueError
  end.

(** imprecise.py:66-72 [store_low], [store_up] *)
Definition store_low (f : ifactor) : res (store num) := st_restrict (if_store f) [(bound_var, low)].
(** imprecise.py:70-72 [store_up] *)
Definition store_up (f : ifactor) : res (store num) := st_restrict (if_store f) [(bound_var, up)].

(** imprecise.py:92-99 [restrict]; `_variables` includes `_bound`. *)
Definition if_restrict (f : ifactor) (o : obs) : res ifactor :=
  if negb (existsb (fun v => mem v (keys (st_domain (if_store f)))) (keys o)) then Ok f else
  let* s := st_restrict (if_store f) o in
  let new_left := filter (fun v => mem v (if_left f)) (st_variables s) in
  let* sl := st_restrict s [(bound_var, low)] in
  let* su := st_restrict s [(bound_var, up)] in
  if_init (visible (st_domain s)) (st_data sl) (st_data su) (Some new_left) None (if_vtype f).
