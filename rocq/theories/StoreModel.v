(** Model of the value stores of bcause/factors/values (numpy, numpy1d, list,
    treedict), polymorphic in the type of the stored values (floats for
    multinomial factors, states for deterministic factors). *)

From Coq Require Import String Bool Arith List.
From Verif Require Import PyBase DomainModel NdArray.
Import ListNotations.

(** The keys of bcause/factors/values/__init__.py [store_dict]. (factors/values/__init__.py:6) *)
Inductive vtype := VNumpy | VNumpy1D | VList | VTree.
#[export] Instance EqD_vtype : EqD vtype.
Proof. intros a b. decide equality. Defined.

(** A tree of nested dictionaries (bcause/util/treesutil.py:20-21 [treeNode]):
    `{'var': v, 'children': {state: subtree}}` or a plain value. *)
Inductive tree (V : Type) : Type :=
| Leaf (x : V)
| Node (v : var) (ch : list (state * tree V)).
Arguments Leaf {V} x.
Arguments Node {V} v ch.

(** A store object: its class, its domain and its data
    (bcause/factors/values/store.py:20-29). *)
Inductive store (V : Type) : Type :=
| StNumpy (d : domain) (a : nd V)
| StNp1 (d : domain) (l : list V)
| StList (d : domain) (l : list V)
| StTree (d : domain) (t : tree V).
Arguments StNumpy {V} d a.
Arguments StNp1 {V} d l.
Arguments StList {V} d l.
Arguments StTree {V} d t.

(** The `data` argument of a store constructor: an array-like or a nested
    dictionary. (store.py:20-29) *)
Inductive darg (V : Type) : Type :=
| DArr (a : nd V)
| DTree (t : tree V).
Arguments DArr {V} a.
Arguments DTree {V} t.

(** One entry of an observation dictionary: a state or a list of states. (numpyops.py:107-117) *)
Inductive oval := One (s : state) | Many (l : list state).

Section Stores.
  Context {V : Type}.

  (** bcause/factors/values/store.py:40-42 *)
  Definition st_domain (s : store V) : domain :=
    match s with StNumpy d _ | StNp1 d _ | StList d _ | StTree d _ => d end.

  (** bcause/factors/values/store.py:36-38 *)
  Definition st_variables (s : store V) : list var := keys (st_domain s).

  (** class of a store object (`__class__.__name__`) (listops.py:38-39, numpyops.py:33) *)
  Definition st_type (s : store V) : vtype :=
    match s with
    | StNumpy _ _ => VNumpy | StNp1 _ _ => VNumpy1D
    | StList _ _ => VList | StTree _ _ => VTree
    end.

  (** bcause/util/treesutil.py:23-40 [build_default_tree] on 1-d data.
      `inner_dom` removes the first key; keys are distinct, so it is the tail. *)
  Fixpoint build_flat (dom : domain) (l : list V) : res (tree V) :=
    match dom with
    | [] => Raise IndexError
    | (v, d) :: inner =>
        match inner with
        | [] => Ok (Node v (dict_of (combine d (map Leaf l))))
        | _ :: _ =>
            let size := prodl (card inner) in
            let* ch := mapM (fun si => let* t := build_flat inner
                                          (firstn size (skipn (snd si * size) l)) in
                                       Ok (fst si, t))
                            (combine d (seq 0 (length d))) in
            Ok (Node v (dict_of ch))
        end
    end.

  (** bcause/util/treesutil.py:23-40 [build_default_tree]: arrays are
      flattened (line 25); a scalar with several variables cannot be sliced
      (line 37), a scalar with one variable is `np.ravel`ed (line 29). *)
  Definition build_default_tree (dom : domain) (a : nd V) : res (tree V) :=
    match shape a, dom with
    | [], _ :: _ :: _ => Raise TypeError
    | _, _ => build_flat dom (flat a)
    end.

  (** bcause/factors/values/numpystore.py:17-38, 54-70; liststore.py:16-33;
      treedictstore.py:21-37 (constructors and [_check_consistency]);
      store.py:20-29.  A 0-variable treedict store keeps the data as given: a
      0-d value is a leaf, an array would be an array-valued leaf (unmodelled). *)
  Definition st_init (vt : vtype) (dom : domain) (data : darg V) : res (store V) :=
    match vt, data with
    | VNumpy, DArr a =>
        if (length (shape a) =? length dom)
           && (if eqd (shape a) (card dom) then true else false)
        then Ok (StNumpy dom a) else Raise ValueError
    | VNumpy1D, DArr a =>
        if length (flat a) =? prodl (card dom) then Ok (StNp1 dom (flat a)) else Raise ValueError
    | VList, DArr a =>
        if length (flat a) =? prodl (card dom) then Ok (StList dom (flat a)) else Raise ValueError
    | VTree, DTree t => Ok (StTree dom t)
    | VTree, DArr a =>
        match dom, shape a, flat a with
        | _ :: _, _, _ => let* t := build_default_tree dom a in Ok (StTree dom t)
        | [], [], [x] => Ok (StTree dom (Leaf x))
        | [], _, _ => Raise Unmodelled
        end
    | _, DTree _ => Raise Unmodelled
    end.

  (** Default data (zeros): numpystore.py:20-21, 57-58; liststore.py:19-20;
      treedictstore.py:23-24 (`np.zeros(1.0)` raises TypeError for the empty
      domain). *)
  Definition st_default (zero : V) (vt : vtype) (dom : domain) : res (store V) :=
    let n := prodl (card dom) in
    match vt, dom with
    | VTree, [] => Raise TypeError
    | VNumpy, _ => st_init VNumpy dom (DArr (mkNd (card dom) (repeat zero n)))
    | _, _ => st_init vt dom (DArr (mkNd [n] (repeat zero n)))
    end.

  (** ** restrict *)

  (** bcause/factors/values/treedictops.py:49-62 [_restrict_dict] *)
  Fixpoint trestrict (t : tree V) (o : obs) {struct t} : res (tree V) :=
    match t with
    | Leaf x => Ok (Leaf x)
    | Node v ch =>
        match o with
        | [] => Ok (Node v ch)
        | _ :: _ =>
            match dget v o with
            | None =>
                let* ch' :=
                  (fix go l := match l with
                               | [] => Ok []
                               | (s, c) :: r => let* c' := trestrict c o in
                                                let* r' := go r in Ok ((s, c') :: r')
                               end) ch in
                Ok (Node v ch')
            | Some s =>
                (fix find l := match l with
                               | [] => Raise KeyError
                               | (s', c) :: r => if eqd s s' then trestrict c (dremove v o)
                                                 else find r
                               end) ch
            end
        end
    end.

  (** `any([type(v)==list for v in observation.values()])`
      (listops.py:70, numpystore.py:83, treedictops.py:110) *)
  Definition has_list (o : dict var oval) : bool :=
    existsb (fun vo => match snd vo with Many _ => true | One _ => false end) o.

  (** listops.py:68-75 [ones] *)
  Definition ones (o : dict var oval) : obs :=
    flat_map (fun vo => match snd vo with One s => [(fst vo, s)] | Many _ => [] end) o.

  (** bcause/factors/values/numpyops.py:101-122, loop body: the index item of
      one variable and its entry in the new domain (None: dropped). *)
  Definition np_restrict_var (o : dict var oval) (vd : var * list state)
    : res (item * option (list state)) :=
    let (v, d) := vd in
    match dget v o with
    | None => Ok (ISlice, Some d)
    | Some (One s) | Some (Many [s]) =>
        let* i := np_where_first d s in Ok (IInt i, None)
    | Some (Many l) =>
        let* idx := mapM (np_where_first d) l in
        Ok (IList idx, Some (filter (fun x => mem x l) d))
    end.

  (** numpyops.py:101-122 [restrict] *)
  Definition np_restrict (d : domain) (a : nd V) (o : dict var oval) : res (store V) :=
    let* its := mapM (np_restrict_var o) d in
    let new_dom := flat_map (fun p => match snd (snd p) with
                                      | Some d' => [(fst p, d')]
                                      | None => []
                                      end) (combine (keys d) its) in
    let* a' := np_index a (map fst its) in
    st_init VNumpy new_dom (DArr a').

  (** listops.py:68-75 and numpystore.py:82-88 [restrict] *)
  Definition flat_restrict (vt : vtype) (d : domain) (l : list V) (o : dict var oval)
    : res (store V) :=
    if has_list o then Raise NotImplementedError else
    let* idx := index_list d (ones o) in
    let* l' := mapM (py_nth l) idx in
    st_init vt (dfilter (fun k => negb (dmem k o)) d) (DArr (mkNd [length l'] l')).

  (** treedictops.py:108-114 [restrict]; when the result is not a nested
      dictionary and variables remain, the constructor rebuilds a tree from the
      value (treedictstore.py:25-27). *)
  Definition tree_darg (t : tree V) : darg V :=
    match t with Leaf x => DArr (mkNd [] [x]) | Node _ _ => DTree t end.
  (** treedictops.py:108-114 [tree_restrict] *)
  Definition tree_restrict (d : domain) (t : tree V) (o : dict var oval) : res (store V) :=
    if has_list o then Raise NotImplementedError else
    let* t' := trestrict t (ones o) in
    st_init VTree (dfilter (fun k => negb (dmem k o)) d) (tree_darg t').

  (** [restrict] with states or lists of states as values. (numpyops.py:101-122, listops.py:68-75, treedictops.py:108-114) *)
  Definition st_restrict_ext (s : store V) (o : dict var oval) : res (store V) :=
    match s with
    | StNumpy d a => np_restrict d a o
    | StNp1 d l => flat_restrict VNumpy1D d l o
    | StList d l => flat_restrict VList d l o
    | StTree d t => tree_restrict d t o
    end.

  (** [restrict] with plain states. (numpyops.py:101-122, listops.py:68-75, treedictops.py:108-114) *)
  Definition st_restrict (s : store V) (o : obs) : res (store V) :=
    st_restrict_ext s (map (fun vs => (fst vs, One (snd vs))) o).

  (** ** get_value / set_value *)

  (** What `get_value` returns: a scalar, or (for partial observations) an
      array or a subtree. (numpystore.py:48-49, treedictstore.py:62-63) *)
  Inductive gval : Type := GScalar (x : V) | GArray (a : nd V) | GTree (t : tree V).

  (** numpystore.py:48-49, 79-80; liststore.py:42-43; treedictstore.py:62-63 *)
  Definition get_value_raw (s : store V) (o : obs) : res gval :=
    let* r := st_restrict s o in
    match r with
    | StNumpy _ a =>
        match shape a with
        | [] | [_] => let* x := py_nth (flat a) 0 in Ok (GScalar x)
        | 0 :: _ :: _ => Raise IndexError
        | _ :: sh => Ok (GArray (mkNd sh (firstn (prodl sh) (flat a))))
        end
    | StNp1 _ l | StList _ l => let* x := py_nth l 0 in Ok (GScalar x)
    | StTree _ (Leaf x) => Ok (GScalar x)
    | StTree _ t => Ok (GTree t)
    end.

  (** The scalar result of [get_value]; [NotScalar] when python would return an
      array or a subtree. (numpystore.py:48-49, treedictstore.py:62-63) *)
  Definition get_value (s : store V) (o : obs) : res V :=
    let* g := get_value_raw s o in
    match g with GScalar x => Ok x | _ => Raise NotScalar end.

  (** list item assignment `l[i] = x` (liststore.py:38-40) *)
  Fixpoint list_set (l : list V) (i : nat) (x : V) : res (list V) :=
    match l, i with
    | [], _ => Raise IndexError
    | _ :: r, 0 => Ok (x :: r)
    | y :: r, S i' => let* r' := list_set r i' x in Ok (y :: r')
    end.

  (** treedictstore.py:42-57 [modify_dict] *)
  Fixpoint tset (t : tree V) (o : obs) (x : V) {struct t} : res (tree V) :=
    match t with
    | Leaf _ => Ok (Leaf x)
    | Node v ch =>
        match o with
        | [] => Ok (Leaf x)
        | _ :: _ =>
            match dget v o with
            | None =>
                let* ch' :=
                  (fix go l := match l with
                               | [] => Ok []
                               | (s, c) :: r => let* c' := tset c o x in
                                                let* r' := go r in Ok ((s, c') :: r')
                               end) ch in
                Ok (Node v ch')
            | Some s =>
                let* ch' :=
                  (fix upd l := match l with
                                | [] => Raise KeyError
                                | (s', c) :: r =>
                                    if eqd s s' then let* c' := tset c (dremove v o) x in
                                                     Ok ((s', c') :: r)
                                    else let* r' := upd r in Ok ((s', c) :: r')
                                end) ch in
                Ok (Node v ch')
            end
        end
    end.

  (** numpystore.py:41-46, 75-77; liststore.py:38-40; treedictstore.py:42-60
      (the mutated object is returned as a new value; sharing of subtrees
      between stores is treated separately). *)
  Definition st_set_value (s : store V) (x : V) (o : obs) : res (store V) :=
    match s with
    | StNumpy d a =>
        let* idx := mapM (fun vd => let* st := dlook (fst vd) o in
                                    np_where_first (snd vd) st) d in
        if in_bounds (shape a) idx then
          let* l := list_set (flat a) (ravel (shape a) idx) x in
          Ok (StNumpy d (mkNd (shape a) l))
        else Raise IndexError
    | StNp1 d l =>
        let* idx := index_list d o in
        let* i := py_nth idx 0 in
        let* l' := list_set l i x in Ok (StNp1 d l')
    | StList d l =>
        let* idx := index_list d o in
        let* i := py_nth idx 0 in
        let* l' := list_set l i x in Ok (StList d l')
    | StTree d t =>
        let* t' := tset t (dfilter (fun v => dmem v d) o) x in Ok (StTree d t')
    end.

  (** bcause/factors/values/store.py:150-152 [values_list] *)
  Definition values_list (s : store V) : res (list V) :=
    mapM (fun o => get_value s o) (assignment_space (st_domain s)).

  (** store.py:170-174 [get_var_index] *)
  Definition get_var_index (d : domain) (v : var) : res nat :=
    match index_of v (keys d) with Some i => Ok i | None => Raise ValueError end.

  (** ** combination (multiply, addition, subtract, divide) *)

  (** numpyops.py:72-81 [_extend_domain] (returns domain and data) *)
  Definition np_extend (d : domain) (a : nd V) (extra : domain) : res (store V) :=
    let ex := dfilter (fun v => negb (dmem v d)) extra in
    let add_card := card ex in
    let* a' := np_reshape (np_repeat a (prodl add_card)) (shape a ++ add_card) in
    st_init VNumpy (dmerge d ex) (DArr a').

  (** numpyops.py:54-70 [_reorder] *)
  Definition np_reorder (d : domain) (a : nd V) (order : list var) : res (store V) :=
    if length (keys d) <? 2 then Ok (StNumpy d a) else
    let o1 := filter (fun v => dmem v d) order in
    let new_order := o1 ++ filter (fun v => negb (mem v o1)) (keys d) in
    let* dest := mapM (fun v => match index_of v new_order with
                                | Some i => Ok i | None => Raise ValueError end) (keys d) in
    let* a' := np_moveaxis a dest in
    let* nd_ := mapM (fun v => let* x := dlook v d in Ok (v, x)) new_order in
    st_init VNumpy nd_ (DArr a').

  (** data of a numpy store (numpyops.py:30-51) *)
  Definition np_parts (s : store V) : res (domain * nd V) :=
    match s with StNumpy d a => Ok (d, a) | _ => Raise AttributeError end.

  (** numpyops.py:30-51 [_generic_combine] *)
  Definition np_combine (op : V -> V -> V) (d1 : domain) (a1 : nd V) (d2 : domain) (a2 : nd V)
    : res (store V) :=
    let new_dom := dmerge d1 d2 in
    let* s1 := if length d1 <? length new_dom then np_extend d1 a1 new_dom else Ok (StNumpy d1 a1) in
    let* s2 := if length d2 <? length new_dom then np_extend d2 a2 new_dom else Ok (StNumpy d2 a2) in
    let new_vars := keys new_dom in
    let* (e1, b1) := np_parts s1 in
    let* (e2, b2) := np_parts s2 in
    let* s1' := if eqd (keys e1) new_vars then Ok (StNumpy e1 b1) else np_reorder e1 b1 new_vars in
    let* s2' := if eqd (keys e2) new_vars then Ok (StNumpy e2 b2) else np_reorder e2 b2 new_vars in
    let* (_, c1) := np_parts s1' in
    let* (_, c2) := np_parts s2' in
    let* r := np_binop op c1 c2 in
    st_init VNumpy new_dom (DArr r).

  (** listops.py:36-50 [_generic_combine] *)
  Definition list_combine (op : V -> V -> V) (d1 : domain) (l1 : list V) (d2 : domain) (l2 : list V)
    : res (store V) :=
    let new_dom := dmerge d1 d2 in
    let* l := mapM (fun o =>
                      let* is := index_list d1 o in
                      let* i := py_nth is 0 in
                      let* js := index_list d2 o in
                      let* j := py_nth js 0 in
                      let* x := py_nth l1 i in
                      let* y := py_nth l2 j in
                      Ok (op x y)) (assignment_space new_dom) in
    st_init VList new_dom (DArr (mkNd [length l] l)).

  (** operations.py:65-79 [GenericOperations._generic_combine] *)
  Definition generic_combine (zero : V) (op : V -> V -> V) (s1 s2 : store V) : res (store V) :=
    if eqd (st_type s1) (st_type s2) then
      let new_dom := dmerge (st_domain s1) (st_domain s2) in
      let* r0 := st_default zero (st_type s1) new_dom in
      foldM (fun r o => let* x := get_value s1 o in
                        let* y := get_value s2 o in
                        st_set_value r (op x y) o)
            (assignment_space new_dom) r0
    else Raise ValueError.

  (** treedictops.py:31-47 [_combine_dict], first operand a plain value *)
  Fixpoint tcombine_leaf (op : V -> V -> V) (x : V) (t2 : tree V) : tree V :=
    match t2 with
    | Leaf y => Leaf (op x y)
    | Node v ch => Node v (map (fun sc => match sc with (s, c) => (s, tcombine_leaf op x c) end) ch)
    end.

  (** treedictops.py:31-47 [_combine_dict] *)
  Fixpoint tcombine (op : V -> V -> V) (t1 t2 : tree V) {struct t1} : res (tree V) :=
    match t1 with
    | Leaf x => Ok (tcombine_leaf op x t2)
    | Node v ch =>
        let* ch' :=
          (fix go l := match l with
                       | [] => Ok []
                       | (s, c) :: r => let* t2' := trestrict t2 [(v, s)] in
                                        let* c' := tcombine op c t2' in
                                        let* r' := go r in Ok ((s, c') :: r')
                       end) ch in
        Ok (Node v ch')
    end.

  (** treedictops.py:81-89 [_generic_combine] *)
  Definition tree_combine (op : V -> V -> V) (d1 : domain) (t1 : tree V) (d2 : domain) (t2 : tree V)
    : res (store V) :=
    let* t := tcombine op t1 t2 in st_init VTree (dmerge d1 d2) (tree_darg t).

  (** multiply / addition / subtract / divide of each store class with the given
      scalar operation (store.py:119-129); stores of different classes are
      rejected (listops.py:38-39, numpyops.py:33-34, operations.py:68-69,
      treedictops.py:84-85). *)
  Definition st_combine (zero : V) (op : V -> V -> V) (s1 s2 : store V) : res (store V) :=
    match s1, s2 with
    | StNumpy d1 a1, StNumpy d2 a2 => np_combine op d1 a1 d2 a2
    | StNp1 _ _, StNp1 _ _ => generic_combine zero op s1 s2
    | StList d1 l1, StList d2 l2 => list_combine op d1 l1 d2 l2
    | StTree d1 t1, StTree d2 t2 => tree_combine op d1 t1 d2 t2
    | _, _ => Raise ValueError
    end.

  (** ** marginalize / maxmarginalize *)

  (** numpyops.py:20, 27, treedictops.py:21, 29, the variables that stay [dom_without] *)
  Definition dom_without (d : domain) (vs : list var) : domain :=
    dfilter (fun v => negb (mem v vs)) d.
  (** listops.py:17-33, the variables that are removed [dom_within] *)
  Definition dom_within (d : domain) (vs : list var) : domain :=
    dfilter (fun v => mem v vs) d.

  (** numpyops.py:16-28; [red] is np.sum or np.max over the listed entries *)
  Definition np_marg (red : list V -> res V) (d : domain) (a : nd V) (vs : list var)
    : res (store V) :=
    let* axes := mapM (get_var_index d) vs in
    let* a' := np_reduce red a axes in
    st_init VNumpy (dom_without d vs) (DArr a').

  (** listops.py:17-33; [red] is the built-in sum or max.  The iterators are
      advanced in lock-step, `next` raises StopIteration when exhausted. *)
  Definition list_marg (red : list V -> res V) (d : domain) (l : list V) (vs : list var)
    : res (store V) :=
    let space := assignment_space (dom_within d vs) in
    let new_dom := dom_without d vs in
    let* iters := mapM (index_list d) space in
    let* l' := mapM (fun i =>
                       let* xs := mapM (fun it => match nth_error it i with
                                                  | Some k => py_nth l k
                                                  | None => Raise StopIteration
                                                  end) iters in
                       red xs) (seq 0 (prodl (card new_dom))) in
    st_init VList new_dom (DArr (mkNd [length l'] l')).

  (** operations.py:55-59 [GenericOperations.marginalize] *)
  Definition generic_marg (zero : V) (add : V -> V -> V) (s : store V) (vs : list var)
    : res (store V) :=
    let space := assignment_space (dom_within (st_domain s) vs) in
    let* rs := mapM (st_restrict s) space in
    reduceM (generic_combine zero add) rs.

  (** treedictops.py:64-79 [_marginalize_dict] *)
  Fixpoint tmarg (scale : V -> nat -> V) (op : V -> V -> V) (t : tree V) (v : var) (k : nat)
    : res (tree V) :=
    match t with
    | Leaf x => Ok (Leaf (scale x k))
    | Node v' ch =>
        if eqd v' v then reduceM (tcombine op) (map snd ch)
        else
          let* ch' :=
            (fix go l := match l with
                         | [] => Ok []
                         | (s, c) :: r => let* c' := tmarg scale op c v k in
                                          let* r' := go r in Ok ((s, c') :: r')
                         end) ch in
          Ok (Node v' ch')
    end.

  (** treedictops.py:16-30 [marginalize] (k = len(domain[v])) and
      [maxmarginalize] (k = 1, no lookup of the variable) *)
  Definition tree_marg (sum : bool) (scale : V -> nat -> V) (op : V -> V -> V)
             (d : domain) (t : tree V) (vs : list var) : res (store V) :=
    let* t' := foldM (fun t v =>
                        if sum then let* dv := dlook v d in tmarg scale op t v (length dv)
                        else tmarg scale op t v 1) vs t in
    st_init VTree (dom_without d vs) (tree_darg t').
End Stores.
Arguments gval : clear implicits.
