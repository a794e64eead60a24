(** Model of the objects behind the value stores: which arrays, lists and
    dictionaries two stores have in common, and what [set_value] does to them.

    StoreModel.v treats the data of a store as a value.  Here the data lives in a
    heap of mutable objects, the operations of the treedict store walk over
    references exactly as the python code does, and [set_value] changes objects
    in place. *)

From Coq Require Import String Bool Arith List.
From Verif Require Import PyBase Num DomainModel NdArray StoreModel NumStore.
Import ListNotations.

(** A python value inside a nested dictionary or a store: a number (immutable)
    or a reference to an object. (treedictstore.py:21-63) *)
Inductive hval : Type := HNum (x : num) | HRef (a : nat).

(** Mutable objects: the dictionary made by [treeNode]
    (bcause/util/treesutil.py:20-21; the inner `children` dictionary is created
    together with it and never shared, so the two are one object here), a numpy
    array, a python list. *)
Inductive cell : Type :=
| CNode (v : var) (kids : dict state hval)
| CArr (x : nd num)
| CList (l : list num).

(** The object with address [a] is the entry number [a]. (treedictstore.py:21-63, numpystore.py:41-46, liststore.py:38-40) *)
Definition heap : Type := list cell.

(** A python call that may raise and may change the heap; changes made before
    an exception stay. (store.py:113-132, treedictstore.py:42-60) *)
Definition action (A : Type) : Type := heap -> res A * heap.

(** `return x` (treedictstore.py:42-60) *)
Definition hret {A} (x : A) : action A := fun h => (Ok x, h).
(** `raise e` (store.py:113-132) *)
Definition hraise {A} (e : err) : action A := fun h => (Raise e, h).
(** the rest of a function body after a call (treedictstore.py:42-60) *)
Definition hbind {A B} (m : action A) (k : A -> action B) : action B :=
  fun h => match m h with
           | (Ok x, h') => k x h'
           | (Raise e, h') => (Raise e, h')
           end.
(** a computation that does not touch the heap (treedictops.py:16-114) *)
Definition hlift {A} (m : res A) : action A := fun h => (m, h).

Notation "'let!' x ':=' m 'in' k" := (hbind m (fun x => k))
  (at level 200, x pattern, m at level 100, k at level 200, right associativity).

(** a new object (treedictstore.py:47, 50) *)
Definition halloc (c : cell) : action hval := fun h => (Ok (HRef (length h)), h ++ [c]).
(** the contents of an object (treedictstore.py:44-54) *)
Definition hread (v : hval) : action (option cell) :=
  fun h => (Ok (match v with HNum _ => None | HRef a => nth_error h a end), h).
(** replacing the contents of an object (treedictstore.py:55) *)
Fixpoint put (h : heap) (a : nat) (c : cell) : heap :=
  match h, a with
  | [], _ => []
  | _ :: r, 0 => c :: r
  | d :: r, S a' => d :: put r a' c
  end.
(** treedictstore.py:55 [hwrite] *)
Definition hwrite (a : nat) (c : cell) : action unit := fun h => (Ok tt, put h a c).

(** a comprehension / loop over a list, and `functools.reduce` (treedictops.py:38, 42-44) *)
Fixpoint hmapM {A B} (f : A -> action B) (l : list A) : action (list B) :=
  match l with
  | [] => hret []
  | x :: r => let! y := f x in let! ys := hmapM f r in hret (y :: ys)
  end.
(** treedictops.py:19-20, 27-28 [hfoldM] *)
Fixpoint hfoldM {A B} (f : A -> B -> action A) (l : list B) (acc : A) : action A :=
  match l with
  | [] => hret acc
  | x :: r => let! acc' := f acc x in hfoldM f r acc'
  end.
(** treedictops.py:71-72 [hreduceM] *)
Definition hreduceM {A} (f : A -> A -> action A) (l : list A) : action A :=
  match l with
  | [] => hraise TypeError
  | x :: r => hfoldM f r x
  end.

(** ** Nested dictionaries.  The first argument is the recursion limit. *)

(** bcause/factors/values/treedictops.py:49-62 [_restrict_dict] *)
Fixpoint hrestrict (n : nat) (v : hval) (o : obs) : action hval :=
  match n with
  | 0 => hraise RecursionError
  | S n' =>
      let! c := hread v in
      match c with
      | Some (CNode w kids) =>
          match o with
          | [] => hret v
          | _ :: _ =>
              match dget w o with
              | None =>
                  let! kids' := hmapM (fun sk => let! k := hrestrict n' (snd sk) o in
                                                 hret (fst sk, k)) kids in
                  halloc (CNode w kids')
              | Some s =>
                  match dget s kids with
                  | Some k => hrestrict n' k (dremove w o)
                  | None => hraise KeyError
                  end
              end
          end
      | _ => hret v
      end
  end.

(** bcause/factors/values/treedictops.py:31-47 [_combine_dict] *)
Fixpoint hcombine (n : nat) (op : num -> num -> num) (v1 v2 : hval) : action hval :=
  match n with
  | 0 => hraise RecursionError
  | S n' =>
      let! c1 := hread v1 in
      match c1 with
      | Some (CNode w kids) =>
          let! kids' := hmapM (fun sk => let! v2' := hrestrict n' v2 [(w, fst sk)] in
                                         let! k := hcombine n' op (snd sk) v2' in
                                         hret (fst sk, k)) kids in
          halloc (CNode w kids')
      | _ =>
          let! c2 := hread v2 in
          match c2 with
          | Some (CNode w kids) =>
              let! kids' := hmapM (fun sk => let! k := hcombine n' op v1 (snd sk) in
                                             hret (fst sk, k)) kids in
              halloc (CNode w kids')
          | _ =>
              match v1, v2 with
              | HNum x, HNum y => hret (HNum (op x y))
              | _, _ => hraise Unmodelled
              end
          end
      end
  end.

(** bcause/factors/values/treedictops.py:64-79 [_marginalize_dict] *)
Fixpoint hmarg (n : nat) (op : num -> num -> num) (v : hval) (x : var) (k : nat) : action hval :=
  match n with
  | 0 => hraise RecursionError
  | S n' =>
      let! c := hread v in
      match c with
      | Some (CNode w kids) =>
          if eqd w x then hreduceM (hcombine n' op) (map snd kids)
          else
            let! kids' := hmapM (fun sk => let! c' := hmarg n' op (snd sk) x k in
                                           hret (fst sk, c')) kids in
            halloc (CNode w kids')
      | _ =>
          match v with
          | HNum y => hret (HNum (nscale y k))
          | HRef _ => hraise Unmodelled
          end
      end
  end.

(** bcause/factors/values/treedictstore.py:42-57 [modify_dict]: the child of an
    observed node is replaced in that same node (line 54), a node that is not
    observed is built anew (lines 46-50). *)
Fixpoint hset (n : nat) (v : hval) (o : obs) (x : num) : action hval :=
  match n with
  | 0 => hraise RecursionError
  | S n' =>
      let! c := hread v in
      match v, c with
      | HRef a, Some (CNode w kids) =>
          match o with
          | [] => hret (HNum x)
          | _ :: _ =>
              match dget w o with
              | None =>
                  let! kids' := hmapM (fun sk => let! k := hset n' (snd sk) o x in
                                                 hret (fst sk, k)) kids in
                  halloc (CNode w kids')
              | Some s =>
                  match dget s kids with
                  | Some k =>
                      let! k' := hset n' k (dremove w o) x in
                      let! c' := hread v in
                      match c' with
                      | Some (CNode w' kids') =>
                          let! _ := hwrite a (CNode w' (dset s k' kids')) in hret v
                      | _ => hraise Unmodelled
                      end
                  | None => hraise KeyError
                  end
              end
          end
      | _, _ => hret (HNum x)
      end
  end.

(** `copy.deepcopy` of a nested dictionary (treedictstore.py:39-40), with its
    memo of the objects copied so far: an object met twice is copied once.
    (The memo entry is made after the children; for dictionaries that contain
    themselves the limit is reached instead.) *)
Definition memo : Type := dict nat nat.
(** treedictstore.py:39-40 [hdeepcopy] *)
Fixpoint hdeepcopy (n : nat) (m : memo) (v : hval) : action (hval * memo) :=
  match n with
  | 0 => hraise RecursionError
  | S n' =>
      match v with
      | HNum x => hret (HNum x, m)
      | HRef a =>
          match dget a m with
          | Some b => hret (HRef b, m)
          | None =>
              let! c := hread v in
              match c with
              | Some (CNode w kids) =>
                  let! (kids', m') :=
                    hfoldM (fun acc sk => let! (k, m') := hdeepcopy n' (snd acc) (snd sk) in
                                          hret (fst acc ++ [(fst sk, k)], m'))
                           kids ([], m) in
                  let! v' := halloc (CNode w kids') in
                  match v' with
                  | HRef b => hret (v', dset a b m')
                  | HNum _ => hraise Unmodelled
                  end
              | Some c' => 
                  let! v' := halloc c' in
                  match v' with
                  | HRef b => hret (v', dset a b m)
                  | HNum _ => hraise Unmodelled
                  end
              | None => hraise Unmodelled
              end
          end
      end
  end.

(** the nested dictionary made by bcause/util/treesutil.py:23-40
    [build_default_tree]: every node is a new object *)
Fixpoint hnew (t : tree num) : action hval :=
  match t with
  | Leaf x => hret (HNum x)
  | Node w ch =>
      let! kids := (fix go l := match l with
                                | [] => hret []
                                | (s, c) :: r => let! k := hnew c in
                                                 let! r' := go r in hret ((s, k) :: r')
                                end) ch in
      halloc (CNode w kids)
  end.

(** ** Store objects *)

(** A store object: class, domain, and the value of its attribute `_data`
    (bcause/factors/values/store.py:20-29).  The domain is copied by the
    constructor (`OrderedDict(domain)`) and never changed. *)
Record hstore : Type := mkHS { hs_type : vtype; hs_domain : domain; hs_data : hval }.

(** `np.array(data)` seen as a value (numpystore.py:30) *)
Definition as_array (v : hval) (c : option cell) : res (nd num) :=
  match v, c with
  | HNum x, _ => Ok (mkNd [] [x])
  | HRef _, Some (CArr x) => Ok x
  | HRef _, Some (CList l) => Ok (mkNd [length l] l)
  | _, _ => Raise Unmodelled
  end.

(** The constructors (the `builder` of a store): NumpyStore keeps
    `np.array(data)`, a new array (numpystore.py:30); Numpy1DStore keeps
    `np.ravel(data)`, which for a (contiguous) array is a view of that same array
    and otherwise a new array (numpystore.py:66); ListStore keeps
    `list(np.ravel(data))`, a new list (liststore.py:29); TreeDictStore keeps a
    dictionary as it is and otherwise builds a tree (treedictstore.py:25-33). *)
Definition hinit (vt : vtype) (d : domain) (data : hval) : action hstore :=
  let! c := hread data in
  match vt, c with
  | VNumpy, _ =>
      let! x := hlift (as_array data c) in
      let! _ := hlift (st_init VNumpy d (DArr x)) in
      let! v := halloc (CArr x) in hret (mkHS VNumpy d v)
  | VNumpy1D, Some (CArr x) =>
      let! _ := hlift (st_init VNumpy1D d (DArr x)) in hret (mkHS VNumpy1D d data)
  | VNumpy1D, _ =>
      let! x := hlift (as_array data c) in
      let! _ := hlift (st_init VNumpy1D d (DArr x)) in
      let! v := halloc (CArr (mkNd [length (flat x)] (flat x))) in hret (mkHS VNumpy1D d v)
  | VList, _ =>
      let! x := hlift (as_array data c) in
      let! _ := hlift (st_init VList d (DArr x)) in
      let! v := halloc (CList (flat x)) in hret (mkHS VList d v)
  | VTree, Some (CNode _ _) => hret (mkHS VTree d data)
  | VTree, _ =>
      let! x := hlift (as_array data c) in
      let! p := hlift (st_init VTree d (DArr x)) in
      match p with
      | StTree _ t => let! v := hnew t in hret (mkHS VTree d v)
      | _ => hraise Unmodelled
      end
  end.

(** the table that an array or list store holds (numpystore.py:41-46, liststore.py:38-40) *)
Definition hstore_of (s : hstore) : action (store num) :=
  let! c := hread (hs_data s) in
  match hs_type s, c with
  | VNumpy, Some (CArr x) => hret (StNumpy (hs_domain s) x)
  | VNumpy1D, Some (CArr x) => hret (StNp1 (hs_domain s) (flat x))
  | VList, Some (CList l) => hret (StList (hs_domain s) l)
  | _, _ => hraise Unmodelled
  end.

(** A computed table becomes a store: the operations of the array and list
    stores collect their entries in a new array or list and pass it to `builder`
    (numpyops.py:21,28,51,121-122; listops.py:24,33,50,75;
    numpystore.py:86-88; operations.py:73).  Intermediate objects are left out. *)
Definition hresult (p : store num) : action hstore :=
  match p with
  | StNumpy d x => let! v := halloc (CArr x) in hinit VNumpy d v
  | StNp1 d l => let! v := halloc (CList l) in hinit VNumpy1D d v
  | StList d l => let! v := halloc (CList l) in hinit VList d v
  | StTree d t => let! v := hnew t in hinit VTree d v
  end.

(** restrict: store.py:131-132, numpyops.py:101-122, listops.py:69-75,
    numpystore.py:82-88, treedictops.py:108-114 *)
Definition hs_restrict (n : nat) (s : hstore) (o : dict var oval) : action hstore :=
  match hs_type s with
  | VTree =>
      if has_list o then hraise NotImplementedError else
      let! v := hrestrict n (hs_data s) (ones o) in
      hinit VTree (dfilter (fun k => negb (dmem k o)) (hs_domain s)) v
  | _ => let! p := hstore_of s in let! r := hlift (st_restrict_ext p o) in hresult r
  end.

(** marginalize: store.py:113-114, numpyops.py:16-21, listops.py:17-24,
    operations.py:55-59, treedictops.py:16-22 *)
Definition hs_marginalize (n : nat) (s : hstore) (vs : list var) : action hstore :=
  match hs_type s with
  | VTree =>
      let! v := hfoldM (fun v x => let! l := hlift (dlook x (hs_domain s)) in
                                   hmarg n nadd v x (length l)) vs (hs_data s) in
      hinit VTree (dom_without (hs_domain s) vs) v
  | _ => let! p := hstore_of s in let! r := hlift (st_marginalize p vs) in hresult r
  end.

(** maxmarginalize: store.py:116-117, numpyops.py:23-28, listops.py:26-33,
    operations.py:61-63, treedictops.py:24-30 *)
Definition hs_maxmarginalize (n : nat) (s : hstore) (vs : list var) : action hstore :=
  match hs_type s with
  | VTree =>
      let! v := hfoldM (fun v x => hmarg n py_max v x 1) vs (hs_data s) in
      hinit VTree (dom_without (hs_domain s) vs) v
  | _ => let! p := hstore_of s in let! r := hlift (st_maxmarginalize p vs) in hresult r
  end.

(** multiply, addition, subtract, divide with the scalar operation of the store
    class: store.py:119-129, numpyops.py:30-51, listops.py:36-50,
    operations.py:65-79, treedictops.py:81-89 *)
Definition hs_combine (n : nat) (op : vtype -> num -> num -> num) (s1 s2 : hstore) : action hstore :=
  match hs_type s1, hs_type s2 with
  | VTree, VTree =>
      let! v := hcombine n (op VTree) (hs_data s1) (hs_data s2) in
      hinit VTree (dmerge (hs_domain s1) (hs_domain s2)) v
  | VTree, _ | _, VTree => hraise ValueError
  | vt, _ =>
      let! p1 := hstore_of s1 in
      let! p2 := hstore_of s2 in
      let! r := hlift (st_combine n0 (op vt) p1 p2) in hresult r
  end.

(** copy(deep): store.py:31-34 with [_copy_data] of numpystore.py:38-39, 72-73,
    liststore.py:35-36, treedictstore.py:39-40 *)
Definition hs_copy (n : nat) (s : hstore) (deep : bool) : action hstore :=
  let! v := if deep then
              match hs_type s with
              | VTree => let! (v, _) := hdeepcopy n [] (hs_data s) in hret v
              | _ => let! c := hread (hs_data s) in
                     match c with Some c' => halloc c' | None => hraise Unmodelled end
              end
            else hret (hs_data s) in
  hinit (hs_type s) (hs_domain s) v.

(** the contents of an array or list after item assignment: the entries of [r]
    in the same object (`self._data[..] = value`) (numpystore.py:41-46, liststore.py:38-40) *)
Definition written (c : option cell) (r : store num) : res cell :=
  match c, r with
  | Some (CArr _), StNumpy _ y => Ok (CArr y)
  | Some (CArr y), StNp1 _ l => Ok (CArr (mkNd (shape y) l))
  | Some (CList _), StList _ l => Ok (CList l)
  | _, _ => Raise Unmodelled
  end.

(** set_value: numpystore.py:41-46, 75-77; liststore.py:38-40;
    treedictstore.py:42-60.  Returns the store object after the call (its
    attribute `_data` is assigned for the treedict store only). *)
Definition hs_set_value (n : nat) (s : hstore) (x : num) (o : obs) : action hstore :=
  match hs_type s, hs_data s with
  | VTree, _ =>
      let! v := hset n (hs_data s) (dfilter (fun w => dmem w (hs_domain s)) o) x in
      hret (mkHS VTree (hs_domain s) v)
  | _, HRef a =>
      let! c := hread (hs_data s) in
      let! p := hstore_of s in
      let! r := hlift (st_set_value p x o) in
      let! c' := hlift (written c r) in
      let! _ := hwrite a c' in hret s
  | _, HNum _ => hraise Unmodelled
  end.

(** The ways to derive a store from another one. (store.py:31-34, 113-132) *)
Inductive deriv : Type :=
| DRestrict (o : dict var oval)
| DMarginalize (vs : list var)
| DMaxmarginalize (vs : list var)
| DMultiply (s2 : hstore)
| DAddition (s2 : hstore)
| DSubtract (s2 : hstore)
| DDivide (s2 : hstore)
| DCopy (deep : bool).

(** store.py:31-34, 113-132 *)
Definition derive (n : nat) (d : deriv) (s : hstore) : action hstore :=
  match d with
  | DRestrict o => hs_restrict n s o
  | DMarginalize vs => hs_marginalize n s vs
  | DMaxmarginalize vs => hs_maxmarginalize n s vs
  | DMultiply s2 => hs_combine n (fun _ => nmul) s s2
  | DAddition s2 => hs_combine n (fun _ => nadd) s s2
  | DSubtract s2 => hs_combine n (fun _ => nsub) s s2
  | DDivide s2 => hs_combine n div_op s s2
  | DCopy deep => hs_copy n s deep
  end.

(** A later sequence of set_value calls on a store object; a call that raises
    leaves the attribute `_data` as it is and the next call is made all the same. (treedictstore.py:42-60, numpystore.py:41-46, liststore.py:38-40) *)
Fixpoint set_values (n : nat) (s : hstore) (calls : list (num * obs)) (h : heap) : hstore * heap :=
  match calls with
  | [] => (s, h)
  | (x, o) :: r =>
      match hs_set_value n s x o h with
      | (Ok s', h') => set_values n s' r h'
      | (Raise _, h') => set_values n s r h'
      end
  end.
