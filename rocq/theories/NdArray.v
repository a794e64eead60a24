(** numpy arrays as (shape, row-major data) and the numpy calls used by
    bcause/factors/values/numpyops.py.  Every access is bounds checked. *)

From Coq Require Import List Bool Arith.
From Verif Require Import PyBase DomainModel.
Import ListNotations.

(** np.ndarray in C order. (numpystore.py:30, 41-49) *)
Record nd (V : Type) := mkNd { shape : list nat; flat : list V }.
Arguments mkNd {V} shape flat.
Arguments shape {V} n.
Arguments flat {V} n.

(** Row-major offset of a multi-index. (numpystore.py:41-49, liststore.py:38-40) *)
Fixpoint ravel (sh idx : list nat) : nat :=
  match sh, idx with
  | _ :: sh', i :: idx' => i * prodl sh' + ravel sh' idx'
  | _, _ => 0
  end.

(** All multi-indices of a shape, in row-major order. (numpyops.py:51, numpystore.py:75-77) *)
Definition indices (sh : list nat) : list (list nat) := product (map (seq 0) sh).

(** The multi-index has the right rank and is within bounds. (numpystore.py:48-49) *)
Fixpoint in_bounds (sh idx : list nat) : bool :=
  match sh, idx with
  | [], [] => true
  | n :: sh', i :: idx' => (i <? n) && in_bounds sh' idx'
  | _, _ => false
  end.

(** `a[i1,...,in]` (integer multi-index). (numpystore.py:48-49) *)
Definition nd_get {V} (a : nd V) (idx : list nat) : res V :=
  if in_bounds (shape a) idx then py_nth (flat a) (ravel (shape a) idx)
  else Raise IndexError.

(** Build an array elementwise. (numpyops.py:51, 66, 78) *)
Definition nd_build {V} (sh : list nat) (f : list nat -> res V) : res (nd V) :=
  let* l := mapM f (indices sh) in Ok (mkNd sh l).

(** `np.reshape(a, sh)` (numpyops.py:78, mulitnomial.py:30) *)
Definition np_reshape {V} (a : nd V) (sh : list nat) : res (nd V) :=
  if length (flat a) =? prodl sh then Ok (mkNd sh (flat a)) else Raise ValueError.

(** `np.repeat(a, k)` (axis=None: flattened, each element k times). (numpyops.py:78) *)
Definition np_repeat {V} (a : nd V) (k : nat) : nd V :=
  let l := flat_map (fun x => repeat x k) (flat a) in mkNd [length l] l.

(** `np.transpose(a, order)`: axis j of the result is axis order[j] of a. (numpyops.py:66) *)
Definition np_transpose {V} (a : nd V) (order : list nat) : res (nd V) :=
  let* sh := mapM (py_nth (shape a)) order in
  nd_build sh (fun idx =>
    let* src := mapM (fun i => match index_of i order with
                               | Some j => py_nth idx j
                               | None => Raise ValueError
                               end) (seq 0 (length (shape a))) in
    nd_get a src).

(** `np.moveaxis(a, range(a.ndim), dest)`: axis i of a becomes axis dest[i]. (numpyops.py:66) *)
Definition np_moveaxis {V} (a : nd V) (dest : list nat) : res (nd V) :=
  let* order := mapM (fun j => match index_of j dest with
                               | Some i => Ok i
                               | None => Raise ValueError
                               end) (seq 0 (length (shape a))) in
  np_transpose a order.

(** One index of `a[items]`: an int, `:` or a list of ints. (numpyops.py:112-119) *)
Inductive item := IInt (i : nat) | ISlice | IList (l : list nat).

(** Basic indexing: multi-index of the source for a result multi-index. (numpyops.py:121) *)
Fixpoint merge_idx (items : list item) (idx : list nat) : list nat :=
  match items with
  | [] => []
  | IInt i :: r => i :: merge_idx r idx
  | ISlice :: r => match idx with
                   | j :: idx' => j :: merge_idx r idx'
                   | [] => []
                   end
  | IList _ :: r => merge_idx r idx
  end.

(** Shape of the sliced axes. (numpyops.py:121) *)
Fixpoint slice_shape (items : list item) (sh : list nat) : list nat :=
  match items, sh with
  | ISlice :: r, n :: sh' => n :: slice_shape r sh'
  | _ :: r, _ :: sh' => slice_shape r sh'
  | _, _ => []
  end.

(** numpyops.py:115-116, a list of ints [is_ilist] *)
Definition is_ilist (i : item) : bool := match i with IList _ => true | _ => false end.
(** numpyops.py:119, the item slice(None) [is_slice] *)
Definition is_slice (i : item) : bool := match i with ISlice => true | _ => false end.

(** Advanced indexing: source index when the broadcast position of the index
    lists is k. (numpyops.py:121) *)
Fixpoint merge_adv (items : list item) (k : nat) (idx : list nat) : res (list nat) :=
  match items with
  | [] => Ok []
  | IInt i :: r => let* t := merge_adv r k idx in Ok (i :: t)
  | IList l :: r => let* x := py_nth l (if length l =? 1 then 0 else k) in
                    let* t := merge_adv r k idx in Ok (x :: t)
  | ISlice :: r => match idx with
                   | j :: idx' => let* t := merge_adv r k idx' in Ok (j :: t)
                   | [] => Raise IndexError
                   end
  end.

(** Common broadcast length of the index lists (lists of length 1 broadcast). (numpyops.py:121) *)
Fixpoint adv_len (items : list item) (n : nat) : res nat :=
  match items with
  | [] => Ok n
  | IList l :: r =>
      if length l =? 1 then adv_len r n
      else if n =? 1 then adv_len r (length l)
      else if n =? length l then adv_len r n else Raise IndexError
  | _ :: r => adv_len r n
  end.

(** Are the non-slice items adjacent? (decides where numpy puts the broadcast
    dimension) (numpyops.py:121) *)
Fixpoint drop_slices (l : list item) : list item :=
  match l with ISlice :: r => drop_slices r | _ => l end.
(** numpyops.py:121 [drop_nonslices] *)
Fixpoint drop_nonslices (l : list item) : list item :=
  match l with (IInt _ | IList _) :: r => drop_nonslices r | _ => l end.
(** numpyops.py:121 [adjacent] *)
Definition adjacent (items : list item) : bool :=
  forallb is_slice (drop_nonslices (drop_slices items)).

(** Number of leading slices. (numpyops.py:121) *)
Fixpoint lead_slices (l : list item) : nat :=
  match l with ISlice :: r => S (lead_slices r) | _ => 0 end.

(** `a[tuple(items)].copy()` with ints, full slices and lists of ints
    (numpy basic and advanced indexing). (numpyops.py:121) *)
Definition np_index {V} (a : nd V) (items : list item) : res (nd V) :=
  if negb (length items =? length (shape a)) then Raise IndexError else
  let ssh := slice_shape items (shape a) in
  if existsb is_ilist items then
    let* n := adv_len items 1 in
    let p := if adjacent items then lead_slices items else 0 in
    nd_build (firstn p ssh ++ n :: skipn p ssh)
             (fun idx => let* k := py_nth idx p in
                         let* src := merge_adv items k (firstn p idx ++ skipn (S p) idx) in
                         nd_get a src)
  else
    nd_build ssh (fun idx => nd_get a (merge_idx items idx)).

(** Multi-indices of the source that reduce to [idx]: axes in [axes] are free. (numpyops.py:19, 26) *)
Fixpoint reduce_items (sh : list nat) (i : nat) (axes : list nat) (idx : list nat)
  : list (list nat) :=
  match sh with
  | [] => []
  | n :: sh' =>
      if mem i axes then seq 0 n :: reduce_items sh' (S i) axes idx
      else match idx with
           | j :: idx' => [j] :: reduce_items sh' (S i) axes idx'
           | [] => []
           end
  end.

(** Axes that stay. (numpyops.py:19, 26) *)
Fixpoint kept_shape (sh : list nat) (i : nat) (axes : list nat) : list nat :=
  match sh with
  | [] => []
  | n :: sh' => if mem i axes then kept_shape sh' (S i) axes
                else n :: kept_shape sh' (S i) axes
  end.

(** numpyops.py:18-19, 25-26, the check of np.sum and np.max on the axes [nodupb] *)
Fixpoint nodupb {K} `{EqD K} (l : list K) : bool :=
  match l with [] => true | x :: r => negb (mem x r) && nodupb r end.

(** `np.sum(a, axis=axes)`, `np.max(a, axis=axes)`: reduction over a tuple of
    axes; repeated axes are rejected (ValueError), axes out of range raise
    (AxisError, a ValueError). (numpyops.py:19, 26) *)
Definition np_reduce {V W} (red : list V -> res W) (a : nd V) (axes : list nat) : res (nd W) :=
  if negb (nodupb axes) then Raise ValueError
  else if negb (forallb (fun i => i <? length (shape a)) axes) then Raise ValueError
  else nd_build (kept_shape (shape a) 0 axes) (fun idx =>
         let* l := mapM (nd_get a) (product (reduce_items (shape a) 0 axes idx)) in red l).

(** numpy broadcasting of two shapes of the same rank (the only case that
    occurs: numpyops.py:51 is reached with both operands over all variables). *)
Fixpoint bshape (s1 s2 : list nat) : res (list nat) :=
  match s1, s2 with
  | [], [] => Ok []
  | a :: r1, b :: r2 =>
      let* r := bshape r1 r2 in
      if a =? b then Ok (a :: r)
      else if a =? 1 then Ok (b :: r)
      else if b =? 1 then Ok (a :: r)
      else Raise ValueError
  | _, _ => Raise Unmodelled
  end.

(** Index into a broadcast operand. (numpyops.py:51) *)
Fixpoint bidx (sh idx : list nat) : list nat :=
  match sh, idx with
  | n :: sh', i :: idx' => (if n =? 1 then 0 else i) :: bidx sh' idx'
  | _, _ => []
  end.

(** Elementwise binary operation with broadcasting. (numpyops.py:51, 85-99) *)
Definition np_binop {V} (op : V -> V -> V) (a b : nd V) : res (nd V) :=
  let* sh := bshape (shape a) (shape b) in
  nd_build sh (fun idx =>
    let* x := nd_get a (bidx (shape a) idx) in
    let* y := nd_get b (bidx (shape b) idx) in
    Ok (op x y)).
