(** Model of DeterministicFactor.from_data_frame,
    bcause/factors/deterministic.py:44-57, with the parts of pandas it uses. *)

From Coq Require Import String Bool Arith ZArith List.
From Verif Require Import PyBase DomainModel NdArray StoreModel FactorModel LearnModel UaiModel.
Import ListNotations.
Local Open Scope nat_scope.

(** An entry of pd.Categorical(values, categories): NaN if it is no category
    (deterministic.py:50). *)
Definition categorical (c : list state) (x : option state) : option state :=
  match x with Some s => if mem s c then Some s else None | None => None end.
(** deterministic.py:48-55, replacing one column of a row [at_column] *)
Fixpoint at_column {A} (k : nat) (f : A -> A) (r : list A) : list A :=
  match r, k with
  | [], _ => []
  | x :: r, 0 => f x :: r
  | x :: r, S k => x :: at_column k f r
  end.
(** pandas refuses categories with repetitions: ValueError (deterministic.py:48-55) *)
Fixpoint distinct (c : list state) : bool :=
  match c with [] => true | x :: r => negb (mem x r) && distinct r end.
(** deterministic.py:49-50: the columns become categorical one after the other;
    [k] is the number of the first of [cols].  The frame is the caller's, so the
    rows are returned also when an exception is raised. *)
Fixpoint as_categories (domains : domain) (cols : list var) (k : nat) (rows : list (list (option state)))
  : list (list (option state)) * res (list (list state)) :=
  match cols with
  | [] => (rows, Ok [])
  | v :: cols =>
      match dget v domains with
      | None => (rows, Raise KeyError)
      | Some c =>
          if distinct c then
            let (rows, r) := as_categories domains cols (S k) (map (at_column k (categorical c)) rows) in
            (rows, let* cs := r in Ok (c :: cs))
          else (rows, Raise ValueError)
      end
  end.

(** The code of an entry of a categorical column; NaN comes last in
    sort_values. (deterministic.py:48-55) *)
Definition code (c : list state) (x : option state) : nat :=
  match x with
  | Some s => match index_of s c with Some i => i | None => length c end
  | None => length c
  end.
(** the order of df.sort_values(by=columns), deterministic.py:52: the codes of
    the first column, then those of the second, ... *)
Fixpoint row_leb (cats : list (list state)) (a b : list (option state)) : bool :=
  match cats, a, b with
  | c :: cats, x :: a, y :: b =>
      if code c x <? code c y then true else
      if code c y <? code c x then false else row_leb cats a b
  | _, _, _ => true
  end.
(** deterministic.py:48-55, sort_values [insert_row] *)
Fixpoint insert_row (cats : list (list state)) (r : list (option state)) (l : list (list (option state))) : list (list (option state)) :=
  match l with
  | [] => [r]
  | x :: l => if row_leb cats r x then r :: x :: l else x :: insert_row cats r l
  end.
(** deterministic.py:48-55, sort_values [sort_rows] *)
Definition sort_rows (cats : list (list state)) (l : list (list (option state))) : list (list (option state)) :=
  fold_right (insert_row cats) [] l.

(** `list(df[left_var].values)` (deterministic.py:55) as np.reshape makes an
    array of it (deterministic.py:29): among strings NaN becomes the string
    "nan"; NaN among other states is not modelled. *)
Definition is_str (x : option state) : bool := match x with Some (SStr _) => true | _ => false end.
(** deterministic.py:55 [is_nan] *)
Definition is_nan (x : option state) : bool := match x with None => true | _ => false end.
(** deterministic.py:55 [frame_values] *)
Definition frame_values (l : list (option state)) : res (list state) :=
  if existsb is_nan l && negb (existsb is_str l && forallb (fun x => is_str x || is_nan x) l)
  then Raise Unmodelled
  else Ok (map (fun x => match x with Some s => s | None => SStr "nan" end) l).

(** deterministic.py:44-57 [from_data_frame], for a frame with distinct columns:
    the caller's frame afterwards and the factor, made with the default store
    type.  `left_vars` is the name itself, not a list: `v not in left_vars`
    (factor.py:150) is a test for substrings.  sort_values by no columns is not
    modelled. *)
Definition from_data_frame (dflt : vtype) (df : frame) (domains : domain) (left_var : option var) : frame * res dfactor :=
  let columns := f_cols df in
  let name := match left_var with
              | None | Some EmptyString => match rev columns with [] => Raise IndexError | v :: _ => Ok v end
              | Some v => Ok v
              end in
  match name with
  | Raise e => (df, Raise e)
  | Ok name =>
      let (rows, r) := as_categories domains columns 0 (f_rows df) in
      (mkF columns rows,
       let* cats := r in
       if length columns =? 0 then Raise Unmodelled else
       let sorted := sort_rows cats rows in
       let* domf := subdomain domains columns in
       match index_of name columns with
       | None => Raise KeyError
       | Some k =>
           let* values := frame_values (map (fun r => nth k r None) sorted) in
           df_init domf (mkNd [length values] values) (Some (filter (fun v : var => substr_of v name) columns)) None dflt
       end)
  end.
