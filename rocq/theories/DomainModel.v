(** Model of bcause/util/domainutils.py (domains, enumeration, flat indices). *)

From Coq Require Import String Bool Arith ZArith List.
From Verif Require Import PyBase.
Import ListNotations.

(** `itertools.product( *ls )`: the last list varies fastest. (domainutils.py:11) *)
Fixpoint product {A} (ls : list (list A)) : list (list A) :=
  match ls with
  | [] => [[]]
  | l :: r => flat_map (fun x => map (cons x) (product r)) l
  end.

(** bcause/util/domainutils.py:10-11 [state_space] *)
Definition state_space {A} (dom : dict var (list A)) : list (list A) :=
  product (vals dom).

(** bcause/util/domainutils.py:13-14 [assingment_space] (sic).
    `dict(zip(keys, s))`; the keys of a dict are distinct, so no entry of the
    zip is overwritten. *)
Definition assignment_space {A} (dom : dict var (list A)) : list (dict var A) :=
  map (fun s => combine (keys dom) s) (state_space dom).

(** `reduce(lambda x,y: x*y, l, 1)` and `np.prod(l)`. (domainutils.py:30, mulitnomial.py:29) *)
Definition prodl (l : list nat) : nat := fold_left Nat.mul l 1.

(** `[len(d) for d in domain.values()]`, bcause/util/domainutils.py:29 and
    bcause/factors/values/store.py:49-50 *)
Definition card {A} (dom : dict var (list A)) : list nat := map (@length A) (vals dom).

(** bcause/util/domainutils.py:28-30 [steps] *)
Definition steps {A} (dom : dict var (list A)) : list nat :=
  map (fun i => prodl (skipn (S i) (card dom))) (seq 0 (length (card dom))).

(** bcause/util/domainutils.py:39-43 [restrict_domain] *)
Definition restrict_domain {A} (dom : dict var (list A)) (o : dict var A) : dict var (list A) :=
  fold_left (fun d vs => dset (fst vs) [snd vs] d) o dom.

(** `np.where(np.array(l) == s)[0][0]`: IndexError when s does not occur. (domainutils.py:47, numpyops.py:112) *)
Definition np_where_first {A} `{EqD A} (l : list A) (s : A) : res nat :=
  match index_of s l with Some i => Ok i | None => Raise IndexError end.

(** bcause/util/domainutils.py:46-47 [values_to_coord] *)
Definition values_to_coord (dom : domain) (o : obs) : res (dict var nat) :=
  mapM (fun vs => match dget (fst vs) dom with
                  | Some d => let* i := np_where_first d (snd vs) in Ok (fst vs, i)
                  | None => Raise KeyError (* unreachable: filtered below *)
                  end)
       (dfilter (fun v => dmem v dom) o).

(** bcause/util/domainutils.py:50-51 [to_numeric_domains] *)
Definition to_numeric_domains {A} (dom : dict var (list A)) : dict var (list nat) :=
  map (fun vd => (fst vd, seq 0 (length (snd vd)))) dom.

(** `sum([x*y for x,y in zip(S, c)])`, bcause/util/domainutils.py:60 *)
Definition dot (s c : list nat) : nat :=
  fold_left Nat.add (map (fun xy => fst xy * snd xy) (combine s c)) 0.

(** `{v: observation[v] for v in domain if v in observation}`,
    bcause/util/domainutils.py:57 *)
Definition obs_in_order (dom : domain) (o : obs) : obs :=
  flat_map (fun v => match dget v o with Some s => [(v, s)] | None => [] end) (keys dom).

(** bcause/util/domainutils.py:54-63 [index_iterator] / [index_list] (the
    generator is modelled by the list of the values it yields; the exception of
    [values_to_coord] is raised before the first value is produced). *)
Definition index_list (dom : domain) (o : obs) : res (list nat) :=
  let S := steps dom in
  let o' := obs_in_order dom o in
  let* c := values_to_coord dom o' in
  let C := state_space (restrict_domain (to_numeric_domains dom) c) in
  Ok (map (dot S) C).

(** bcause/util/domainutils.py:87-89 [subdomain] *)
Definition subdomain (dom : domain) (vs : list var) : res domain :=
  let* l := mapM (fun v => let* d := dlook v dom in Ok (v, d)) vs in
  Ok (dict_of l).

(** Lower case of an ASCII character / string (`str.lower`, used at
    bcause/util/domainutils.py:106; non-ASCII letters are left unchanged). *)
Definition lower_ascii (c : Ascii.ascii) : Ascii.ascii :=
  let n := Ascii.nat_of_ascii c in
  if (65 <=? n) && (n <=? 90) then Ascii.ascii_of_nat (n + 32) else c.
(** domainutils.py:106 [lower] *)
Fixpoint lower (s : string) : string :=
  match s with
  | EmptyString => EmptyString
  | String c r => String (lower_ascii c) (lower r)
  end.

(** python `type(d)` of a state. (domainutils.py:95-110) *)
Inductive ptype := TStr | TInt | TBool.
(** domainutils.py:95-110 [type_of] *)
Definition type_of (s : state) : ptype :=
  match s with SStr _ => TStr | SInt _ => TInt | SBool _ => TBool end.
#[export] Instance EqD_ptype : EqD ptype.
Proof. intros a b. decide equality. Defined.

(** bcause/util/domainutils.py:95-110 [identify_true_false].  (Float domains
    are outside the state type.)  `dtypes[0]` raises IndexError on an empty
    domain. *)
Definition identify_true_false (varname : string) (d : list state) : res (state * state) :=
  let dtypes := map type_of d in
  if 2 <? length d then Raise ValueError
  else if 1 <? length (nodup eqd dtypes) then Raise ValueError
  else
    let* t0 := py_nth dtypes 0 in
    let is_str suffix s :=
      match s with
      | SStr x => String.eqb (lower x) (append (lower varname) suffix)
      | _ => false
      end in
    let is_int z s := match s with SInt x => Z.eqb x z | _ => false end in
    let tf :=
      match t0 with
      | TInt => filter (is_int 1%Z) d ++ filter (is_int 0%Z) d
      | TStr => filter (is_str "1"%string) d ++ filter (is_str "0"%string) d
                ++ filter (is_str "2"%string) d
      | TBool => []
      end in
    match tf with
    | [t; f] => Ok (t, f)
    | _ => Raise ValueError
    end.
