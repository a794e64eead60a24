(** Model of the graphical model classes: bcause/models/pgmodel.py,
    bcause/models/bnet.py and bcause/models/cmodel.py (StructuralCausalModel).

    A set_factor call changes the object in place; it is modelled as a function
    returning the new state of the object together with the exception raised,
    if any, so that a partial update before an exception would be visible. *)

From Coq Require Import String Ascii Bool Arith ZArith QArith Qcanon List.
From Verif Require Import PyBase Num DomainModel NdArray StoreModel NumStore FactorModel GraphModel.
Import ListNotations.
Local Open Scope nat_scope.

(** What can be passed as a factor: a MultinomialFactor, a DeterministicFactor
    or some object that is not a factor.  (Interval factors are left out.) (pgmodel.py:49-56) *)
Inductive fobj := FM (f : mfactor) | FD (f : dfactor) | FObj.

(** f.domain, f.variables, f.left_vars, f.right_vars (factor.py:19-21, 83-85,
    128-143, deterministic.py:57-59) *)
Definition fo_domain (f : fobj) : res domain :=
  match f with FM f => Ok (mf_domain f) | FD f => Ok (df_domain f) | FObj => Raise AttributeError end.
(** factor.py:19-21 [fo_vars] *)
Definition fo_vars (f : fobj) : res (list var) :=
  match f with FM f => Ok (mf_vars f) | FD f => Ok (df_vars f) | FObj => Raise AttributeError end.
(** factor.py:133-135 [fo_left] *)
Definition fo_left (f : fobj) : res (list var) :=
  match f with FM f => Ok (mf_left f) | FD f => Ok (df_left f) | FObj => Raise AttributeError end.
(** factor.py:129-131 [fo_right] *)
Definition fo_right (f : fobj) : res (list var) :=
  match f with FM f => Ok (mf_right f) | FD f => Ok (df_right f) | FObj => Raise AttributeError end.

(** The class of the model and the attributes only SCMs have
    (cmodel.py:148-156: _endogenous, _cast_multinomial). *)
Inductive kind := KBn | KScm (endo : list var) (cast : bool).

(** The state of a model object (pgmodel.py:23-27). *)
Record pgm := mkPgm {
  m_graph : digraph;
  m_factors : dict var (option fobj);
  m_domains : dict var (option (list state));
  m_check : bool;
  m_kind : kind }.

(** set(l1) == set(l2) (pgmodel.py:59-66) *)
Definition set_eqb {K} `{EqD K} (l1 l2 : list K) : bool :=
  forallb (fun x => mem x l2) l1 && forallb (fun x => mem x l1) l2.

(** self._domains[v], None when absent or not set (pgmodel.py:65-70) *)
Definition recorded (m : pgm) (v : var) : option (list state) :=
  match dget v (m_domains m) with Some (Some l) => Some l | _ => None end.

(** pgmodel.py:52-66: the checks of set_factor *)
Definition check_factor (m : pgm) (v : var) (f : fobj) : res unit :=
  match f with
  | FObj => Raise ValueError
  | _ =>
      let* parents := get_parents (m_graph m) [v] in
      let* r := fo_right f in
      if negb (set_eqb parents r) then Raise ValueError else
      let* l := fo_left f in
      if negb (set_eqb [v] l) then Raise ValueError else
      let* d := fo_domain f in
      if forallb (fun wl => match recorded m (fst wl) with
                            | Some l => set_eqb l (snd wl)
                            | None => true
                            end) d
      then Ok tt else Raise ValueError
  end.

(** pgmodel.py:49-73 [set_factor] *)
Definition set_factor_base (m : pgm) (v : var) (f : fobj) : pgm * option err :=
  match (if m_check m then check_factor m v f else Ok tt) with
  | Raise e => (m, Some e)
  | Ok _ =>
      let m1 :=
        match recorded m v with
        | Some _ => Ok m
        | None => let* d := fo_domain f in
                  let* l := dlook v d in
                  Ok (mkPgm (m_graph m) (m_factors m) (dset v (Some l) (m_domains m)) (m_check m) (m_kind m))
        end in
      match m1 with
      | Raise e => (m, Some e)
      | Ok m1 => (mkPgm (m_graph m1) (dset v (Some f) (m_factors m1)) (m_domains m1) (m_check m1) (m_kind m1), None)
      end
  end.

(** cmodel.py:176-181: what an SCM does with a factor before set_factor of the
    parent class *)
Definition scm_prepare (m : pgm) (endo : list var) (cast : bool) (v : var) (f : fobj) : res fobj :=
  if mem v endo then
    let* ok := (if m_check m then
                  match f with
                  | FD _ => Ok true
                  | FM f => mf_is_degenerate f
                  | FObj => Raise AttributeError
                  end
                else Ok true) in
    if negb ok then Raise ValueError else
    match f with
    | FD d => if cast then let* g := df_to_multinomial d in Ok (FM g) else Ok f
    | _ => Ok f
    end
  else Ok f.

(** set_factor of the object's class (pgmodel.py:49-73, cmodel.py:168-183) *)
Definition set_factor (m : pgm) (v : var) (f : fobj) : pgm * option err :=
  match m_kind m with
  | KBn => set_factor_base m v f
  | KScm endo cast =>
      match scm_prepare m endo cast v f with
      | Raise e => (m, Some e)
      | Ok f' => set_factor_base m v f'
      end
  end.

(** The `factors` argument of a constructor: a dict or a list. (pgmodel.py:128-137) *)
Inductive fsarg := FsDict (d : dict var fobj) | FsList (l : list fobj).

(** one call inside a constructor: an exception ends it (pgmodel.py:128-137) *)
Definition set_or_raise (m : pgm) (v : var) (f : fobj) : res pgm :=
  match set_factor m v f with (m', None) => Ok m' | (_, Some e) => Raise e end.

(** pgmodel.py:128-137 [_set_factors] *)
Definition set_factors (m : pgm) (fs : fsarg) : res pgm :=
  match fs with
  | FsDict d => foldM (fun m vf => set_or_raise m (fst vf) (snd vf)) d m
  | FsList l =>
      foldM (fun m f => let* lv := fo_left f in
                        if 1 <? length lv then Raise ValueError else
                        let* v := py_nth lv 0 in
                        set_or_raise m v f) l m
  end.

(** The `dag` argument of a constructor: a DiGraph, a string or something else. (pgmodel.py:117-122) *)
Inductive garg := GDag (g : digraph) | GStr (s : string) | GOther.

(** pgmodel.py:23-27, 117-122 [_initialize] *)
Definition initialize (a : garg) : res digraph :=
  let* g := match a with
            | GDag g => Ok g
            | GStr s => str2dag s
            | GOther => Raise ValueError
            end in
  if 0 <? length (simple_cycles g) then Raise ValueError else Ok g.
(** pgmodel.py:23-27 [fresh] *)
Definition fresh (g : digraph) (check : bool) (k : kind) : pgm :=
  mkPgm g (map (fun v => (v, None)) (nodes g)) (map (fun v => (v, None)) (nodes g)) check k.

(** bnet.py:12-16 [BayesianNetwork.__init__] *)
Definition bn_init (a : garg) (fs : option fsarg) (check : bool) : res pgm :=
  let* g := initialize a in
  match fs with
  | None => Ok (fresh g check KBn)
  | Some fs => set_factors (fresh g check KBn) fs
  end.

(** cmodel.py:148-156 [StructuralCausalModel.__init__]; an empty list of
    endogenous variables counts as not given, and then `dag` must be a graph
    (line 151 asks it for predecessors even if it was given as a string) *)
Definition scm_init (a : garg) (fs : option fsarg) (endo : option (list var)) (cast check : bool) : res pgm :=
  let* g := initialize a in
  let* endo := match endo with
               | Some (v :: r) => Ok (v :: r)
               | _ => match a with
                      | GDag g => Ok (filter (fun v => 0 <? length (preds g v)) (nodes g))
                      | _ => Raise AttributeError
                      end
               end in
  match fs with
  | None => Ok (fresh g check (KScm endo cast))
  | Some fs => set_factors (fresh g check (KScm endo cast)) fs
  end.

(** bnet.py:21-22 and cmodel.py:158-161 [builder], with keyword arguments; the
    builders take no positional arguments *)
Definition m_builder (m : pgm) (g : digraph) (fs : option fsarg) (check : bool) : res pgm :=
  match m_kind m with
  | KBn => bn_init (GDag g) fs check
  | KScm endo cast => scm_init (GDag g) fs (Some endo) cast check
  end.

(** the factors of the model as an argument of a constructor; None entries are
    passed on and rejected by the checks, or fail with AttributeError (pgmodel.py:182, 199-200) *)
Definition as_fobj (f : option fobj) : fobj := match f with Some f => f | None => FObj end.
(** pgmodel.py:182, 199-200 [m_factor_dict] *)
Definition m_factor_dict (m : pgm) : dict var fobj := map (fun vf => (fst vf, as_fobj (snd vf))) (m_factors m).

(** A python call of `builder`, whose signature is `builder(self, **kwargs)` in
    both classes: any positional argument is a TypeError. (pgmodel.py:180-183) *)
Inductive pyarg := PGraph (g : digraph) | PFactors (fs : fsarg).
(** pgmodel.py:180-183, cmodel.py:158-161 [builder_call] *)
Definition builder_call (m : pgm) (args : list pyarg) (kw_dag : digraph) (kw_factors : option fsarg) : res pgm :=
  match args with
  | [] => m_builder m kw_dag kw_factors true
  | _ => Raise TypeError
  end.
(** pgmodel.py:180-183 [submodel]: calls `self.builder(new_dag, new_factors)` *)
Definition m_submodel (m : pgm) (ns : list var) : res pgm :=
  let new_dag := subgraph (m_graph m) ns in
  let new_factors := dfilter (fun v => mem v ns) (m_factor_dict m) in
  builder_call m [PGraph new_dag; PFactors (FsDict new_factors)] (mkG [] []) None.
(** pgmodel.py:199-200 [copy] *)
Definition m_copy (m : pgm) : res pgm := m_builder m (m_graph m) (Some (FsDict (m_factor_dict m))) true.

(** nx.relabel_nodes(graph, mapping) (pgmodel.py:185-189, cmodel.py:202) *)
Definition relabel (g : digraph) (r : dict var var) : digraph :=
  fold_left add_edge (map (fun e => (rename1 r (fst e), rename1 r (snd e))) (g_edges g))
            (fold_left add_node (map (rename1 r) (nodes g)) (mkG [] [])).
(** pgmodel.py:185-189, factor.py:113-124 [fo_rename] *)
Definition fo_rename (r : dict var var) (f : fobj) : res fobj :=
  match f with
  | FM f => let* g := mf_rename f r in Ok (FM g)
  | FD f => let* g := df_rename f r in Ok (FD g)
  | FObj => Raise AttributeError
  end.
(** pgmodel.py:185-189 and cmodel.py:200-205 [rename_vars] *)
Definition m_rename (m : pgm) (r : dict var var) : res pgm :=
  let g := relabel (m_graph m) r in
  let* fs := mapM (fo_rename r) (vals (m_factor_dict m)) in
  match m_kind m with
  | KBn => m_builder m g (Some (FsList fs)) true
  | KScm endo cast =>
      let* endo' := mapM (fun x => dlook x r) endo in
      scm_init (GDag g) (Some (FsList fs)) (Some endo') cast true
  end.

(** pgmodel.py:140-144 [get_domains], [get_varsizes] (`v in variables` for a
    list) *)
Definition get_domains (m : pgm) (vs : list var) : dict var (option (list state)) :=
  dfilter (fun v => mem v vs) (m_domains m).
(** pgmodel.py:143-144 [get_varsizes] *)
Definition get_varsizes (m : pgm) (vs : list var) : res (dict var nat) :=
  mapM (fun vd => match snd vd with Some l => Ok (fst vd, length l) | None => Raise TypeError end)
       (get_domains m vs).

(** pgmodel.py:45-46 [get_factors] *)
Definition get_factors (m : pgm) (vs : list var) : res (list (option fobj)) :=
  mapM (fun v => dlook v (m_factors m)) vs.

(** mulitnomial.py:134-135 on the factors of a model; other objects have no
    such method *)
Definition fo_prob (os : list obs) (f : option fobj) : res (list num) :=
  match f with Some (FM f) => mf_prob f os | _ => Raise AttributeError end.
(** np.prod(rows, axis=0) for rows of equal length; without rows numpy returns
    the number 1.0 instead of an array (left out) (pgmodel.py:107-108) *)
Definition np_prod_rows (rows : list (list num)) : res (list num) :=
  match rows with
  | [] => Raise Unmodelled
  | r :: rs => Ok (fold_left (fun acc row => map (fun xy => nmul (fst xy) (snd xy)) (combine acc row)) rs r)
  end.
(** pgmodel.py:107-108 [prob] *)
Definition m_prob (m : pgm) (os : list obs) : res (list num) :=
  let* rows := mapM (fo_prob os) (vals (m_factors m)) in
  np_prod_rows rows.

(** cmodel.py:163-165 [from_model], 185-186 [to_multinomial], 188-190
    [has_deterministic], 244-246 [to_bnet] *)
Definition scm_from_model (m : pgm) : res pgm :=
  scm_init (GDag (m_graph m)) (Some (FsDict (m_factor_dict m))) None true true.
(** cmodel.py:185-186 [scm_to_multinomial] *)
Definition scm_to_multinomial (m : pgm) : res pgm :=
  scm_init (GDag (m_graph m)) (Some (FsDict (m_factor_dict m))) None true true.
(** cmodel.py:31-37 [scm_endogenous] *)
Definition scm_endogenous (m : pgm) : list var := match m_kind m with KScm e _ => e | KBn => [] end.
(** cmodel.py:188-190 [scm_has_deterministic] *)
Definition scm_has_deterministic (m : pgm) : res bool :=
  let* fs := get_factors m (scm_endogenous m) in
  Ok (existsb (fun f => match f with Some (FD _) => true | _ => false end) fs).
(** cmodel.py:244-246 [scm_to_bnet] *)
Definition scm_to_bnet (m : pgm) : res pgm :=
  let* d := scm_has_deterministic m in
  let* m := (if d then scm_to_multinomial m else Ok m) in
  bn_init (GDag (m_graph m)) (Some (FsDict (m_factor_dict m))) true.

(** f.constant(x) (mulitnomial.py:52-66, deterministic.py:74-80) *)
Definition fo_constant (f : option fobj) (x : state) : res fobj :=
  match f with
  | Some (FM f) => let* g := mf_constant f x in Ok (FM g)
  | Some (FD f) => let* g := df_constant f x in Ok (FD g)
  | _ => Raise AttributeError
  end.
(** cmodel.py:193-198 [intervention] *)
Definition scm_intervention (m : pgm) (o : obs) : res pgm :=
  let g := remove_ingoing_edges (m_graph m) (keys o) in
  let* fs := mapM (fun vf => match dget (fst vf) o with
                             | None => Ok (fst vf, as_fobj (snd vf))
                             | Some x => let* f := fo_constant (snd vf) x in Ok (fst vf, f)
                             end) (m_factors m) in
  match m_kind m with
  | KScm endo cast => scm_init (GDag g) (Some (FsDict fs)) (Some endo) cast true
  | KBn => Raise AttributeError
  end.
