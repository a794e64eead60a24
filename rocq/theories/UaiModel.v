(** Model of the UAI reader and writer: bcause/readwrite/bnwrite.py:31-83,
    bnread.py:35-84, scmwrite.py:16-17 and scmread.py:23-77.

    The text of a file is a string.  Python's conversions between floats and
    text, str(float) and float(text), are quantified over.  The file system is
    not modelled: what is written is what is read. *)

From Coq Require Import String Ascii Bool Arith ZArith QArith Qcanon DecimalString List.
From Verif Require Import PyBase Num DomainModel NdArray StoreModel NumStore FactorModel GraphModel ModelModel CausalModel.
Import ListNotations.
Local Open Scope nat_scope.
Local Open Scope string_scope.
Local Open Scope list_scope.

(** ** Python text *)

(** str of an int (bnwrite.py:55, 73) *)
Definition z_str (z : Z) : string :=
  if (z <? 0)%Z then String "-" (nat_str (Z.to_nat (- z))) else nat_str (Z.to_nat z).
(** `a in b` for two strings: the substring test (bnread.py:44) *)
Fixpoint substr_of (a b : string) : bool :=
  String.prefix a b || match b with EmptyString => false | String _ r => substr_of a r end.
(** bnwrite.py:42-57 [newline] *)
Definition newline : string := String (ascii_of_nat 10) "".
(** bnwrite.py:42-57 [tab] *)
Definition tab : string := String (ascii_of_nat 9) "".
(** sep.join(l) is the standard [String.concat] *)

(** bnread.py:48-52, scmread.py:36-40, the class [0-9] of the regular expression *)
Definition is_digit (c : ascii) : bool := ((48 <=? nat_of_ascii c) && (nat_of_ascii c <=? 57))%nat.
(** bnread.py:48-52, scmread.py:36-40, the dot of the regular expression [is_dot] *)
Definition is_dot (c : ascii) : bool := Ascii.eqb c ".".
(** bnread.py:48-52, scmread.py:36-40, the sign of the regular expression [is_sign] *)
Definition is_sign (c : ascii) : bool := Ascii.eqb c "-" || Ascii.eqb c "+".

(** the longest prefix of characters that satisfy [p], and the rest (bnread.py:48-52, scmread.py:36-40) *)
Fixpoint span (p : ascii -> bool) (l : list ascii) : list ascii * list ascii :=
  match l with
  | c :: r => if p c then let (a, b) := span p r in (c :: a, b) else ([], l)
  | [] => ([], [])
  end.
(** bnread.py:48-52, scmread.py:36-40, an optional character of the regular expression [opt_char] *)
Definition opt_char (p : ascii -> bool) (l : list ascii) : list ascii * list ascii :=
  match l with c :: r => if p c then ([c], r) else ([], l) | [] => ([], []) end.

(** The match at the start of the text of [-+]?(?:\d*\.*\d+) (bnread.py:51): an
    optional sign, then digits, dots and digits if digits follow the dots, and
    else only the digits, of which there must be one. *)
Definition match_plain (l : list ascii) : option (list ascii * list ascii) :=
  let (s, l1) := opt_char is_sign l in
  let (d1, l2) := span is_digit l1 in
  let (dots, l3) := span is_dot l2 in
  let (d2, l4) := span is_digit l3 in
  match dots, d2, d1 with
  | _ :: _, _ :: _, _ => Some (s ++ d1 ++ dots ++ d2, l4)
  | _, _, _ :: _ => Some (s ++ d1, l2)
  | _, _, [] => None
  end.
(** The same for [-+]?(?:\d*\.*\d+E?[-+]?\d* ) (scmread.py:39): the match above,
    then an optional E, an optional sign and further digits. *)
Definition match_exp (l : list ascii) : option (list ascii * list ascii) :=
  match match_plain l with
  | None => None
  | Some (a, r) =>
      let (e, r1) := opt_char (fun c => Ascii.eqb c "E") r in
      let (s, r2) := opt_char is_sign r1 in
      let (d, r3) := span is_digit r2 in
      Some (a ++ e ++ s ++ d, r3)
  end.

(** re.findall: the matches from left to right.  The code scans line by line;
    no match crosses a line break. (bnread.py:48-52, scmread.py:36-40) *)
Fixpoint find_all (m : list ascii -> option (list ascii * list ascii)) (fuel : nat) (l : list ascii) : list string :=
  match fuel with
  | 0 => []
  | S fuel =>
      match m l with
      | Some (a, r) => string_of_list_ascii a :: find_all m fuel r
      | None => match l with [] => [] | _ :: r => find_all m fuel r end
      end
  end.
(** get_numbers (bnread.py:48-52, scmread.py:36-40) *)
Definition numbers (m : list ascii -> option (list ascii * list ascii)) (text : string) : list string :=
  find_all m (S (String.length text)) (list_ascii_of_string text).

(** int of a token: an optional sign and digits (bnread.py:57-69) *)
Definition nat_of_token (t : string) : option nat :=
  match t with
  | EmptyString => None
  | _ => option_map Nat.of_uint (NilEmpty.uint_of_string t)
  end.
(** bnread.py:57-69 [int_of_token] *)
Definition int_of_token (t : string) : res Z :=
  let r := match t with
           | String c r => if Ascii.eqb c "-" then option_map (fun n => (- Z.of_nat n)%Z) (nat_of_token r)
                           else if Ascii.eqb c "+" then option_map Z.of_nat (nat_of_token r)
                           else option_map Z.of_nat (nat_of_token t)
           | EmptyString => None
           end in
  match r with Some z => Ok z | None => Raise ValueError end.

(** next(numbers) (bnread.py:57-69) *)
Definition next (ts : list string) : res (string * list string) :=
  match ts with [] => Raise StopIteration | t :: r => Ok (t, r) end.
(** bnread.py:57-69 [next_int] *)
Definition next_int (ts : list string) : res (Z * list string) :=
  let* (t, r) := next ts in let* z := int_of_token t in Ok (z, r).
(** [f(next(numbers)) for _ in range(n)] (bnread.py:57-69) *)
Fixpoint nexts {A} (f : list string -> res (A * list string)) (n : nat) (ts : list string) : res (list A * list string) :=
  match n with
  | 0 => Ok ([], ts)
  | S n => let* (x, ts) := f ts in let* (xs, ts) := nexts f n ts in Ok (x :: xs, ts)
  end.
(** l[i] with negative indices counted from the end (bnread.py:69, 73) *)
Definition py_index {A} (l : list A) (i : Z) : res A :=
  let j := (if (i <? 0)%Z then i + Z.of_nat (length l) else i)%Z in
  if (j <? 0)%Z then Raise IndexError else py_nth l (Z.to_nat j).

Section Uai.
  (** str(float) and float(text) *)
  Variable fstr : num -> string.
  Variable fparse : string -> res num.
  (** DataStore.DEFAULT_STORE *)
  Variable dflt : vtype.

  (** ** The writer *)

  (** an element of a flattened values array (bnwrite.py:70-73) *)
  Inductive uval := UNum (x : num) | UState (s : state) | UInt (z : Z).
  (** bnwrite.py:70-73 [uval_str] *)
  Definition uval_str (u : uval) : string :=
    match u with
    | UNum x => fstr x
    | UState (SStr s) => s
    | UState (SInt z) => z_str z
    | UState (SBool b) => if b then "True" else "False"
    | UInt z => z_str z
    end.
  (** int(p) (bnwrite.py:72); int of a string is that of a token *)
  Definition uval_int (u : uval) : res Z :=
    match u with
    | UNum (Fin x) => Ok (Z.quot (Qnum x) (Zpos (Qden x)))
    | UNum NaN => Raise ValueError
    | UNum _ => Raise OverflowError
    | UState (SStr s) => int_of_token s
    | UState (SInt z) => Ok z
    | UState (SBool b) => Ok (if b then 1 else 0)%Z
    | UInt z => Ok z
    end.

  (** f.values_array(vorder).flatten() (bnwrite.py:70) *)
  Definition fo_flat (f : fobj) (order : list var) : res (list uval) :=
    match f with
    | FM f => let* a := mf_values_array f order in Ok (map UNum (flat a))
    | FD f => let* a := df_values_array f order in Ok (map UState (flat a))
    | FObj => Raise AttributeError
    end.
  (** bnwrite.py:55 [int_texts] *)
  Definition int_texts (l : list nat) : string := String.concat " " (map nat_str l).

  (** bnwrite.py:59-73: the line of values of [v]; [vorder] are the parents in
      reversed order and [v] *)
  Definition values_line (m : pgm) (causal : bool) (integer : list var) (v : var) (vorder : list var) : res string :=
    let* f := dlook v (m_factors m) in
    let* (f, vorder) :=
      (if causal && mem v (scm_endogenous m) then
         let* f := match f with
                   | Some (FD d) => Ok (FD d)
                   | Some (FM f) => let* d := mf_to_deterministic dflt f in Ok (FD d)
                   | _ => Raise AttributeError
                   end in
         Ok (f, filter (fun x => if eqd x v then false else true) vorder)
       else match f with Some f => Ok (f, vorder) | None => Raise AttributeError end) in
    let* values := fo_flat f vorder in
    let* values := (if mem v integer then mapM (fun p => let* z := uval_int p in Ok (UInt z)) values else Ok values) in
    Ok (nat_str (length values) ++ tab ++ String.concat " " (map uval_str values) ++ newline)%string.

  (** model.endogenous and model.exogenous are only defined for SCMs (bnwrite.py:36) *)
  Definition label_variables (m : pgm) (causal : bool) : res (list var) :=
    if causal then match m_kind m with
                   | KScm endo _ => Ok (endo ++ scm_exogenous m)
                   | KBn => Raise AttributeError
                   end
    else Ok (nodes (m_graph m)).

  (** the position of a variable in the list (variables.index(v)) (bnwrite.py:47) *)
  Definition var_idx (vars : list var) (v : var) : res nat :=
    match index_of v vars with Some i => Ok i | None => Raise KeyError end.

  (** bnwrite.py:31-83 [to_uai] *)
  Definition to_uai (m : pgm) (causal : bool) (integer : list var) (var_order : option (list var)) : res string :=
    let* vars0 := label_variables m causal in
    let vars := match var_order with Some (v :: r) => v :: r | _ => vars0 end in
    if negb (forallb (fun v => mem v vars) vars0 && forallb (fun v => mem v vars0) vars) then Raise ValueError else
    let* sizes := mapM (fun v => let* s := get_varsizes m (nodes (m_graph m)) in dlook v s) vars in
    let head := ((if causal then "CAUSAL" else "BAYES") ++ newline ++ nat_str (length vars) ++ newline ++
                 int_texts sizes ++ newline ++ nat_str (length (m_factors m)) ++ newline)%string in
    let* orders := mapM (fun v => let* ps := get_parents (m_graph m) [v] in Ok (rev ps ++ [v])) vars in
    let* lines := mapM (fun o => let* idx := mapM (var_idx vars) o in
                                 Ok (nat_str (length idx) ++ tab ++ int_texts idx ++ newline)%string) orders in
    let* values := mapM (fun vo => values_line m causal integer (fst vo) (snd vo)) (combine vars orders) in
    Ok (head ++ String.concat "" lines ++ newline ++ String.concat "" values)%string.

  (** scmwrite.py:16-17, pgmodel.py:75-78 [save] to a .uai file; a Bayesian
      network has no integer variables *)
  Definition save_uai (m : pgm) (var_order : option (list var)) : res string :=
    match m_kind m with
    | KBn => to_uai m false [] var_order
    | KScm endo _ => to_uai m true endo var_order
    end.

  (** ** The readers *)

  Section Read.
    Variables (prefix : string) (init_id : nat) (init_state : Z).

    (** bnread.py:57-60 [var_names] *)
    Definition var_names (n : nat) : list var := map (fun i => (prefix ++ nat_str (i + init_id))%string) (seq 0 n).
    (** bnread.py:57-60 [int_states] *)
    Definition int_states (c : Z) : list state := map (fun k => SInt (init_state + Z.of_nat k)) (seq 0 (Z.to_nat c)).

    (** bnread.py:66-73, scmread.py:54-61: the arcs into [v] *)
    Definition read_arcs (names : list var) (v : var) (ts : list string) : res (list (var * var) * list string) :=
      let* (n, ts) := next_int ts in
      let* (ps, ts) := nexts (fun ts => let* (i, ts) := next_int ts in let* p := py_index names i in Ok (p, ts)) (Z.to_nat (n - 1)) ts in
      let* (i, ts) := next_int ts in
      let* w := py_index names i in
      if eqd w v then Ok (map (fun p => (p, v)) ps, ts) else Raise AssertionError.
    (** the loops over the variables (bnread.py:66-82) *)
    Fixpoint for_vars {A} (f : var -> list string -> res (A * list string)) (vs : list var) (ts : list string) : res (list A * list string) :=
      match vs with
      | [] => Ok ([], ts)
      | v :: r => let* (x, ts) := f v ts in let* (xs, ts) := for_vars f r ts in Ok (x :: xs, ts)
      end.

    (** domainutils.py:88-92 [var_parents_domain] *)
    Definition var_parents_domain (dom : domain) (g : digraph) (v : var) : res domain :=
      let* vs := relevat_vars g v in
      let* l := mapM (fun w => let* x := dlook w dom in Ok (w, x)) vs in
      Ok (dict_of l).

    (** factor.py:150 with a string as `left_vars`: `v not in left_vars` is a
        substring test *)
    Definition right_of_name (dom : domain) (v : var) : list var := filter (fun w => negb (substr_of w v)) (keys dom).

    (** bnread.py:81 [next_float] *)
    Definition next_float (ts : list string) : res (num * list string) :=
      let* (t, r) := next ts in let* x := fparse t in Ok (x, r).

    (** bnread.py:79-82 *)
    Definition read_table (dom : domain) (g : digraph) (v : var) (ts : list string) : res ((var * fobj) * list string) :=
      let* (n, ts) := next_int ts in
      let* (values, ts) := nexts next_float (Z.to_nat n) ts in
      let* d := var_parents_domain dom g v in
      let* f := mf_init d (flist values) None (Some (right_of_name d v)) dflt in
      Ok ((v, FM f), ts).

    (** A float as a state of a DeterministicFactor: 1.0 is the same state as 1.
        Other floats are not modelled. (scmread.py:69-73) *)
    Definition float_state (x : num) : res state :=
      match x with
      | Fin q => if (Zpos (Qden q) =? 1)%Z then Ok (SInt (Qnum q)) else Raise Unmodelled
      | _ => Raise Unmodelled
      end.
    (** scmread.py:67-73 *)
    Definition read_equation (dom : domain) (g : digraph) (v : var) (ts : list string) : res ((var * fobj) * list string) :=
      let* (n, ts) := next_int ts in
      let* (values, ts) := nexts next_float (Z.to_nat n) ts in
      let* ps := predecessors g v in
      let* d := var_parents_domain dom g v in
      match ps with
      | [] => let* f := mf_init d (flist values) None (Some (right_of_name d v)) dflt in Ok ((v, FM f), ts)
      | _ => let* states := mapM float_state values in
             let* f := df_init d (mkNd [length states] states) None (Some (right_of_name d v)) dflt in Ok ((v, FD f), ts)
      end.

    (** the first line without spaces must be a substring of the label
        (bnread.py:42-45, scmread.py:30-33) *)
    Fixpoint first_line (t : string) : string :=
      match t with
      | EmptyString => ""
      | String c r => if Ascii.eqb c (ascii_of_nat 10) then ""
                      else if Ascii.eqb c " " then first_line r else String c (first_line r)
      end.

    (** the common part of the two readers up to the factors (bnread.py:54-75,
        scmread.py:42-63) *)
    Definition read_structure (ts : list string) : res ((list var * domain * digraph) * list string) :=
      let* (n, ts) := next_int ts in
      let names := var_names (Z.to_nat n) in
      let* (card, ts) := nexts next_int (length names) ts in
      let dom := dict_of (combine names (map int_states card)) in
      let* (nf, ts) := next_int ts in
      if negb (nf =? n)%Z then Raise AssertionError else
      let* (arcs, ts) := for_vars (read_arcs names) names ts in
      Ok ((names, dom, graph_of (concat arcs)), ts).

    (** bnread.py:35-84 [from_uai] *)
    Definition bn_from_uai (text : string) : res pgm :=
      if negb (substr_of (first_line text) "BAYES") then Raise ValueError else
      let* (s, ts) := read_structure (numbers match_plain text) in
      let '(names, dom, dag) := s in
      let* (factors, _) := for_vars (read_table dom dag) names ts in
      bn_init (GDag dag) (Some (FsDict (dict_of factors))) true.

    (** scmread.py:23-77 [from_uai] *)
    Definition scm_from_uai (text : string) (cast : bool) : res pgm :=
      if negb (substr_of (first_line text) "CAUSAL") then Raise ValueError else
      let* (s, ts) := read_structure (numbers match_exp text) in
      let '(names, dom, dag) := s in
      let* (factors, _) := for_vars (read_equation dom dag) names ts in
      scm_init (GDag dag) (Some (FsDict (dict_of factors))) None cast true.
  End Read.

  (** pgmodel.py:89-93 [read] of a .uai file, with the defaults of the readers *)
  Definition bn_read_uai (text : string) : res pgm := bn_from_uai "V" 0 0 text.
  (** scmread.py:23-77, pgmodel.py:89-93 [scm_read_uai] *)
  Definition scm_read_uai (text : string) : res pgm := scm_from_uai "V" 0 0 text true.
End Uai.
