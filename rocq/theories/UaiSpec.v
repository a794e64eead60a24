(** What the statements about UAI files mean. *)

From Coq Require Import String Ascii Bool Arith ZArith QArith Qcanon DecimalString List.
From Verif Require Import PyBase Num DomainModel NdArray StoreModel NumStore FactorModel GraphModel ModelModel
  Spec StoreSpec FactorSpec GraphSpec ModelSpec NetSpec.
Import ListNotations.
Local Open Scope nat_scope.
Local Open Scope string_scope.
Local Open Scope list_scope.

(** A number written in plain decimal notation: a minus sign or nothing, digits,
    and possibly a point and digits (no exponent, not nan or inf). *)
Definition digits (s : string) : Prop :=
  s <> "" /\ forall c, In c (list_ascii_of_string s) -> 48 <= nat_of_ascii c <= 57.
Definition plain_text (t : string) : Prop :=
  exists s a b, (s = "" \/ s = "-") /\ digits a /\ (b = "" \/ exists d, digits d /\ b = ("." ++ d)%string) /\
    t = (s ++ a ++ b)%string.

(** A number in plain or in scientific notation with a capital E. *)
Definition sci_text (t : string) : Prop :=
  plain_text t \/ exists a s d, plain_text a /\ (s = "" \/ s = "-" \/ s = "+") /\ digits d /\ t = (a ++ "E" ++ s ++ d)%string.
(** The decimal digits of a number. *)
Definition decimal (n : nat) : string := NilEmpty.string_of_uint (Nat.to_uint n).

(** The name that the [i]-th variable gets: V0, V1, ... *)
Definition uai_name (i : nat) : var := ("V" ++ decimal i)%string.
(** [v] is the [i]-th variable of the order, and gets the name [n]. *)
Definition renamed (order : list var) (v n : var) : Prop := exists i, nth_error order i = Some v /\ n = uai_name i.

(** The network [m] has the table [F v] for every node [v]; the variables and
    states are [D].  (The tables need not be normalised.) *)
Definition tabled (m : pgm) (D : domain) (F : var -> mfactor) : Prop :=
  wf_graph (m_graph m) /\ acyclic (m_graph m) /\ wf_dom D /\
  same_set (keys D) (nodes (m_graph m)) /\
  NoDup (keys (m_factors m)) /\ same_set (keys (m_factors m)) (nodes (m_graph m)) /\
  (forall v, In v (nodes (m_graph m)) ->
     stored m v (FM (F v)) /\ wf_mf (F v) /\
     same_set (mf_left (F v)) [v] /\ same_set (mf_right (F v)) (preds (m_graph m) v) /\
     (forall w l, In (w, l) (mf_domain (F v)) -> In (w, l) D)).
(** The states recorded in the model are those of [D]. *)
Definition records (m : pgm) (D : domain) : Prop :=
  NoDup (keys (m_domains m)) /\ same_set (keys (m_domains m)) (nodes (m_graph m)) /\
  forall v, In v (nodes (m_graph m)) -> exists l, has_domain m v l /\ In (v, l) D.

(** The order in which the variables are written: the one that was given, or
    that of the model. *)
Definition is_order (m : pgm) (default : list var) (arg : option (list var)) (order : list var) : Prop :=
  NoDup order /\ same_set order (nodes (m_graph m)) /\ order <> [] /\
  match arg with None => order = default | Some l => order = l end.

(** No variable without arcs. *)
Definition no_isolated (g : digraph) : Prop := forall v, In v (nodes g) -> exists w, arc g v w \/ arc g w v.
(** The number of [x] in the order is not an initial part of the number of its
    child [y]: not 1 and 10, for example. *)
Definition no_clash (g : digraph) (order : list var) : Prop :=
  forall x y i j t, arc g x y -> nth_error order i = Some x -> nth_error order j = Some y ->
    decimal j <> (decimal i ++ t)%string.

(** The assignment of the new variables that corresponds to [o]: the state of
    the [i]-th variable is replaced by its position among the states in [D]. *)
Definition corresponds (order : list var) (D : domain) (o o' : obs) : Prop :=
  forall i v l k s, nth_error order i = Some v -> In (v, l) D -> dget v o = Some s -> nth_error l k = Some s ->
    dget (uai_name i) o' = Some (SInt (Z.of_nat k)).

(** The new model has the graph of [g], with the new names. *)
Definition same_structure (order : list var) (g g' : digraph) : Prop :=
  wf_graph g' /\
  (forall n, In n (nodes g') <-> exists v, In v (nodes g) /\ renamed order v n) /\
  (forall a b, arc g' a b <-> exists x y, arc g x y /\ renamed order x a /\ renamed order y b).

(** The new table [f'] has the variables of [f] with the new names and states 0,
    1, ..., and the values of [f] at the corresponding assignments. *)
Definition same_table (order : list var) (D : domain) (f f' : mfactor) : Prop :=
  wf_mf f' /\
  (forall n ks, In (n, ks) (mf_domain f') <-> exists v l, In (v, l) (mf_domain f) /\ renamed order v n /\
      ks = map (fun k => SInt (Z.of_nat k)) (seq 0 (length l))) /\
  (forall n, In n (mf_left f') <-> exists v, In v (mf_left f) /\ renamed order v n) /\
  (forall n, In n (mf_right f') <-> exists v, In v (mf_right f) /\ renamed order v n) /\
  forall o o', full (mf_domain f) o -> corresponds order D o o' ->
    exists x, mf_get_value f o = Ok x /\ mf_get_value f' o' = Ok x.

(** The values of the table are written in plain notation and read back as they
    were. *)
Definition writable (fstr : num -> string) (fparse : string -> res num) (f : mfactor) : Prop :=
  forall o x, full (mf_domain f) o -> mf_get_value f o = Ok x -> plain_text (fstr x) /\ fparse (fstr x) = Ok x.

(** The state [s] is the number [k], as python's int() sees it. *)
Definition reads_as (s : state) (k : nat) : Prop :=
  s = SInt (Z.of_nat k) \/ s = SStr (decimal k) \/ (s = SBool false /\ k = 0) \/ (s = SBool true /\ k = 1).

(** Whole numbers are read as such. *)
Definition reads_naturals (fparse : string -> res num) : Prop :=
  forall k, fparse (decimal k) = Ok (Fin (Q2Qc (inject_Z (Z.of_nat k)))).
(** Every variable of [vs] has a parent. *)
Definition with_parents (g : digraph) (vs : list var) : Prop := forall v, In v vs -> exists p, arc g p v.
(** The states of the variables with a DeterministicFactor are 0, 1, ... *)
Definition counted_states (m : pgm) (D : domain) : Prop :=
  forall v d l i s, stored m v (FD d) -> In (v, l) D -> nth_error l i = Some s -> reads_as s i.
(** The variable [v] has no arcs. *)
Definition isolated (g : digraph) (v : var) : Prop := In v (nodes g) /\ forall w, ~ (arc g v w \/ arc g w v).
(** The number of [x] is an initial part of the number of its child [y]. *)
Definition clash (g : digraph) (order : list var) (x y : var) : Prop :=
  arc g x y /\ exists i j t, nth_error order i = Some x /\ nth_error order j = Some y /\ decimal j = (decimal i ++ t)%string.
