(** Vocabulary of the statements about the fusion of models at common roots. *)

From Coq Require Import String ZArith QArith Qcanon List.
From Verif Require Import PyBase Num DomainModel NdArray StoreModel FactorModel GraphModel ModelModel
  Spec FactorSpec GraphSpec ModelSpec NetSpec.
Import ListNotations.

(** A model with the states of its variables and its tables. *)
Definition part : Type := (pgm * domain * (var -> mfactor))%type.
Definition p_model (p : part) : pgm := fst (fst p).
Definition p_dom (p : part) : domain := snd (fst p).
Definition p_tab (p : part) : var -> mfactor := snd p.
Definition p_node (p : part) (x : var) : Prop := In x (nodes (m_graph (p_model p))).
Definition p_arc (p : part) (x y : var) : Prop := arc (m_graph (p_model p)) x y.

(** The networks [p0] and [ps] have the nodes [on] in common, with the same
    states and without parents, and no other nodes. *)
Definition fusable (vt : vtype) (on : list var) (p0 : part) (ps : list part) : Prop :=
  (forall p, In p (p0 :: ps) -> network (p_model p) (p_dom p) (p_tab p) vt /\
     (forall x, In x on -> p_node p x /\ forall y, ~ p_arc p y x)) /\
  (forall p x l, In p ps -> In x on -> In (x, l) (p_dom p) -> In (x, l) (p_dom p0)) /\
  ForallOrdPairs (fun p q => forall x, p_node p x -> p_node q x -> In x on) (p0 :: ps).

(** [x] is a node of [p] outside [on] without arcs. *)
Definition lonely (on : list var) (p : part) (x : var) : Prop :=
  p_node p x /\ ~ In x on /\ forall y, ~ p_arc p x y /\ ~ p_arc p y x.

(** [x] must be given by a function if [endo] are the endogenous variables: it
    is one of them, or has parents if there are none. *)
Definition must_decide (endo : list var) (p : part) (x : var) : Prop :=
  match endo with [] => exists y, p_arc p y x | _ => In x endo end.
(** All models are Bayesian networks, and no endogenous variables are given, or
    all are causal models; the result has those of the first model if no
    others are given. *)
Definition one_class (endo : option (list var)) (p0 : part) (ps : list part) : Prop :=
  (endo = None /\ forall p, In p (p0 :: ps) -> m_kind (p_model p) = KBn) \/
  (exists e0 c0, m_kind (p_model p0) = KScm e0 c0 /\
     (forall p, In p ps -> exists e c, m_kind (p_model p) = KScm e c) /\
     forall p x, In p (p0 :: ps) -> p_node p x -> must_decide (match endo with Some e => e | None => e0 end) p x ->
       zero_one (p_tab p x)).

(** The network of [m], with states [D] and tables [F], unites the models: it
    has all their arcs and variables, the tables of the first model at [on] and
    those of the models elsewhere. *)
Definition united (on : list var) (p0 : part) (ps : list part) (m : pgm) (D : domain) (F : var -> mfactor) : Prop :=
  (forall x y, arc (m_graph m) x y <-> exists p, In p (p0 :: ps) /\ p_arc p x y) /\
  (forall x l, In (x, l) D <-> exists p, In p (p0 :: ps) /\ In (x, l) (p_dom p)) /\
  (forall x, In x on -> F x = p_tab p0 x) /\
  (forall p x, In p (p0 :: ps) -> p_node p x -> ~ In x on -> F x = p_tab p x).

(** The tables of [p], those of [on] taken from [p0]. *)
Definition with_roots (on : list var) (p0 p : part) (x : var) : mfactor :=
  if mem x on then p_tab p0 x else p_tab p x.
