(** Vocabulary of the statements about the Q-factorisation. *)

From Coq Require Import String ZArith QArith Qcanon List.
From Verif Require Import PyBase Num DomainModel NdArray StoreModel FactorModel GraphModel ModelModel Spec FactorSpec GraphSpec ModelSpec NetSpec LearnModel DataSpec EmSpec.
Import ListNotations.

(** A causal model all of whose factors are tables, over the variables and
    states [D]: the endogenous variables [endo] are nodes, every variable with
    a parent is endogenous, and no entry is negative. *)
Definition causal_tables (m : pgm) (D : domain) (F : var -> mfactor) (vt : vtype) (endo : list var) : Prop :=
  network m D F vt /\ nonnegative D F /\ (exists cast, m_kind m = KScm endo cast) /\
  incl endo (nodes (m_graph m)) /\ (forall x y, arc (m_graph m) x y -> In y endo).
(** Every endogenous variable has an exogenous parent. *)
Definition all_disturbed (g : digraph) (endo : list var) : Prop :=
  forall v, In v endo -> exists u, arc g u v /\ ~ In u endo.
(** A function that sorts the nodes of acyclic graphs topologically. *)
Definition sorts (topo : digraph -> list var) : Prop := forall g, wf_graph g -> acyclic g -> topological g (topo g).
(** A function that chooses an element of every set that is not empty. *)
Definition pops (pop : list var -> var) : Prop := forall c, c <> [] -> In (pop c) c.

(** The quotient that a store of the kind [vt] holds: 0/0 is 0 in numpy stores
    and nan in the others. *)
Definition quotient (vt : vtype) (a b : Qc) : num :=
  if Qc_eq_dec b 0 then match vt with VNumpy => Fin 0%Qc | _ => NaN end else Fin (a / b)%Qc.
(** The table of [x] given [ps] for the weights [W] of observations. *)
Definition table_given (D : domain) (vt : vtype) (W : obs -> Qc) (x : var) (ps : list var) (f : mfactor) : Prop :=
  wf_mf f /\ mf_vtype f = vt /\ same_set (mf_left f) [x] /\ same_set (mf_right f) ps /\
  (forall v l, In (v, l) (mf_domain f) -> In (v, l) D) /\
  (forall t c, assigns D [x] t -> assigns D ps c -> mf_get_value f (t ++ c) = Ok (quotient vt (W (t ++ c)) (W c))).
(** The part of an observation about the variables [vs]. *)
Definition part (vs : list var) (o : obs) : obs := filter (fun p => mem (fst p) vs) o.

(** A data frame without missing values, with columns for at least the
    variables [vs], whose cells are states of [D]. *)
Definition full_data (D : domain) (data : frame) (vs : list var) : Prop :=
  wf_frame data /\ incl vs (f_cols data) /\ complete data D (f_cols data).
(** Logarithms of positive numbers: they turn products into sums. *)
Definition logarithm {L : Type} (l0 : L) (ladd : L -> L -> L) (lg : Qc -> L) : Prop :=
  (forall x y z, ladd x (ladd y z) = ladd (ladd x y) z) /\ (forall x y, ladd x y = ladd y x) /\ (forall x, ladd l0 x = x) /\
  lg 1%Qc = l0 /\ (forall a b, (0 < a)%Qc -> (0 < b)%Qc -> lg (a * b)%Qc = ladd (lg a) (lg b)).
(** The probability of what the rows say about the variables [vs]. *)
Definition likelihood_of (D : domain) (F : var -> mfactor) (data : frame) (vs : list var) : Qc :=
  product_of (map (fun r => mass D F (part vs (row_obs data r))) (f_rows data)).

(** The probability of the rows if each variable follows the relative
    frequencies given its parents in the graph [q]. *)
Definition empirical (q : digraph) (data : frame) : Qc :=
  product_of (map (fun r => product_of (map (fun v =>
      ratio (count data (part (v :: preds q v) (row_obs data r))) (count data (part (preds q v) (row_obs data r)))) (nodes q)))
    (f_rows data)).
