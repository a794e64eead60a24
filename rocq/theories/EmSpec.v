(** Vocabulary of the statements about likelihood and relevant evidence. *)

From Coq Require Import String Bool Arith ZArith QArith Qcanon List.
From Verif Require Import PyBase Num DomainModel NdArray StoreModel NumStore FactorModel GraphModel ModelModel InferModel
  LearnModel Spec StoreSpec FactorSpec GraphSpec ModelSpec NetSpec LearnSpec.
Import ListNotations.
Local Open Scope nat_scope.

(** ** Which evidence bears on a variable *)

(** [x] is one of [S] or an ancestor of one. *)
Definition ancestral (g : digraph) (S : list var) (x : var) : Prop := exists s, In s S /\ reach g x s.
(** An arc out of an unobserved variable into an ancestor of [S]. *)
Definition open_arc (g : digraph) (E S : list var) (x y : var) : Prop := arc g x y /\ ~ In x E /\ ancestral g S y.
(** The observed variable [w] is d-connected with [v] given the other observed
    ones: it, or one of its children, is linked with [v] by open arcs. *)
Definition bears_on (g : digraph) (v : var) (E : list var) (w : var) : Prop :=
  In w E /\ exists c, (c = w \/ arc g w c) /\ linked (open_arc g E (v :: E)) v c.

(** ** The likelihood of a table of data *)

(** What a row of the data says: the cells that are not missing. *)
Definition row_obs (data : frame) (r : list (option state)) : obs := LearnModel.known (row_dict (f_cols data) r).
(** The product over the rows of the probability of what they say. *)
Definition likelihood (D : domain) (F : var -> mfactor) (data : frame) : Qc :=
  product_of (map (fun r => mass D F (row_obs data r)) (f_rows data)).

(** In every row exactly the variables [E] are observed, in states of [D]. *)
Definition observes (D : domain) (data : frame) (E : list var) : Prop :=
  NoDup (f_cols data) /\ incl E (keys D) /\
  forall r, In r (f_rows data) ->
    length r = length (f_cols data) /\ keys (row_obs data r) = E /\ known D (row_obs data r).

(** An inference method that answers a query with the posterior distribution of
    the targets, whenever the evidence is possible. *)
Definition exact_query (query : pgm -> list var -> obs -> res mfactor) : Prop :=
  forall m D F vt T e, network m D F vt -> NoDup T -> T <> [] -> incl T (nodes (m_graph m)) ->
    incl (keys e) (nodes (m_graph m)) -> (forall v, In v T -> ~ In v (keys e)) -> mass D F e <> 0%Qc ->
    exists r, query m T e = Ok r /\ wf_mf r /\ mf_vtype r = vt /\ same_set (mf_vars r) T /\
      (forall v l, In (v, l) (mf_domain r) -> In (v, l) D) /\
      forall t, assigns D T t -> mf_get_value r t = Ok (Fin (mass D F (t ++ e) / mass D F e)%Qc).

(** The states that a model records for its variables are those of [D]. *)
Definition describes (D : domain) (m : pgm) : Prop :=
  NoDup (keys (m_domains m)) /\ forall v l, In (v, l) D -> has_domain m v l.

(** A variable that a step of the learner can train: it is a node, neither it
    nor its parents are observed, and every combination of states of the
    parents is possible together with some row of the data. *)
Definition learnable (D : domain) (F : var -> mfactor) (g : digraph) (data : frame) (E : list var) (v : var) : Prop :=
  In v (nodes g) /\ ~ In v E /\ (forall x, arc g x v -> ~ In x E) /\
  forall t, assigns D (preds g v) t -> exists r, In r (f_rows data) /\ mass D F (t ++ row_obs data r) <> 0%Qc.
(** A learner in the middle of a run on the data: its model is a network with
    the graph of the prior model, whose tables [F] make every row possible, and
    the variables to train are nodes. *)
Definition set_up (D : domain) (vt : vtype) (data : frame) (l : learner em_state) (m : pgm) (F : var -> mfactor) : Prop :=
  l_model l = Some m /\ network m D F vt /\ nonnegative D F /\
  m_graph (l_prior l) = m_graph m /\ describes D (l_prior l) /\
  em_data (l_sub l) = Some (m_graph m, data) /\
  (forall r, In r (f_rows data) -> mass D F (row_obs data r) <> 0%Qc) /\
  exists tr, em_trainable (l_sub l) = Some tr /\ incl tr (nodes (m_graph m)).
(** ... and the variables that it still trains are learnable. *)
Definition ready (D : domain) (vt : vtype) (E : list var) (data : frame) (l : learner em_state) (m : pgm) (F : var -> mfactor) : Prop :=
  set_up D vt data l m F /\ forall v, trains l v -> ~ has_converged l v -> learnable D F (m_graph m) data E v.
(** Some observed variable bears on [v]. *)
Definition informed (g : digraph) (E : list var) (v : var) : Prop := exists w, bears_on g v E w.

(** The models [ms], starting from the tables [F], are networks under which the
    data becomes more and more likely. *)
Fixpoint rises (D : domain) (vt : vtype) (data : frame) (F : var -> mfactor) (ms : list pgm) : Prop :=
  match ms with
  | [] => True
  | m :: ms => exists F', network m D F' vt /\ nonnegative D F' /\ (likelihood D F data <= likelihood D F' data)%Qc /\
                          rises D vt data F' ms
  end.
(** The variables that a run trains: those given to the learner, if any, else
    those that are not observed. *)
Definition to_train (tr : option (list var)) (g : digraph) (data : frame) (E : list var) (v : var) : Prop :=
  match tr with
  | Some (x :: r) => In v (x :: r)
  | _ => ~ In v E /\ (In v (nodes g) \/ In v (f_cols data))
  end.
(** A step of the learner succeeds, but the data is less likely afterwards. *)
Definition falls (query : pgm -> list var -> obs -> res mfactor) (set_iter : list var -> list var)
    (D : domain) (vt : vtype) (data : frame) (l : learner em_state) (F : var -> mfactor) : Prop :=
  exists l' m' F', em_step query set_iter vt l None = (l', None) /\ l_model l' = Some m' /\
    network m' D F' vt /\ nonnegative D F' /\ (likelihood D F' data < likelihood D F data)%Qc.
