(** Properties C52 to C54: d-separation, independence and Markov blankets. *)

From Coq Require Import String Ascii Bool Arith ZArith QArith Qcanon List.
From Verif Require Import PyBase PyFacts Num DomainModel NdArray StoreModel NumStore FactorModel GraphModel ModelModel InferModel LearnModel BlanketModel
  Spec StoreSpec FactorSpec GraphSpec ModelSpec NetSpec LearnSpec EmSpec SepSpec SepFacts1 SepFacts3 Checks FactorChecks GraphChecks OrderSpec InferChecks
  CausalChecks LearnChecks EmChecks SepChecks.
Import ListNotations.
Local Open Scope nat_scope.
Local Open Scope string_scope.
Local Open Scope list_scope.

(** ** C52 *)
(** The test for sets of nodes answers False exactly if there is an active
    trail. *)
Theorem C52_test : forall g X Y Z, wf_graph g -> acyclic g -> incl (X ++ Y ++ Z) (nodes g) ->
  (forall v, In v (X ++ Y) -> ~ In v Z) ->
  exists b, d_separated g X Y Z = Ok b /\ (b = false <-> exists x y, In x X /\ In y Y /\ d_connected g Z x y).
Proof. exact d_separated_trails. Qed.
Print Assumptions C52_test.
(** The nodes separated from the target, each given the other evidence nodes. *)
Theorem C52_separated : forall g t E, wf_graph g -> acyclic g -> In t (nodes g) -> incl E (nodes g) -> ~ In t E ->
  exists l, dsep_nodes g t E = Ok l /\ NoDup l /\
    forall w, In w l <-> In w (nodes g) /\ ~ d_connected g (all_but w E) t w.
Proof. exact dsep_nodes_ok. Qed.
Print Assumptions C52_separated.
(** The nodes connected with it, without itself. *)
Theorem C52_connected : forall g t E, wf_graph g -> acyclic g -> In t (nodes g) -> incl E (nodes g) -> ~ In t E ->
  exists l, dcon_nodes g t E = Ok l /\ NoDup l /\
    forall w, In w l <-> In w (nodes g) /\ w <> t /\ d_connected g (all_but w E) t w.
Proof. exact dcon_nodes_ok. Qed.
Print Assumptions C52_connected.
(** Unknown nodes and cyclic graphs are rejected. *)
Theorem C52_rejected : forall g t E, wf_graph g -> nodes g <> [] ->
  (acyclic g -> (exists v, In v (t :: E) /\ ~ In v (nodes g)) ->
     dsep_nodes g t E = Raise NodeNotFound /\ dcon_nodes g t E = Raise NodeNotFound) /\
  (~ acyclic g -> dsep_nodes g t E = Raise NetworkXError /\ dcon_nodes g t E = Raise NetworkXError).
Proof. exact dsep_nodes_raises. Qed.
Print Assumptions C52_rejected.

(** S -> L, S -> B, L -> X, L -> D, B -> D: a fork and a collider. *)
Example C52_case :
  (wf_graph g_asia /\ acyclic g_asia) /\
  d_separated g_asia ["L"] ["B"] ["S"] = Ok true /\ d_separated g_asia ["L"] ["B"] ["S"; "D"] = Ok false /\
  d_separated g_asia ["L"] ["B"] [] = Ok false /\
  dsep_nodes g_asia "L" ["S"] = Ok ["B"] /\ dcon_nodes g_asia "L" ["S"] = Ok ["S"; "X"; "D"] /\
  dcon_nodes g_asia "L" ["S"; "Q"] = Raise NodeNotFound /\
  d_connected g_asia ["S"; "D"] "L" "B".
Proof. exact (conj asia_dag (conj sep1 (conj sep2 (conj sep3 (conj sep4 (conj sep5 (conj sep6 trail1))))))). Qed.

(** ** C53 *)
(** If the test answers True then the variables are independent given the
    evidence in every network with that graph. *)
Theorem C53_independent : forall m D F vt X Y Z, network m D F vt ->
  (forall v, In v (X ++ Y) -> ~ In v Z) -> d_separated (m_graph m) X Y Z = Ok true -> independent_in D F X Y Z.
Proof. exact separated_independent. Qed.
Print Assumptions C53_independent.
(** The observations of a row that the filter of the learner keeps are those of
    variables connected with the target given the other ones, and they leave
    the posterior distribution of the target as it is. *)
Theorem C53_filter : forall m D F vt v d, network m D F vt -> In v (nodes (m_graph m)) ->
  Spec.known D (LearnModel.known d) -> incl (keys (LearnModel.known d)) (nodes (m_graph m)) -> ~ In v (keys (LearnModel.known d)) ->
  exists e1, dsep_filter (m_graph m) v d = Ok e1 /\
    (forall w s, In (w, s) e1 <-> In (w, s) (LearnModel.known d) /\
       d_connected (m_graph m) (all_but w (keys (LearnModel.known d))) v w) /\
    forall t, assigns D [v] t ->
      (mass D F (t ++ LearnModel.known d) * mass D F e1 = mass D F (t ++ e1) * mass D F (LearnModel.known d))%Qc.
Proof. exact dsep_filter_keeps. Qed.
Print Assumptions C53_filter.

(** U -> V -> X: U and X are independent given V, but not without it; the filter
    drops X from a row with V and X. *)
Example C53_case :
  network m_ch D_ch F_ch VNumpy /\
  d_separated (m_graph m_ch) ["U"] ["X"] ["V"] = Ok true /\ ~ independent_in D_ch F_ch ["U"] ["X"] [] /\
  dsep_filter (m_graph m_ch) "U" [("V", Some (SInt 1)); ("X", Some (SInt 0))] = Ok [("V", SInt 1)].
Proof. exact (conj ch_network (conj ch_sep (conj ch_dependent ch_filter))). Qed.

(** ** C54 *)
(** With hidden variables: the nodes connected with [v] given the other nodes
    that are not hidden, ... *)
Theorem C54_hidden : forall g v h O, wf_graph g -> acyclic g -> In v (nodes g) -> h <> [] ->
  O = all_but v (filter (fun x => negb (mem x h)) (nodes g)) ->
  exists l, markov_blanket_hidden g v (Some h) = Ok l /\ NoDup l /\
    forall w, In w l <-> In w (nodes g) /\ w <> v /\ d_connected g (all_but w O) v w.
Proof. exact hidden_blanket_nodes. Qed.
Print Assumptions C54_hidden.
(** ... so that the observed nodes of the blanket make [v] independent of the
    other observed nodes. *)
Theorem C54_hidden_shields : forall m D F vt v h l Y Z, network m D F vt -> In v (nodes (m_graph m)) -> h <> [] ->
  markov_blanket_hidden (m_graph m) v (Some h) = Ok l ->
  (forall x, In x Y <-> In x (nodes (m_graph m)) /\ x <> v /\ ~ In x h /\ ~ In x l) ->
  (forall x, In x Z <-> In x (nodes (m_graph m)) /\ x <> v /\ ~ In x h /\ In x l) ->
  independent_in D F [v] Y Z.
Proof. exact hidden_blanket_shields. Qed.
Print Assumptions C54_hidden_shields.
(** Without hidden variables the blanket makes [v] independent of all other
    nodes. *)
Theorem C54_shields : forall m D F vt v l Y Z, network m D F vt -> In v (nodes (m_graph m)) ->
  markov_blanket (m_graph m) v = Ok l ->
  (forall x, In x Y <-> In x (nodes (m_graph m)) /\ x <> v /\ ~ In x l) ->
  (forall x, In x Z <-> In x l) ->
  independent_in D F [v] Y Z.
Proof. exact blanket_shields. Qed.
Print Assumptions C54_shields.
(** No hidden variables is the same as the usual blanket; an unknown variable
    is rejected in either case. *)
Theorem C54_no_hidden : forall g v, markov_blanket_hidden g v None = markov_blanket g v /\ markov_blanket_hidden g v (Some []) = markov_blanket g v.
Proof. exact no_hidden. Qed.
Print Assumptions C54_no_hidden.
Theorem C54_rejected : forall g v h, wf_graph g -> acyclic g -> nodes g <> [] -> ~ In v (nodes g) -> h <> [] ->
  markov_blanket_hidden g v (Some h) = Raise NodeNotFound.
Proof. exact hidden_unknown. Qed.
Print Assumptions C54_rejected.
(** The blanket may contain hidden variables themselves. *)
Theorem C54_hidden_members_refuted : exists g v h l w, wf_graph g /\ acyclic g /\ In v (nodes g) /\
  markov_blanket_hidden g v (Some h) = Ok l /\ In w h /\ In w l.
Proof. exact hidden_member. Qed.
Print Assumptions C54_hidden_members_refuted.

Example C54_case :
  markov_blanket g_asia "L" = Ok ["X"; "D"; "S"; "B"] /\
  markov_blanket_hidden g_asia "L" (Some ["D"]) = Ok ["S"; "X"; "D"] /\
  markov_blanket_hidden g_asia "L" (Some ["S"]) = Ok ["S"; "B"; "X"; "D"] /\
  markov_blanket_hidden (m_graph m_ch) "U" (Some ["V"]) = Ok ["V"; "X"] /\
  markov_blanket_hidden g_asia "Q" (Some ["S"]) = Raise NodeNotFound.
Proof. exact (conj bl1 (conj bl2 (conj bl3 (conj bl4 bl5)))). Qed.
