(** Theorems about converting causal models and Bayesian networks into each
    other, and about giving models random tables. *)

From Coq Require Import String ZArith QArith Qcanon List.
From Verif Require Import PyBase Num DomainModel NdArray StoreModel NumStore FactorModel GenModel GenSpec GraphModel ModelModel InferModel CausalModel UaiModel
  LearnModel AggModel Spec FactorSpec GraphSpec ModelSpec NetSpec CausalSpec InferChecks CausalChecks
  ConvModel ConvSpec ConvFacts ConvFacts2 ConvFacts3 ConvChecks.
Import ListNotations.
Local Open Scope nat_scope.
Local Open Scope string_scope.
Local Open Scope list_scope.

(** ** C58 *)
(** StructuralCausalModel.to_multinomial: all factors become tables with the
    same entries; the endogenous variables are the ones with parents. *)
Theorem C58_to_multinomial : forall m D F vt endo cast, causal m D F vt endo cast -> plain_roots m ->
  exists m1 F1 endo1, scm_to_multinomial m = Ok m1 /\ causal m1 D F1 vt endo1 true /\ m_graph m1 = m_graph m /\
    children_of (m_graph m) endo1 /\ (forall v, In v (nodes (m_graph m)) -> stored m1 v (FM (F1 v))) /\
    same_tables D F F1 /\ keeps_tables m m1.
Proof. exact to_multinomial_ok. Qed.
Print Assumptions C58_to_multinomial.

(** StructuralCausalModel.to_bnet *)
Theorem C58_to_bnet : forall m D F vt endo cast, causal m D F vt endo cast -> plain_roots m -> incl endo (nodes (m_graph m)) ->
  exists b F1, scm_to_bnet m = Ok b /\ network b D F1 vt /\ m_kind b = KBn /\ m_graph b = m_graph m /\
    same_tables D F F1 /\ keeps_tables m b.
Proof. exact to_bnet_ok. Qed.
Print Assumptions C58_to_bnet.

(** conversion.causal_to_bnet *)
Theorem C58_causal_to_bnet : forall m D F vt endo cast, causal m D F vt endo cast ->
  exists b F1, causal_to_bnet m = Ok b /\ network b D F1 vt /\ m_kind b = KBn /\ m_graph b = m_graph m /\
    same_tables D F F1 /\ keeps_tables m b.
Proof. exact causal_to_bnet_ok. Qed.
Print Assumptions C58_causal_to_bnet.

(** The joint distribution is the same. *)
Theorem C58_joint : forall D F F', wf_dom D -> same_tables D F F' ->
  (forall o, full D o -> joint F' (keys D) o = joint F (keys D) o) /\ forall o, mass D F' o = mass D F o.
Proof. exact same_joint. Qed.
Print Assumptions C58_joint.

(** conversion.bnet_to_causal, and StructuralCausalModel.from_model, which has
    the same body: the network must be made of functions. *)
Theorem C58_bnet_to_causal : forall b D F vt, network b D F vt -> (forall x v, arc (m_graph b) x v -> zero_one (F v)) ->
  exists m endo, bnet_to_causal b = Ok m /\ causal m D F vt endo true /\ m_graph m = m_graph b /\
    children_of (m_graph b) endo /\ (forall v, In v (nodes (m_graph b)) -> stored m v (FM (F v))).
Proof. exact from_network. Qed.
Print Assumptions C58_bnet_to_causal.
Theorem C58_not_functions_raises : forall b D F vt x v, network b D F vt -> arc (m_graph b) x v -> ~ zero_one (F v) ->
  bnet_to_causal b = Raise ValueError.
Proof. exact from_network_bad. Qed.
Print Assumptions C58_not_functions_raises.

Example C58_case : forall vt, causal (m_cf vt) D_cf (table_of vt ts_cf) vt ["X"; "Z"; "Y"] false /\ plain_roots (m_cf vt) /\
  incl ["X"; "Z"; "Y"] (nodes (m_graph (m_cf vt))) /\
  classes (m_cf vt) = [("U", "Multinomial"); ("X", "Multinomial"); ("Z", "Deterministic"); ("Y", "Multinomial"); ("V", "Multinomial")] /\
  (let* b := scm_to_bnet (m_cf vt) in Ok (m_kind b, prob_at b o_cf)) = Ok (KBn, Some (4#15)%Q) /\
  (let* b := causal_to_bnet (m_cf vt) in let* m := bnet_to_causal b in Ok (m_kind b, prob_at b o_cf, m_kind m)) =
    Ok (KBn, Some (4#15)%Q, KScm ["X"; "Z"; "Y"] true) /\
  (let* m := scm_to_multinomial (m_cf vt) in Ok (table_at m "Z" o_cf)) = Ok (Some 1%Q).
Proof. exact (fun vt => conj (cf_ok vt) (conj (proj2 (cf_roots vt)) (conj (cf_nodes vt) (cf_converts vt)))). Qed.
Example C58_random_case : network m_net D_net F_net VNumpy /\ arc (m_graph m_net) "A" "C" /\ ~ zero_one (F_net "C") /\
  bnet_to_causal m_net = Raise ValueError.
Proof. exact (conj (net_ok VNumpy) net_random). Qed.

(** Without [plain_roots] to_bnet gives a network whose probabilities cannot be
    computed: an endogenous variable without parents stays a
    DeterministicFactor. causal_to_bnet converts it. *)
Theorem C58_endogenous_root_refuted : exists m D F vt endo cast b, causal m D F vt endo cast /\ incl endo (nodes (m_graph m)) /\
  scm_to_bnet m = Ok b /\ (exists v d, stored b v (FD d)) /\ (exists o, full D o /\ m_prob b [o] = Raise AttributeError) /\
  (exists b', causal_to_bnet m = Ok b').
Proof. exact root_kept. Qed.
Print Assumptions C58_endogenous_root_refuted.

(** to_multinomial forgets the endogenous variables given by the caller: a
    model the constructor accepts is refused. *)
Theorem C58_own_endogenous_refuted : exists g fs endo m b, scm_init (GDag g) (Some (FsDict fs)) (Some endo) true true = Ok m /\
  causal_to_bnet m = Ok b /\ scm_to_multinomial m = Raise ValueError.
Proof. exact own_endogenous. Qed.
Print Assumptions C58_own_endogenous_refuted.

(** ** C59 *)
(** A new causal model without tables, filled: random functions for the
    variables with parents, random marginals for the others. *)
Theorem C59_fill : forall dflt choose draw g D cast check, wf_graph g -> acyclic g -> usable D -> incl (nodes g) (keys D) ->
  (forall x j v l, (exists y, arc g y x) -> In (v, l) D -> choose x j v < length l) ->
  (forall u l, In u (nodes g) -> (forall y, ~ arc g y u) -> In (u, l) D -> drawn_for [(u, l)] [] true (draw u)) ->
  exists m0 m F endo, scm_init (GDag g) None None cast check = Ok m0 /\ fill_random_factors dflt choose draw D m0 = (m, None) /\
    m_graph m = g /\ children_of g endo /\ causal m (pick (nodes g) D) F dflt endo cast /\
    (forall v, In v (nodes g) -> stored m v (FM (F v))) /\ prepared D m.
Proof. exact fill_new. Qed.
Print Assumptions C59_fill.

(** The same for any model whose recorded domains are the given ones, and for
    endogenous variables given by the caller, if they are all the variables with
    parents and maybe others. *)
Theorem C59_refill : forall dflt choose draw D m endo cast, usable D -> prepared D m -> incl (nodes (m_graph m)) (keys D) ->
  m_kind m = KScm endo cast -> incl endo (nodes (m_graph m)) ->
  (forall x j v l, In x endo -> In (v, l) D -> choose x j v < length l) ->
  (forall x v, arc (m_graph m) x v -> In v endo) ->
  (forall u l, In u (nodes (m_graph m)) -> ~ In u endo -> In (u, l) D -> drawn_for [(u, l)] [] true (draw u)) ->
  exists m' F, fill_random_factors dflt choose draw D m = (m', None) /\
    causal m' (pick (nodes (m_graph m)) D) F dflt endo cast /\ m_graph m' = m_graph m /\
    (forall v, In v (nodes (m_graph m)) -> stored m' v (FM (F v))) /\ prepared D m'.
Proof. exact fill_ok. Qed.
Print Assumptions C59_refill.

(** A marginal is not accepted for a variable with parents. *)
Theorem C59_marginal_raises : forall dflt draw D m endo cast x u, usable D -> prepared D m -> incl (nodes (m_graph m)) (keys D) ->
  m_kind m = KScm endo cast -> m_check m = true -> arc (m_graph m) x u -> ~ In u endo ->
  (forall w l, In w (nodes (m_graph m)) -> ~ In w endo -> In (w, l) D -> drawn_for [(w, l)] [] true (draw w)) ->
  exists m', fill_random_marginals dflt draw D m = (m', Some ValueError).
Proof. exact marginals_bad. Qed.
Print Assumptions C59_marginal_raises.

(** BayesianNetwork.randomize_factors *)
Theorem C59_network : forall dflt draw g D check, wf_graph g -> acyclic g -> usable D -> incl (nodes g) (keys D) ->
  (forall v, In v (nodes g) -> drawn_for (pick (v :: preds g v) D) (preds g v) true (draw v)) ->
  exists m0 m F, bn_init (GDag g) None check = Ok m0 /\ bn_randomize_factors dflt draw D m0 = (m, None) /\
    m_graph m = g /\ network m (pick (nodes g) D) F dflt.
Proof. exact bn_fill_new. Qed.
Print Assumptions C59_network.

Example C59_case : forall vt, wf_graph g_cf /\ acyclic g_cf /\ incl (nodes g_cf) (keys D_cf) /\ usable D_cf /\
  (forall x j v l, (exists y, arc g_cf y x) -> In (v, l) D_cf -> choose_cf x j v < length l) /\
  (forall u l, In u (nodes g_cf) -> (forall y, ~ arc g_cf y u) -> In (u, l) D_cf -> drawn_for [(u, l)] [] true (draw_cf u)) /\
  snd (filled vt) = None /\ classes (fst (filled vt)) = map (fun v => (v, "Multinomial")) (nodes g_cf) /\
  map (fun s => table_at (fst (filled vt)) "U" [("U", s)]) [SStr "u"; SStr "v"; SStr "w"] = [Some (1#4); Some 0; Some (3#4)]%Q /\
  map (fun s => table_at (fst (filled vt)) "X" [("U", s); ("X", SInt 1)]) [SStr "u"; SStr "v"; SStr "w"] = [Some 1; Some 0; Some 1]%Q.
Proof.
  exact (fun vt => conj (proj1 g_cf_dag) (conj (proj1 (proj2 g_cf_dag)) (conj (proj2 (proj2 g_cf_dag))
    (conj cf_usable (conj (proj1 cf_choices) (conj (proj2 cf_choices) (filled_ok vt))))))).
Qed.
Example C59_network_case : forall vt, (wf_graph g_net /\ acyclic g_net /\ usable D_net /\ incl (nodes g_net) (keys D_net) /\
  forall v, In v (nodes g_net) -> drawn_for (pick (v :: preds g_net v) D_net) (preds g_net v) true (draw_net v)) /\
  snd (drawn_net vt) = None /\
  map (fun s => table_at (fst (drawn_net vt)) "E" [("C", SBool false); ("E", s)]) sC = [Some (1#4); Some (3#4)]%Q.
Proof. exact (fun vt => conj net_draws (drawn_net_ok vt)). Qed.
Example C59_marginal_case : forall vt, usable D_own /\ prepared D_own (m_own vt) /\ incl (nodes (m_graph (m_own vt))) (keys D_own) /\
  m_kind (m_own vt) = KScm ["B"] true /\
  m_check (m_own vt) = true /\ arc (m_graph (m_own vt)) "B" "C" /\ ~ In "C" ["B"] /\
  (forall w l, In w (nodes (m_graph (m_own vt))) -> ~ In w ["B"] -> In (w, l) D_own -> drawn_for [(w, l)] [] true (draw_own w)) /\
  snd (fill_random_marginals vt draw_own D_own (m_own vt)) = Some ValueError.
Proof. exact own_bad. Qed.

(** StructuralCausalModel.randomize_factors for variables that are not
    endogenous: new tables for them, nothing else changes. *)
Theorem C59_redraw : forall m D F vt endo cast, causal m D F vt endo cast -> forall vars az draw, incl vars (nodes (m_graph m)) ->
  (forall x, In x vars -> drawn_for (order_dom D (preds (m_graph m) x ++ [x])) (preds (m_graph m) x) az (draw x)) ->
  (forall x, In x vars -> ~ In x endo) ->
  exists m' F', randomize_factors vt m vars az draw = Ok m' /\ causal m' D F' vt endo cast /\ m_graph m' = m_graph m /\
    (forall v, In v (nodes (m_graph m)) -> ~ In v vars -> F' v = F v) /\
    (forall v f, stored m v f -> ~ In v vars -> stored m' v f) /\
    (forall x, In x vars -> stored m' x (FM (F' x)) /\
       random_multinomial (order_dom D (preds (m_graph m) x ++ [x])) (preds (m_graph m) x) vt az (draw x) = Ok (F' x)) /\
    prepared D m'.
Proof. exact randomize_copy_ok. Qed.
Print Assumptions C59_redraw.
Theorem C59_redraw_in_place : forall m D F vt endo cast, causal m D F vt endo cast -> forall vars az draw, incl vars (nodes (m_graph m)) ->
  (forall x, In x vars -> drawn_for (order_dom D (preds (m_graph m) x ++ [x])) (preds (m_graph m) x) az (draw x)) ->
  prepared D m -> (forall x, In x vars -> ~ In x endo) ->
  exists m' F', randomize_in_place vt draw vars az m = (m', None) /\ causal m' D F' vt endo cast /\ m_graph m' = m_graph m /\
    (forall v, In v (nodes (m_graph m)) -> ~ In v vars -> F' v = F v) /\
    (forall v f, stored m v f -> ~ In v vars -> stored m' v f) /\
    (forall x, In x vars -> stored m' x (FM (F' x)) /\
       random_multinomial (order_dom D (preds (m_graph m) x ++ [x])) (preds (m_graph m) x) vt az (draw x) = Ok (F' x)) /\
    prepared D m'.
Proof. exact randomize_place_ok. Qed.
Print Assumptions C59_redraw_in_place.

(** Tables without zeros are not accepted for endogenous variables. *)
Theorem C59_endogenous_raises : forall m D F vt endo cast, causal m D F vt endo cast -> forall vars az draw, incl vars (nodes (m_graph m)) ->
  (forall x, In x vars -> drawn_for (order_dom D (preds (m_graph m) x ++ [x])) (preds (m_graph m) x) az (draw x)) ->
  forall x l, az = false -> In x vars -> In x endo -> In (x, l) D -> 2 <= length l ->
  randomize_factors vt m vars az draw = Raise ValueError.
Proof. exact randomize_copy_bad. Qed.
Print Assumptions C59_endogenous_raises.

Example C59_redraw_case : forall vt, causal (m_cf vt) D_cf (table_of vt ts_cf) vt ["X"; "Z"; "Y"] false /\ prepared D_cf (m_cf vt) /\
  incl ["U"; "Z"] (nodes (m_graph (m_cf vt))) /\ ~ In "U" ["X"; "Z"; "Y"] /\
  drawn_for (order_dom D_cf (preds (m_graph (m_cf vt)) "U" ++ ["U"])) (preds (m_graph (m_cf vt)) "U") false (redraw "U") /\
  drawn_for (order_dom D_cf (preds (m_graph (m_cf vt)) "Y" ++ ["Y"])) (preds (m_graph (m_cf vt)) "Y") false (redraw "Y") /\
  (let* m := randomize_factors vt (m_cf vt) ["U"] false redraw in
   Ok (map (fun s => table_at m "U" [("U", s)]) [SStr "u"; SStr "v"; SStr "w"])) = Ok [Some (1#8); Some (1#4); Some (5#8)]%Q /\
  randomize_factors vt (m_cf vt) ["U"; "Y"] false redraw = Raise ValueError /\
  snd (randomize_in_place vt redraw ["U"; "Y"] false (m_cf vt)) = Some ValueError /\
  map (fun s => table_at (fst (randomize_in_place vt redraw ["U"; "Y"] false (m_cf vt))) "U" [("U", s)]) [SStr "u"; SStr "v"; SStr "w"] =
    [Some (1#8); Some (1#4); Some (5#8)]%Q.
Proof. exact (fun vt => conj (cf_ok vt) (conj (cf_prepared vt) (redraw_ok vt))). Qed.
