(** Property C72: renaming the variables of a model. *)

From Coq Require Import String Ascii Bool Arith ZArith QArith Qcanon List.
From Verif Require Import PyBase Num DomainModel NdArray StoreModel NumStore FactorModel GraphModel ModelModel InferModel CausalModel
  Spec StoreSpec FactorSpec GraphSpec ModelSpec NetSpec CausalSpec OrderSpec RenameSpec RenameFacts4
  Checks FactorChecks GraphChecks InferChecks CausalChecks RenameChecks.
Import ListNotations.
Local Open Scope nat_scope.
Local Open Scope string_scope.
Local Open Scope list_scope.

(** ** C72 *)
Theorem C72_network : forall m D F vt (r : dict var var), network m D F vt -> m_kind m = KBn -> good_names r (nodes (m_graph m)) ->
  exists m' F', m_rename m r = Ok m' /\ m_kind m' = KBn /\ network m' (rename_dom r D) F' vt /\
    renamed_graph r (m_graph m) (m_graph m') /\
    (forall v, In v (nodes (m_graph m)) -> renamed_table r (F v) (F' (rename1 r v))) /\
    (forall o, incl (keys o) (nodes (m_graph m)) -> mass (rename_dom r D) F' (rename_obs r o) = mass D F o).
Proof. exact rename_network. Qed.
Print Assumptions C72_network.

(** For structural causal models the mapping must cover the endogenous variables. *)
Theorem C72_causal : forall m D F vt endo cast (r : dict var var), causal m D F vt endo cast -> good_names r (nodes (m_graph m)) ->
  incl endo (nodes (m_graph m)) -> incl endo (keys r) ->
  exists m' F', m_rename m r = Ok m' /\ causal m' (rename_dom r D) F' vt (map (rename1 r) endo) cast /\
    (plain_roots m -> plain_roots m') /\
    renamed_graph r (m_graph m) (m_graph m') /\
    (forall v, In v (nodes (m_graph m)) -> renamed_table r (F v) (F' (rename1 r v))) /\
    (forall o, incl (keys o) (nodes (m_graph m)) -> mass (rename_dom r D) F' (rename_obs r o) = mass D F o) /\
    (forall d o, incl (keys d) (nodes (m_graph m)) -> incl (keys o) (nodes (m_graph m)) ->
       do_mass (rename_dom r D) F' (rename_obs r d) (rename_obs r o) = do_mass D F d o) /\
    (forall X events, roots (m_graph m) X ->
       (forall dt, In dt events -> incl (keys (fst dt)) (nodes (m_graph m)) /\ incl (keys (snd dt)) (nodes (m_graph m))) ->
       cf_mass (rename_dom r D) F' (map (rename1 r) X) (map (rename_pair r) events) = cf_mass D F X events).
Proof. exact rename_causal. Qed.
Print Assumptions C72_causal.

Theorem C72_uncovered_raises : forall m D F vt endo cast (r : dict var var) v, causal m D F vt endo cast ->
  good_names r (nodes (m_graph m)) -> In v endo -> ~ In v (keys r) -> m_rename m r = Raise KeyError.
Proof. exact rename_uncovered. Qed.
Print Assumptions C72_uncovered_raises.

Theorem C72_queries : forall m D F vt (r : dict var var), network m D F vt -> m_kind m = KBn -> good_names r (nodes (m_graph m)) ->
  exists m', m_rename m r = Ok m' /\
    forall e T heur so heur' so', is_heuristic heur -> is_set_order so -> is_heuristic heur' -> is_set_order so' ->
    NoDup T -> T <> [] -> incl T (nodes (m_graph m)) -> incl (keys e) (nodes (m_graph m)) ->
    (forall v, In v T -> ~ In v (keys e)) -> mass D F e <> 0%Qc ->
    exists q q', ve_query heur so m T None e = Ok q /\
      ve_query heur' so' m' (map (rename1 r) T) None (rename_obs r e) = Ok q' /\
      forall t, assigns D T t -> exists x, mf_get_value q t = Ok x /\ mf_get_value q' (rename_obs r t) = Ok x.
Proof. exact rename_queries. Qed.
Print Assumptions C72_queries.

Theorem C72_causal_queries : forall m D F vt endo cast (r : dict var var), causal m D F vt endo cast -> plain_roots m ->
  good_names r (nodes (m_graph m)) -> incl endo (nodes (m_graph m)) -> incl endo (keys r) ->
  exists m', m_rename m r = Ok m' /\
    forall heur so heur' so', is_heuristic heur -> is_set_order so -> is_heuristic heur' -> is_set_order so' ->
    forall d e T, NoDup (keys d) -> incl (keys d) (nodes (m_graph m)) -> known D d ->
    NoDup T -> T <> [] -> incl T (nodes (m_graph m)) -> incl (keys e) (nodes (m_graph m)) ->
    (forall v, In v T -> ~ In v (keys d) /\ ~ In v (keys e)) -> do_mass D F d (outside d e) <> 0%Qc ->
    exists m1 m1' q q', cve_init m = Ok m1 /\ cve_init m' = Ok m1' /\ causal_query heur so m1 T (DoDict d) e = Ok q /\
      causal_query heur' so' m1' (map (rename1 r) T) (DoDict (rename_obs r d)) (rename_obs r e) = Ok q' /\
      forall t, assigns D T t -> exists x, mf_get_value q t = Ok x /\ mf_get_value q' (rename_obs r t) = Ok x.
Proof. exact rename_causal_queries. Qed.
Print Assumptions C72_causal_queries.

(** Two variables that get the same name become one, without an error. *)
Theorem C72_collision_refuted : forall vt, exists m D F r m', network m D F vt /\ m_kind m = KBn /\ length (nodes (m_graph m)) = 2 /\
  m_rename m r = Ok m' /\ nodes (m_graph m') = ["C"%string].
Proof. exact collision. Qed.
Print Assumptions C72_collision_refuted.

(** Names may be swapped. *)
Example C72_case : forall vt,
  let r := [("A", "C"); ("C", "A"); ("H", "Out")] in
  network (bn_of vt g_net ts_net) D_net (table_of vt ts_net) vt /\ m_kind (bn_of vt g_net ts_net) = KBn /\
  good_names r (nodes (m_graph (bn_of vt g_net ts_net))) /\
  (let* m' := m_rename (bn_of vt g_net ts_net) r in Ok (edges (m_graph m'))) = Ok [("C", "A"); ("A", "E"); ("B", "A"); ("E", "Out")] /\
  let s := [("X", "Z"); ("Z", "X"); ("Y", "Out")] in
  causal (m_cf vt) D_cf (table_of vt ts_cf) vt ["X"; "Z"; "Y"] false /\ plain_roots (m_cf vt) /\
  good_names s (nodes (m_graph (m_cf vt))) /\ incl ["X"; "Z"; "Y"] (nodes (m_graph (m_cf vt))) /\ incl ["X"; "Z"; "Y"] (keys s) /\
  good_names [("X", "X1")] (nodes (m_graph (m_cf vt))) /\ m_rename (m_cf vt) [("X", "X1")] = Raise KeyError /\
  (let* m' := m_rename (m_cf vt) s in
   let* m1 := cve_init m' in
   let* r := causal_query (heuristic_fn MIN_FILL first_choice) plain_order m1 ["X"; "U"] (DoDict [("Z", SInt 1)]) [("Out", SStr "y1")] in
   Ok (okb (mf_get_value r [("X", SInt 0); ("U", SStr "w")]) (q (1#6)))) = Ok true.
Proof.
  intros vt r. split; [apply net_ok|]. split; [destruct vt; vm_compute; reflexivity|].
  split; [apply good_namesb_sound; destruct vt; vm_compute; reflexivity|]. split; [destruct vt; vm_compute; reflexivity|].
  intros s. split; [apply cf_ok|]. split; [apply cf_roots|]. split; [apply good_namesb_sound; destruct vt; vm_compute; reflexivity|].
  split; [apply inclb_sound; destruct vt; vm_compute; reflexivity|]. split; [apply inclb_sound; vm_compute; reflexivity|].
  split; [apply good_namesb_sound; destruct vt; vm_compute; reflexivity|]. split; [destruct vt; vm_compute; reflexivity|].
  destruct vt; vm_compute; reflexivity.
Qed.
