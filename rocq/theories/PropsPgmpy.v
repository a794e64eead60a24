(** The properties of the conversion to pgmpy and back: C46.

    [idx] is the rule by which pgmpy turns a state into an index. *)

From Coq Require Import String Bool Arith ZArith QArith Qcanon List.
From Verif Require Import PyBase Num DomainModel StoreModel FactorModel GraphModel ModelModel PgmpyModel
  Spec FactorSpec GraphSpec ModelSpec NetSpec UaiSpec PgmpySpec PgmpyFacts3 PgmpyFacts4 Checks FactorChecks GraphChecks InferChecks CausalChecks UaiChecks PgmpyChecks.
Import ListNotations.
Local Open Scope nat_scope.
Local Open Scope string_scope.
Local Open Scope list_scope.

(** ** C46 *)
Theorem C46_roundtrip : forall idx f v l vt, wf_mf f -> aligned f v -> In (v, l) (mf_domain f) -> square f (length l) ->
  (forall w k, In (w, k) (mf_domain f) -> finds idx k) ->
  exists t f', to_tabular f = Ok t /\ tb_variables t = v :: mf_right f /\ to_multinomial_factor idx t vt = Ok f' /\
    wf_mf f' /\ mf_vtype f' = vt /\ same_factor f f'.
Proof. exact roundtrip_ok. Qed.
Print Assumptions C46_roundtrip.

(** Strings are found by both rules; numbers are found by name, and by the
    first rule if they are the positions. *)
Theorem C46_found : forall l, NoDup l -> finds index_by_name l /\
  ((forall s, In s l -> exists x, s = SStr x) -> finds index_by_type l) /\
  ((forall i s, nth_error l i = Some s -> s = SInt (Z.of_nat i)) -> finds index_by_type l).
Proof. exact found_ok. Qed.
Print Assumptions C46_found.

(** In general the value is the one at the assignment that has, in the order of
    the factor, the number that the observation has in the order right
    variables, left variable. *)
Theorem C46_exact : forall idx f v l vt, wf_mf f -> mf_left f = [v] -> In (v, l) (mf_domain f) ->
  convertible (length l) (mf_domain f) -> (forall w k, In (w, k) (mf_domain f) -> finds idx k) ->
  exists t f', to_tabular f = Ok t /\ to_multinomial_factor idx t vt = Ok f' /\ wf_mf f' /\ mf_vtype f' = vt /\
    mf_domain f' = mf_domain f /\ mf_right f' = mf_right f /\
    forall o, full (mf_domain f) o -> exists o' x, full (mf_domain f) o' /\
      rowpos (mf_domain f) o' = rowpos (arrange (mf_right f ++ [v]) (mf_domain f)) o /\
      mf_get_value f o' = Ok x /\ mf_get_value f' o = Ok x.
Proof. exact exact_ok. Qed.
Print Assumptions C46_exact.

(** All other shapes are rejected, and so is a factor without left variable. *)
Theorem C46_shape_raises : forall f v l, wf_mf f -> mf_left f = [v] -> In (v, l) (mf_domain f) ->
  ~ convertible (length l) (mf_domain f) -> to_tabular f = Raise ValueError.
Proof. exact raises_ok. Qed.
Print Assumptions C46_shape_raises.
Theorem C46_no_left_raises : forall f, mf_left f = [] -> to_tabular f = Raise IndexError.
Proof. exact no_left_raises. Qed.
Print Assumptions C46_no_left_raises.

(** A table of a variable given two parents, with 2, 2 and 3 states, cannot be
    converted. *)
Theorem C46_shape_refuted : exists f, wf_mf f /\ aligned f "C" /\
  (forall w k, In (w, k) (mf_domain f) -> finds index_by_type k) /\ to_tabular f = Raise ValueError.
Proof. exact shape_refuted. Qed.
Print Assumptions C46_shape_refuted.

(** With the left variable first, or the parents in another order, values are
    exchanged without any error. *)
Theorem C46_left_first_refuted : exists f o x y, wf_mf f /\ mf_left f = ["C"] /\ full (mf_domain f) o /\
  (forall w k, In (w, k) (mf_domain f) -> finds index_by_type k) /\
  mf_get_value f o = Ok x /\ roundtrip index_by_type f VNumpy o = Ok y /\ x <> y.
Proof. exact left_first_refuted. Qed.
Print Assumptions C46_left_first_refuted.
Theorem C46_parents_refuted : exists f o x y, wf_mf f /\ mf_left f = ["C"] /\ full (mf_domain f) o /\
  (forall w k, In (w, k) (mf_domain f) -> finds index_by_type k) /\
  mf_get_value f o = Ok x /\ roundtrip index_by_type f VNumpy o = Ok y /\ x <> y.
Proof. exact parents_refuted. Qed.
Print Assumptions C46_parents_refuted.

(** With states that are numbers the first rule gives other values, or fails. *)
Theorem C46_states_refuted : (exists f o x y, wf_mf f /\ aligned f "A" /\ full (mf_domain f) o /\
    mf_get_value f o = Ok x /\ roundtrip index_by_type f VNumpy o = Ok y /\ x <> y) /\
  (exists f o, wf_mf f /\ aligned f "A" /\ full (mf_domain f) o /\ roundtrip index_by_type f VNumpy o = Raise IndexError).
Proof. exact states_refuted. Qed.
Print Assumptions C46_states_refuted.

Example C46_case : forall vt, wf_mf (f_abc vt) /\ aligned (f_abc vt) "C" /\ In ("C", lC) (mf_domain (f_abc vt)) /\ square (f_abc vt) (length lC) /\
  (forall w k, In (w, k) (mf_domain (f_abc vt)) -> finds index_by_type k) /\
  okb (roundtrip index_by_type (f_abc vt) VList [("C", SStr "c1"); ("A", SStr "a2"); ("B", SStr "b1")]) (Fin (Q2Qc (2#5))) = true.
Proof.
  intros vt. split; [apply f_abc_wf|]. split; [destruct vt; reflexivity|]. split; [destruct vt; right; right; left; reflexivity|].
  split; [apply square_check; destruct vt; reflexivity|]. split; [apply f_abc_found|]. destruct vt; vm_compute; reflexivity.
Qed.

(** *** whole networks *)
Theorem C46_network : forall idx m D F vt, tabled m D F ->
  (forall v l, In (v, l) D -> aligned (F v) v /\ square (F v) (length l) /\ finds idx l) -> no_isolated (m_graph m) ->
  exists n m' F', to_pgmpy m = Ok n /\ to_bcause idx n vt = Ok m' /\ m_kind m' = KBn /\ tabled m' D F' /\
    same_set (nodes (m_graph m')) (nodes (m_graph m)) /\ (forall x y, arc (m_graph m') x y <-> arc (m_graph m) x y) /\
    forall v, In v (nodes (m_graph m)) -> same_factor (F v) (F' v) /\ mf_vtype (F' v) = vt.
Proof. exact network_ok. Qed.
Print Assumptions C46_network.

(** A network with a variable without arcs cannot be converted back. *)
Theorem C46_network_isolated_raises : forall idx m D F vt, tabled m D F ->
  (forall v l, In (v, l) D -> aligned (F v) v /\ square (F v) (length l) /\ finds idx l) -> (exists v, isolated (m_graph m) v) ->
  exists n, to_pgmpy m = Ok n /\ to_bcause idx n vt = Raise NetworkXError.
Proof. exact network_isolated. Qed.
Print Assumptions C46_network_isolated_raises.

Example C46_network_case : (forall vt, tabled (m_pg vt) D_pg (table_of vt ts_pg)) /\
  (forall vt v l, In (v, l) D_pg -> aligned (table_of vt ts_pg v) v /\ square (table_of vt ts_pg v) (length l) /\ finds index_by_type l) /\
  no_isolated (m_graph (m_pg VTree)) /\
  (forall vt, (let* n := to_pgmpy (m_pg VTree) in let* m' := to_bcause index_by_type n vt in
     match dget "C" (m_factors m') with
     | Some (Some (FM f)) => let* x := mf_get_value f [("A", SStr "a2"); ("B", SStr "b0"); ("C", SStr "c1")] in Ok (nodes (m_graph m'), num_eqb x (Fin (Q2Qc (1#3))))
     | _ => Raise KeyError end) = Ok (["A"; "C"; "B"; "E"], true)) /\
  tabled m_isolated D_isolated (table_of VNumpy [b01 "A"; b01p "B" "A"; b01 "C"]) /\ isolated (m_graph m_isolated) "C" /\
  (let* n := to_pgmpy m_isolated in to_bcause index_by_type n VNumpy) = Raise NetworkXError.
Proof.
  split; [intros vt; apply (network_tabled _ _ _ vt), pg_ok|]. split; [exact pg_aligned|]. split; [apply no_isolatedb_sound; vm_compute; reflexivity|].
  split; [exact pg_answer|]. split; [apply (network_tabled _ _ _ VNumpy), isolated_ok|].
  split. { split; [vm_compute; tauto|]. intros w [A | A]; vm_compute in A; intuition discriminate. }
  vm_compute. reflexivity.
Qed.

Example C46_shape_case : wf_mf f_first /\ mf_left f_first = ["C"] /\ convertible 2 (mf_domain f_first) /\
  wf_mf f_223 /\ mf_left f_223 = ["C"] /\ ~ convertible 3 (mf_domain f_223).
Proof.
  split; [exact f_first_wf|]. split; [reflexivity|]. split; [reflexivity|]. split; [exact f_223_wf|]. split; [reflexivity|].
  intros (E & _). discriminate.
Qed.

(** A model that does not hold a table for every variable is rejected: the
    first variable without a factor raises AttributeError, the first variable
    with a deterministic factor of one or two arguments raises KeyError. *)
Theorem C46_missing_raises : forall m before v after, wf_graph (m_graph m) -> acyclic (m_graph m) ->
  m_factors m = before ++ (v, None) :: after ->
  (forall w f, In (w, f) before -> exists g t, f = Some (FM g) /\ to_tabular g = Ok t) -> to_pgmpy m = Raise AttributeError.
Proof. exact missing_table. Qed.
Print Assumptions C46_missing_raises.
Theorem C46_deterministic_raises : forall m before v d x l after, wf_graph (m_graph m) -> acyclic (m_graph m) ->
  m_factors m = before ++ (v, Some (FD d)) :: after ->
  (forall w f, In (w, f) before -> exists g t, f = Some (FM g) /\ to_tabular g = Ok t) ->
  wf_df d x l -> 1 <= length (df_right d) <= 2 -> to_pgmpy m = Raise KeyError.
Proof. exact equation_raises. Qed.
Print Assumptions C46_deterministic_raises.

Example C46_without_table_case : forall vt,
  let f := fac vt [("A", [SInt 0; SInt 1])]%Z [1#4; 3#4]%Q [] in
  let d := dfac vt [("B", [SInt 0; SInt 1]); ("A", [SInt 0; SInt 1])]%Z "B" [SInt 1; SInt 0]%Z in
  (exists t, to_tabular f = Ok t) /\ wf_df d "B" [SInt 0; SInt 1]%Z /\ df_right d = ["A"] /\
  (let* m := bn_init (GDag (graph_of [("A", "B")])) None true in to_pgmpy m) = Raise AttributeError /\
  to_pgmpy (mkPgm (graph_of [("A", "B")]) [("A", Some (FM f)); ("B", None)] [] true KBn) = Raise AttributeError /\
  to_pgmpy (mkPgm (graph_of [("A", "B")]) [("A", Some (FM f)); ("B", Some (FD d))] [] true KBn) = Raise KeyError.
Proof.
  intros vt f d. split; [destruct vt; eexists; vm_compute; reflexivity|].
  split; [refine (proj1 (dfac_wf _ _ _ _ _ _ _)); [vm_compute; reflexivity|left; reflexivity]|].
  split; [destruct vt; vm_compute; reflexivity|]. repeat split; destruct vt; vm_compute; reflexivity.
Qed.
