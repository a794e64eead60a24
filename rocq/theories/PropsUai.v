(** The properties of UAI files: C36 and C37.

    [fstr] and [fparse] stand for python's str(float) and float(text). *)

From Coq Require Import String Ascii Bool Arith ZArith QArith Qcanon List.
From Verif Require Import PyBase Num StoreModel FactorModel GraphModel ModelModel CausalModel UaiModel
  Spec FactorSpec GraphSpec ModelSpec NetSpec CausalSpec UaiSpec PropFacts6 Checks FactorChecks GraphChecks InferChecks CausalChecks UaiChecks.
Import ListNotations.
Local Open Scope nat_scope.
Local Open Scope string_scope.
Local Open Scope list_scope.

(** ** C36 *)
Theorem C36_roundtrip : forall fstr fparse dflt m order D F, m_kind m = KBn -> tabled m D F -> records m D ->
  forall arg, is_order m (nodes (m_graph m)) arg order -> (forall v, In v (nodes (m_graph m)) -> writable fstr fparse (F v)) ->
  no_isolated (m_graph m) -> no_clash (m_graph m) order ->
  exists text m', save_uai fstr dflt m arg = Ok text /\ bn_read_uai fparse dflt text = Ok m' /\ m_kind m' = KBn /\
    same_structure order (m_graph m) (m_graph m') /\
    forall v n, In v (nodes (m_graph m)) -> renamed order v n ->
      exists f', stored m' n (FM f') /\ same_table order D (F v) f' /\ mf_vtype f' = dflt.
Proof. exact uai_bn. Qed.
Print Assumptions C36_roundtrip.

(** A network with a variable without arcs cannot be read back. *)
Theorem C36_isolated_raises : forall fstr fparse dflt m order D F, m_kind m = KBn -> tabled m D F -> records m D ->
  forall arg, is_order m (nodes (m_graph m)) arg order -> (forall v, In v (nodes (m_graph m)) -> writable fstr fparse (F v)) ->
  (exists v, isolated (m_graph m) v) ->
  exists text, save_uai fstr dflt m arg = Ok text /\ bn_read_uai fparse dflt text = Raise NetworkXError.
Proof. exact uai_bn_isolated. Qed.
Print Assumptions C36_isolated_raises.

(** Nor one in which the number of a parent is an initial part of that of its
    child, say 1 and 10. *)
Theorem C36_clash_raises : forall fstr fparse dflt m order D F, m_kind m = KBn -> tabled m D F -> records m D ->
  forall arg, is_order m (nodes (m_graph m)) arg order -> (forall v, In v (nodes (m_graph m)) -> writable fstr fparse (F v)) ->
  no_isolated (m_graph m) -> (exists x y, clash (m_graph m) order x y) ->
  exists text, save_uai fstr dflt m arg = Ok text /\ bn_read_uai fparse dflt text = Raise ValueError.
Proof. exact uai_bn_clash. Qed.
Print Assumptions C36_clash_raises.

(** With a probability that str writes with an exponent the reader gives a wrong
    table without any error, although every single number would be read back
    as it was. *)
Theorem C36_exponent_refuted : exists fstr fparse m D F vt f', m_kind m = KBn /\ network m D F vt /\ records m D /\ no_isolated (m_graph m) /\
  no_clash (m_graph m) (nodes (m_graph m)) /\
  (forall v o x, In v (nodes (m_graph m)) -> full (mf_domain (F v)) o -> mf_get_value (F v) o = Ok x -> fparse (fstr x) = Ok x) /\
  (let* text := save_uai fstr VNumpy m None in let* m' := bn_read_uai fparse VNumpy text in
   match dget "V1" (m_factors m') with Some (Some (FM f)) => Ok f | _ => Raise KeyError end) = Ok f' /\
  mf_get_value (F "B") [("A", SInt 0); ("B", SInt 1)] = Ok (Fin (Q2Qc (99999#100000))) /\
  mf_get_value f' [("V0", SInt 0); ("V1", SInt 1)] = Ok (Fin (Q2Qc (-5))).
Proof. exact small_wrong. Qed.
Print Assumptions C36_exponent_refuted.

(** A file of the other kind is rejected, and so is an order that is not one of
    the variables of the model. *)
Theorem C36_label : forall fstr fparse dflt m arg text, save_uai fstr dflt m arg = Ok text ->
  match m_kind m with
  | KBn => scm_read_uai fparse dflt text = Raise ValueError
  | KScm _ _ => bn_read_uai fparse dflt text = Raise ValueError
  end.
Proof. exact uai_label. Qed.
Print Assumptions C36_label.
Theorem C36_bad_order : forall fstr dflt m order, order <> [] ->
  ~ same_set order (match m_kind m with KBn => nodes (m_graph m) | KScm endo _ => endo ++ scm_exogenous m end) ->
  save_uai fstr dflt m (Some order) = Raise ValueError.
Proof. exact uai_bad_order. Qed.
Print Assumptions C36_bad_order.

Example C36_case : m_kind m_uai = KBn /\ tabled m_uai D_net (table_of VNumpy ts_uai) /\ records m_uai D_net /\
  is_order m_uai (nodes (m_graph m_uai)) None ["A"; "C"; "B"; "E"; "H"] /\
  (forall v, In v (nodes (m_graph m_uai)) -> writable sample_str sample_parse (table_of VNumpy ts_uai v)) /\
  no_isolated (m_graph m_uai) /\ no_clash (m_graph m_uai) ["A"; "C"; "B"; "E"; "H"] /\
  save_uai sample_str VNumpy m_uai None = Ok uai_text /\
  (let* m' := bn_read_uai sample_parse VTree uai_text in
   match dget "V1" (m_factors m') with
   | Some (Some (FM f)) => let* x := mf_get_value f [("V0", SInt 1); ("V2", SInt 2); ("V1", SInt 0)] in Ok (keys (mf_domain f), num_eqb x (Fin (Q2Qc (3#4))))
   | _ => Raise KeyError end) = Ok (["V2"; "V0"; "V1"], true).
Proof.
  split; [vm_compute; reflexivity|]. split; [apply (network_tabled _ _ _ VNumpy), uai_ok|]. split; [apply recordsb_sound; vm_compute; reflexivity|].
  split. { split; [apply nodupb_sound; vm_compute; reflexivity|]. split; [apply same_setb_sound; vm_compute; reflexivity|].
           split; [discriminate|vm_compute; reflexivity]. }
  split; [apply (writable_all _ _ D_net); [apply uai_ok|vm_compute; reflexivity]|].
  split; [apply no_isolatedb_sound; vm_compute; reflexivity|].
  split. { apply no_clashb_sound; [apply nodupb_sound|]; vm_compute; reflexivity. }
  split; vm_compute; reflexivity.
Qed.

Example C36_raises_case :
  tabled m_isolated D_isolated (table_of VNumpy [b01 "A"; b01p "B" "A"; b01 "C"]) /\ records m_isolated D_isolated /\
  isolated (m_graph m_isolated) "C" /\
  (let* t := save_uai sample_str VNumpy m_isolated None in bn_read_uai sample_parse VNumpy t) = Raise NetworkXError /\
  tabled m_eleven D_eleven (table_of VNumpy ts_eleven) /\ records m_eleven D_eleven /\ no_isolated (m_graph m_eleven) /\
  is_order m_eleven (nodes (m_graph m_eleven)) (Some eleven) eleven /\ clash (m_graph m_eleven) eleven "a1" "a10" /\
  (let* t := save_uai sample_str VNumpy m_eleven (Some eleven) in bn_read_uai sample_parse VNumpy t) = Raise ValueError.
Proof.
  split; [apply (network_tabled _ _ _ VNumpy), isolated_ok|]. split; [apply recordsb_sound; vm_compute; reflexivity|].
  split. { split; [vm_compute; tauto|]. intros w [A | A]; vm_compute in A; intuition discriminate. }
  split; [vm_compute; reflexivity|]. split; [apply (network_tabled _ _ _ VNumpy), eleven_ok|]. split; [apply recordsb_sound; vm_compute; reflexivity|].
  split; [apply no_isolatedb_sound; vm_compute; reflexivity|].
  split. { split; [apply nodupb_sound; vm_compute; reflexivity|]. split; [apply same_setb_sound; vm_compute; reflexivity|].
           split; [discriminate|reflexivity]. }
  split; [split; [vm_compute; tauto|exists 1, 10, "0"; repeat split]|]. vm_compute. reflexivity.
Qed.

(** ** C37 *)
Theorem C37_roundtrip : forall fstr fparse dflt m order D F vt endo cast, causal m D F vt endo cast -> records m D ->
  forall arg, is_order m (endo ++ scm_exogenous m) arg order ->
  with_parents (m_graph m) endo -> plain_roots m -> counted_states m D ->
  (forall v, In v (nodes (m_graph m)) -> ~ In v endo -> writable fstr fparse (F v)) -> reads_naturals fparse ->
  no_isolated (m_graph m) -> no_clash (m_graph m) order ->
  exists text m' en, save_uai fstr dflt m arg = Ok text /\ scm_read_uai fparse dflt text = Ok m' /\
    m_kind m' = KScm en true /\ (forall n, In n en <-> exists v, In v endo /\ renamed order v n) /\
    same_structure order (m_graph m) (m_graph m') /\
    forall v n, In v (nodes (m_graph m)) -> renamed order v n ->
      exists f', stored m' n (FM f') /\ same_table order D (F v) f' /\ mf_vtype f' = dflt.
Proof. exact uai_scm. Qed.
Print Assumptions C37_roundtrip.

Theorem C37_isolated_raises : forall fstr fparse dflt m order D F vt endo cast, causal m D F vt endo cast -> records m D ->
  forall arg, is_order m (endo ++ scm_exogenous m) arg order ->
  with_parents (m_graph m) endo -> plain_roots m -> counted_states m D ->
  (forall v, In v (nodes (m_graph m)) -> ~ In v endo -> writable fstr fparse (F v)) -> reads_naturals fparse ->
  (exists v, isolated (m_graph m) v) -> no_clash (m_graph m) order ->
  exists text, save_uai fstr dflt m arg = Ok text /\ scm_read_uai fparse dflt text = Raise NetworkXError.
Proof. exact uai_scm_isolated. Qed.
Print Assumptions C37_isolated_raises.

Theorem C37_clash_raises : forall fstr fparse dflt m order D F vt endo cast, causal m D F vt endo cast -> records m D ->
  forall arg, is_order m (endo ++ scm_exogenous m) arg order ->
  with_parents (m_graph m) endo -> plain_roots m -> counted_states m D ->
  (forall v, In v (nodes (m_graph m)) -> ~ In v endo -> writable fstr fparse (F v)) -> reads_naturals fparse ->
  no_isolated (m_graph m) -> (exists x y, clash (m_graph m) order x y) ->
  exists text, save_uai fstr dflt m arg = Ok text /\ scm_read_uai fparse dflt text = Raise ValueError.
Proof. exact uai_scm_clash. Qed.
Print Assumptions C37_clash_raises.

(** An endogenous variable without parents, as an intervention leaves it, comes
    back as an exogenous variable with a wrong table. *)
Theorem C37_parentless_refuted : exists m D F vt endo cast en f', causal m D F vt endo cast /\ plain_roots m /\ counted_states m D /\
  is_order m (endo ++ scm_exogenous m) None ["A"; "B"] /\ no_isolated (m_graph m) /\ no_clash (m_graph m) ["A"; "B"] /\
  In "A" endo /\ read_factor sample_str sample_parse m "V0" = Ok (en, f') /\ ~ In "V0" en /\
  mf_get_value (F "A") [("A", SInt 0)] = Ok n0 /\ mf_get_value f' [("V0", SInt 0)] = Ok n1 /\
  mf_get_value (F "A") [("A", SInt 1)] = Ok n1 /\ mf_get_value f' [("V0", SInt 1)] = Ok n1.
Proof. exact top_wrong. Qed.
Print Assumptions C37_parentless_refuted.

(** DeterministicFactors over states other than 0, 1, ...: with the states 1 and
    2 the equation comes back wrong, and with texts the model cannot be saved. *)
Theorem C37_states_refuted : exists en f', is_odd (SInt 1) (SInt 2) /\ is_odd (SStr "a") (SStr "b") /\
  read_factor sample_str sample_parse (m_odd (SInt 1) (SInt 2)) "V0" = Ok (en, f') /\
  mf_get_value (table_of VNumpy (ts_odd (SInt 1) (SInt 2)) "X") [("U", SInt 0); ("X", SInt 2)] = Ok n1 /\
  mf_get_value f' [("V1", SInt 0); ("V0", SInt 1)] = Ok n0 /\
  save_uai sample_str VNumpy (m_odd (SStr "a") (SStr "b")) None = Raise ValueError.
Proof. exact odd_wrong. Qed.
Print Assumptions C37_states_refuted.

Example C37_case : causal m_scm D_cf (table_of VNumpy ts_scm) VNumpy ["X"; "Z"; "Y"] false /\ records m_scm D_cf /\
  is_order m_scm (["X"; "Z"; "Y"] ++ scm_exogenous m_scm) None ["X"; "Z"; "Y"; "U"; "V"] /\
  with_parents (m_graph m_scm) ["X"; "Z"; "Y"] /\ plain_roots m_scm /\ counted_states m_scm D_cf /\
  (forall v, In v (nodes (m_graph m_scm)) -> ~ In v ["X"; "Z"; "Y"] -> writable sample_str sample_parse (table_of VNumpy ts_scm v)) /\
  reads_naturals sample_parse /\ no_isolated (m_graph m_scm) /\ no_clash (m_graph m_scm) ["X"; "Z"; "Y"; "U"; "V"] /\
  save_uai sample_str VNumpy m_scm None = Ok scm_text /\
  (let* m' := scm_read_uai sample_parse VNumpy scm_text in
   match dget "V2" (m_factors m') with
   | Some (Some (FM f)) => let* x := mf_get_value f [("V1", SInt 1); ("V4", SInt 0); ("V2", SInt 1)] in Ok (m_kind m', keys (mf_domain f), num_eqb x n1)
   | _ => Raise KeyError end) = Ok (KScm ["V0"; "V1"; "V2"] true, ["V4"; "V1"; "V2"], true).
Proof.
  assert (C := scm_ok). split; [exact C|]. split; [apply recordsb_sound; vm_compute; reflexivity|].
  split. { split; [apply nodupb_sound; vm_compute; reflexivity|]. split; [apply same_setb_sound; vm_compute; reflexivity|].
           split; [discriminate|vm_compute; reflexivity]. }
  split; [apply with_parentsb_sound; vm_compute; reflexivity|]. split; [apply plain_rootsb_sound; vm_compute; reflexivity|].
  split; [apply countedb_sound; [apply nodupb_sound|]; vm_compute; reflexivity|].
  split; [apply (writable_exo _ _ _ _ _ _ C); vm_compute; reflexivity|]. split; [apply sample_naturals|].
  split; [apply no_isolatedb_sound; vm_compute; reflexivity|].
  split. { apply no_clashb_sound; [apply nodupb_sound|]; vm_compute; reflexivity. }
  split; vm_compute; reflexivity.
Qed.
