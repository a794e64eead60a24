(** C67: saving models to files and reading them. *)

From Coq Require Import String Bool Arith ZArith Permutation QArith Qcanon List.
From Verif Require Import PyBase Num DomainModel NdArray StoreModel NumStore FactorModel GraphModel ModelModel PgmpyModel UaiModel FileModel Spec FactorSpec GraphSpec
  ModelSpec NetSpec ConvSpec UaiSpec PgmpySpec FileSpec FileFacts3 Checks GraphChecks ModelChecks FactorChecks InferChecks CausalChecks ConvChecks EmChecks PgmpyChecks UaiChecks QChecks FileChecks.
Import ListNotations.
Local Open Scope nat_scope.
Local Open Scope string_scope.
Local Open Scope list_scope.

(** A Bayesian network saved as .bif or .xmlbif and read again: only that file
    is changed, and the network read has the same nodes and arcs and, but for
    the names of the states, the same factors. *)
Theorem C67_bif : forall parent absolute render parse idx emptied fstr fparse dflt fmt w m D F p arg label,
  m_kind m = KBn -> tabled m D F ->
  (forall v l, In (v, l) D -> aligned (F v) v /\ square (F v) (length l) /\ finds idx (map (fun s => SStr (label s)) l)) ->
  no_isolated (m_graph m) -> named_as fmt p -> writable_path parent w p ->
  (forall n, to_pgmpy m = Ok n -> carried label (render fmt) (parse fmt) n) ->
  exists w' m' F', save parent absolute render emptied fstr dflt w m p arg = (w', Ok (absolute p)) /\ only_file w w' p /\
    read parse idx fparse dflt false w' p = Ok m' /\ m_kind m' = KBn /\ tabled m' (relabel label D) F' /\
    same_set (nodes (m_graph m')) (nodes (m_graph m)) /\ (forall x y, arc (m_graph m') x y <-> arc (m_graph m) x y) /\
    forall v, In v (nodes (m_graph m)) -> same_but_names label (F v) (F' v) /\ mf_vtype (F' v) = dflt.
Proof. exact bif_ok. Qed.
Print Assumptions C67_bif.

(** Factors that are the same but for the names of the states have the same
    joint distribution but for these names. *)
Theorem C67_joint : forall label F F' vs o,
  (forall v, In v vs -> same_but_names label (F v) (F' v) /\ full (mf_domain (F v)) o) ->
  joint F' vs (relabel_obs label o) = joint F vs o.
Proof. exact names_joint. Qed.
Print Assumptions C67_joint.

(** A network with an isolated node is saved, but cannot be read again. *)
Theorem C67_isolated_raises : forall parent absolute render parse idx emptied fstr fparse dflt fmt w m D F p arg label,
  m_kind m = KBn -> tabled m D F ->
  (forall v l, In (v, l) D -> aligned (F v) v /\ square (F v) (length l) /\ finds idx (map (fun s => SStr (label s)) l)) ->
  (exists v, isolated (m_graph m) v) -> named_as fmt p -> writable_path parent w p ->
  (forall n, to_pgmpy m = Ok n -> carried label (render fmt) (parse fmt) n) ->
  exists w', save parent absolute render emptied fstr dflt w m p arg = (w', Ok (absolute p)) /\
    read parse idx fparse dflt false w' p = Raise NetworkXError.
Proof. exact FileFacts3.isolated_ok. Qed.
Print Assumptions C67_isolated_raises.

(** A structural causal model is saved as its Bayesian network [b]; what is read
    is a structural causal model whose endogenous variables are those with a
    parent. *)
Theorem C67_causal : forall parent absolute render parse idx emptied fstr fparse dflt fmt w m endo cast b D F p arg label,
  m_kind m = KScm endo cast -> scm_to_bnet m = Ok b -> tabled b D F ->
  (forall x v, arc (m_graph b) x v -> zero_one (F v)) ->
  (forall v l, In (v, l) D -> aligned (F v) v /\ square (F v) (length l) /\ finds idx (map (fun s => SStr (label s)) l)) ->
  no_isolated (m_graph b) -> named_as fmt p -> writable_path parent w p ->
  (forall n, to_pgmpy b = Ok n -> carried label (render fmt) (parse fmt) n) ->
  exists w' m' F' endo', save parent absolute render emptied fstr dflt w m p arg = (w', Ok (absolute p)) /\ only_file w w' p /\
    read parse idx fparse dflt true w' p = Ok m' /\ m_kind m' = KScm endo' true /\ tabled m' (relabel label D) F' /\
    children_of (m_graph b) endo' /\
    same_set (nodes (m_graph m')) (nodes (m_graph b)) /\ (forall x y, arc (m_graph m') x y <-> arc (m_graph b) x y) /\
    forall v, In v (nodes (m_graph b)) -> same_but_names label (F v) (F' v) /\ mf_vtype (F' v) = dflt.
Proof. exact causal_ok. Qed.
Print Assumptions C67_causal.

(** A .uai file holds the text of the model, and is read from that text (C36). *)
Theorem C67_uai : forall parent absolute render parse idx emptied fstr fparse dflt w m p arg text,
  (exists q, p = (q ++ ".uai")%string) -> writable_path parent w p -> save_uai fstr dflt m arg = Ok text ->
  exists w', save parent absolute render emptied fstr dflt w m p arg = (w', Ok (absolute p)) /\ only_file w w' p /\
    read parse idx fparse dflt false w' p = bn_read_uai fparse dflt text /\
    read parse idx fparse dflt true w' p = scm_read_uai fparse dflt text.
Proof. exact FileFacts3.uai_ok. Qed.
Print Assumptions C67_uai.

(** Nothing is written when the folder does not exist. *)
Theorem C67_no_folder : forall parent absolute render emptied fstr dflt w m p arg,
  path_exists w (parent p) = false -> exists e, save parent absolute render emptied fstr dflt w m p arg = (w, Raise e).
Proof. exact no_folder_ok. Qed.
Print Assumptions C67_no_folder.
Theorem C67_no_folder_raises : forall parent absolute render emptied fstr dflt fmt w m p arg,
  m_kind m = KBn -> named_as fmt p -> path_exists w (parent p) = false ->
  save parent absolute render emptied fstr dflt w m p arg = (w, Raise FileNotFoundError).
Proof. exact no_folder_bif. Qed.
Print Assumptions C67_no_folder_raises.

(** Neither is a file named as a folder. *)
Theorem C67_folder_raises : forall parent absolute render emptied fstr dflt fmt w m p arg n text,
  m_kind m = KBn -> named_as fmt p -> path_exists w (parent p) = true -> In p (w_dirs w) ->
  to_pgmpy m = Ok n -> render fmt n = Ok text ->
  save parent absolute render emptied fstr dflt w m p arg = (w, Raise OSError).
Proof. exact folder_ok. Qed.
Print Assumptions C67_folder_raises.

(** A model that pgmpy does not take leaves the file as it was. *)
Theorem C67_unconverted_raises : forall parent absolute render emptied fstr dflt fmt w m p arg e,
  m_kind m = KBn -> named_as fmt p -> path_exists w (parent p) = true -> to_pgmpy m = Raise e ->
  save parent absolute render emptied fstr dflt w m p arg = (w, Raise e).
Proof. exact unconverted_ok. Qed.
Print Assumptions C67_unconverted_raises.

(** Files that do not exist are not read; other names are rejected. *)
Theorem C67_no_file_raises : forall parse idx fparse dflt causal w p,
  (exists q, p = (q ++ ".uai")%string) \/ (exists fmt, named_as fmt p) -> path_exists w p = false ->
  read parse idx fparse dflt causal w p = Raise FileNotFoundError.
Proof. exact no_file_ok. Qed.
Print Assumptions C67_no_file_raises.
Theorem C67_format_raises : forall parent absolute render parse idx emptied fstr fparse dflt causal w m p arg,
  ~ (exists q, p = (q ++ ".uai")%string) -> ~ (exists fmt, named_as fmt p) ->
  save parent absolute render emptied fstr dflt w m p arg = (w, Raise ValueError) /\
  read parse idx fparse dflt causal w p = Raise ValueError.
Proof. exact other_name_ok. Qed.
Print Assumptions C67_format_raises.

(** A network of four variables with strings as states, in a file system with
    another file. *)
Example C67_case : m_kind (m_pg VNumpy) = KBn /\ tabled (m_pg VNumpy) D_pg (table_of VNumpy ts_pg) /\
  (forall v l, In (v, l) D_pg -> aligned (table_of VNumpy ts_pg v) v /\ square (table_of VNumpy ts_pg v) (length l) /\
     finds index_by_type (map (fun s => SStr (say s)) l)) /\
  no_isolated (m_graph (m_pg VNumpy)) /\ named_as Bif "d/net.bif" /\ writable_path in_d w0 "d/net.bif" /\
  (forall n, to_pgmpy (m_pg VNumpy) = Ok n -> carried say (one_text Bif) (text_of (m_pg VNumpy) Bif) n) /\
  (let (w, r) := save in_d rooted one_text false sample_str VTree w0 (m_pg VNumpy) "d/net.bif" None in
   (r, w_files w, match value_read (read (text_of (m_pg VNumpy)) index_by_type sample_parse VTree false w "d/net.bif") "B" [("B", SStr "b1")] with
                  | Ok x => num_eqb x (Fin (Q2Qc (2#3))) | Raise _ => false end)) =
  (Ok "/d/net.bif", [("d/other.bif", "other"); ("d/net.bif", "network")], true).
Proof.
  split; [reflexivity|]. split; [apply (network_tabled _ _ _ VNumpy), pg_ok|]. split; [exact pg_carried_aligned|].
  split; [apply no_isolatedb_sound; vm_compute; reflexivity|]. split; [apply net_named|]. split; [apply w0_writable|].
  split; [apply carried_again; vm_compute; reflexivity|]. vm_compute. reflexivity.
Qed.

(** A structural causal model with integers as states: those read are strings. *)
Example C67_causal_case : m_kind m_fd = KScm endo_fd false /\ scm_to_bnet m_fd = Ok b_fd' /\ tabled b_fd' D_fd (table_in b_fd') /\
  (forall x v, arc (m_graph b_fd') x v -> zero_one (table_in b_fd' v)) /\
  (forall v l, In (v, l) D_fd -> aligned (table_in b_fd' v) v /\ square (table_in b_fd' v) (length l) /\
     finds index_by_type (map (fun s => SStr (say s)) l)) /\
  no_isolated (m_graph b_fd') /\ named_as XmlBif "d/net.xmlbif" /\ writable_path in_d w0 "d/net.xmlbif" /\
  (forall n, to_pgmpy b_fd' = Ok n -> carried say (one_text XmlBif) (text_of b_fd' XmlBif) n) /\
  (let (w, r) := save in_d rooted one_text false sample_str VList w0 m_fd "d/net.xmlbif" None in
   (r, match value_read (read (text_of b_fd') index_by_type sample_parse VList true w "d/net.xmlbif") "U" [("U", SStr "1")] with
       | Ok x => num_eqb x (Fin (Q2Qc (1#4))) | Raise _ => false end,
    value_read (read (text_of b_fd') index_by_type sample_parse VList true w "d/net.xmlbif") "U" [("U", SInt 1)])) =
  (Ok "/d/net.xmlbif", true, Raise IndexError).
Proof.
  split; [vm_compute; reflexivity|]. split; [exact fd_bnet|]. split; [exact fd_tabled|]. split; [exact fd_zero_one|]. split; [exact fd_aligned|].
  split; [apply no_isolatedb_sound; vm_compute; reflexivity|]. split; [apply net_named|]. split; [apply w0_writable|].
  split; [apply carried_again; vm_compute; reflexivity|]. vm_compute. reflexivity.
Qed.

(** The exceptions. *)
Example C67_raises_case :
  tabled m_isolated D_isolated (table_of VNumpy [b01 "A"; b01p "B" "A"; b01 "C"]) /\
  (forall v l, In (v, l) D_isolated -> aligned (table_of VNumpy [b01 "A"; b01p "B" "A"; b01 "C"] v) v /\
     square (table_of VNumpy [b01 "A"; b01p "B" "A"; b01 "C"] v) (length l) /\ finds index_by_type (map (fun s => SStr (say s)) l)) /\
  isolated (m_graph m_isolated) "C" /\
  (forall n, to_pgmpy m_isolated = Ok n -> carried say (one_text Bif) (text_of m_isolated Bif) n) /\
  (let (w, r) := save in_d rooted one_text false sample_str VNumpy w0 m_isolated "d/net.bif" None in
   (r, value_read (read (text_of m_isolated) index_by_type sample_parse VNumpy false w "d/net.bif") "A" [])) = (Ok "/d/net.bif", Raise NetworkXError) /\
  save (fun _ => "e") rooted one_text false sample_str VNumpy w0 m_isolated "e/net.bif" None = (w0, Raise FileNotFoundError) /\
  save in_d rooted one_text false sample_str VNumpy w0 m_isolated "d/sub.bif" None = (w0, Raise OSError) /\
  save in_d rooted one_text false sample_str VNumpy w0 m_isolated "d/net.txt" None = (w0, Raise ValueError) /\
  read (text_of m_isolated) index_by_type sample_parse VNumpy false w0 "d/net.bif" = Raise FileNotFoundError.
Proof.
  split; [apply (network_tabled _ _ _ VNumpy), isolated_ok|]. split; [exact isolated_carried_aligned|].
  split. { split; [vm_compute; tauto|]. intros w [A | A]; vm_compute in A; intuition discriminate. }
  split; [apply carried_again; vm_compute; reflexivity|]. repeat split; vm_compute; reflexivity.
Qed.
