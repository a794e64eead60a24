(** What the statements about files mean. *)

From Coq Require Import String Bool Arith Permutation List.
From Verif Require Import PyBase Num DomainModel StoreModel FactorModel GraphModel ModelModel PgmpyModel Spec GraphSpec FactorSpec ModelSpec FileModel.
Import ListNotations.

(** Files contain names of states: [label s] is the one of the state [s]. *)
Definition relabel (label : state -> string) (d : domain) : domain :=
  map (fun vl => (fst vl, map (fun s => SStr (label s)) (snd vl))) d.
Definition relabel_obs (label : state -> string) (o : obs) : obs := map (fun vs => (fst vs, SStr (label (snd vs)))) o.

(** The tables of pgmpy are the same but for the names of the states and the
    order of the dictionary of states. *)
Definition restated (label : state -> string) (t t' : tabcpd) : Prop :=
  tb_variable t' = tb_variable t /\ tb_variables t' = tb_variables t /\ tb_values t' = tb_values t /\
  Permutation (tb_states t') (relabel label (tb_states t)).
(** A format of pgmpy keeps the network [n]: what is written is read as a
    network with the same arcs and, in some order, the same tables. *)
Definition carried (label : state -> string) (render : pgnet -> res string) (parse : string -> res pgnet) (n : pgnet) : Prop :=
  exists text n' ts, render n = Ok text /\ parse text = Ok n' /\ wf_graph (pn_graph n') /\
    (forall x y, arc (pn_graph n') x y <-> arc (pn_graph n) x y) /\
    Permutation ts (pn_cpds n') /\ Forall2 (restated label) (pn_cpds n) ts.

(** Two factors with the same values but for the names of the states. *)
Definition same_but_names (label : state -> string) (f f' : mfactor) : Prop :=
  Permutation (mf_domain f') (relabel label (mf_domain f)) /\ mf_right f' = mf_right f /\
  forall o, full (mf_domain f) o -> exists x, mf_get_value f o = Ok x /\ mf_get_value f' (relabel_obs label o) = Ok x.

(** Only the file [p] differs. *)
Definition only_file (w w' : world) (p : string) : Prop :=
  w_dirs w' = w_dirs w /\ forall q, q <> p -> dget q (w_files w') = dget q (w_files w).
(** [p] can be written: its folder exists, and it is not a folder itself. *)
Definition writable_path (parent : string -> string) (w : world) (p : string) : Prop :=
  In (parent p) (w_dirs w) /\ ~ In p (w_dirs w).
(** The name of a file of the format. *)
Definition named_as (fmt : format) (p : string) : Prop :=
  exists q, p = (q ++ match fmt with Bif => ".bif" | XmlBif => ".xmlbif" end)%string.
