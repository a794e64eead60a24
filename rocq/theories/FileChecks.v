(** Concrete files for the statements of PropsFile.v. *)

From Coq Require Import String Bool Arith ZArith Permutation List QArith.
From Verif Require Import PyBase Num DomainModel NdArray StoreModel NumStore FactorModel GraphModel ModelModel PgmpyModel UaiModel FileModel Spec FactorSpec GraphSpec
  ModelSpec NetSpec UaiSpec PgmpySpec FileSpec Checks GraphChecks ModelChecks FactorChecks InferChecks CausalChecks ConvChecks EmChecks PgmpyChecks UaiChecks QChecks.
Import ListNotations.
Local Open Scope nat_scope.
Local Open Scope string_scope.
Local Open Scope list_scope.

(** names of states *)
Definition say (s : state) : string :=
  match s with SStr x => x | SInt z => z_str z | SBool true => "True" | SBool false => "False" end.
(** a format that reverses the order of the tables and of their states *)
Definition restate (t : tabcpd) : tabcpd := MkTab (tb_variable t) (tb_variables t) (tb_values t) (relabel say (rev (tb_states t))).
Definition net_again (n : pgnet) : pgnet := MkPg (pn_graph n) (rev (map restate (pn_cpds n))).
Definition one_text (fmt : format) (n : pgnet) : res string := Ok "network".
Definition text_of (m : pgm) (fmt : format) (text : string) : res pgnet :=
  if (text =? "network")%string then let* n := to_pgmpy m in Ok (net_again n) else Raise ValueError.

Lemma restate_ok t : restated say t (restate t).
Proof.
  repeat split. unfold restate, relabel. cbn [tb_states]. apply Permutation_map. apply Permutation_sym, Permutation_rev.
Qed.
Lemma carried_again m fmt : match to_pgmpy m with Ok n => dagb (pn_graph n) | Raise _ => false end = true ->
  forall n, to_pgmpy m = Ok n -> carried say (one_text fmt) (text_of m fmt) n.
Proof.
  intros B n E. rewrite E in B. exists "network", (net_again n), (map restate (pn_cpds n)). split; [reflexivity|].
  split; [unfold text_of; rewrite E; reflexivity|]. split; [apply dagb_sound, B|]. split; [reflexivity|].
  split; [apply Permutation_rev|]. induction (pn_cpds n) as [|t l IH]; constructor; [apply restate_ok|exact IH].
Qed.

(** paths: everything is in the folder "d" *)
Definition in_d (p : string) : string := "d".
Definition rooted (p : string) : string := "/" ++ p.
Definition w0 : world := MkW [("d/other.bif", "other")] ["d"; "d/sub.bif"].
Lemma w0_writable : writable_path in_d w0 "d/net.bif" /\ writable_path in_d w0 "d/net.xmlbif" /\ writable_path in_d w0 "d/net.uai".
Proof. repeat split; cbn; intuition discriminate. Qed.
Lemma net_named : named_as Bif "d/net.bif" /\ named_as XmlBif "d/net.xmlbif".
Proof. split; exists "d/net"; reflexivity. Qed.

Lemma pg_carried_aligned v l : In (v, l) D_pg ->
  aligned (table_of VNumpy ts_pg v) v /\ square (table_of VNumpy ts_pg v) (length l) /\ finds index_by_type (map (fun s => SStr (say s)) l).
Proof.
  intros I. destruct (pg_aligned VNumpy v l I) as (A & S & _). split; [exact A|]. split; [exact S|].
  destruct I as [J|[J|[J|[J|[]]]]]; injection J as <- <-; apply strings_found; vm_compute; reflexivity.
Qed.
Lemma isolated_carried_aligned v l : In (v, l) D_isolated ->
  aligned (table_of VNumpy [b01 "A"; b01p "B" "A"; b01 "C"] v) v /\ square (table_of VNumpy [b01 "A"; b01p "B" "A"; b01 "C"] v) (length l) /\
  finds index_by_type (map (fun s => SStr (say s)) l).
Proof.
  intros I. destruct (isolated_aligned v l I) as (A & S & _). split; [exact A|]. split; [exact S|].
  destruct I as [J|[J|[J|[]]]]; injection J as <- <-; apply strings_found; vm_compute; reflexivity.
Qed.

(** a structural causal model with integer states *)
Definition b_fd' : pgm := match scm_to_bnet m_fd with Ok b => b | Raise _ => m_fd end.
Lemma fd_bnet : scm_to_bnet m_fd = Ok b_fd'.
Proof. vm_compute. reflexivity. Qed.
Lemma fd_tabled : tabled b_fd' D_fd (table_in b_fd').
Proof. apply (network_tabled _ _ _ VNumpy), networkb_sound. vm_compute. reflexivity. Qed.
Lemma fd_zero_one x v : arc (m_graph b_fd') x v -> zero_one (table_in b_fd' v).
Proof.
  intros J. assert (I : In v ["X"; "Y"; "Z"]) by (vm_compute in J; cbn; intuition congruence).
  clear J. assert (W : wf_mf (table_in b_fd' v)).
  { apply wf_mfb_sound. destruct I as [<-|[<-|[<-|[]]]]; vm_compute; reflexivity. }
  apply zero_oneb_sound; [exact W|]. clear W. destruct I as [<-|[<-|[<-|[]]]]; vm_compute; reflexivity.
Qed.
Lemma fd_aligned v l : In (v, l) D_fd ->
  aligned (table_in b_fd' v) v /\ square (table_in b_fd' v) (length l) /\ finds index_by_type (map (fun s => SStr (say s)) l).
Proof.
  intros I. split; [|split].
  - destruct I as [I|[I|[I|[I|[I|[]]]]]]; injection I as <- <-; vm_compute; reflexivity.
  - destruct I as [I|[I|[I|[I|[I|[]]]]]]; injection I as <- <-; apply square_check; vm_compute; reflexivity.
  - destruct I as [I|[I|[I|[I|[I|[]]]]]]; injection I as <- <-; apply strings_found; vm_compute; reflexivity.
Qed.

(** what a value of a factor of the model read is *)
Definition value_read (r : res pgm) (v : var) (o : obs) : res num :=
  let* m := r in match dget v (m_factors m) with Some (Some (FM f)) => mf_get_value f o | _ => Raise KeyError end.
