(** Sample models for the examples about the Q-factorisation. *)

From Coq Require Import String Ascii Bool Arith ZArith QArith Qcanon Lia List.
From Verif Require Import PyBase PyFacts Num DomainModel NdArray StoreModel NumStore FactorModel GraphModel ModelModel InferModel LearnModel DataModel
  Spec StoreSpec FactorSpec GraphSpec GraphFacts ModelSpec NetSpec OrderSpec OrderFacts DataSpec EmSpec Checks FactorChecks GraphChecks InferChecks
  CausalChecks LearnChecks EmChecks QModel QSpec.
From Coq Require Import List.
Import ListNotations.
Local Open Scope nat_scope.
Local Open Scope string_scope.
Local Open Scope list_scope.
Local Arguments eqd : simpl never.

(** ** A topological sort: take away the nodes without children *)
Definition is_sink (g : digraph) (v : var) : bool := match succs g v with [] => true | _ => false end.
Definition without (s : var) (g : digraph) : digraph := subgraph g (filter (fun v => if eqd v s then false else true) (nodes g)).
Fixpoint sort_loop (n : nat) (g : digraph) : list var :=
  match n with
  | 0 => []
  | S n => match find (is_sink g) (nodes g) with
           | Some s => sort_loop n (without s g) ++ [s]
           | None => []
           end
  end.
Definition sink_sort (g : digraph) : list var := sort_loop (length (nodes g)) g.

Lemma sort_loop_ok n : forall g, wf_graph g -> acyclic g -> length (nodes g) <= n -> topological g (sort_loop n g).
Proof.
  induction n as [|n IH]; intros g W A L.
  - destruct (nodes g) eqn:E; [|cbn in L; lia]. split; [constructor|]. split; [intros v; rewrite E; tauto|]. intros x y l1 l2 K. now destruct l1.
  - cbn [sort_loop]. destruct (find (is_sink g) (nodes g)) as [s|] eqn:Ef.
    + apply find_some in Ef as [I K0]. assert (K : forall y, ~ arc g s y).
      { intros y B. apply in_succs in B. unfold is_sink in K0. destruct (succs g s); [destruct B|discriminate]. }
      clear K0. unfold without. set (rest := filter (fun v => if eqd v s then false else true) (nodes g)).
      assert (IR : forall v, In v rest <-> In v (nodes g) /\ v <> s).
      { intros v. unfold rest. rewrite filter_In. destruct (eqd v s); intuition congruence. }
      destruct (IH (subgraph g rest)) as (NO & EO & TO).
      * now apply subgraph_wf.
      * apply acyclic_mono with g; [|auto]. intros x y J. now apply subgraph_arc in J.
      * assert (length (nodes (subgraph g rest)) < length (nodes g)); [|lia].
        apply filter_length_lt with (x := s); [auto|]. apply mem_nIn. rewrite IR. tauto.
      * set (o := sort_loop n (subgraph g rest)) in *. assert (NS : ~ In s o) by (rewrite EO, subgraph_nodes, IR; tauto).
        split; [|split].
        -- apply NoDup_app_intro; [auto|now repeat constructor|]. intros x J [<- | []]. auto.
        -- intros v. rewrite in_app_iff, EO, subgraph_nodes, IR. cbn [In]. split.
           ++ intros [J|[<- | []]]; tauto.
           ++ intros J. destruct (eqd v s); [right; auto|left; tauto].
        -- intros x y l1 l2 E B. assert (x <> s) by (intros ->; now apply (K y)).
           destruct W as (W1 & W2 & W3). destruct (W3 _ _ B) as [BX BY].
           destruct l2 as [|z l2 _] using rev_ind.
           ++ apply app_inj_tail in E. destruct E as [<- <-]. apply EO, subgraph_nodes. split; [auto|]. apply IR. auto.
           ++ replace (l1 ++ y :: l2 ++ [z]) with ((l1 ++ y :: l2) ++ [z]) in E by now rewrite <- app_assoc.
              apply app_inj_tail in E. destruct E as [E _]. apply (TO x y l1 l2 E). apply subgraph_arc.
              assert (J : In y o) by (rewrite E; apply in_or_app; right; now left). apply EO, subgraph_nodes in J.
              repeat split; [auto| |tauto]. apply IR. auto.
    + destruct (nodes g) as [|x0 r] eqn:E0.
      * split; [constructor|]. split; [intros v; rewrite E0; tauto|]. intros x y l1 l2 K. now destruct l1.
      * rewrite <- E0 in *. destruct (acyclic_sink g W A) as (s & I & K); [congruence|]. exfalso.
        assert (Q := find_none _ _ Ef s I). unfold is_sink in Q. destruct (succs g s) as [|y l] eqn:Es; [discriminate|].
        apply (K y). apply in_succs. rewrite Es. now left.
Qed.
Lemma sink_sort_ok : sorts sink_sort.
Proof. intros g W A. now apply sort_loop_ok. Qed.
Definition first_of (c : list var) : var := hd "" c.
Lemma first_of_ok : pops first_of.
Proof. intros [|v c] N; [congruence|now left]. Qed.
Definition heur_q : digraph -> list var -> dict var nat -> res (list var) := heuristic_fn MIN_SIZE last_choice.
Lemma heur_q_ok : is_heuristic heur_q.
Proof. exact (heuristic_ok MIN_SIZE _ last_chooses). Qed.
Definition oracles : Prop := sorts sink_sort /\ is_set_order plain_order /\ pops first_of /\ is_heuristic heur_q.
Lemma oracles_ok : oracles.
Proof. exact (conj sink_sort_ok (conj plain_order_ok (conj first_of_ok heur_q_ok))). Qed.

(** ** Decisions *)
Definition causal_tablesb (m : pgm) (D : domain) (endo : list var) : bool :=
  networkb m D && nonnegativeb m D && inclb endo (nodes (m_graph m)) && forallb (fun e => mem (snd e) endo) (edges (m_graph m)) &&
  match m_kind m with KScm l _ => if eqd l endo then true else false | _ => false end.
Lemma causal_tablesb_sound m D endo : causal_tablesb m D endo = true -> causal_tables m D (table_in m) VNumpy endo.
Proof.
  unfold causal_tablesb. rewrite !andb_true_iff. intros [[[[E1 E2] E3] E4] E5]. apply networkb_sound in E1. split; [exact E1|].
  split; [now apply (nonneg_check _ _ _ _ E1)|]. split.
  - destruct (m_kind m) as [|l c]; try discriminate. exists c. destruct (eqd l endo) as [-> |]; [reflexivity|discriminate].
  - split; [now apply inclb_sound|]. rewrite forallb_forall in E4. intros x y J. apply mem_In. exact (E4 (x, y) J).
Qed.
Definition disturbedb (g : digraph) (endo : list var) : bool :=
  forallb (fun v => existsb (fun u => negb (mem u endo)) (preds g v)) endo.
Lemma disturbedb_sound g endo : disturbedb g endo = true -> all_disturbed g endo.
Proof.
  unfold disturbedb. rewrite forallb_forall. intros E v J. specialize (E v J). apply existsb_exists in E as (u & K & N).
  exists u. split; [now apply in_preds|]. now apply negb_true_iff, mem_nIn in N.
Qed.
Definition full_datab (D : domain) (data : frame) (vs : list var) : bool :=
  nodupb (f_cols data) && inclb vs (f_cols data) &&
  forallb (fun r => Nat.eqb (length r) (length (f_cols data)) &&
     forallb (fun vc => match snd vc, dget (fst vc) D with Some s, Some l => mem s l | _, _ => false end) (combine (f_cols data) r)) (f_rows data).
Lemma full_datab_sound D data vs : full_datab D data vs = true -> full_data D data vs.
Proof.
  unfold full_datab. rewrite !andb_true_iff. intros [[N I] A]. rewrite forallb_forall in A. split; [|split].
  - split; [now apply nodupb_sound|]. intros r J. specialize (A r J). apply andb_true_iff in A as [A _]. now apply Nat.eqb_eq.
  - now apply inclb_sound.
  - intros r v c J _ K. specialize (A r J). apply andb_true_iff in A as [_ A]. rewrite forallb_forall in A. specialize (A _ K). cbn [fst snd] in A.
    destruct c as [s|]; [|discriminate]. destruct (dget v D) as [l|] eqn:E; [|discriminate]. exists l, s. split; [now apply dget_In|].
    split; [now apply mem_In|reflexivity].
Qed.

(** The numbers themselves with their product, in place of their logarithms. *)
Definition lg_id (x : Qc) : Qc := x.
Lemma lg_id_ok : logarithm 1%Qc Qcmult lg_id.
Proof. repeat split; intros; unfold lg_id; ring. Qed.
Notation lik_q := (log_likelihood sink_sort plain_order first_of heur_q VNumpy Qc 1%Qc Qcmult lg_id 0%Qc 0%Qc).
Notation max_q := (max_log_likelihood sink_sort plain_order first_of heur_q VNumpy Qc 1%Qc Qcmult lg_id 0%Qc 0%Qc).
Definition num_of (r : res Qc) : option Q := match r with Ok x => Some (this x) | Raise _ => None end.

(** ** X -> Z -> Y, where U acts on X and Y and W on Z *)
Definition g_fd : digraph := graph_of [("U", "X"); ("U", "Y"); ("X", "Z"); ("W", "Z"); ("Z", "Y")].
Definition l03 : list state := [SInt 0; SInt 1; SInt 2; SInt 3].
Definition D_fd : domain := [("U", l03); ("X", l01); ("Y", l01); ("Z", l01); ("W", l01)].
Definition endo_fd : list var := ["X"; "Z"; "Y"].
(** X = U mod 2, Z = X xor W, Y = Z xor U/2 *)
Definition ts_fd (u : list Q) : tables :=
  [("U", ([("U", l03)], u, [])); ("W", ([("W", l01)], [3#4; 1#4]%Q, []));
   ("X", ([("U", l03); ("X", l01)], [1; 0; 0; 1; 1; 0; 0; 1]%Q, ["U"]));
   ("Z", ([("X", l01); ("W", l01); ("Z", l01)], [1; 0; 0; 1; 0; 1; 1; 0]%Q, ["X"; "W"]));
   ("Y", ([("Z", l01); ("U", l03); ("Y", l01)], [1; 0; 1; 0; 0; 1; 0; 1; 0; 1; 0; 1; 1; 0; 1; 0]%Q, ["Z"; "U"]))].
Definition m_fd : pgm := scm_of VNumpy g_fd (ts_fd [1#2; 1#4; 1#8; 1#8]%Q) [] (Some endo_fd) false.
Definition F_fd : var -> mfactor := table_in m_fd.
Definition q_fd : digraph := mkG ["X"; "Y"; "Z"] [("X", "Z"); ("Z", "Y"); ("X", "Y")].
Lemma fd_tables : causal_tables m_fd D_fd F_fd VNumpy endo_fd.
Proof. apply causal_tablesb_sound. vm_compute. reflexivity. Qed.
Lemma fd_disturbed : all_disturbed (m_graph m_fd) endo_fd.
Proof. apply disturbedb_sound. vm_compute. reflexivity. Qed.
Lemma fd_qgraph : m_qgraph sink_sort m_fd = Ok q_fd.
Proof. vm_compute. reflexivity. Qed.
Lemma fd_acyclic : acyclic q_fd.
Proof. apply dagb_sound. vm_compute. reflexivity. Qed.
Lemma fd_describes : describes D_fd m_fd /\ incl (keys (m_domains m_fd)) (keys D_fd).
Proof. split; [apply describesb_sound|apply inclb_sound]; vm_compute; reflexivity. Qed.

(** the results of get_qfactors as functions of observations *)
Definition q_value (r : res (dict var fobj)) (v : var) (o : obs) : option Q :=
  match r with
  | Ok d => match dget v d with
            | Some (FM t) => match mf_get_value t o with Ok (Fin x) => Some (this x) | _ => None end
            | _ => None
            end
  | Raise _ => None
  end.
Definition fs_fd (v : var) : res (dict var fobj) := get_qfactors sink_sort plain_order heur_q VNumpy m_fd None v.
Definition o_fd (x z y : Z) : obs := [("X", SInt x); ("Z", SInt z); ("Y", SInt y)].
Lemma fd_factors : match fs_fd "Y" with Ok d => keys d | Raise _ => [] end = ["Y"; "X"] /\ fs_fd "Q" = Raise KeyError /\
  q_value (fs_fd "Y") "Y" (o_fd 0 1 1) = Some (4#5)%Q /\ q_value (fs_fd "Z") "Z" (o_fd 0 1 1) = Some (1#4)%Q.
Proof. repeat split; vm_compute; reflexivity. Qed.
Definition b_fd : pgm := match get_qbnet sink_sort plain_order first_of heur_q VNumpy m_fd None with Ok b => b | Raise _ => m_fd end.
Lemma fd_prob : get_qbnet sink_sort plain_order first_of heur_q VNumpy m_fd None = Ok b_fd /\ full (pick endo_fd D_fd) (o_fd 0 1 1) /\
  match m_prob b_fd [o_fd 0 1 1; o_fd 1 0 0] with Ok l => nums_eqb l [Fin (Q2Qc (1#8)); Fin (Q2Qc (1#16))] | Raise _ => false end = true /\
  this (mass D_fd F_fd (o_fd 0 1 1)) = (1#8)%Q.
Proof.
  split; [vm_compute; reflexivity|]. split; [apply fullb_sound; vm_compute; reflexivity|]. split; vm_compute; reflexivity.
Qed.

(** data, with a column of an exogenous variable *)
Definition fr_fd : frame := mkF ["X"; "W"; "Z"; "Y"] (rows [[Some 0; Some 0; Some 0; Some 0]; [Some 0; Some 0; Some 0; Some 1]; [Some 0; Some 1; Some 1; Some 1]; [Some 1; Some 0; Some 1; Some 1]]%Z).
Lemma fd_data : full_data D_fd fr_fd endo_fd /\ f_rows fr_fd <> [].
Proof. split; [apply full_datab_sound; vm_compute; reflexivity|discriminate]. Qed.
Lemma fd_possible r : In r (f_rows fr_fd) -> mass D_fd F_fd (part endo_fd (row_obs fr_fd r)) <> 0%Qc.
Proof.
  assert (E : forallb (fun r => possibleb D_fd F_fd (part endo_fd (row_obs fr_fd r))) (f_rows fr_fd) = true) by (vm_compute; reflexivity).
  rewrite forallb_forall in E. intros J. apply possibleb_sound. auto.
Qed.
Lemma fd_lik : num_of (lik_q m_fd fr_fd None) = Some (27#32768)%Q /\ this (likelihood_of D_fd F_fd fr_fd endo_fd) = (27#32768)%Q.
Proof. split; vm_compute; reflexivity. Qed.
Lemma fd_lik_some : num_of (lik_q m_fd fr_fd (Some ["X"; "Z"])) = Some (10125#1048576)%Q /\ lik_q m_fd fr_fd (Some ["X"; "W"]) = Raise KeyError.
Proof. split; vm_compute; reflexivity. Qed.
Lemma fd_max : num_of (max_q m_fd fr_fd None) = Some (1#256)%Q /\ this (empirical q_fd fr_fd) = (1#256)%Q.
Proof. split; vm_compute; reflexivity. Qed.
Lemma fd_below : (likelihood_of D_fd F_fd fr_fd endo_fd < empirical q_fd fr_fd)%Qc.
Proof. vm_compute. reflexivity. Qed.

(** the same model with U = 0 always: X = 1 is impossible *)
Definition m_fd0 : pgm := scm_of VNumpy g_fd (ts_fd [1; 0; 0; 0]%Q) [] (Some endo_fd) false.
Definition r_fd0 : list (option state) := map (option_map SInt) [Some 1; Some 0; Some 1; Some 1]%Z.
Lemma fd0_tables : causal_tables m_fd0 D_fd (table_in m_fd0) VNumpy endo_fd.
Proof. apply causal_tablesb_sound. vm_compute. reflexivity. Qed.
Lemma fd0_same : m_graph m_fd0 = m_graph m_fd.
Proof. vm_compute. reflexivity. Qed.
Lemma fd0_zero : In r_fd0 (f_rows fr_fd) /\ mass D_fd (table_in m_fd0) (part endo_fd (row_obs fr_fd r_fd0)) = 0%Qc.
Proof. split; [cbn; tauto|]. apply Qc_is_canon. vm_compute. reflexivity. Qed.
Lemma fd0_raises : lik_q m_fd0 fr_fd None = Raise ValueError.
Proof. vm_compute. reflexivity. Qed.

(** ** A -> E and C -> B, where U acts on A and B and V on C and E: the q-graph
    has a cycle *)
Definition g_cy : digraph := graph_of [("U", "A"); ("U", "B"); ("V", "C"); ("V", "E"); ("A", "E"); ("C", "B")].
Definition D_cy : domain := map (fun v => (v, l01)) ["U"; "A"; "B"; "V"; "C"; "E"].
Definition endo_cy : list var := ["A"; "B"; "C"; "E"].
Definition ts_cy : tables :=
  [("U", ([("U", l01)], [1#3; 2#3]%Q, [])); ("V", ([("V", l01)], [1#2; 1#2]%Q, []));
   ("A", ([("U", l01); ("A", l01)], [1; 0; 0; 1]%Q, ["U"])); ("C", ([("V", l01); ("C", l01)], [1; 0; 0; 1]%Q, ["V"]));
   ("B", ([("U", l01); ("C", l01); ("B", l01)], [1; 0; 0; 1; 0; 1; 1; 0]%Q, ["U"; "C"]));
   ("E", ([("V", l01); ("A", l01); ("E", l01)], [1; 0; 0; 1; 0; 1; 1; 0]%Q, ["V"; "A"]))].
Definition m_cy : pgm := scm_of VNumpy g_cy ts_cy [] (Some endo_cy) false.
Definition q_cy : digraph := match m_qgraph sink_sort m_cy with Ok q => q | Raise _ => mkG [] [] end.
Definition fr_cy : frame := mkF endo_cy (rows [[Some 0; Some 0; Some 0; Some 0]]%Z).
Lemma cy_tables : causal_tables m_cy D_cy (table_in m_cy) VNumpy endo_cy /\ all_disturbed (m_graph m_cy) endo_cy.
Proof. split; [apply causal_tablesb_sound|apply disturbedb_sound]; vm_compute; reflexivity. Qed.
Lemma cy_qgraph : m_qgraph sink_sort m_cy = Ok q_cy.
Proof. vm_compute. reflexivity. Qed.
Lemma cy_cyclic : ~ acyclic q_cy.
Proof.
  intros A. apply (A "A"). apply walk_step with "C"; [vm_compute; tauto|]. apply walk_one. vm_compute. tauto.
Qed.
Lemma cy_data : full_data D_cy fr_cy endo_cy /\ describes D_cy m_cy /\ incl (keys (m_domains m_cy)) (keys D_cy) /\ f_rows fr_cy <> [].
Proof. split; [apply full_datab_sound; vm_compute; reflexivity|]. split; [apply describesb_sound; vm_compute; reflexivity|]. split; [apply inclb_sound; vm_compute; reflexivity|discriminate]. Qed.
Lemma cy_raises : get_qbnet sink_sort plain_order first_of heur_q VNumpy m_cy None = Raise ValueError /\
  lik_q m_cy fr_cy None = Raise ValueError /\ max_q m_cy fr_cy None = Raise ValueError.
Proof. repeat split; vm_compute; reflexivity. Qed.

(** ** U -> X -> Y: no exogenous variable acts on Y *)
Definition ts_gap : tables :=
  [("U", ([("U", l01)], [1#3; 2#3]%Q, [])); ("X", ([("U", l01); ("X", l01)], [1; 0; 0; 1]%Q, ["U"]));
   ("Y", ([("X", l01); ("Y", l01)], [0; 1; 1; 0]%Q, ["X"]))].
Definition m_gap : pgm := scm_of VNumpy (graph_of [("U", "X"); ("X", "Y")]) ts_gap [] (Some ["X"; "Y"]) false.
Definition D_gap : domain := [("U", l01); ("X", l01); ("Y", l01)].
Definition q_gap : digraph := mkG ["X"; "Y"] [("X", "Y")].
Lemma gap_tables : causal_tables m_gap D_gap (table_in m_gap) VNumpy ["X"; "Y"].
Proof. apply causal_tablesb_sound. vm_compute. reflexivity. Qed.
Lemma gap_qgraph : m_qgraph sink_sort m_gap = Ok q_gap /\ acyclic q_gap.
Proof. split; [vm_compute; reflexivity|]. apply dagb_sound. vm_compute. reflexivity. Qed.
Lemma gap_parents u : arc (m_graph m_gap) u "Y" -> In u ["X"; "Y"].
Proof. intros J. apply in_preds in J. vm_compute in J. vm_compute. tauto. Qed.
Lemma gap_raises : (let* b := get_qbnet sink_sort plain_order first_of heur_q VNumpy m_gap None in m_prob b [[("X", SInt 0); ("Y", SInt 1)]]) = Raise AttributeError.
Proof. vm_compute. reflexivity. Qed.
