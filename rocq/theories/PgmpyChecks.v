(** Sample factors and networks for the examples about pgmpy. *)

From Coq Require Import String Bool Arith ZArith QArith Qcanon List.
From Verif Require Import PyBase PyFacts Num DomainModel StoreModel FactorModel GenModel GraphModel ModelModel CausalModel PgmpyModel
  Spec FactorSpec GraphSpec ModelSpec NetSpec UaiSpec PgmpySpec PgmpyFacts3 Checks FactorChecks GraphChecks InferChecks CausalChecks UaiChecks.
Import ListNotations.
Local Open Scope nat_scope.
Local Open Scope string_scope.
Local Open Scope list_scope.

Definition lA : list state := [SStr "a0"; SStr "a1"; SStr "a2"].
Definition lB : list state := [SStr "b0"; SStr "b1"].
Definition lC : list state := [SStr "c0"; SStr "c1"; SStr "c2"].
Definition dABC : domain := [("A", lA); ("B", lB); ("C", lC)].
Definition pABC : list Q := [1#2; 1#4; 1#4; 1#8; 3#8; 1#2; 0#1; 1#1; 0#1; 1#3; 1#3; 1#3; 1#6; 1#3; 1#2; 1#5; 2#5; 2#5]%Q.

Lemma distinct_sound {K} `{EqD K} (l : list K) : distinct l = true -> NoDup l.
Proof.
  unfold distinct. intros E. apply Nat.eqb_eq in E. induction l as [|x l IH]; [constructor|]. cbn [nodup length] in E.
  destruct (in_dec eqd x l) as [I | I].
  - exfalso. assert (L : forall k : list K, length (nodup eqd k) <= length k) by (induction k as [|y k IHk]; cbn [nodup length]; [auto|destruct (in_dec eqd y k); cbn [length]; auto with arith]).
    specialize (L l). rewrite E in L. now apply Nat.nle_succ_diag_l in L.
  - constructor; [assumption|]. apply IH. cbn [length] in E. now injection E.
Qed.

(** a state list of strings, found by both rules *)
Lemma strings_found l : forallb (fun s => match s with SStr _ => true | _ => false end) l && distinct l = true ->
  finds index_by_type l /\ finds index_by_name l.
Proof.
  rewrite andb_true_iff. intros (S & N). assert (ND : NoDup l) by (apply distinct_sound, N). clear N. split; [|now apply by_name_finds].
  apply by_type_finds; [assumption|]. rewrite forallb_forall in S. intros s I. specialize (S s I). destruct s; try discriminate. eauto.
Qed.
Lemma square_check f n : (Nat.ltb 2 (length (mf_vars f))) && negb match mf_domain f with (_, k) :: _ => Nat.eqb (length k) n | [] => true end = false -> square f n.
Proof.
  intros E L w k r Ed. rewrite Ed in E. apply Nat.ltb_lt in L. rewrite L in E. cbn [andb] in E. apply negb_false_iff, Nat.eqb_eq in E. assumption.
Qed.

Definition f_abc (vt : vtype) : mfactor := fac vt dABC pABC ["A"; "B"].
Lemma f_abc_wf vt : wf_mf (f_abc vt).
Proof. apply (fac_wf vt dABC pABC). vm_compute. reflexivity. Qed.

(** the value after the round trip *)
Definition roundtrip (idx : list state -> state -> res nat) (f : mfactor) (vt : vtype) (o : obs) : res num :=
  let* t := to_tabular f in let* f' := to_multinomial_factor idx t vt in mf_get_value f' o.

(** three variables with 2, 2 and 3 states *)
Definition f_223 : mfactor :=
  fac VNumpy [("A", lB); ("B", lB); ("C", lC)] [1#2; 1#4; 1#4; 1#8; 3#8; 1#2; 0#1; 1#1; 0#1; 1#3; 1#3; 1#3]%Q ["A"; "B"].
Lemma f_223_wf : wf_mf f_223.
Proof. apply (fac_wf VNumpy _ _ ["A"; "B"]). vm_compute. reflexivity. Qed.
(** the left variable first *)
Definition f_first : mfactor := fac VNumpy [("C", lB); ("A", lB)] [1#4; 1#3; 3#4; 2#3]%Q ["A"].
Lemma f_first_wf : wf_mf f_first.
Proof. apply (fac_wf VNumpy _ _ ["A"]). vm_compute. reflexivity. Qed.
(** two parents in the other order *)
Definition f_parents : mfactor := fac VNumpy [("A", lB); ("B", lB); ("C", lB)] [1#2; 1#2; 1#4; 3#4; 1#8; 7#8; 0#1; 1#1]%Q ["B"; "A"].
Lemma f_parents_wf : wf_mf f_parents.
Proof. apply (fac_wf VNumpy _ _ ["B"; "A"]). vm_compute. reflexivity. Qed.
(** states that are numbers but not positions *)
Definition f_int : mfactor := fac VNumpy [("A", [SInt 1; SInt 0])] [1#4; 3#4]%Q [].
Lemma f_int_wf : wf_mf f_int.
Proof. apply (fac_wf VNumpy _ _ []). vm_compute. reflexivity. Qed.
Definition f_int12 : mfactor := fac VNumpy [("A", [SInt 1; SInt 2])] [1#4; 3#4]%Q [].
Lemma f_int12_wf : wf_mf f_int12.
Proof. apply (fac_wf VNumpy _ _ []). vm_compute. reflexivity. Qed.

(** a network *)
Definition ts_pg : tables :=
  [("A", ([("A", lA)], [1#2; 1#4; 1#4]%Q, []));
   ("B", ([("B", lB)], [1#3; 2#3]%Q, []));
   ("C", (dABC, pABC, ["A"; "B"]));
   ("E", ([("C", lC); ("E", lB)], [1#3; 2#3; 1#2; 1#2; 0#1; 1#1]%Q, ["C"]))].
Definition D_pg : domain := dABC ++ [("E", lB)].
Definition m_pg (vt : vtype) : pgm := bn_of vt (graph_of [("A", "C"); ("B", "C"); ("C", "E")]) ts_pg.
Lemma pg_ok vt : network (m_pg vt) D_pg (table_of vt ts_pg) vt.
Proof.
  destruct vt; (apply network_check; [vm_compute; reflexivity|]);
    match goal with |- context [m_pg ?w] => assert (E : nodes (m_graph (m_pg w)) = ["A"; "C"; "B"; "E"]) by (vm_compute; reflexivity) end;
    intros v J; rewrite E in J; destruct J as [<-|[<-|[<-|[<-|[]]]]]; vm_compute; reflexivity.
Qed.
Lemma pg_aligned vt v l : In (v, l) D_pg -> aligned (table_of vt ts_pg v) v /\ square (table_of vt ts_pg v) (length l) /\ finds index_by_type l.
Proof.
  intros I. assert (S : forall k, In (v, k) D_pg -> finds index_by_type k).
  { intros k J. destruct J as [J|[J|[J|[J|[]]]]]; injection J as <- <-; apply strings_found; vm_compute; reflexivity. }
  split; [|split; [|now apply S]]; destruct I as [I|[I|[I|[I|[]]]]]; injection I as <- <-; destruct vt;
    try (apply square_check); vm_compute; reflexivity.
Qed.

Lemma isolated_aligned v l : In (v, l) D_isolated ->
  aligned (table_of VNumpy [b01 "A"; b01p "B" "A"; b01 "C"] v) v /\ square (table_of VNumpy [b01 "A"; b01p "B" "A"; b01 "C"] v) (length l) /\ finds index_by_type l.
Proof.
  intros I. assert (S : l = l01) by (destruct I as [I|[I|[I|[]]]]; now injection I as _ <-). subst l.
  split; [|split].
  - destruct I as [I|[I|[I|[]]]]; injection I as <-; vm_compute; reflexivity.
  - destruct I as [I|[I|[I|[]]]]; injection I as <-; apply square_check; vm_compute; reflexivity.
  - apply by_type_positions. intros [|[|i]] s E; cbn in E; [injection E as <-; reflexivity|injection E as <-; reflexivity|destruct i; discriminate].
Qed.
Lemma pg_answer : forall vt, (let* n := to_pgmpy (m_pg VTree) in let* m' := to_bcause index_by_type n vt in
  match dget "C" (m_factors m') with
  | Some (Some (FM f)) => let* x := mf_get_value f [("A", SStr "a2"); ("B", SStr "b0"); ("C", SStr "c1")] in Ok (nodes (m_graph m'), num_eqb x (Fin (Q2Qc (1#3))))
  | _ => Raise KeyError end) = Ok (["A"; "C"; "B"; "E"], true).
Proof. intros vt; destruct vt; vm_compute; reflexivity. Qed.

Lemma f_abc_found vt w k : In (w, k) (mf_domain (f_abc vt)) -> finds index_by_type k.
Proof.
  assert (E : mf_domain (f_abc vt) = dABC) by (destruct vt; reflexivity). rewrite E.
  intros [J|[J|[J|[]]]]; injection J as <- <-; apply strings_found; vm_compute; reflexivity.
Qed.
Ltac strings := intros w k J; repeat destruct J as [J|J]; try (injection J as <- <-; apply strings_found; vm_compute; reflexivity); destruct J.
Lemma full_check d o : forallb (fun vl => match dget (fst vl) o with Some s => mem s (snd vl) | None => false end) d = true -> full d o.
Proof.
  intros E v l I. rewrite forallb_forall in E. specialize (E _ I). cbn [fst snd] in E. destruct (dget v o) as [s|]; [|discriminate].
  exists s. split; [reflexivity|]. now apply mem_In.
Qed.

Lemma shape_refuted : exists f, wf_mf f /\ aligned f "C" /\
  (forall w k, In (w, k) (mf_domain f) -> finds index_by_type k) /\ to_tabular f = Raise ValueError.
Proof.
  exists f_223. split; [exact f_223_wf|]. split; [reflexivity|].
  split; [change (mf_domain f_223) with [("A", lB); ("B", lB); ("C", lC)]; strings|]. vm_compute. reflexivity.
Qed.
Lemma left_first_refuted : exists f o x y, wf_mf f /\ mf_left f = ["C"] /\ full (mf_domain f) o /\
  (forall w k, In (w, k) (mf_domain f) -> finds index_by_type k) /\
  mf_get_value f o = Ok x /\ roundtrip index_by_type f VNumpy o = Ok y /\ x <> y.
Proof.
  exists f_first, [("A", SStr "b1"); ("C", SStr "b0")]. do 2 eexists. split; [exact f_first_wf|]. split; [reflexivity|].
  split; [apply full_check; vm_compute; reflexivity|].
  split; [change (mf_domain f_first) with [("C", lB); ("A", lB)]; strings|].
  split; [vm_compute; reflexivity|]. split; [vm_compute; reflexivity|]. intros E. discriminate.
Qed.
Lemma parents_refuted : exists f o x y, wf_mf f /\ mf_left f = ["C"] /\ full (mf_domain f) o /\
  (forall w k, In (w, k) (mf_domain f) -> finds index_by_type k) /\
  mf_get_value f o = Ok x /\ roundtrip index_by_type f VNumpy o = Ok y /\ x <> y.
Proof.
  exists f_parents, [("A", SStr "b0"); ("B", SStr "b1"); ("C", SStr "b0")]. do 2 eexists. split; [exact f_parents_wf|]. split; [reflexivity|].
  split; [apply full_check; vm_compute; reflexivity|].
  split; [change (mf_domain f_parents) with [("A", lB); ("B", lB); ("C", lB)]; strings|].
  split; [vm_compute; reflexivity|]. split; [vm_compute; reflexivity|]. intros E. discriminate.
Qed.
Lemma states_refuted : (exists f o x y, wf_mf f /\ aligned f "A" /\ full (mf_domain f) o /\
    mf_get_value f o = Ok x /\ roundtrip index_by_type f VNumpy o = Ok y /\ x <> y) /\
  (exists f o, wf_mf f /\ aligned f "A" /\ full (mf_domain f) o /\ roundtrip index_by_type f VNumpy o = Raise IndexError).
Proof.
  split.
  - exists f_int, [("A", SInt 0)]. do 2 eexists. split; [exact f_int_wf|]. split; [reflexivity|]. split; [apply full_check; vm_compute; reflexivity|].
    split; [vm_compute; reflexivity|]. split; [vm_compute; reflexivity|]. intros E. discriminate.
  - exists f_int12, [("A", SInt 1)]. split; [exact f_int12_wf|]. split; [reflexivity|]. split; [apply full_check; vm_compute; reflexivity|]. vm_compute. reflexivity.
Qed.
