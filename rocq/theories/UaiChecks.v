(** Sample models for the examples about UAI files. *)

From Coq Require Import String Ascii Bool Arith ZArith QArith Qcanon DecimalString Permutation Lia List.
From Verif Require Import PyBase Num NumFacts DomainModel NdArray StoreModel NumStore FactorModel GraphModel ModelModel CausalModel InferModel
  UaiModel PyFacts Spec StoreSpec StoreFacts FactorSpec FactorFacts FactorFacts2 PropFacts1 GraphSpec GraphFacts GraphChecks ModelSpec ModelFacts
  Checks FactorChecks NetSpec OrderSpec InferChecks CausalSpec CausalChecks UaiSpec UaiFacts.
Import ListNotations.
Local Open Scope nat_scope.
Local Open Scope string_scope.
Local Open Scope list_scope.
Local Arguments eqd : simpl never.

(** Some floats and what str gives for them in python. *)
Definition some_floats : list (Q * string) :=
  [(0, "0.0"); (1, "1.0"); (1#2, "0.5"); (1#4, "0.25"); (3#4, "0.75"); (1#5, "0.2"); (4#5, "0.8"); (1#10, "0.1"); (9#10, "0.9"); (99999#100000, "0.99999")]%Q.
Definition small_floats : list (Q * string) := [(1#100000, "1e-05"); (-5, "-05")]%Q.
Definition sample_str (x : num) : string :=
  match find (fun p => num_eqb x (Fin (Q2Qc (fst p)))) (some_floats ++ small_floats) with Some p => snd p | None => "nan" end.
Definition sample_parse (t : string) : res num :=
  match nat_of_token t with
  | Some k => Ok (Fin (Q2Qc (inject_Z (Z.of_nat k))))
  | None => match find (fun p => String.eqb t (snd p)) (some_floats ++ small_floats) with
            | Some p => Ok (Fin (Q2Qc (fst p)))
            | None => Raise ValueError
            end
  end.

Lemma sample_naturals : reads_naturals sample_parse.
Proof.
  intros k. unfold sample_parse, nat_of_token. assert (H := decimal_digits k). destruct (decimal k) eqn:E; [destruct H; congruence|].
  rewrite <- E. unfold decimal. rewrite NilEmpty.usu. cbn [option_map]. now rewrite DecimalNat.Unsigned.of_to.
Qed.

Ltac digits_tac := split; [discriminate|let c := fresh in let I := fresh in intros c I; cbn in I;
  repeat (destruct I as [<- | I]; [vm_compute; lia|]); destruct I].
Ltac plain_tac a d := exists "", a, ("." ++ d)%string; split; [now left|]; split; [digits_tac|]; split; [right; exists d; split; [digits_tac|reflexivity]|reflexivity].

Lemma some_plain p : In p some_floats -> plain_text (snd p) /\ sample_str (Fin (Q2Qc (fst p))) = snd p /\ sample_parse (snd p) = Ok (Fin (Q2Qc (fst p))).
Proof.
  intros I. repeat (destruct I as [<- | I]; [cbn [fst snd]; split; [|split; vm_compute; reflexivity]|]); [..|destruct I].
  - plain_tac "0" "0". - plain_tac "1" "0". - plain_tac "0" "5". - plain_tac "0" "25". - plain_tac "0" "75".
  - plain_tac "0" "2". - plain_tac "0" "8". - plain_tac "0" "1". - plain_tac "0" "9". - plain_tac "0" "99999".
Qed.

Definition writableb (f : mfactor) : bool :=
  forallb (fun o => match mf_get_value f o with Ok x => existsb (fun p => num_eqb x (Fin (Q2Qc (fst p)))) some_floats | Raise _ => false end)
          (all_assignments (mf_domain f)).
Lemma writableb_sound f : wf_mf f -> writableb f = true -> writable sample_str sample_parse f.
Proof.
  intros W E o x F G. assert (N : NoDup (mf_vars f)) by apply (wf_mf_partitioned f W).
  destruct (canonical (mf_domain f) o N F) as [J K]. unfold writableb in E. rewrite forallb_forall in E. specialize (E _ J).
  assert (Q : mf_get_value f (obs_of (keys (mf_domain f)) (asg_of o)) = mf_get_value f o) by (apply get_value_agree; auto; apply W).
  rewrite Q, G in E. apply existsb_exists in E. destruct E as (p & I & E). apply num_eqb_sound in E. subst x.
  destruct (some_plain p I) as (P & -> & Pp). auto.
Qed.

Definition recordsb (m : pgm) (D : domain) : bool :=
  nodupb (keys (m_domains m)) && same_setb (keys (m_domains m)) (nodes (m_graph m)) &&
  forallb (fun v => match dget v (m_domains m) with Some (Some l) => mem (v, l) D | _ => false end) (nodes (m_graph m)).
Lemma recordsb_sound m D : recordsb m D = true -> records m D.
Proof.
  unfold recordsb. rewrite !andb_true_iff, forallb_forall. intros [[A B] E]. split; [now apply nodupb_sound|].
  split; [now apply same_setb_sound|]. intros v I. specialize (E v I). unfold has_domain.
  destruct (dget v (m_domains m)) as [[l|]|] eqn:G; try discriminate. exists l. split; [reflexivity|]. now apply mem_In in E.
Qed.

Definition no_isolatedb (g : digraph) : bool := forallb (fun v => existsb (fun a => mem v [fst a; snd a]) (edges g)) (nodes g).
Lemma no_isolatedb_sound g : no_isolatedb g = true -> no_isolated g.
Proof.
  unfold no_isolatedb. rewrite forallb_forall. intros E v I. specialize (E v I). apply existsb_exists in E. destruct E as ((x, y) & A & E).
  apply mem_In in E. cbn in E. destruct E as [<- | [<- | []]]; [exists y; now left|exists x; now right].
Qed.

Fixpoint prefixb (a b : string) : bool :=
  match a, b with
  | EmptyString, _ => true
  | String c a, String d b => Ascii.eqb c d && prefixb a b
  | _, EmptyString => false
  end.
Lemma prefixb_app a t : prefixb a (a ++ t)%string = true.
Proof. induction a as [|c a IH]; cbn; [reflexivity|]. now rewrite Ascii.eqb_refl. Qed.
Definition no_clashb (g : digraph) (order : list var) : bool :=
  forallb (fun a => match index_of (fst a) order, index_of (snd a) order with
                    | Some i, Some j => negb (prefixb (decimal i) (decimal j))
                    | _, _ => false end) (edges g).
Lemma index_of_nth (l : list var) i v : NoDup l -> nth_error l i = Some v -> index_of v l = Some i.
Proof.
  revert i. induction l as [|a l IH]; intros [|i] N E; cbn in E; try discriminate; inversion N; subst; cbn [index_of].
  - injection E as ->. now rewrite eqd_refl.
  - rewrite eqd_neq by (intros ->; apply nth_error_In in E; auto). now rewrite (IH i).
Qed.
Lemma no_clashb_sound g order : NoDup order -> no_clashb g order = true -> no_clash g order.
Proof.
  unfold no_clashb. rewrite forallb_forall. intros N E x y i j t A X Y D. specialize (E (x, y) A). cbn [fst snd] in E.
  rewrite (index_of_nth _ _ _ N X), (index_of_nth _ _ _ N Y), D, prefixb_app in E. discriminate.
Qed.

Lemma network_tabled m D F vt : network m D F vt -> tabled m D F.
Proof.
  intros (A1 & A2 & A3 & A4 & A5 & A6 & H). do 6 (split; [assumption|]). intros v I. destruct (H v I) as (S & W & _ & L & R & SD & _). auto.
Qed.

(** The network of the examples about inference, with decimal probabilities. *)
Definition ts_uai : tables :=
  [("A", ([("A", sA)], [1#4; 3#4]%Q, []));
   ("B", ([("B", sB)], [1#2; 1#4; 1#4]%Q, []));
   ("C", ([("C", sC); ("A", sA); ("B", sB)], [1; 1#2; 1#5; 1; 1#4; 3#4; 0; 1#2; 4#5; 0; 3#4; 1#4]%Q, ["A"; "B"]));
   ("E", ([("C", sC); ("E", sC)], [9#10; 1#10; 1#5; 4#5]%Q, ["C"]));
   ("H", ([("E", sC); ("H", sC)], [1#2; 1#2; 1#4; 3#4]%Q, ["E"]))].
Definition m_uai : pgm := bn_of VNumpy g_net ts_uai.
Lemma uai_ok : network m_uai D_net (table_of VNumpy ts_uai) VNumpy.
Proof.
  apply network_check; [vm_compute; reflexivity|].
  assert (E : nodes (m_graph m_uai) = ["A"; "C"; "B"; "E"; "H"]) by (vm_compute; reflexivity).
  intros v J. rewrite E in J. destruct J as [<-|[<-|[<-|[<-|[<-|[]]]]]]; vm_compute; reflexivity.
Qed.
Lemma writable_all vt m D ts : network m D (table_of vt ts) vt -> forallb (fun v => writableb (table_of vt ts v)) (nodes (m_graph m)) = true ->
  forall v, In v (nodes (m_graph m)) -> writable sample_str sample_parse (table_of vt ts v).
Proof.
  intros (_ & _ & _ & _ & _ & _ & H) E v I. rewrite forallb_forall in E. apply writableb_sound; [apply H, I|now apply E].
Qed.
Definition uai_text : string :=
  String.concat newline ["BAYES"; "5"; "2 2 3 2 2"; "5"; "1" ++ UaiModel.tab ++ "0"; "3" ++ UaiModel.tab ++ "2 0 1"; "1" ++ UaiModel.tab ++ "2"; "2" ++ UaiModel.tab ++ "1 3"; "2" ++ UaiModel.tab ++ "3 4"; "";
     "2" ++ UaiModel.tab ++ "0.25 0.75"; "12" ++ UaiModel.tab ++ "1.0 0.0 1.0 0.0 0.5 0.5 0.25 0.75 0.2 0.8 0.75 0.25"; "3" ++ UaiModel.tab ++ "0.5 0.25 0.25";
     "4" ++ UaiModel.tab ++ "0.9 0.1 0.2 0.8"; "4" ++ UaiModel.tab ++ "0.5 0.5 0.25 0.75"; ""]%string.

(** An isolated variable, and eleven variables of which the second is a parent
    of the last. *)
Definition b01 (v : var) : var * (domain * list Q * list var) := (v, ([(v, l01)], [1#4; 3#4]%Q, [])).
Definition b01p (v p : var) : var * (domain * list Q * list var) := (v, ([(p, l01); (v, l01)], [1#4; 3#4; 1#2; 1#2]%Q, [p])).
Definition m_isolated : pgm := bn_of VNumpy (add_node (graph_of [("A", "B")]) "C") [b01 "A"; b01p "B" "A"; b01 "C"].
Definition D_isolated : domain := [("A", l01); ("B", l01); ("C", l01)].
Lemma isolated_ok : network m_isolated D_isolated (table_of VNumpy [b01 "A"; b01p "B" "A"; b01 "C"]) VNumpy.
Proof.
  apply network_check; [vm_compute; reflexivity|].
  assert (E : nodes (m_graph m_isolated) = ["A"; "B"; "C"]) by (vm_compute; reflexivity).
  intros v J. rewrite E in J. destruct J as [<-|[<-|[<-|[]]]]; vm_compute; reflexivity.
Qed.
Definition g_eleven : digraph := graph_of [("a0", "a2"); ("a1", "a10"); ("a3", "a4"); ("a5", "a6"); ("a7", "a8"); ("a7", "a9")].
Definition ts_eleven : tables :=
  [b01 "a0"; b01 "a1"; b01 "a3"; b01 "a5"; b01 "a7"; b01p "a2" "a0"; b01p "a10" "a1"; b01p "a4" "a3"; b01p "a6" "a5"; b01p "a8" "a7"; b01p "a9" "a7"].
Definition eleven : list var := ["a0"; "a1"; "a2"; "a3"; "a4"; "a5"; "a6"; "a7"; "a8"; "a9"; "a10"].
Definition m_eleven : pgm := bn_of VNumpy g_eleven ts_eleven.
Definition D_eleven : domain := map (fun v => (v, l01)) eleven.
Lemma eleven_ok : network m_eleven D_eleven (table_of VNumpy ts_eleven) VNumpy.
Proof.
  apply network_check; [vm_compute; reflexivity|].
  assert (E : nodes (m_graph m_eleven) = ["a0"; "a2"; "a1"; "a10"; "a3"; "a4"; "a5"; "a6"; "a7"; "a8"; "a9"]) by (vm_compute; reflexivity).
  intros v J. rewrite E in J. repeat (destruct J as [<-|J]; [vm_compute; reflexivity|]). destruct J.
Qed.

(** A small probability, which str writes with an exponent. *)
Definition ts_small : tables := [b01 "A"; ("B", ([("A", l01); ("B", l01)], [1#100000; 99999#100000; 1#2; 1#2]%Q, ["A"]))].
Definition m_small : pgm := bn_of VNumpy (graph_of [("A", "B")]) ts_small.
Definition D_small : domain := [("A", l01); ("B", l01)].
Lemma small_ok : network m_small D_small (table_of VNumpy ts_small) VNumpy.
Proof.
  apply network_check; [vm_compute; reflexivity|].
  assert (E : nodes (m_graph m_small) = ["A"; "B"]) by (vm_compute; reflexivity).
  intros v J. rewrite E in J. destruct J as [<-|[<-|[]]]; vm_compute; reflexivity.
Qed.
(** The reading gives the wrong table: -5 for 0.99999. *)
Lemma small_wrong : exists fstr fparse m D F vt f', m_kind m = KBn /\ network m D F vt /\ records m D /\ no_isolated (m_graph m) /\
  no_clash (m_graph m) (nodes (m_graph m)) /\
  (forall v o x, In v (nodes (m_graph m)) -> full (mf_domain (F v)) o -> mf_get_value (F v) o = Ok x -> fparse (fstr x) = Ok x) /\
  (let* text := save_uai fstr VNumpy m None in let* m' := bn_read_uai fparse VNumpy text in
   match dget "V1" (m_factors m') with Some (Some (FM f)) => Ok f | _ => Raise KeyError end) = Ok f' /\
  mf_get_value (F "B") [("A", SInt 0); ("B", SInt 1)] = Ok (Fin (Q2Qc (99999#100000))) /\
  mf_get_value f' [("V0", SInt 0); ("V1", SInt 1)] = Ok (Fin (Q2Qc (-5))).
Proof.
  set (fparse := fun t => if String.eqb t "1e-05" then Ok (Fin (Q2Qc (1#100000))) else sample_parse t).
  destruct (let* text := save_uai sample_str VNumpy m_small None in let* m' := bn_read_uai fparse VNumpy text in
            match dget "V1" (m_factors m') with Some (Some (FM f)) => Ok f | _ => Raise KeyError end) as [f'|] eqn:E.
  2:{ vm_compute in E. discriminate. }
  exists sample_str, fparse, m_small, D_small, (table_of VNumpy ts_small), VNumpy, f'.
  assert (N := small_ok). split; [vm_compute; reflexivity|]. split; [assumption|]. split; [apply recordsb_sound; vm_compute; reflexivity|].
  split; [apply no_isolatedb_sound; vm_compute; reflexivity|].
  split. { apply no_clashb_sound; [apply nodupb_sound; vm_compute; reflexivity|vm_compute; reflexivity]. }
  split; [|split; [exact E|split; [vm_compute; reflexivity|]]].
  - intros v o x I Fo G. destruct N as (_ & _ & _ & _ & _ & _ & H). destruct (H v I) as (_ & W & _). 
    assert (ND : NoDup (mf_vars (table_of VNumpy ts_small v))) by apply (wf_mf_partitioned _ W).
    destruct (canonical (mf_domain (table_of VNumpy ts_small v)) o ND Fo) as [J K].
    assert (Q : mf_get_value (table_of VNumpy ts_small v) (obs_of (keys (mf_domain (table_of VNumpy ts_small v))) (asg_of o)) =
                mf_get_value (table_of VNumpy ts_small v) o) by (apply get_value_agree; auto; apply W).
    rewrite <- Q in G. clear Q K. set (o' := obs_of _ _) in *. clearbody o'.
    assert (B : forallb (fun v => forallb (fun o => match mf_get_value (table_of VNumpy ts_small v) o with
                | Ok x => match fparse (sample_str x) with Ok y => num_eqb y x | _ => false end | _ => false end)
                (all_assignments (mf_domain (table_of VNumpy ts_small v)))) (nodes (m_graph m_small)) = true) by (vm_compute; reflexivity).
    rewrite forallb_forall in B. specialize (B v I). cbn beta in B. rewrite forallb_forall in B. specialize (B o' J). cbn beta in B. rewrite G in B.
    destruct (fparse (sample_str x)); [|discriminate]. now apply num_eqb_sound in B as ->.
  - revert E. vm_compute. intros E. injection E as <-. vm_compute. reflexivity.
Qed.

(** U -> X -> Z -> Y <- V as in the examples about counterfactuals. *)
Definition ts_scm : tables :=
  [("U", ([("U", [SStr "u"; SStr "v"; SStr "w"])], [1#2; 1#4; 1#4]%Q, []));
   ("V", ([("V", l01)], [1#5; 4#5]%Q, []));
   ("X", ([("X", l01); ("U", [SStr "u"; SStr "v"; SStr "w"])], [1; 0; 0; 0; 1; 1]%Q, ["U"]));
   ("Z", ([("X", l01); ("Z", l01)], [0; 1; 1; 0]%Q, ["X"]));
   ("Y", ([("Z", l01); ("V", l01); ("Y", lY)], [1; 0; 1; 0; 0; 1; 1; 0]%Q, ["Z"; "V"]))].
Definition m_scm : pgm := scm_of VNumpy g_cf ts_scm os_cf None false.
Lemma scm_ok : causal m_scm D_cf (table_of VNumpy ts_scm) VNumpy ["X"; "Z"; "Y"] false.
Proof.
  apply causal_check with (os := os_cf); [vm_compute; reflexivity|vm_compute; reflexivity|].
  assert (E : nodes (m_graph m_scm) = ["U"; "X"; "Z"; "Y"; "V"]) by (vm_compute; reflexivity).
  intros v J. rewrite E in J. destruct J as [<-|[<-|[<-|[<-|[<-|[]]]]]]; vm_compute; reflexivity.
Qed.
Definition plain_rootsb (m : pgm) : bool :=
  forallb (fun vf => match snd vf with Some (FM _) | None => true | _ => existsb (fun a => mem (fst vf) [snd a]) (edges (m_graph m)) end) (m_factors m).
Lemma plain_rootsb_sound m : plain_rootsb m = true -> plain_roots m.
Proof.
  unfold plain_rootsb. rewrite forallb_forall. intros E v f S NA. unfold stored in S. apply dget_In in S. specialize (E _ S). cbn [fst snd] in E.
  destruct f as [f | d |]; [now exists f|..]; exfalso; apply existsb_exists in E; destruct E as ((x, y) & A & E);
    apply mem_In in E; destruct E as [E | []]; cbn in E; subst y; apply (NA x); exact A.
Qed.
Definition countedb (m : pgm) (D : domain) : bool :=
  forallb (fun vf => match snd vf with
     | Some (FD _) => match dget (fst vf) D with
                      | Some l => forallb (fun ks => if eqd (snd ks) (SInt (Z.of_nat (fst ks))) then true else false) (combine (seq 0 (length l)) l)
                      | None => false end
     | _ => true end) (m_factors m).
Lemma countedb_sound m D : NoDup (keys D) -> countedb m D = true -> counted_states m D.
Proof.
  unfold countedb. rewrite forallb_forall. intros N E v d l i s S I G. unfold stored in S. apply dget_In in S. specialize (E _ S). cbn [fst snd] in E.
  rewrite (In_dget _ _ _ N I) in E. rewrite forallb_forall in E. left.
  assert (H : In (i, s) (combine (seq 0 (length l)) l)).
  { enough (Q : forall l i b, nth_error l i = Some s -> In (b + i, s) (combine (seq b (length l)) l)) by now apply (Q l i 0).
    clear. induction l as [|x l IH]; intros [|i] b E; cbn in E; try discriminate; cbn [length seq combine].
    - injection E as ->. rewrite Nat.add_0_r. now left.
    - right. replace (b + S i) with (S b + i) by lia. now apply IH. }
  specialize (E _ H). cbn [fst snd] in E. now destruct (eqd s (SInt (Z.of_nat i))).
Qed.
Definition with_parentsb (g : digraph) (vs : list var) : bool := forallb (fun v => existsb (fun a => mem v [snd a]) (edges g)) vs.
Lemma with_parentsb_sound g vs : with_parentsb g vs = true -> with_parents g vs.
Proof.
  unfold with_parentsb. rewrite forallb_forall. intros E v I. specialize (E v I). apply existsb_exists in E. destruct E as ((x, y) & A & E).
  apply mem_In in E. destruct E as [E | []]. cbn in E. subst y. now exists x.
Qed.
Lemma writable_exo vt m D ts endo cast : causal m D (table_of vt ts) vt endo cast ->
  forallb (fun v => mem v endo || writableb (table_of vt ts v)) (nodes (m_graph m)) = true ->
  forall v, In v (nodes (m_graph m)) -> ~ In v endo -> writable sample_str sample_parse (table_of vt ts v).
Proof.
  intros (_ & _ & _ & _ & _ & _ & _ & H & _) E v I NI. rewrite forallb_forall in E. specialize (E v I). apply mem_nIn in NI. rewrite NI in E.
  destruct (H v I) as (f & _ & _ & C & _). apply writableb_sound; [apply C|exact E].
Qed.
Definition scm_text : string :=
  String.concat newline ["CAUSAL"; "5"; "2 2 2 3 2"; "5"; "2" ++ UaiModel.tab ++ "3 0"; "2" ++ UaiModel.tab ++ "0 1"; "3" ++ UaiModel.tab ++ "4 1 2"; "1" ++ UaiModel.tab ++ "3"; "1" ++ UaiModel.tab ++ "4"; "";
    "3" ++ UaiModel.tab ++ "0 1 1"; "2" ++ UaiModel.tab ++ "1 0"; "4" ++ UaiModel.tab ++ "0 1 0 0"; "3" ++ UaiModel.tab ++ "0.5 0.25 0.25"; "2" ++ UaiModel.tab ++ "0.2 0.8"; ""]%string.

(** What happens without the assumptions on the endogenous variables. *)
Definition read_factor (fstr : num -> string) (fparse : string -> res num) (m : pgm) (n : var) : res (list var * mfactor) :=
  let* text := save_uai fstr VNumpy m None in let* m' := scm_read_uai fparse VNumpy text in
  match dget n (m_factors m') with Some (Some (FM f)) => Ok (scm_endogenous m', f) | _ => Raise KeyError end.

(** an endogenous variable without parents, as an intervention leaves it *)
Definition m_top : pgm := scm_of VNumpy g_root ts_root [] (Some ["A"; "B"]) true.
Lemma top_ok : causal m_top D_root (table_of VNumpy ts_root) VNumpy ["A"; "B"] true.
Proof.
  apply causal_check with (os := []); [vm_compute; reflexivity|vm_compute; reflexivity|].
  assert (E : nodes (m_graph m_top) = ["A"; "B"]) by (vm_compute; reflexivity).
  intros v J. rewrite E in J. destruct J as [<-|[<-|[]]]; vm_compute; reflexivity.
Qed.
Lemma top_wrong : exists m D F vt endo cast en f', causal m D F vt endo cast /\ plain_roots m /\ counted_states m D /\
  is_order m (endo ++ scm_exogenous m) None ["A"; "B"] /\ no_isolated (m_graph m) /\ no_clash (m_graph m) ["A"; "B"] /\
  In "A" endo /\ read_factor sample_str sample_parse m "V0" = Ok (en, f') /\ ~ In "V0" en /\
  mf_get_value (F "A") [("A", SInt 0)] = Ok n0 /\ mf_get_value f' [("V0", SInt 0)] = Ok n1 /\
  mf_get_value (F "A") [("A", SInt 1)] = Ok n1 /\ mf_get_value f' [("V0", SInt 1)] = Ok n1.
Proof.
  destruct (read_factor sample_str sample_parse m_top "V0") as [[en f']|] eqn:E; [|vm_compute in E; discriminate].
  exists m_top, D_root, (table_of VNumpy ts_root), VNumpy, ["A"; "B"], true, en, f'.
  split; [apply top_ok|]. split; [apply plain_rootsb_sound; vm_compute; reflexivity|].
  split; [apply countedb_sound; [apply nodupb_sound|]; vm_compute; reflexivity|].
  split. { split; [apply nodupb_sound; vm_compute; reflexivity|]. split; [apply same_setb_sound; vm_compute; reflexivity|].
           split; [discriminate|vm_compute; reflexivity]. }
  split; [apply no_isolatedb_sound; vm_compute; reflexivity|].
  split. { apply no_clashb_sound; [apply nodupb_sound|]; vm_compute; reflexivity. }
  split; [now left|]. split; [exact E|]. vm_compute in E. injection E as <- <-.
  split; [vm_compute; intuition discriminate|]. repeat split; vm_compute; reflexivity.
Qed.

(** DeterministicFactors with other states *)
Definition ts_odd (s1 s2 : state) : tables :=
  [("U", ([("U", l01)], [1#4; 3#4]%Q, [])); ("X", ([("U", l01); ("X", [s1; s2])], [0; 1; 1; 0]%Q, ["U"]))].
Definition m_odd (s1 s2 : state) : pgm := scm_of VNumpy (graph_of [("U", "X")]) (ts_odd s1 s2) [("X", [s2; s1])] None false.
Definition D_odd (s1 s2 : state) : domain := [("U", l01); ("X", [s1; s2])].
Definition is_odd (s1 s2 : state) : Prop := causal (m_odd s1 s2) (D_odd s1 s2) (table_of VNumpy (ts_odd s1 s2)) VNumpy ["X"] false /\
  plain_roots (m_odd s1 s2) /\ records (m_odd s1 s2) (D_odd s1 s2) /\ with_parents (m_graph (m_odd s1 s2)) ["X"] /\
  is_order (m_odd s1 s2) (["X"] ++ scm_exogenous (m_odd s1 s2)) None ["X"; "U"] /\
  (forall v, In v (nodes (m_graph (m_odd s1 s2))) -> ~ In v ["X"] -> writable sample_str sample_parse (table_of VNumpy (ts_odd s1 s2) v)) /\
  no_isolated (m_graph (m_odd s1 s2)) /\ no_clash (m_graph (m_odd s1 s2)) ["X"; "U"].
Ltac odd_tac s1 s2 :=
  let C := fresh in
  assert (C : causal (m_odd s1 s2) (D_odd s1 s2) (table_of VNumpy (ts_odd s1 s2)) VNumpy ["X"] false);
  [apply causal_check with (os := [("X", [s2; s1])]); [vm_compute; reflexivity|vm_compute; reflexivity|];
   let E := fresh in assert (E : nodes (m_graph (m_odd s1 s2)) = ["U"; "X"]) by (vm_compute; reflexivity);
   intros v J; rewrite E in J; destruct J as [<-|[<-|[]]]; vm_compute; reflexivity|];
  split; [exact C|]; split; [apply plain_rootsb_sound; vm_compute; reflexivity|]; split; [apply recordsb_sound; vm_compute; reflexivity|];
  split; [apply with_parentsb_sound; vm_compute; reflexivity|];
  split; [split; [apply nodupb_sound; vm_compute; reflexivity|]; split; [apply same_setb_sound; vm_compute; reflexivity|];
          split; [discriminate|vm_compute; reflexivity]|];
  split; [apply (writable_exo _ _ _ _ _ _ C); vm_compute; reflexivity|];
  split; [apply no_isolatedb_sound; vm_compute; reflexivity|apply no_clashb_sound; [apply nodupb_sound|]; vm_compute; reflexivity].
Lemma odd_ints : is_odd (SInt 1) (SInt 2). Proof. odd_tac (SInt 1) (SInt 2). Qed.
Lemma odd_texts : is_odd (SStr "a") (SStr "b"). Proof. odd_tac (SStr "a") (SStr "b"). Qed.
Lemma odd_wrong : exists en f', is_odd (SInt 1) (SInt 2) /\ is_odd (SStr "a") (SStr "b") /\
  read_factor sample_str sample_parse (m_odd (SInt 1) (SInt 2)) "V0" = Ok (en, f') /\
  mf_get_value (table_of VNumpy (ts_odd (SInt 1) (SInt 2)) "X") [("U", SInt 0); ("X", SInt 2)] = Ok n1 /\
  mf_get_value f' [("V1", SInt 0); ("V0", SInt 1)] = Ok n0 /\
  save_uai sample_str VNumpy (m_odd (SStr "a") (SStr "b")) None = Raise ValueError.
Proof.
  destruct (read_factor sample_str sample_parse (m_odd (SInt 1) (SInt 2)) "V0") as [[en f']|] eqn:E; [|vm_compute in E; discriminate].
  exists en, f'. split; [apply odd_ints|]. split; [apply odd_texts|]. split; [reflexivity|]. vm_compute in E. injection E as <- <-.
  repeat split; vm_compute; reflexivity.
Qed.
