(** Sample models for the examples about conversions and random tables. *)

From Coq Require Import String Bool Arith ZArith QArith Qcanon Lia List.
From Verif Require Import PyBase PyFacts Num DomainModel NdArray StoreModel NumStore FactorModel GenModel GenSpec GraphModel ModelModel InferModel CausalModel
  Spec StoreSpec DomainFacts StoreFacts FactorSpec FactorFacts FactorFacts2 FactorFacts3 PropFacts1 GraphSpec GraphFacts GraphChecks ModelSpec ModelFacts Checks FactorChecks
  NetSpec NetSem OrderSpec InferChecks CausalSpec CausalChecks UaiModel LearnModel AggModel EmChecks ConvModel ConvSpec ConvFacts ConvFacts3.
From Coq Require Import List.
Import ListNotations.
Local Open Scope nat_scope.
Local Open Scope string_scope.
Local Open Scope list_scope.
Local Arguments eqd : simpl never.

Lemma rowpos_agree d o o' : (forall v, In v (keys d) -> dget v o = dget v o') -> rowpos d o = rowpos d o'.
Proof.
  induction d as [|[v l] d IH]; intros E; [reflexivity|]. cbn [rowpos]. rewrite (E v) by now left. f_equal. apply IH. intros w J. apply E. now right.
Qed.

Definition drawnb (dom : domain) (r : list var) (az : bool) (xs : list num) : bool :=
  wf_domb dom && (length xs =? size dom)%nat && forallb (fun x => match x with Fin q => if az then Qle_bool 0 (this q) else negb (Qle_bool 0 (this q)) | _ => false end) xs &&
  (negb az || forallb (fun o => existsb (fun p => match nth_error xs (rowpos dom (p ++ o)) with
       | Some (Fin q) => negb (Qle_bool (this q) 0) | _ => false end) (all_assignments (drop r dom))) (all_assignments (pick r dom))).
Lemma not_le_lt (a b : Q) : negb (Qle_bool a b) = true -> (b < a)%Q.
Proof. intros E. apply negb_true_iff in E. apply Qnot_le_lt. intros C. apply Qle_bool_iff in C. congruence. Qed.
Lemma drawnb_sound dom r az xs : drawnb dom r az xs = true -> drawn_for dom r az xs.
Proof.
  unfold drawnb. rewrite !andb_true_iff, forallb_forall. intros [[[E1 E2] E3] E4]. apply wf_domb_sound in E1. split; [now apply Nat.eqb_eq|]. split.
  - intros x J. specialize (E3 x J). destruct x as [q| | |]; try discriminate. exists q. split; [reflexivity|]. destruct az.
    + unfold Qcle. now apply Qle_bool_iff in E3.
    + unfold Qclt. now apply not_le_lt in E3.
  - intros -> o Fo. cbn [negb orb] in E4. rewrite forallb_forall in E4.
    destruct (canonical (pick r dom) o) as [J K]; [apply wf_pick, E1|auto|]. specialize (E4 _ J).
    apply existsb_exists in E4 as (p & Ip & Ep). exists p.
    assert (R : rowpos dom (p ++ o) = rowpos dom (p ++ obs_of (keys (pick r dom)) (asg_of o))).
    { apply rowpos_agree. intros v Iv. rewrite !dget_app. destruct (dget v p) eqn:Dp; [reflexivity|]. symmetry. apply K.
      apply keys_pick. split; [auto|]. destruct (mem v r) eqn:M; [now apply mem_In|]. exfalso. apply dget_None in Dp. apply Dp.
      apply all_assignments_In_full in Ip as [Kp _]; [|apply wf_drop, E1]. rewrite Kp. unfold drop. apply in_map_iff. apply keys_In in Iv as (l & Iv). exists (v, l). split; [reflexivity|]. apply filter_In. split; [auto|]. cbn [fst]. now rewrite M. }
    rewrite R. destruct (nth_error xs _) as [[q| | |]|]; try discriminate. exists q. split; [auto|]. split; [auto|].
    unfold Qclt. now apply not_le_lt in Ep.
Qed.

(** The class of the factor of each variable. *)
Definition classes (m : pgm) : list (var * string) :=
  map (fun vf => (fst vf, match snd vf with Some (FM _) => "Multinomial" | Some (FD _) => "Deterministic" | _ => "none" end)) (m_factors m).
Definition value_at (f : option fobj) (o : obs) : option Q :=
  match f with Some (FM h) => match mf_get_value h o with Ok (Fin q) => Some (this q) | _ => None end | _ => None end.
Definition table_at (m : pgm) (v : var) (o : obs) : option Q :=
  match dget v (m_factors m) with Some f => value_at f o | None => None end.
Definition prob_at (m : pgm) (o : obs) : option Q := match m_prob m [o] with Ok [Fin q] => Some (this q) | _ => None end.

(** ** Conversions *)
Definition o_cf : obs := [("U", SStr "v"); ("X", SInt 1); ("Z", SInt 0); ("V", SInt 1); ("Y", SStr "y1")].
Lemma cf_nodes vt : incl ["X"; "Z"; "Y"] (nodes (m_graph (m_cf vt))).
Proof. apply inclb_sound. destruct vt; vm_compute; reflexivity. Qed.
Lemma cf_converts vt :
  classes (m_cf vt) = [("U", "Multinomial"); ("X", "Multinomial"); ("Z", "Deterministic"); ("Y", "Multinomial"); ("V", "Multinomial")] /\
  (let* b := scm_to_bnet (m_cf vt) in Ok (m_kind b, prob_at b o_cf)) = Ok (KBn, Some (4#15)%Q) /\
  (let* b := causal_to_bnet (m_cf vt) in let* m := bnet_to_causal b in Ok (m_kind b, prob_at b o_cf, m_kind m)) =
    Ok (KBn, Some (4#15)%Q, KScm ["X"; "Z"; "Y"] true) /\
  (let* m := scm_to_multinomial (m_cf vt) in Ok (table_at m "Z" o_cf)) = Ok (Some 1%Q).
Proof. destruct vt; vm_compute; auto. Qed.

Lemma net_random : arc (m_graph m_net) "A" "C" /\ ~ zero_one (F_net "C") /\ bnet_to_causal m_net = Raise ValueError.
Proof.
  assert (B : (existsb (fun o => negb (okb (mf_get_value (F_net "C") o) n0 || okb (mf_get_value (F_net "C") o) n1)) (all_assignments (mf_domain (F_net "C")))) = true)
    by (vm_compute; reflexivity).
  split; [|split; [|vm_compute; reflexivity]].
  - apply in_preds. vm_compute. auto.
  - intros Z. apply existsb_exists in B as (o & I & B). apply negb_true_iff in B.
    assert (N : NoDup (keys (mf_domain (F_net "C")))) by (apply nodupb_sound; vm_compute; reflexivity).
    apply (all_assignments_In_full _ o N) in I as [_ Fo]. destruct (Z o Fo) as [E|E]; rewrite E in B; vm_compute in B; discriminate.
Qed.

(** An endogenous root kept as a DeterministicFactor stays one in the network. *)
Lemma root_kept : exists m D F vt endo cast b, causal m D F vt endo cast /\ incl endo (nodes (m_graph m)) /\ scm_to_bnet m = Ok b /\
  (exists v d, stored b v (FD d)) /\ (exists o, full D o /\ m_prob b [o] = Raise AttributeError) /\ (exists b', causal_to_bnet m = Ok b').
Proof.
  exists m_root, D_root, (table_of VNumpy ts_root), VNumpy, ["A"; "B"], false. eexists. split; [exact root_ok|].
  split; [apply inclb_sound; vm_compute; reflexivity|]. split; [vm_compute; reflexivity|]. split; [|split].
  - exists "A". eexists. vm_compute. reflexivity.
  - exists [("A", SInt 1); ("B", SInt 1)]. split; [apply fullb_sound; vm_compute; reflexivity|vm_compute; reflexivity].
  - eexists. vm_compute. reflexivity.
Qed.

(** Only B is declared endogenous; C is random given B. *)
Definition g_own : digraph := graph_of [("A", "B"); ("B", "C")].
Definition ts_own : tables :=
  [("A", ([("A", l01)], [1#2; 1#2]%Q, [])); ("B", ([("A", l01); ("B", l01)], [1; 0; 0; 1]%Q, ["A"]));
   ("C", ([("B", l01); ("C", l01)], [1#2; 1#2; 1#3; 2#3]%Q, ["B"]))].
Lemma own_endogenous : exists g fs endo m b, scm_init (GDag g) (Some (FsDict fs)) (Some endo) true true = Ok m /\
  causal_to_bnet m = Ok b /\ scm_to_multinomial m = Raise ValueError.
Proof.
  exists g_own, (map (fun vt => (fst vt, FM (table_of VNumpy ts_own (fst vt)))) ts_own), ["B"]. do 2 eexists.
  split; [vm_compute; reflexivity|]. split; vm_compute; reflexivity.
Qed.

(** ** Random tables *)
Definition choose_cf (x : var) (j : nat) (v : var) : nat := S j mod 2.
Definition draw_cf (u : var) : list num := if eqd u "U" then [Fin (Q2Qc (1#2)); Fin 0; Fin (Q2Qc (3#2))] else [Fin (Q2Qc (1#4)); Fin (Q2Qc (1#4))].
Lemma cf_usable : usable D_cf.
Proof. apply usableb_sound. vm_compute. reflexivity. Qed.
Lemma g_cf_dag : wf_graph g_cf /\ acyclic g_cf /\ incl (nodes g_cf) (keys D_cf).
Proof. destruct (dagb_sound g_cf) as [A B]; [vm_compute; reflexivity|]. repeat (split; [assumption|]). apply inclb_sound. vm_compute. reflexivity. Qed.
Lemma cf_choices : (forall x j v l, (exists y, arc g_cf y x) -> In (v, l) D_cf -> choose_cf x j v < length l) /\
  (forall u l, In u (nodes g_cf) -> (forall y, ~ arc g_cf y u) -> In (u, l) D_cf -> drawn_for [(u, l)] [] true (draw_cf u)).
Proof.
  split.
  - intros x j v l _ I. unfold choose_cf. assert (B := Nat.mod_upper_bound (S j) 2 (Nat.neq_succ_0 1)).
    repeat (destruct I as [I|I]; [injection I as <- <-; unfold l01, lY; cbn [length]; lia|]). destruct I.
  - intros u l Iu N I. assert (J : preds g_cf u = []).
    { destruct (preds g_cf u) as [|y r] eqn:E; [reflexivity|]. exfalso. apply (N y). apply in_preds. rewrite E. now left. }
    apply drawnb_sound.
    repeat (destruct I as [I|I]; [injection I as <- <-; first [vm_compute; reflexivity|exfalso; vm_compute in J; discriminate]|]). destruct I.
Qed.
Definition filled (dflt : vtype) : pgm * option err :=
  match scm_init (GDag g_cf) None None true true with
  | Ok m => fill_random_factors dflt choose_cf draw_cf D_cf m
  | Raise e => (fresh g_cf true KBn, Some e)
  end.
Lemma filled_ok vt :
  snd (filled vt) = None /\ classes (fst (filled vt)) = map (fun v => (v, "Multinomial")) (nodes g_cf) /\
  map (fun s => table_at (fst (filled vt)) "U" [("U", s)]) [SStr "u"; SStr "v"; SStr "w"] = [Some (1#4); Some 0; Some (3#4)]%Q /\
  map (fun s => table_at (fst (filled vt)) "X" [("U", s); ("X", SInt 1)]) [SStr "u"; SStr "v"; SStr "w"] = [Some 1; Some 0; Some 1]%Q.
Proof. destruct vt; vm_compute; auto. Qed.

(** Networks *)
Definition draw_net (v : var) : list num :=
  map (fun k => Fin (Q2Qc (if (k mod 2 =? 0)%nat then 1 else 3))) (seq 0 (size (pick (v :: preds g_net v) D_net))).
Lemma net_draws : wf_graph g_net /\ acyclic g_net /\ usable D_net /\ incl (nodes g_net) (keys D_net) /\
  forall v, In v (nodes g_net) -> drawn_for (pick (v :: preds g_net v) D_net) (preds g_net v) true (draw_net v).
Proof.
  destruct (dagb_sound g_net) as [A B]; [vm_compute; reflexivity|]. do 2 (split; [assumption|]). split; [apply usableb_sound; vm_compute; reflexivity|].
  split; [apply inclb_sound; vm_compute; reflexivity|]. intros v I. apply drawnb_sound.
  repeat (destruct I as [<-|I]; [vm_compute; reflexivity|]). destruct I.
Qed.
Definition drawn_net (dflt : vtype) : pgm * option err :=
  match bn_init (GDag g_net) None true with
  | Ok m => bn_randomize_factors dflt draw_net D_net m
  | Raise e => (fresh g_net true KBn, Some e)
  end.
Lemma drawn_net_ok vt : snd (drawn_net vt) = None /\
  map (fun s => table_at (fst (drawn_net vt)) "E" [("C", SBool false); ("E", s)]) sC = [Some (1#4); Some (3#4)]%Q.
Proof. destruct vt; vm_compute; auto. Qed.

(** An exogenous variable with a parent *)
Definition m_own (vt : vtype) : pgm := match scm_init (GDag g_own) None (Some ["B"]) true true with Ok m => m | Raise _ => fresh g_own true KBn end.
Definition D_own : domain := [("A", l01); ("B", l01); ("C", l01)].
Definition draw_own (v : var) : list num := [Fin 1; Fin (Q2Qc 3)].
Lemma own_bad vt : usable D_own /\ prepared D_own (m_own vt) /\ incl (nodes (m_graph (m_own vt))) (keys D_own) /\ m_kind (m_own vt) = KScm ["B"] true /\
  m_check (m_own vt) = true /\ arc (m_graph (m_own vt)) "B" "C" /\ ~ In "C" ["B"] /\
  (forall w l, In w (nodes (m_graph (m_own vt))) -> ~ In w ["B"] -> In (w, l) D_own -> drawn_for [(w, l)] [] true (draw_own w)) /\
  snd (fill_random_marginals vt draw_own D_own (m_own vt)) = Some ValueError.
Proof.
  split; [apply usableb_sound; vm_compute; reflexivity|]. split.
  { destruct (dagb_sound g_own) as [A B]; [vm_compute; reflexivity|].
    destruct (new_scm D_own g_own (Some ["B"]) true true A B) as (m0 & E & P & _). unfold m_own. now rewrite E. }
  split; [apply inclb_sound; vm_compute; reflexivity|]. split; [vm_compute; reflexivity|]. split; [vm_compute; reflexivity|].
  split; [apply in_preds; vm_compute; auto|]. split; [intros [E|[]]; discriminate|]. split.
  - intros w l _ _ I. apply drawnb_sound. repeat (destruct I as [I|I]; [injection I as <- <-; vm_compute; reflexivity|]). destruct I.
  - destruct vt; vm_compute; reflexivity.
Qed.

(** Redrawing *)
Definition redraw (v : var) : list num :=
  if eqd v "U" then [Fin (Q2Qc (-1#2)); Fin (Q2Qc (-1)); Fin (Q2Qc (-5#2))] else map (fun _ => Fin (Q2Qc (-1))) (seq 0 8).
Lemma redraw_ok vt : incl ["U"; "Z"] (nodes (m_graph (m_cf vt))) /\ ~ In "U" ["X"; "Z"; "Y"] /\
  drawn_for (order_dom D_cf (preds (m_graph (m_cf vt)) "U" ++ ["U"])) (preds (m_graph (m_cf vt)) "U") false (redraw "U") /\
  drawn_for (order_dom D_cf (preds (m_graph (m_cf vt)) "Y" ++ ["Y"])) (preds (m_graph (m_cf vt)) "Y") false (redraw "Y") /\
  (let* m := randomize_factors vt (m_cf vt) ["U"] false redraw in
   Ok (map (fun s => table_at m "U" [("U", s)]) [SStr "u"; SStr "v"; SStr "w"])) = Ok [Some (1#8); Some (1#4); Some (5#8)]%Q /\
  randomize_factors vt (m_cf vt) ["U"; "Y"] false redraw = Raise ValueError /\
  snd (randomize_in_place vt redraw ["U"; "Y"] false (m_cf vt)) = Some ValueError /\
  map (fun s => table_at (fst (randomize_in_place vt redraw ["U"; "Y"] false (m_cf vt))) "U" [("U", s)]) [SStr "u"; SStr "v"; SStr "w"] =
    [Some (1#8); Some (1#4); Some (5#8)]%Q.
Proof.
  split; [apply inclb_sound; destruct vt; vm_compute; reflexivity|]. split; [cbn; intuition discriminate|].
  split; [apply drawnb_sound; destruct vt; vm_compute; reflexivity|]. split; [apply drawnb_sound; destruct vt; vm_compute; reflexivity|].
  destruct vt; vm_compute; auto.
Qed.

Definition preparedb (D : domain) (m : pgm) : bool :=
  dagb (m_graph m) && (if eqd (keys (m_factors m)) (nodes (m_graph m)) then true else false) &&
  (if eqd (keys (m_domains m)) (nodes (m_graph m)) then true else false) &&
  forallb (fun v => match dget v (m_factors m), dget v (m_domains m) with
                    | Some None, Some None => true
                    | Some (Some _), Some (Some l) => existsb (fun vl => if eqd vl (v, l) then true else false) D
                    | _, _ => false end) (nodes (m_graph m)).
Lemma preparedb_sound D m : preparedb D m = true -> prepared D m.
Proof.
  unfold preparedb. rewrite !andb_true_iff, forallb_forall. intros [[[E1 E2] E3] E4]. destruct (dagb_sound _ E1) as [A B].
  destruct (eqd (keys (m_factors m)) (nodes (m_graph m))) as [K1|]; [|discriminate].
  destruct (eqd (keys (m_domains m)) (nodes (m_graph m))) as [K2|]; [|discriminate].
  repeat (split; [assumption|]). intros v Iv. specialize (E4 v Iv).
  destruct (dget v (m_factors m)) as [[f|]|] eqn:F; try discriminate; destruct (dget v (m_domains m)) as [[l|]|] eqn:G; try discriminate; auto.
  right. exists f, l. split; [exact F|]. split; [exact G|]. apply existsb_exists in E4 as ([w k] & I & E). destruct (eqd (w, k) (v, l)) as [E0|]; [injection E0 as -> ->; auto|discriminate].
Qed.
Lemma cf_prepared vt : prepared D_cf (m_cf vt).
Proof. apply preparedb_sound. destruct vt; vm_compute; reflexivity. Qed.
