(** The structure part of a UAI file, and tables as lists of values. *)

From Coq Require Import String Ascii Bool Arith ZArith QArith Qcanon Permutation Lia List.
From Verif Require Import PyBase Num DomainModel NdArray StoreModel NumStore FactorModel GraphModel ModelModel CausalModel
  UaiModel PyFacts Spec StoreSpec DomainFacts StoreFacts FactorSpec FactorFacts FactorFacts2 FactorFacts3 GraphSpec GraphFacts ModelSpec
  ModelFacts NetSpec UaiSpec UaiFacts PropFacts1.
Import ListNotations.
Local Open Scope nat_scope.
Local Open Scope list_scope.
Local Arguments eqd : simpl never.

Lemma fromkeys_id l : NoDup l -> fromkeys l = l.
Proof.
  unfold fromkeys. intros N.
  assert (H : forall l acc, NoDup (acc ++ l) ->
    fold_left (fun acc (x : var) => if mem x acc then acc else acc ++ [x]) l acc = acc ++ l).
  { clear. induction l as [|x l IH]; intros acc N; cbn [fold_left]; [now rewrite app_nil_r|].
    assert (M : mem x acc = false).
    { apply mem_nIn. intros I. apply NoDup_remove_2 in N. apply N. apply in_or_app. now left. }
    rewrite M, IH, <- app_assoc; [reflexivity|]. now rewrite <- app_assoc. }
  now rewrite H.
Qed.

Lemma get_parents_one g v : wf_graph g -> In v (nodes g) -> get_parents g [v] = Ok (preds g v).
Proof.
  intros (N & E & _) I. unfold get_parents. cbn [mapM]. unfold predecessors. rewrite (proj2 (mem_In v _) I). cbn [bind concat].
  rewrite app_nil_r. rewrite fromkeys_id; [reflexivity|now apply preds_NoDup].
Qed.

Lemma add_node_edges_eq g v : edges (add_node g v) = edges g.
Proof. unfold add_node. now destruct (mem v (nodes g)). Qed.
Lemma graph_of_edges_eq arcs : NoDup arcs -> edges (graph_of arcs) = arcs.
Proof.
  intros N. unfold graph_of.
  assert (H : forall arcs g, NoDup (edges g ++ arcs) -> edges (fold_left add_edge arcs g) = edges g ++ arcs).
  { clear. induction arcs as [|e arcs IH]; intros g N; cbn [fold_left]; [now rewrite app_nil_r|].
    assert (E : edges (add_edge g e) = edges g ++ [e]).
    { unfold add_edge. rewrite !add_node_edges_eq.
      assert (M : mem e (edges g) = false).
      { apply mem_nIn. intros I. apply NoDup_remove_2 in N. apply N. apply in_or_app. now left. }
      now rewrite M. }
    rewrite IH; rewrite E, <- app_assoc; [reflexivity|exact N]. }
  now rewrite H.
Qed.

Lemma for_vars_map' {A B} (f : var -> list string -> res (A * list string)) (r : B -> var) (t : B -> list string) (x : B -> A) vs ts :
  (forall v ts, In v vs -> f (r v) (t v ++ ts) = Ok (x v, ts)) ->
  for_vars f (map r vs) (concat (map t vs) ++ ts) = Ok (map x vs, ts).
Proof.
  induction vs as [|v vs IH]; intros H; cbn [for_vars map concat app]; [reflexivity|].
  rewrite <- app_assoc, H by now left. cbn. rewrite IH; [reflexivity|]. intros v' ts' Hv. apply H. now right.
Qed.

Definition ints (n : nat) : list state := map (fun k => SInt (Z.of_nat k)) (seq 0 n).
Lemma ints_length n : length (ints n) = n.
Proof. unfold ints. now rewrite map_length, seq_length. Qed.
Lemma ints_nth n k : k < n -> nth_error (ints n) k = Some (SInt (Z.of_nat k)).
Proof.
  intros L. unfold ints. rewrite nth_error_map.
  assert (E : nth_error (seq 0 n) k = Some k).
  { rewrite (nth_error_nth' _ 0) by now rewrite seq_length. now rewrite seq_nth. }
  now rewrite E.
Qed.
Lemma ints_In n s : In s (ints n) <-> exists k, k < n /\ s = SInt (Z.of_nat k).
Proof.
  unfold ints. rewrite in_map_iff. split.
  - intros (k & <- & I). apply in_seq in I. exists k. split; [lia|reflexivity].
  - intros (k & L & ->). exists k. split; [reflexivity|]. apply in_seq. lia.
Qed.
Lemma ints_NoDup n : NoDup (ints n).
Proof.
  unfold ints. apply FactorFacts2.NoDup_map_inj; [|apply seq_NoDup]. intros x y _ _ E. injection E as E. lia.
Qed.

Section Structure.
  Variables (g : digraph) (order : list var) (D : domain).
  Hypothesis W : wf_graph g.
  Hypothesis WD : wf_dom D.
  Hypothesis N : NoDup order.
  Hypothesis SN : same_set order (nodes g).
  Hypothesis SD : same_set (keys D) (nodes g).

  Definition idx (v : var) : nat := match index_of v order with Some i => i | None => 0 end.
  Definition rho (v : var) : var := uai_name (idx v).
  Definition sz (v : var) : nat := match dget v D with Some l => length l | None => 0 end.
  Definition par (v : var) : list var := rev (preds g v).
  Definition recoded (vs : list var) : domain := map (fun w => (rho w, ints (sz w))) vs.
  Definition new_arcs : list (var * var) := concat (map (fun v => map (fun p => (rho p, rho v)) (par v)) order).
  Definition new_graph : digraph := graph_of new_arcs.

  Lemma idx_nth v : In v order -> nth_error order (idx v) = Some v.
  Proof. intros I. unfold idx. destruct (index_of_In v order I) as (i & E). rewrite E. now apply index_of_Some. Qed.
  Lemma idx_of i v : nth_error order i = Some v -> idx v = i.
  Proof. intros E. unfold idx. now rewrite (index_of_nth order i v N E). Qed.
  Lemma rho_inj x y : In x order -> In y order -> rho x = rho y -> x = y.
  Proof.
    intros X Y E. apply uai_name_inj in E. apply idx_nth in X, Y. rewrite E in X. congruence.
  Qed.
  Lemma renamed_iff v n : renamed order v n <-> In v order /\ n = rho v.
  Proof.
    split.
    - intros (i & E & ->). split; [eapply nth_error_In; eauto|]. unfold rho. now rewrite (idx_of i v E).
    - intros (I & ->). exists (idx v). split; [now apply idx_nth|reflexivity].
  Qed.
  Lemma names_eq : var_names "V" 0 (length order) = map rho order.
  Proof.
    unfold var_names. apply list_nth_eq. intros i. rewrite !nth_error_map.
    destruct (nth_error order i) as [v|] eqn:E.
    - assert (L : i < length order) by (apply nth_error_Some; congruence).
      rewrite (nth_error_nth' _ 0) by now rewrite seq_length. rewrite seq_nth by assumption. cbn [option_map].
      unfold rho. rewrite (idx_of i v E). unfold uai_name. rewrite nat_str_decimal. cbn [Nat.add]. now rewrite Nat.add_0_r.
    - apply nth_error_None in E.
      assert (E2 : nth_error (seq 0 (length order)) i = None) by (apply nth_error_None; now rewrite seq_length).
      now rewrite E2.
  Qed.
  Lemma names_NoDup : NoDup (map rho order).
  Proof. apply FactorFacts2.NoDup_map_inj; [|exact N]. intros x y X Y. now apply rho_inj. Qed.

  Lemma par_In p v : In p (par v) <-> arc g p v.
  Proof. unfold par. rewrite <- in_rev. apply in_preds. Qed.
  Lemma par_order p v : In p (par v) -> In p order.
  Proof. intros I. apply par_In in I. apply SN. now apply (proj2 (proj2 W)) in I. Qed.
  Lemma par_NoDup v : NoDup (par v).
  Proof. unfold par. apply NoDup_rev. apply preds_NoDup, W. Qed.

  Definition arc_tokens (v : var) : list string :=
    decimal (length (par v ++ [v])) :: map decimal (map idx (par v ++ [v])).

  Lemma read_arcs_ok v ts : In v order ->
    read_arcs (map rho order) (rho v) (arc_tokens v ++ ts) = Ok (map (fun p => (rho p, rho v)) (par v), ts).
  Proof.
    intros I. unfold read_arcs, arc_tokens. cbn [app]. rewrite next_int_decimal. cbn [bind].
    replace (Z.to_nat (Z.of_nat (length (par v ++ [v])) - 1)) with (length (par v)) by (rewrite app_length; cbn; lia).
    rewrite !map_app, <- app_assoc, map_map.
    rewrite (nexts_map _ (fun x => decimal (idx x)) rho).
    - cbn [bind map app]. rewrite next_int_decimal. cbn [bind].
      rewrite (py_index_nat _ _ (rho v)) by (rewrite nth_error_map, idx_nth by assumption; reflexivity).
      cbn [bind]. rewrite eqd_refl, map_map. reflexivity.
    - intros p ts' P. apply par_order in P. rewrite next_int_decimal. cbn [bind].
      rewrite (py_index_nat _ _ (rho p)) by (rewrite nth_error_map, idx_nth by assumption; reflexivity). reflexivity.
  Qed.

  Definition structure_tokens : list string :=
    decimal (length order) :: map decimal (map sz order) ++ decimal (length order) :: concat (map arc_tokens order).

  Lemma read_structure_ok ts :
    read_structure "V" 0 0 (structure_tokens ++ ts) = Ok ((map rho order, recoded order, new_graph), ts).
  Proof.
    unfold read_structure, structure_tokens. cbn [app]. rewrite next_int_decimal. cbn [bind]. rewrite Nat2Z.id, names_eq.
    rewrite <- app_assoc. rewrite map_length. rewrite map_map.
    rewrite (nexts_map next_int (fun x => decimal (sz x)) (fun x => Z.of_nat (sz x))) by (intros; apply next_int_decimal).
    cbn [bind app]. rewrite next_int_decimal. cbn [bind]. rewrite Z.eqb_refl. cbn [negb].
    rewrite (for_vars_map' _ rho arc_tokens (fun v => map (fun p => (rho p, rho v)) (par v))) by (intros; now apply read_arcs_ok).
    cbn [bind]. unfold new_graph, new_arcs. f_equal. f_equal. f_equal. f_equal.
    assert (E : combine (map rho order) (map (int_states 0) (map (fun x => Z.of_nat (sz x)) order)) = recoded order).
    { unfold recoded. clear. induction order as [|v l IH]; cbn [map combine]; [reflexivity|]. rewrite IH. f_equal.
      unfold int_states. rewrite Nat2Z.id. reflexivity. }
    rewrite E. apply dict_of_id. unfold recoded, keys. rewrite map_map. apply names_NoDup.
  Qed.

  (** ** The new graph *)

  Lemma new_arcs_In a b : In (a, b) new_arcs <-> exists x y, arc g x y /\ a = rho x /\ b = rho y.
  Proof.
    unfold new_arcs. rewrite in_concat. split.
    - intros (l & L & I). apply in_map_iff in L. destruct L as (v & <- & Iv). apply in_map_iff in I.
      destruct I as (p & E & Ip). apply pair_equal_spec in E. destruct E as [<- <-]. exists p, v. split; [now apply par_In|auto].
    - intros (x & y & A & -> & ->). exists (map (fun p => (rho p, rho y)) (par y)). split.
      + apply in_map_iff. exists y. split; [reflexivity|]. apply SN. now apply (proj2 (proj2 W)) in A.
      + apply in_map_iff. exists x. split; [reflexivity|now apply par_In].
  Qed.
  Lemma new_arcs_NoDup : NoDup new_arcs.
  Proof.
    unfold new_arcs.
    enough (H : forall l, NoDup l -> incl l order -> NoDup (concat (map (fun v => map (fun p => (rho p, rho v)) (par v)) l)))
      by (apply H; [exact N|apply incl_refl]).
    induction l as [|v l IH]; cbn [map concat]; intros Nl I; [constructor|].
    inversion Nl as [|? ? Nv Nl']; subst. apply NoDup_app_intro.
    - apply FactorFacts2.NoDup_map_inj; [|apply par_NoDup]. intros x y X Y E. apply pair_equal_spec in E. destruct E as [E _].
      apply par_order in X, Y. apply rho_inj; [exact X|exact Y|exact E].
    - apply IH; [assumption|]. intros x X. apply I. now right.
    - intros e E1 E2. apply in_map_iff in E1. destruct E1 as (p & <- & _).
      apply in_concat in E2. destruct E2 as (k & K & E2). apply in_map_iff in K. destruct K as (w & <- & Iw).
      apply in_map_iff in E2. destruct E2 as (p' & E & _). apply pair_equal_spec in E. destruct E as [_ E].
      apply rho_inj in E; [congruence|apply I; now right|apply I; now left].
  Qed.
  Lemma new_graph_wf : wf_graph new_graph.
  Proof. apply graph_of_wf. Qed.
  Lemma new_graph_edges : edges new_graph = new_arcs.
  Proof. apply graph_of_edges_eq, new_arcs_NoDup. Qed.
  Lemma new_graph_arc a b : arc new_graph a b <-> exists x y, arc g x y /\ a = rho x /\ b = rho y.
  Proof. unfold arc at 1. rewrite new_graph_edges. apply new_arcs_In. Qed.
  Lemma arc_order x y : arc g x y -> In x order /\ In y order.
  Proof. intros A. apply (proj2 (proj2 W)) in A. destruct A. split; now apply SN. Qed.
  Lemma new_graph_arc_rho x y : In x order -> In y order -> arc new_graph (rho x) (rho y) <-> arc g x y.
  Proof.
    intros X Y. rewrite new_graph_arc. split; [|now exists x, y].
    intros (x' & y' & A & E1 & E2). assert (O := arc_order _ _ A).
    apply rho_inj in E1; [|tauto|tauto]. apply rho_inj in E2; [|tauto|tauto]. now subst.
  Qed.
  Lemma new_graph_node n : In n (nodes new_graph) <-> exists v w, (arc g v w \/ arc g w v) /\ n = rho v.
  Proof.
    unfold new_graph. rewrite graph_of_nodes. split.
    - intros ((a & b) & E & H). apply new_arcs_In in E. destruct E as (x & y & A & -> & ->). cbn in H.
      destruct H as [-> | ->]; [exists x, y|exists y, x]; auto.
    - intros (v & w & [A | A] & ->).
      + exists (rho v, rho w). split; [apply new_arcs_In; now exists v, w|now left].
      + exists (rho w, rho v). split; [apply new_arcs_In; now exists w, v|now right].
  Qed.
  Lemma new_graph_node_rho v : In v order -> In (rho v) (nodes new_graph) <-> exists w, arc g v w \/ arc g w v.
  Proof.
    intros I. rewrite new_graph_node. split; [|intros (w & A); now exists v, w].
    intros (v' & w & A & E). apply rho_inj in E; [subst; now exists w|assumption|].
    destruct A as [A | A]; apply arc_order in A; tauto.
  Qed.
  Lemma new_graph_preds v : In v order -> preds new_graph (rho v) = map rho (par v).
  Proof.
    intros I. unfold preds. rewrite new_graph_edges. unfold new_arcs.
    enough (H : forall l, NoDup l -> In v l -> incl l order ->
      map fst (filter (fun e => if eqd (snd e) (rho v) then true else false)
                (concat (map (fun v0 => map (fun p => (rho p, rho v0)) (par v0)) l))) = map rho (par v))
      by (apply H; [exact N|exact I|apply incl_refl]).
    clear I. induction l as [|w l IH]; intros Nl I Io; [destruct I|]. cbn [map concat]. rewrite filter_app, map_app.
    inversion Nl as [|? ? Nw Nl']; subst.
    assert (F : forall (u : var) ps, (rho u = rho v -> u = v) ->
       map fst (filter (fun e => if eqd (snd e) (rho v) then true else false) (map (fun p : var => (rho p, rho u)) ps)) =
       if eqd u v then map rho ps else []).
    { clear - v. intros u ps H. destruct (eqd u v) as [-> | NE].
      - induction ps as [|p ps IH]; cbn [map filter]; [reflexivity|]. cbn [snd]. rewrite eqd_refl. cbn [map fst]. now rewrite IH.
      - induction ps as [|p ps IH]; cbn [map filter]; [reflexivity|]. cbn [snd]. rewrite eqd_neq by auto. exact IH. }
    assert (Iv : In v order) by now apply Io.
    rewrite F by (intros E; apply rho_inj in E; [assumption|apply Io; now left|assumption]).
    destruct (eqd w v) as [-> | NE].
    - replace (map fst (filter (fun e => if eqd (snd e) (rho v) then true else false)
                (concat (map (fun v0 => map (fun p => (rho p, rho v0)) (par v0)) l)))) with (@nil var); [apply app_nil_r|].
      assert (Io' : incl l order) by (intros x X; apply Io; now right).
      clear IH I Io Nl. induction l as [|u l IHl]; cbn [map concat]; [reflexivity|].
      rewrite filter_app, map_app, F by (intros E; apply rho_inj in E; [assumption|apply Io'; now left|assumption]).
      rewrite eqd_neq by (intros ->; apply Nw; now left). cbn [app]. apply IHl.
      + intros X. apply Nw. now right.
      + now inversion Nl'.
      + intros x X. apply Io'. now right.
    - cbn [app]. apply IH; [assumption|destruct I as [-> | I]; [congruence|assumption]|]. intros x X. apply Io. now right.
  Qed.

  Lemma walk_back a b : walk new_graph a b -> exists x y, walk g x y /\ a = rho x /\ b = rho y /\ In x order /\ In y order.
  Proof.
    intros H. induction H as [a b A|a b c A H IH].
    - apply new_graph_arc in A. destruct A as (x & y & A & -> & ->). exists x, y. split; [now constructor|].
      apply arc_order in A. tauto.
    - apply new_graph_arc in A. destruct A as (x & y & A & -> & ->). destruct IH as (y' & z & H' & E & -> & Iy & Iz).
      assert (O := arc_order _ _ A). apply rho_inj in E; [subst y'|tauto|tauto].
      exists x, z. split; [now apply (walk_step g x y z)|tauto].
  Qed.
  Lemma new_graph_acyclic : acyclic g -> acyclic new_graph.
  Proof.
    intros AC a H. apply walk_back in H. destruct H as (x & y & H & E1 & E2 & Ix & Iy).
    rewrite E1 in E2. apply rho_inj in E2; [subst|assumption|assumption]. now apply (AC y).
  Qed.

  (** ** Domains and tables *)

  Lemma recoded_keys vs : keys (recoded vs) = map rho vs.
  Proof. unfold recoded, keys. rewrite map_map. reflexivity. Qed.
  Lemma rho_NoDup vs : NoDup vs -> incl vs order -> NoDup (map rho vs).
  Proof. intros Nv I. apply FactorFacts2.NoDup_map_inj; [|exact Nv]. intros x y X Y. apply rho_inj; auto. Qed.
  Lemma recoded_In n l vs : In (n, l) (recoded vs) <-> exists v, In v vs /\ n = rho v /\ l = ints (sz v).
  Proof.
    unfold recoded. rewrite in_map_iff. split.
    - intros (v & E & I). apply pair_equal_spec in E. destruct E as [<- <-]. now exists v.
    - intros (v & I & -> & ->). now exists v.
  Qed.
  Lemma recoded_dget v vs : NoDup vs -> incl vs order -> In v vs -> dget (rho v) (recoded vs) = Some (ints (sz v)).
  Proof.
    intros Nv Iv I. apply In_dget; [rewrite recoded_keys; now apply rho_NoDup|]. apply recoded_In. now exists v.
  Qed.
  Lemma states_of_order v : In v order -> exists l, In (v, l) D /\ dget v D = Some l /\ sz v = length l /\ l <> [] /\ NoDup l.
  Proof.
    intros I. apply SN, SD, dget_keys in I. destruct I as (l & E). exists l. unfold sz. rewrite E.
    apply dget_In in E as E'. destruct (proj2 WD v l E'). auto.
  Qed.
  Lemma recoded_usable vs : NoDup vs -> incl vs order -> usable (recoded vs).
  Proof.
    intros Nv Iv. split; [split|split].
    - rewrite recoded_keys. now apply rho_NoDup.
    - intros n l I. apply recoded_In in I. destruct I as (v & I & -> & ->). split; [apply ints_NoDup|].
      apply Iv, states_of_order in I. destruct I as (l & _ & _ & E & NE & _). rewrite E. destruct l; [congruence|discriminate].
    - intros n l x y I X Y. apply recoded_In in I. destruct I as (v & I & -> & ->).
      apply ints_In in X, Y. destruct X as (? & _ & ->), Y as (? & _ & ->). reflexivity.
    - intros n s I. rewrite recoded_keys in I. apply in_map_iff in I. destruct I as (v & <- & _). apply uai_name_us.
  Qed.
  Lemma family_order v : In v order -> incl (par v ++ [v]) order.
  Proof. intros I x X. apply in_app_or in X. destruct X as [X | [<- | []]]; [now apply par_order in X|assumption]. Qed.
  Lemma family_NoDup v : acyclic g -> NoDup (par v ++ [v]).
  Proof.
    intros AC. apply NoDup_app_intro; [apply par_NoDup|repeat constructor; intros []|].
    intros x X [<- | []]. apply par_In in X. apply (AC v). now constructor.
  Qed.

  Lemma var_parents_domain_ok v : acyclic g -> In v order -> In (rho v) (nodes new_graph) ->
    var_parents_domain (recoded order) new_graph (rho v) = Ok (recoded (par v ++ [v])).
  Proof.
    intros AC I NI. unfold var_parents_domain, relevat_vars, predecessors.
    rewrite (proj2 (mem_In _ _) NI). cbn [bind]. rewrite new_graph_preds by assumption.
    replace (map rho (par v) ++ [rho v]) with (map rho (par v ++ [v])) by now rewrite map_app.
    rewrite mapM_map. rewrite (mapM_map_ok _ (fun w => (rho w, ints (sz w)))).
    - cbn [bind]. apply (f_equal Ok). apply dict_of_id. rewrite recoded_keys.
      apply rho_NoDup; [now apply family_NoDup|now apply family_order].
    - intros w Iw. apply family_order in Iw; [|assumption]. unfold dlook.
      rewrite recoded_dget by (auto using incl_refl). reflexivity.
  Qed.
  Lemma var_parents_domain_unknown v : ~ In (rho v) (nodes new_graph) ->
    var_parents_domain (recoded order) new_graph (rho v) = Raise NetworkXError.
  Proof. intros NI. unfold var_parents_domain, relevat_vars, predecessors. now rewrite (proj2 (mem_nIn _ _) NI). Qed.

  Lemma recoded_full (dom : domain) vs o o' : (forall w l, In (w, l) dom -> In (w, l) D) -> same_set vs (keys dom) ->
    incl vs order -> full dom o -> corresponds order D o o' ->
    full (recoded vs) o' /\
    exists ks, Forall2 (fun w k => exists l s, In (w, l) dom /\ dget w o = Some s /\ nth_error l k = Some s /\
                                               dget (rho w) o' = Some (SInt (Z.of_nat k)) /\ k < sz w) vs ks.
  Proof.
    intros S Sv Iv Fo C.
    assert (K : forall w, In w vs -> exists k l s, In (w, l) dom /\ dget w o = Some s /\ nth_error l k = Some s /\
                                               dget (rho w) o' = Some (SInt (Z.of_nat k)) /\ k < sz w).
    { intros w Iw. assert (Iw' := Iw). apply Sv, keys_In in Iw'. destruct Iw' as (l & Il). destruct (Fo w l Il) as (s & Es & Is).
      apply In_nth_error in Is. destruct Is as (k & Ek). exists k, l, s. do 3 (split; [assumption|]).
      assert (Iwo := Iv w Iw). split.
      - apply (C (idx w) w l k s); auto. now apply idx_nth.
      - destruct (states_of_order w Iwo) as (l' & Il' & E' & -> & _). apply S in Il.
        rewrite (In_dget _ _ _ (proj1 WD) Il) in E'. injection E' as <-. apply nth_error_Some. congruence. }
    split.
    - intros n l I. apply recoded_In in I. destruct I as (w & Iw & -> & ->).
      destruct (K w Iw) as (k & l & s & _ & _ & _ & E & L). exists (SInt (Z.of_nat k)). split; [assumption|].
      apply ints_In. now exists k.
    - clear Sv Iv. induction vs as [|w vs IH]; [now exists []|].
      destruct IH as (ks & F); [intros x X; apply K; now right|].
      destruct (K w (or_introl eq_refl)) as (k & H). exists (k :: ks). now constructor.
  Qed.

  Lemma array_table {V} dom (s : store V) vs : wf_store s -> wf_dom dom -> vs <> [] ->
    (forall v l, In (v, l) (st_domain s) -> In (v, l) dom) -> (forall v l, In (v, l) dom -> In (v, l) D) ->
    NoDup vs -> incl vs order -> same_set vs (keys (st_domain s)) ->
    exists a, values_array dom s vs = Ok a /\ length (flat a) = size (recoded vs) /\
      (forall x, In x (flat a) -> exists o, full (st_domain s) o /\ get_value s o = Ok x) /\
      forall o o', full (st_domain s) o -> corresponds order D o o' ->
        full (recoded vs) o' /\ exists x, get_value s o = Ok x /\ nth_error (flat a) (rowpos (recoded vs) o') = Some x.
  Proof.
    intros Ws Wd NE S1 S2 Nv Iv Sv.
    assert (Ivd : incl vs (keys dom)).
    { intros w Iw. apply Sv, keys_In in Iw. destruct Iw as (l & Il). apply keys_In. exists l. auto. }
    destruct (values_array_gen dom s vs) as (a & Ea & Wa & Sa & G); auto.
    { apply Wd. } { apply Wd. } { intros w Iw. now apply Sv. } { congruence. }
    exists a. split; [assumption|].
    assert (SZ : forall w l, dget w dom = Some l -> sz w = length l).
    { intros w l E. apply dget_In, S2 in E. unfold sz. now rewrite (In_dget _ _ _ (proj1 WD) E). }
    assert (SA : shape a = card (recoded vs)).
    { unfold card, vals, recoded. rewrite !map_map. cbn. clear - Sa SZ.
      induction Sa as [|w n vs sh (l & E & ->) Sa IH]; cbn; [reflexivity|]. rewrite ints_length, (SZ w l E). now rewrite IH. }
    assert (CS : forall d : domain, prodl (card d) = size d).
    { clear. induction d as [|(v, l) d IH]; [reflexivity|]. cbn [size]. rewrite <- IH. exact (prodl_cons (length l) (card d)). }
    split; [|split].
    - unfold nd_wf in Wa. rewrite Wa, SA. apply CS.
    - intros x Ix. unfold values_array in Ea. destruct vs as [|v0 vs0] eqn:Evs; [congruence|]. rewrite <- Evs in *. clear Evs v0 vs0.
      assert (M : mapM (fun v => let* x := dlook v dom in Ok (v, x)) vs = Ok (map (fun v => (v, match dget v dom with Some l => l | None => [] end)) vs)).
      { apply mapM_map_ok. intros w Iw. apply Ivd, dget_keys in Iw. destruct Iw as (l & E). unfold dlook. now rewrite E. }
      rewrite M in Ea. cbn [bind] in Ea.
      set (dd := map (fun v => (v, match dget v dom with Some l => l | None => [] end)) vs) in *.
      assert (Kd : keys dd = vs) by (unfold dd, keys; rewrite map_map; apply map_id).
      rewrite dict_of_id in Ea by (now rewrite Kd).
      apply bind_ok in Ea. destruct Ea as (shp & _ & Ea). apply bind_ok in Ea. destruct Ea as (xs & Exs & Ea).
      unfold np_reshape in Ea. cbn [flat] in Ea. destruct (length xs =? prodl shp); [|discriminate]. injection Ea as <-. cbn [flat] in Ix.
      apply In_nth_error in Ix. destruct Ix as (i & Ei).
      assert (L : i < length (assignment_space dd)) by (refine (eq_ind _ (fun n => i < n) _ _ (mapM_length _ _ _ Exs)); apply nth_error_Some; congruence).
      apply nth_error_Some in L. destruct (nth_error (assignment_space dd) i) as [o|] eqn:Eo; [|congruence].
      destruct (mapM_nth _ _ _ _ _ Exs Eo) as (y & Ey & Gy). exists o. assert (y = x) by congruence. subst y. split; [|assumption].
      apply nth_error_In in Eo. apply (proj1 (proj2 (enumeration_ok dd ltac:(now rewrite Kd)))) in Eo. destruct Eo as [_ Fo].
      intros w l Il. apply (Fo w l). unfold dd. apply in_map_iff. exists w.
      assert (E : dget w dom = Some l) by (apply In_dget; [apply Wd|now apply S1]). rewrite E. split; [reflexivity|].
      apply Sv, keys_In. now exists l.
    - intros o o' Fo C.
      destruct (recoded_full (st_domain s) vs o o') as (FR & ks & Fk); auto.
      split; [assumption|].
      destruct (G o ks Fo) as (x & Gx & Nx).
      { eapply Forall2_impl; [|exact Fk]. intros w k (l & s' & Il & Es & Ek & _). exists l, s'. split; [|auto].
        apply In_dget; [apply Wd|now apply S1]. }
      exists x. split; [assumption|].
      destruct (rowpos_ravel_idx (recoded vs) o' ks) as (IB & RV); auto.
      { intros n l I. apply recoded_In in I. destruct I as (w & _ & _ & ->). apply ints_NoDup. }
      { unfold recoded. clear - Fk. induction Fk as [|w k vs ks H F IH]; cbn [map]; constructor; [|exact IH].
        destruct H as (l & s' & _ & _ & _ & E & L). exists (SInt (Z.of_nat k)). cbn [fst snd]. split; [assumption|now apply ints_nth]. }
      unfold nd_get in Nx. rewrite SA, IB, RV in Nx. now apply py_nth_ok in Nx.
  Qed.
End Structure.
