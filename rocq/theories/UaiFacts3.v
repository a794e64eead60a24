(** Round trip of Bayesian networks. *)

From Coq Require Import String Ascii Bool Arith ZArith QArith Qcanon Permutation Lia List.
From Verif Require Import PyBase Num DomainModel NdArray StoreModel NumStore FactorModel GraphModel ModelModel CausalModel
  UaiModel PyFacts Spec StoreSpec DomainFacts StoreFacts FactorSpec FactorFacts FactorFacts2 FactorFacts3 GraphSpec GraphFacts ModelSpec
  ModelFacts NetSpec BuildFacts UaiSpec UaiFacts UaiFacts2 PropFacts1.
Import ListNotations.
Local Open Scope nat_scope.
Local Open Scope string_scope.
Local Open Scope list_scope.
Local Arguments eqd : simpl never.

Lemma for_vars_raise {A B} (f : var -> list string -> res (A * list string)) (r : B -> var) (t : B -> list string) e vs ts :
  (forall v ts, In v vs -> (exists x, f (r v) (t v ++ ts) = Ok (x, ts)) \/ f (r v) (t v ++ ts) = Raise e) ->
  (exists v, In v vs /\ forall ts, f (r v) (t v ++ ts) = Raise e) ->
  for_vars f (map r vs) (concat (map t vs) ++ ts) = Raise e.
Proof.
  induction vs as [|v vs IH]; intros H (u & I & U); [destruct I|]. cbn [for_vars map concat]. rewrite <- app_assoc.
  destruct (H v (concat (map t vs) ++ ts) (or_introl eq_refl)) as [(x & E) | E]; rewrite E; cbn [bind]; [|reflexivity].
  destruct I as [-> | I]; [rewrite U in E; discriminate|]. rewrite IH; [reflexivity| |now exists u].
  intros v' ts' Iv. apply H. now right.
Qed.

Lemma Forall2_map2 {A B C} (R : B -> C -> Prop) (f : A -> B) (h : A -> C) l :
  (forall v, In v l -> R (f v) (h v)) -> Forall2 R (map f l) (map h l).
Proof.
  induction l as [|v l IH]; intros H; cbn [map]; constructor; [apply H; now left|apply IH]. intros x X. apply H. now right.
Qed.

Section Write.
  Variable sc : list ascii -> option (list ascii * list ascii).
  Hypothesis SC : scanner sc.
  Variable fstr : num -> string.
  Variable dflt : vtype.
  Variables (m : pgm) (order : list var) (D : domain).
  Notation g := (m_graph m).
  Hypothesis W : wf_graph g.
  Hypothesis WD : wf_dom D.
  Hypothesis N : NoDup order.
  Hypothesis SN : same_set order (nodes g).
  Hypothesis SD : same_set (keys D) (nodes g).
  Hypothesis NF : NoDup (keys (m_factors m)).
  Hypothesis SF : same_set (keys (m_factors m)) (nodes g).
  Hypothesis R : records m D.

  Lemma factors_length : length (m_factors m) = length order.
  Proof.
    replace (length (m_factors m)) with (length (keys (m_factors m))) by apply map_length.
    apply Permutation_length, NoDup_Permutation; auto. intros x. unfold same_set in *. rewrite SF, SN. tauto.
  Qed.

  Lemma varsizes_ok v : In v order ->
    (let* s := get_varsizes m (nodes g) in dlook v s) = Ok (sz D v).
  Proof.
    intros I. destruct R as (ND & SDm & H). unfold get_varsizes, get_domains.
    assert (E : dfilter (fun v => mem v (nodes g)) (m_domains m) = m_domains m).
    { apply dfilter_true. intros w Iw. apply mem_In. now apply SDm. }
    rewrite E.
    assert (M : mapM (fun vd => match snd vd with Some l => Ok (fst vd, length l) | None => Raise TypeError end) (m_domains m) =
                Ok (map (fun vd => (fst vd, sz D (fst vd))) (m_domains m))).
    { apply mapM_map_ok. intros (w, o) Iw. cbn [fst snd].
      assert (Kw : In w (nodes g)) by (apply SDm, keys_In; now exists o).
      destruct (H w Kw) as (l & Hl & Il). unfold has_domain in Hl. rewrite (In_dget _ _ _ ND Iw) in Hl. injection Hl as ->.
      unfold sz. now rewrite (In_dget _ _ _ (proj1 WD) Il). }
    rewrite M. cbn [bind]. unfold dlook.
    assert (G : dget v (map (fun vd : var * option (list state) => (fst vd, sz D (fst vd))) (m_domains m)) = Some (sz D v)).
    { apply In_dget.
      - unfold keys. rewrite map_map. exact ND.
      - apply in_map_iff. apply SN, SDm, keys_In in I. destruct I as (o & Io). now exists (v, o). }
    now rewrite G.
  Qed.

  Lemma write_ok causal integer vars0 arg (line : var -> string) (toks : var -> list string) :
    label_variables m causal = Ok vars0 -> is_order m vars0 arg order -> same_set vars0 (nodes g) ->
    (forall v, In v order -> values_line fstr dflt m causal integer v (par g v ++ [v]) = Ok (line v) /\ emits sc (line v) (toks v)) ->
    exists text, to_uai fstr dflt m causal integer arg = Ok text /\
      numbers sc text = structure_tokens g order D ++ concat (map toks order) /\
      first_line text = if causal then "CAUSAL" else "BAYES".
  Proof.
    intros L (_ & _ & NE & A) S0 H. unfold to_uai. rewrite L. cbn [bind].
    assert (EV : match arg with Some (v :: r) => v :: r | _ => vars0 end = order).
    { destruct arg as [[|v r]|]; [congruence|now symmetry|now symmetry]. }
    rewrite EV.
    assert (B1 : forallb (fun v => mem v order) vars0 = true).
    { apply forallb_forall. intros v Iv. apply mem_In. now apply SN, S0. }
    assert (B2 : forallb (fun v => mem v vars0) order = true).
    { apply forallb_forall. intros v Iv. apply mem_In. now apply S0, SN. }
    rewrite B1, B2. cbn [andb negb].
    rewrite (mapM_map_ok _ (sz D)) by (intros v I; now apply varsizes_ok). cbn [bind].
    rewrite (mapM_map_ok _ (fun v => par g v ++ [v])) by (intros v I; rewrite get_parents_one; [reflexivity|assumption|now apply SN]).
    cbn [bind].
    assert (EL : mapM (fun o => let* idx := mapM (var_idx order) o in
                                Ok (nat_str (length idx) ++ tab ++ int_texts idx ++ newline)%string) (map (fun v => par g v ++ [v]) order)
      = Ok (map (fun v => (decimal (length (par g v ++ [v])) ++ tab ++ int_texts (map (idx order) (par g v ++ [v])) ++ newline)%string) order)).
    { rewrite mapM_map. apply mapM_map_ok. intros v I.
      rewrite (mapM_map_ok _ (idx order)).
      - cbn [bind]. rewrite map_length. reflexivity.
      - intros w Iw. apply (family_order g order W SN v I) in Iw. unfold var_idx, idx. destruct (index_of_In w order Iw) as (i & ->). reflexivity. }
    rewrite EL. cbn [bind].
    assert (EM : mapM (fun vo => values_line fstr dflt m causal integer (fst vo) (snd vo)) (combine order (map (fun v => par g v ++ [v]) order))
       = Ok (map line order)).
    { assert (Z : forall l, incl l order -> mapM (fun vo => values_line fstr dflt m causal integer (fst vo) (snd vo)) (combine l (map (fun v => par g v ++ [v]) l)) = Ok (map line l)).
      { induction l as [|v l IH]; intros I; [reflexivity|]. cbn [map combine mapM]. cbn [fst snd].
        rewrite (proj1 (H v (I v (or_introl eq_refl)))). cbn [bind]. rewrite IH by (intros x X; apply I; now right). reflexivity. }
      apply Z, incl_refl. }
    rewrite EM. cbn [bind].
    assert (PL : forall l, Forall plain_text (map decimal l)).
    { intros l. apply Forall_forall. intros t It. apply in_map_iff in It. destruct It as (n & <- & _). apply decimal_plain. }
    eexists. split; [reflexivity|]. split.
    - apply emits_tokens; [assumption|]. rewrite !str_app_assoc.
      assert (LB : forall s ts, emits sc s ts -> emits sc ((if causal then "CAUSAL" else "BAYES") ++ newline ++ s)%string ts).
      { intros s ts E. destruct causal; cbn [append]; repeat (apply emits_skip; [assumption|vm_compute; auto|]); exact E. }
      apply LB. unfold structure_tokens. cbn [app].
      change (newline ++ ?x)%string with (String (ascii_of_nat 10) x).
      apply emits_tok_app; [assumption|apply decimal_plain|apply blank_nl|].
      rewrite <- app_assoc.
      change (int_texts (map (sz D) order) ++ String (ascii_of_nat 10) ?x)%string
        with (int_texts (map (sz D) order) ++ newline ++ x)%string.
      rewrite <- (str_app_assoc (int_texts _)). apply emits_app; [apply emits_line; [assumption|apply PL]|].
      cbn [app]. rewrite factors_length. apply emits_tok_app; [assumption|apply decimal_plain|apply blank_nl|].
      apply emits_app.
      + apply emits_concat, Forall2_map2. intros v _.
        change (tab ++ ?x)%string with (String (ascii_of_nat 9) x).
        apply emits_tok_app; [assumption|apply decimal_plain|apply blank_tab|]. apply emits_line; [assumption|apply PL].
      + apply emits_skip; [assumption|apply blank_skipped, blank_nl|]. cbn [append].
        apply emits_concat, Forall2_map2. intros v Iv. now apply H.
    - destruct causal; reflexivity.
  Qed.
End Write.

(** ** Bayesian networks *)

Section Bn.
  Variable fstr : num -> string.
  Variable fparse : string -> res num.
  Variable dflt : vtype.
  Variables (m : pgm) (order : list var) (D : domain) (F : var -> mfactor).
  Notation g := (m_graph m).
  Hypothesis KB : m_kind m = KBn.
  Hypothesis T : tabled m D F.
  Hypothesis R : records m D.
  Variable arg : option (list var).
  Hypothesis O : is_order m (nodes g) arg order.
  Hypothesis WR : forall v, In v (nodes g) -> writable fstr fparse (F v).

  Let W : wf_graph g. Proof. apply T. Qed.
  Let AC : acyclic g. Proof. apply T. Qed.
  Let WD : wf_dom D. Proof. apply T. Qed.
  Let N : NoDup order. Proof. apply O. Qed.
  Let SN : same_set order (nodes g). Proof. apply O. Qed.
  Let SD : same_set (keys D) (nodes g). Proof. apply T. Qed.
  Let TV : forall v, In v (nodes g) ->
     stored m v (FM (F v)) /\ wf_mf (F v) /\
     same_set (mf_left (F v)) [v] /\ same_set (mf_right (F v)) (preds g v) /\
     (forall w l, In (w, l) (mf_domain (F v)) -> In (w, l) D).
  Proof. apply T. Qed.

  Definition fam (v : var) : list var := par g v ++ [v].
  Definition tab_values (v : var) : list num :=
    match mf_values_array (F v) (fam v) with Ok a => flat a | Raise _ => [] end.

  Lemma fam_vars v : In v (nodes g) -> same_set (fam v) (mf_vars (F v)).
  Proof.
    intros I. destruct (TV v I) as (_ & Wf & L & Rr & _). intros w. unfold fam. rewrite in_app_iff. rewrite par_In.
    destruct (wf_mf_partitioned _ Wf) as (_ & _ & _ & P & _). rewrite P. rewrite (L w), (Rr w), in_preds. tauto.
  Qed.

  Lemma table_ok v : In v (nodes g) ->
    exists a, mf_values_array (F v) (fam v) = Ok a /\ tab_values v = flat a /\
      length (tab_values v) = size (recoded order D (fam v)) /\
      (forall x, In x (tab_values v) -> plain_text (fstr x) /\ fparse (fstr x) = Ok x) /\
      forall o o', full (mf_domain (F v)) o -> corresponds order D o o' ->
        full (recoded order D (fam v)) o' /\
        exists x, mf_get_value (F v) o = Ok x /\ nth_error (tab_values v) (rowpos (recoded order D (fam v)) o') = Some x.
  Proof.
    intros I. destruct (TV v I) as (_ & Wf & L & Rr & S).
    destruct (array_table g order D WD SN SD (mf_domain (F v)) (mf_store (F v)) (fam v)) as (a & Ea & La & Va & G).
    - apply Wf. - apply usable_wf, Wf. - unfold fam. now destruct (par g v). - auto. - assumption.
    - now apply family_NoDup. - apply family_order; [assumption|assumption|now apply SN]. - now apply fam_vars.
    - exists a. unfold tab_values. assert (E : mf_values_array (F v) (fam v) = Ok a) by exact Ea. rewrite E.
      do 3 (split; [auto|]). split.
      + intros x Ix. destruct (Va x Ix) as (o & Fo & Go). apply (WR v I o x); assumption.
      + exact G.
  Qed.

  Definition tab_tokens (v : var) : list string := decimal (length (tab_values v)) :: map fstr (tab_values v).

  Lemma tab_line v : In v (nodes g) -> exists line,
    values_line fstr dflt m false [] v (fam v) = Ok line /\ forall sc, scanner sc -> emits sc line (tab_tokens v).
  Proof.
    intros I. destruct (table_ok v I) as (a & Ea & Et & _ & P & _). destruct (TV v I) as (St & _).
    unfold values_line. unfold dlook. rewrite St. cbn [bind andb]. cbn [fo_flat]. rewrite Ea. cbn [bind mem existsb].
    rewrite <- Et. rewrite map_map. cbn [uval_str]. eexists. split; [reflexivity|]. intros sc SC.
    change (tab ++ ?x)%string with (String (ascii_of_nat 9) x). rewrite map_length.
    apply emits_tok_app; [assumption|apply decimal_plain|apply blank_tab|]. apply emits_line; [assumption|].
    apply Forall_forall. intros t It. apply in_map_iff in It. destruct It as (x & <- & Ix). now apply P.
  Qed.

  Lemma bn_text : exists text, save_uai fstr dflt m arg = Ok text /\
    numbers match_plain text = structure_tokens g order D ++ concat (map tab_tokens order) /\ first_line text = "BAYES".
  Proof.
    unfold save_uai. rewrite KB.
    destruct (write_ok match_plain plain_scanner fstr dflt m order D W WD N SN (proj1 (proj2 (proj2 (proj2 (proj2 T)))))
               (proj1 (proj2 (proj2 (proj2 (proj2 (proj2 T)))))) R false [] (nodes g) arg
               (fun v => match values_line fstr dflt m false [] v (fam v) with Ok l => l | Raise _ => "" end) tab_tokens) as (text & H).
    - reflexivity.
    - exact O.
    - intros x. tauto.
    - intros v I. apply SN in I. destruct (tab_line v I) as (line & E & EM). fold (fam v). rewrite E. split; [reflexivity|].
      apply EM, plain_scanner.
    - exists text. exact H.
  Qed.

  Definition new_right (v : var) : list var := right_of_name (recoded order D (fam v)) (rho order v).
  Lemma new_right_In v n : In n (new_right v) <->
    exists p, arc g p v /\ n = rho order p /\ substr_of (rho order p) (rho order v) = false.
  Proof.
    unfold new_right, right_of_name. rewrite filter_In, recoded_keys, in_map_iff, negb_true_iff. unfold fam. split.
    - intros ((w & <- & Iw) & S). apply in_app_or in Iw. destruct Iw as [Iw | [<- | []]].
      + apply par_In in Iw. now exists w.
      + exfalso. assert (B : substr_of (rho order v) (rho order v) = true).
        { apply substr_of_spec. exists "", "". cbn [append]. now rewrite str_app_nil. }
        congruence.
    - intros (p & A & -> & S). split; [|assumption]. exists p. split; [reflexivity|]. apply in_or_app. left. now apply par_In.
  Qed.
  Lemma new_right_keys v : incl (new_right v) (keys (recoded order D (fam v))).
  Proof. intros n I. unfold new_right, right_of_name in I. now apply filter_In in I. Qed.

  Definition new_factor (v : var) : mfactor :=
    match mf_init (recoded order D (fam v)) (flist (tab_values v)) None (Some (new_right v)) dflt with
    | Ok f => f | Raise _ => F v end.
  Lemma fam_usable v : In v (nodes g) -> usable (recoded order D (fam v)).
  Proof.
    intros I. apply (recoded_usable g order D WD SN SD); [now apply family_NoDup|].
    apply family_order; [assumption|assumption|now apply SN].
  Qed.
  Lemma new_factor_ok v : In v (nodes g) ->
    mf_init (recoded order D (fam v)) (flist (tab_values v)) None (Some (new_right v)) dflt = Ok (new_factor v) /\
    wf_mf (new_factor v) /\ mf_domain (new_factor v) = recoded order D (fam v) /\ mf_right (new_factor v) = new_right v /\
    mf_vtype (new_factor v) = dflt /\
    forall o, full (recoded order D (fam v)) o ->
      exists x, mf_get_value (new_factor v) o = Ok x /\ nth_error (tab_values v) (rowpos (recoded order D (fam v)) o) = Some x.
  Proof.
    intros I. destruct (table_ok v I) as (a & _ & _ & L & _). assert (U := fam_usable v I).
    destruct (mf_init_ok (recoded order D (fam v)) (flist (tab_values v)) (tab_values v) None (Some (new_right v)) (new_right v) dflt)
      as (f & E & Wf & Df & Vf & Rf & Gf & _); auto.
    { now left. }
    assert (NR : NoDup (new_right v)).
    { unfold new_right, right_of_name. apply NoDup_filter. apply U. }
    assert (Wm : wf_mf f).
    { split; [assumption|]. rewrite Df, Rf. unfold mf_vars. rewrite Df. split; [assumption|]. split; [assumption|apply new_right_keys]. }
    unfold new_factor. rewrite E. do 5 (split; [auto|]). exact Gf.
  Qed.

  Lemma read_table_ok v ts : In v (nodes g) -> In (rho order v) (nodes (new_graph g order)) ->
    read_table fparse dflt (recoded order D order) (new_graph g order) (rho order v) (tab_tokens v ++ ts) =
    Ok ((rho order v, FM (new_factor v)), ts).
  Proof.
    intros I In'. unfold read_table, tab_tokens. cbn [app]. rewrite next_int_decimal. cbn [bind]. rewrite Nat2Z.id.
    destruct (table_ok v I) as (_ & _ & _ & _ & P & _).
    rewrite (nexts_map (next_float fparse) fstr (fun x => x)).
    - cbn [bind]. rewrite map_id. rewrite var_parents_domain_ok; auto. 2: now apply SN.
      cbn [bind]. fold (fam v). fold (new_right v). rewrite (proj1 (new_factor_ok v I)). reflexivity.
    - intros x ts' Ix. unfold next_float. cbn [next bind]. rewrite (proj2 (P x Ix)). reflexivity.
  Qed.
  Lemma read_table_unknown v ts : In v (nodes g) -> ~ In (rho order v) (nodes (new_graph g order)) ->
    read_table fparse dflt (recoded order D order) (new_graph g order) (rho order v) (tab_tokens v ++ ts) = Raise NetworkXError.
  Proof.
    intros I In'. unfold read_table, tab_tokens. cbn [app]. rewrite next_int_decimal. cbn [bind]. rewrite Nat2Z.id.
    destruct (table_ok v I) as (_ & _ & _ & _ & P & _).
    rewrite (nexts_map (next_float fparse) fstr (fun x => x)).
    - cbn [bind]. rewrite var_parents_domain_unknown by assumption. reflexivity.
    - intros x ts' Ix. unfold next_float. cbn [next bind]. rewrite (proj2 (P x Ix)). reflexivity.
  Qed.

  Lemma read_isolated text : numbers match_plain text = structure_tokens g order D ++ concat (map tab_tokens order) ->
    first_line text = "BAYES" -> ~ no_isolated g -> (exists v, In v (nodes g) /\ forall w, ~ (arc g v w \/ arc g w v)) ->
    bn_read_uai fparse dflt text = Raise NetworkXError.
  Proof.
    intros E FL _ (v & I & NI). unfold bn_read_uai, bn_from_uai. rewrite FL. change (negb (substr_of "BAYES" "BAYES")) with false.
    cbn iota. rewrite E. rewrite read_structure_ok by assumption. cbn [bind].
    rewrite <- (app_nil_r (concat (map tab_tokens order))).
    rewrite (for_vars_raise _ (rho order) tab_tokens NetworkXError); [reflexivity| |].
    - intros u ts Iu. apply SN in Iu. destruct (in_dec string_dec (rho order u) (nodes (new_graph g order))) as [H | H].
      + left. eexists. now apply read_table_ok.
      + right. now apply read_table_unknown.
    - exists v. split; [now apply SN|]. intros ts. apply read_table_unknown; [assumption|].
      rewrite new_graph_node_rho; auto. 2: now apply SN. intros (w & A). now apply (NI w).
  Qed.

  Definition new_factors : dict var fobj := map (fun v => (rho order v, FM (new_factor v))) order.
  Lemma read_connected text : numbers match_plain text = structure_tokens g order D ++ concat (map tab_tokens order) ->
    first_line text = "BAYES" -> no_isolated g ->
    bn_read_uai fparse dflt text = bn_init (GDag (new_graph g order)) (Some (FsDict new_factors)) true.
  Proof.
    intros E FL NI. unfold bn_read_uai, bn_from_uai. rewrite FL. change (negb (substr_of "BAYES" "BAYES")) with false.
    cbn iota. rewrite E. rewrite read_structure_ok by assumption. cbn [bind].
    rewrite <- (app_nil_r (concat (map tab_tokens order))).
    rewrite (for_vars_map' _ (rho order) tab_tokens (fun v => (rho order v, FM (new_factor v)))).
    - cbn [bind]. fold new_factors. rewrite dict_of_id; [reflexivity|]. unfold new_factors, keys. rewrite map_map. cbn [fst].
      now apply names_NoDup.
    - intros v ts Iv. apply SN in Iv. apply read_table_ok; [assumption|]. apply new_graph_node_rho; auto. now apply SN.
  Qed.

  (** the factor that belongs to a new name *)
  Definition by_name (n : var) : mfactor :=
    match dget n new_factors with Some (FM f) => f | _ => F n end.
  Lemma by_name_rho v : In v order -> by_name (rho order v) = new_factor v.
  Proof.
    intros I. unfold by_name.
    assert (E : dget (rho order v) new_factors = Some (FM (new_factor v))).
    { apply In_dget; [unfold new_factors, keys; rewrite map_map; now apply names_NoDup|].
      unfold new_factors. apply in_map_iff. now exists v. }
    now rewrite E.
  Qed.

  Lemma new_domain_incl v n l : In v (nodes g) -> In (n, l) (mf_domain (new_factor v)) -> In (n, l) (recoded order D order).
  Proof.
    intros I In'. rewrite (proj1 (proj2 (proj2 (new_factor_ok v I)))) in In'. apply recoded_In in In'.
    destruct In' as (w & Iw & -> & ->). apply recoded_In. exists w. split; [|auto].
    apply (family_order g order W SN v); [now apply SN|assumption].
  Qed.

  Lemma new_left_In v n : In v (nodes g) -> In n (mf_left (new_factor v)) <->
    n = rho order v \/ exists p, arc g p v /\ n = rho order p /\ substr_of (rho order p) (rho order v) = true.
  Proof.
    intros I. destruct (new_factor_ok v I) as (_ & _ & Df & Rf & _).
    rewrite mf_left_In. unfold mf_vars. rewrite Df, Rf, recoded_keys, in_map_iff. split.
    - intros ((w & <- & Iw) & NR). unfold fam in Iw. apply in_app_or in Iw. destruct Iw as [Iw | [<- | []]]; [|now left].
      right. apply par_In in Iw. exists w. split; [assumption|]. split; [reflexivity|].
      destruct (substr_of (rho order w) (rho order v)) eqn:Es; [reflexivity|]. exfalso. apply NR. apply new_right_In. now exists w.
    - intros [-> | (p & A & -> & Es)].
      + split; [exists v; split; [reflexivity|unfold fam; apply in_or_app; right; now left]|].
        intros H. apply new_right_In in H. destruct H as (p & A & E & _).
        apply rho_inj in E; [|now apply SN|apply (arc_order g order W SN) in A; tauto]. subst p. apply (AC v). now constructor.
      + split; [exists p; split; [reflexivity|unfold fam; apply in_or_app; left; now apply par_In]|].
        intros H. apply new_right_In in H. destruct H as (p' & A' & E & Es').
        apply rho_inj in E; [|apply (arc_order g order W SN) in A; tauto|apply (arc_order g order W SN) in A'; tauto].
        subst p'. congruence.
  Qed.

  Lemma clash_iff x y : In x order -> In y order ->
    substr_of (rho order x) (rho order y) = true <-> exists t, decimal (idx order y) = (decimal (idx order x) ++ t)%string.
  Proof. intros X Y. apply name_in_name. Qed.

  Lemma unclashed p v : no_clash g order -> arc g p v -> substr_of (rho order p) (rho order v) = false.
  Proof.
    intros NC A. destruct (substr_of _ _) eqn:E; [|reflexivity]. exfalso. destruct (arc_order g order W SN _ _ A) as (P & V).
    apply clash_iff in E; auto. destruct E as (t & E).
    apply (NC p v (idx order p) (idx order v) t); auto; now apply idx_nth.
  Qed.

  Lemma storable_new v : no_isolated g -> (forall p, arc g p v -> substr_of (rho order p) (rho order v) = false) -> In v (nodes g) ->
    storable (recoded order D order) (new_graph g order) true KBn (rho order v) (new_factor v).
  Proof.
    intros NI NC I. destruct (new_factor_ok v I) as (_ & Wf & Df & Rf & _).
    split; [|split; [|split; [|split]]].
    - apply new_graph_node_rho; auto. now apply SN.
    - unfold mf_vars. rewrite Df, recoded_keys. apply in_map. unfold fam. apply in_or_app. right. now left.
    - intros w l. now apply new_domain_incl.
    - unfold mf_vars. apply usable_wf, Wf.
    - intros _. split; [|split; [|discriminate]].
      + intros n. rewrite new_left_In by assumption. split.
        * intros [-> | (p & A & -> & Es)]; [now left|]. rewrite (NC p A) in Es. discriminate.
        * intros [<- | []]. now left.
      + intros n. rewrite Rf, new_right_In. rewrite new_graph_preds by (auto; now apply SN). rewrite in_map_iff. split.
        * intros (p & A & -> & _). exists p. split; [reflexivity|now apply par_In].
        * intros (p & <- & A). apply par_In in A. exists p. auto.
  Qed.

  Lemma bn_roundtrip : no_isolated g -> no_clash g order ->
    exists text m', save_uai fstr dflt m arg = Ok text /\ bn_read_uai fparse dflt text = Ok m' /\
      m_kind m' = KBn /\ same_structure order g (m_graph m') /\
      forall v n, In v (nodes g) -> renamed order v n ->
        exists f', stored m' n (FM f') /\ same_table order D (F v) f' /\ mf_vtype f' = dflt.
  Proof.
    intros NI NC. destruct bn_text as (text & E & Et & FL). exists text.
    rewrite (read_connected text Et FL NI).
    destruct (bn_build (recoded order D order) (new_graph g order) true new_factors by_name) as (m' & Em & B & _ & K).
    - rewrite recoded_keys. now apply names_NoDup.
    - apply new_graph_wf.
    - now apply new_graph_acyclic.
    - intros n f I. unfold new_factors in I. apply in_map_iff in I. destruct I as (v & Ev & Iv). apply pair_equal_spec in Ev.
      destruct Ev as [<- <-]. rewrite by_name_rho by assumption. split; [reflexivity|].
      apply SN in Iv. apply storable_new; auto. intros p A. now apply unclashed.
    - intros n I. apply (new_graph_node g order W SN) in I. destruct I as (v & w & A & ->). unfold new_factors, keys. rewrite map_map. cbn [fst].
      apply in_map. destruct A as [A | A]; apply (arc_order g order W SN) in A; tauto.
    - destruct B as (Gm & _ & _ & St & _). exists m'. do 3 (split; [assumption|]). rewrite Gm. split.
      + split; [apply new_graph_wf|]. split.
        * intros n. rewrite (new_graph_node g order W SN). split.
          -- intros (v & w & A & ->). assert (Iv : In v order) by (destruct A as [A | A]; apply (arc_order g order W SN) in A; tauto).
             exists v. split; [now apply SN|]. apply renamed_iff; auto.
          -- intros (v & I & Rn). apply renamed_iff in Rn; [|assumption]. destruct Rn as (Io & ->). destruct (NI v I) as (w & A). now exists v, w.
        * intros a b. rewrite new_graph_arc by assumption. split.
          -- intros (x & y & A & -> & ->). exists x, y. split; [assumption|]. rewrite !renamed_iff by assumption.
             destruct (arc_order g order W SN _ _ A). auto.
          -- intros (x & y & A & X & Y). apply renamed_iff in X, Y; [|assumption|assumption]. exists x, y. tauto.
      + intros v n I Rn. apply renamed_iff in Rn; [|assumption]. destruct Rn as (Io & ->). exists (new_factor v).
        assert (Nv : In (rho order v) (nodes (new_graph g order))) by (apply new_graph_node_rho; auto).
        split; [rewrite <- by_name_rho by assumption; now apply St|].
        destruct (new_factor_ok v I) as (_ & Wf & Df & Rf & Vt & Gf). split; [|assumption].
        destruct (TV v I) as (_ & WfF & LF & RF & SFD).
        assert (UN : forall p, arc g p v -> substr_of (rho order p) (rho order v) = false) by (intros p A; now apply unclashed).
        split; [assumption|]. split; [|split; [|split]].
        * intros k ks. rewrite Df, recoded_In. split.
          -- intros (w & Iw & -> & ->). assert (Kw := Iw). apply (fam_vars v I) in Kw. apply keys_In in Kw. destruct Kw as (l & Il).
             exists w, l. split; [assumption|]. split.
             ++ apply renamed_iff; [assumption|]. split; [|reflexivity]. now apply (family_order g order W SN v Io).
             ++ unfold sz. rewrite (In_dget _ _ _ (proj1 WD) (SFD w l Il)). reflexivity.
          -- intros (w & l & Il & Rn & ->). apply renamed_iff in Rn; [|assumption]. destruct Rn as (Iw & ->).
             exists w. split; [apply (fam_vars v I), keys_In; now exists l|]. split; [reflexivity|].
             unfold sz. rewrite (In_dget _ _ _ (proj1 WD) (SFD w l Il)). reflexivity.
        * intros k. rewrite new_left_In by assumption. split.
          -- intros [-> | (p & A & -> & Es)]; [|rewrite (UN p A) in Es; discriminate].
             exists v. split; [apply LF; now left|]. apply renamed_iff; auto.
          -- intros (w & Iw & Rn). apply LF in Iw. destruct Iw as [<- | []]. apply renamed_iff in Rn; [|assumption]. now left.
        * intros k. rewrite Rf, new_right_In. split.
          -- intros (p & A & -> & _). exists p. split; [apply RF; now apply in_preds|]. apply renamed_iff; [assumption|].
             apply (arc_order g order W SN) in A. tauto.
          -- intros (p & Ip & Rn). apply RF, in_preds in Ip. apply renamed_iff in Rn; [|assumption]. exists p. split; [assumption|]. split; [tauto|auto].
        * intros o o' Fo C. destruct (table_ok v I) as (_ & _ & _ & _ & _ & Gt). destruct (Gt o o' Fo C) as (Fo' & x & Gx & Nx).
          exists x. split; [assumption|]. destruct (Gf o' Fo') as (x' & Gx' & Nx'). congruence.
  Qed.

  Lemma bn_isolated : (exists v, In v (nodes g) /\ forall w, ~ (arc g v w \/ arc g w v)) ->
    exists text, save_uai fstr dflt m arg = Ok text /\ bn_read_uai fparse dflt text = Raise NetworkXError.
  Proof.
    intros H. destruct bn_text as (text & E & Et & FL). exists text. split; [assumption|]. apply read_isolated; auto.
    intros NI. destruct H as (v & I & H). destruct (NI v I) as (w & A). now apply (H w).
  Qed.

  Lemma bad_factor m0 n f : wf_graph (m_graph m0) -> m_check m0 = true -> m_kind m0 = KBn -> In n (nodes (m_graph m0)) ->
    ~ same_set (preds (m_graph m0) n) (mf_right f) -> set_or_raise m0 n (FM f) = Raise ValueError.
  Proof.
    clear. intros W0 C K I NS. unfold set_or_raise, set_factor. rewrite K. unfold set_factor_base. rewrite C. unfold check_factor.
    rewrite get_parents_one by assumption. cbn [bind fo_right].
    destruct (set_eqb (preds (m_graph m0) n) (mf_right f)) eqn:E; [apply set_eqb_iff in E; contradiction|]. reflexivity.
  Qed.

  Lemma bn_clash p v : no_isolated g -> arc g p v -> substr_of (rho order p) (rho order v) = true ->
    exists text, save_uai fstr dflt m arg = Ok text /\ bn_read_uai fparse dflt text = Raise ValueError.
  Proof.
    intros NI A Es. destruct bn_text as (text & E & Et & FL). exists text. split; [assumption|].
    rewrite (read_connected text Et FL NI). unfold bn_init.
    rewrite (proj1 (initialize_ok _ (new_graph_wf g order)) (new_graph_acyclic g order W N SN AC)). cbn [bind set_factors].
    assert (Iv : In v order) by (apply (arc_order g order W SN) in A; tauto).
    assert (ST : forall l done m0, incl l order -> In v l -> building (recoded order D order) (new_graph g order) true KBn done m0 ->
      foldM (fun m vf => set_or_raise m (fst vf) (snd vf)) (map (fun v => (rho order v, FM (new_factor v))) l) m0 = Raise ValueError).
    { induction l as [|u l IH]; intros done m0 Il Ivl B; [destruct Ivl|]. cbn [map foldM fst snd].
      assert (Iu : In u (nodes g)) by (apply SN, Il; now left).
      destruct (existsb (fun q => substr_of (rho order q) (rho order u)) (preds g u)) eqn:X.
      - apply existsb_exists in X. destruct X as (q & Aq & Eq). apply in_preds in Aq.
        rewrite bad_factor; [reflexivity|..].
        + destruct B as (-> & _). apply new_graph_wf.
        + apply B.
        + apply B.
        + destruct B as (-> & _). apply new_graph_node_rho; auto. now apply SN.
        + destruct B as (-> & _). rewrite new_graph_preds by (auto; now apply SN). intros S.
          assert (H : In (rho order q) (mf_right (new_factor u))) by (apply S, in_map; now apply par_In).
          rewrite (proj1 (proj2 (proj2 (proj2 (new_factor_ok u Iu))))) in H. apply new_right_In in H.
          destruct H as (q' & Aq' & Eq' & Es'). apply rho_inj in Eq'; [subst q'; congruence| |];
            [apply (arc_order g order W SN) in Aq|apply (arc_order g order W SN) in Aq']; tauto.
      - assert (NX : forall q, arc g q u -> substr_of (rho order q) (rho order u) = false).
        { intros q Aq. apply in_preds in Aq. destruct (substr_of (rho order q) (rho order u)) eqn:Y; [|reflexivity].
          assert (C : existsb (fun q => substr_of (rho order q) (rho order u)) (preds g u) = true) by (apply existsb_exists; now exists q).
          congruence. }
        assert (ND : NoDup (keys (recoded order D order))) by (rewrite recoded_keys; now apply names_NoDup).
        destruct (set_one (recoded order D order) ND (new_graph g order) true KBn) with (done := done) (m := m0) (v := rho order u) (f := new_factor u) as (m1 & E1 & B1); auto.
        { apply new_graph_wf. } { now apply storable_new. }
        rewrite E1. cbn [bind]. eapply IH; [intros x Ix; apply Il; now right| |exact B1].
        destruct Ivl as [-> | Ivl]; [|assumption]. rewrite (NX p A) in Es. discriminate. }
    unfold new_factors. eapply (ST order); [apply incl_refl|assumption|apply building_fresh].
  Qed.
End Bn.
