(** The facts about UAI files, in the form of the properties. *)

From Coq Require Import String Ascii Bool Arith ZArith QArith Qcanon Permutation Lia List.
From Verif Require Import PyBase Num NumFacts DomainModel NdArray StoreModel NumStore FactorModel GraphModel ModelModel CausalModel
  UaiModel PyFacts Spec StoreSpec FactorSpec GraphSpec ModelSpec NetSpec CausalSpec BuildFacts UaiSpec UaiFacts UaiFacts2 UaiFacts3 UaiFacts4.
Import ListNotations.
Local Open Scope nat_scope.
Local Open Scope string_scope.
Local Open Scope list_scope.
Local Arguments eqd : simpl never.

Lemma clash_names g order x y : NoDup order -> same_set order (nodes g) -> clash g order x y ->
  arc g x y /\ substr_of (rho order x) (rho order y) = true.
Proof.
  intros N SN (A & i & j & t & X & Y & E). split; [assumption|]. unfold rho. apply name_in_name. exists t.
  now rewrite (idx_of order N i x X), (idx_of order N j y Y).
Qed.

Lemma uai_bn : forall fstr fparse dflt m order D F, m_kind m = KBn -> tabled m D F -> records m D ->
  forall arg, is_order m (nodes (m_graph m)) arg order -> (forall v, In v (nodes (m_graph m)) -> writable fstr fparse (F v)) ->
  no_isolated (m_graph m) -> no_clash (m_graph m) order ->
  exists text m', save_uai fstr dflt m arg = Ok text /\ bn_read_uai fparse dflt text = Ok m' /\ m_kind m' = KBn /\
    same_structure order (m_graph m) (m_graph m') /\
    forall v n, In v (nodes (m_graph m)) -> renamed order v n ->
      exists f', stored m' n (FM f') /\ same_table order D (F v) f' /\ mf_vtype f' = dflt.
Proof. exact bn_roundtrip. Qed.

Lemma uai_bn_isolated : forall fstr fparse dflt m order D F, m_kind m = KBn -> tabled m D F -> records m D ->
  forall arg, is_order m (nodes (m_graph m)) arg order -> (forall v, In v (nodes (m_graph m)) -> writable fstr fparse (F v)) ->
  (exists v, isolated (m_graph m) v) ->
  exists text, save_uai fstr dflt m arg = Ok text /\ bn_read_uai fparse dflt text = Raise NetworkXError.
Proof. exact bn_isolated. Qed.

Lemma uai_bn_clash : forall fstr fparse dflt m order D F, m_kind m = KBn -> tabled m D F -> records m D ->
  forall arg, is_order m (nodes (m_graph m)) arg order -> (forall v, In v (nodes (m_graph m)) -> writable fstr fparse (F v)) ->
  no_isolated (m_graph m) -> (exists x y, clash (m_graph m) order x y) ->
  exists text, save_uai fstr dflt m arg = Ok text /\ bn_read_uai fparse dflt text = Raise ValueError.
Proof.
  intros fstr fparse dflt m order D F K T R arg O WR NI (x & y & Cl).
  destruct (clash_names _ _ _ _ (proj1 O) (proj1 (proj2 O)) Cl) as (A & E). now apply (bn_clash fstr fparse dflt m order D F K T R arg O WR x y).
Qed.

Lemma in_nodes m endo : wf_graph (m_graph m) -> with_parents (m_graph m) endo -> incl endo (nodes (m_graph m)).
Proof. intros W EP v I. destruct (EP v I) as (p & A). now apply (proj2 (proj2 W)) in A. Qed.

Lemma uai_scm : forall fstr fparse dflt m order D F vt endo cast, causal m D F vt endo cast -> records m D ->
  forall arg, is_order m (endo ++ scm_exogenous m) arg order ->
  with_parents (m_graph m) endo -> plain_roots m -> counted_states m D ->
  (forall v, In v (nodes (m_graph m)) -> ~ In v endo -> writable fstr fparse (F v)) -> reads_naturals fparse ->
  no_isolated (m_graph m) -> no_clash (m_graph m) order ->
  exists text m' en, save_uai fstr dflt m arg = Ok text /\ scm_read_uai fparse dflt text = Ok m' /\
    m_kind m' = KScm en true /\ (forall n, In n en <-> exists v, In v endo /\ renamed order v n) /\
    same_structure order (m_graph m) (m_graph m') /\
    forall v n, In v (nodes (m_graph m)) -> renamed order v n ->
      exists f', stored m' n (FM f') /\ same_table order D (F v) f' /\ mf_vtype f' = dflt.
Proof.
  intros fstr fparse dflt m order D F vt endo cast C R arg O EP PR IS WR PI. 
  exact (scm_roundtrip fstr fparse dflt m order D F vt endo cast C R arg O (in_nodes m endo (proj1 (proj2 C)) EP) EP PR IS WR PI).
Qed.
Lemma uai_scm_isolated : forall fstr fparse dflt m order D F vt endo cast, causal m D F vt endo cast -> records m D ->
  forall arg, is_order m (endo ++ scm_exogenous m) arg order ->
  with_parents (m_graph m) endo -> plain_roots m -> counted_states m D ->
  (forall v, In v (nodes (m_graph m)) -> ~ In v endo -> writable fstr fparse (F v)) -> reads_naturals fparse ->
  (exists v, isolated (m_graph m) v) -> no_clash (m_graph m) order ->
  exists text, save_uai fstr dflt m arg = Ok text /\ scm_read_uai fparse dflt text = Raise NetworkXError.
Proof.
  intros fstr fparse dflt m order D F vt endo cast C R arg O EP PR IS WR PI. 
  exact (scm_isolated fstr fparse dflt m order D F vt endo cast C R arg O (in_nodes m endo (proj1 (proj2 C)) EP) EP PR IS WR PI).
Qed.
Lemma uai_scm_clash : forall fstr fparse dflt m order D F vt endo cast, causal m D F vt endo cast -> records m D ->
  forall arg, is_order m (endo ++ scm_exogenous m) arg order ->
  with_parents (m_graph m) endo -> plain_roots m -> counted_states m D ->
  (forall v, In v (nodes (m_graph m)) -> ~ In v endo -> writable fstr fparse (F v)) -> reads_naturals fparse ->
  no_isolated (m_graph m) -> (exists x y, clash (m_graph m) order x y) ->
  exists text, save_uai fstr dflt m arg = Ok text /\ scm_read_uai fparse dflt text = Raise ValueError.
Proof.
  intros fstr fparse dflt m order D F vt endo cast C R arg O EP PR IS WR PI NI (x & y & Cl). 
  destruct (clash_names _ _ _ _ (proj1 O) (proj1 (proj2 O)) Cl) as (A & E).
  now apply (scm_clash fstr fparse dflt m order D F vt endo cast C R arg O (in_nodes m endo (proj1 (proj2 C)) EP) EP PR IS WR PI x y).
Qed.

(** A file of the other kind is rejected. *)
Lemma first_line_app a b : (forall c, In c (list_ascii_of_string a) -> Ascii.eqb c (ascii_of_nat 10) = false /\ Ascii.eqb c " " = false) ->
  first_line (a ++ String (ascii_of_nat 10) b)%string = a.
Proof.
  induction a as [|c a IH]; intros H; [reflexivity|]. cbn [append first_line].
  destruct (H c) as (-> & ->); [now left|]. rewrite IH; [reflexivity|]. intros d I. apply H. now right.
Qed.
Lemma to_uai_label fstr dflt m causal integer arg text : to_uai fstr dflt m causal integer arg = Ok text ->
  first_line text = if causal then "CAUSAL" else "BAYES".
Proof.
  unfold to_uai. intros E.
  repeat match type of E with
  | bind ?r _ = Ok _ => destruct r; [cbn [bind] in E|discriminate E]
  | (if ?b then _ else _) = Ok _ => destruct b; [discriminate E|]
  end.
  injection E as <-. rewrite !str_app_assoc. unfold newline at 1. cbn [append]. destruct causal; apply first_line_app; vm_compute;
    intros c I; repeat (destruct I as [<- | I]; [split; reflexivity|]); destruct I.
Qed.
Lemma uai_label : forall fstr fparse dflt m arg text, save_uai fstr dflt m arg = Ok text ->
  match m_kind m with
  | KBn => scm_read_uai fparse dflt text = Raise ValueError
  | KScm _ _ => bn_read_uai fparse dflt text = Raise ValueError
  end.
Proof.
  intros fstr fparse dflt m arg text E. unfold save_uai in E. destruct (m_kind m); apply to_uai_label in E.
  - unfold scm_read_uai, scm_from_uai. rewrite E. reflexivity.
  - unfold bn_read_uai, bn_from_uai. rewrite E. reflexivity.
Qed.

(** An order that is not one of the variables of the model is rejected. *)
Lemma uai_bad_order : forall fstr dflt m order, order <> [] ->
  ~ same_set order (match m_kind m with KBn => nodes (m_graph m) | KScm endo _ => endo ++ scm_exogenous m end) ->
  save_uai fstr dflt m (Some order) = Raise ValueError.
Proof.
  intros fstr dflt m order NE NS.
  assert (H : forall vars0 causal integer, label_variables m causal = Ok vars0 -> ~ same_set order vars0 ->
    to_uai fstr dflt m causal integer (Some order) = Raise ValueError).
  { intros vars0 causal integer L NS'. unfold to_uai. rewrite L. cbn [bind]. destruct order as [|o os]; [congruence|].
    destruct (negb (forallb (fun v => mem v (o :: os)) vars0 && forallb (fun v => mem v vars0) (o :: os))) eqn:B; [reflexivity|].
    exfalso. apply NS'. apply negb_false_iff, andb_true_iff in B. rewrite !forallb_forall in B. destruct B as (B1 & B2).
    intros v. rewrite <- !mem_In. split; intros I; [apply B2|apply B1]; now apply mem_In. }
  unfold save_uai. destruct (m_kind m) eqn:K.
  - apply (H (nodes (m_graph m))); [reflexivity|exact NS].
  - apply (H (endo ++ scm_exogenous m)); [unfold label_variables; now rewrite K|exact NS].
Qed.
