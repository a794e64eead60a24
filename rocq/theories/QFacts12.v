(** The statements about the likelihood of data. *)

From Coq Require Import String Bool Arith ZArith QArith Qcanon Lia Permutation List.
From Verif Require Import PyBase PyFacts Num NumFacts DomainModel NdArray StoreModel NumStore FactorModel GraphModel ModelModel InferModel DataModel
  Spec DomainFacts StoreSpec StoreFacts FactorSpec FactorFacts BigSum GraphSpec GraphFacts GraphFacts2 PropFacts3 ModelSpec ModelFacts
  NetSpec NetSem FactorSem NetFacts VeFacts2 VeFacts3 VeFacts4 CfFacts CfFacts3 BuildFacts CausalFacts PropFacts4 GenFacts3
  LearnModel DataSpec DataFacts3 DataFacts4 EmSpec EmMath EmFacts2 EmFacts5 QModel QSpec QFacts2 QFacts3 QFacts4 QFacts5 QFacts6 QFacts7 QFacts8 QFacts9 QFacts10 QFacts11.
From Coq Require Import List.
Import ListNotations.
Local Open Scope nat_scope.
Local Arguments eqd : simpl never.

Section Statements.
  Variables (topo : digraph -> list var) (so : list (list var) -> list var) (pop : list var -> var).
  Variables (heur : digraph -> list var -> dict var nat -> res (list var)) (dflt : vtype).
  Hypothesis Hto : sorts topo.
  Hypothesis Hs : is_set_order so.
  Hypothesis Hp : pops pop.
  Hypothesis Hh : is_heuristic heur.
  Variables (m : pgm) (D : domain) (F : var -> mfactor) (vt : vtype) (endo : list var).
  Hypothesis HC : causal_tables m D F vt endo.
  Notation g := (m_graph m).
  Variable q : digraph.
  Hypothesis Hq : m_qgraph topo m = Ok q.
  Variables (L : Type) (l0 : L) (ladd : L -> L -> L) (lg : Qc -> L) (lnan linf : L).
  Hypothesis HL : logarithm l0 ladd lg.
  Variable data : frame.
  Hypothesis HD : full_data D data endo.
  Notation loglik := (log_likelihood topo so pop heur dflt L l0 ladd lg lnan linf m data).
  Notation maxlik := (max_log_likelihood topo so pop heur dflt L l0 ladd lg lnan linf m data).
  Notation ro := (row_obs data).

  Lemma lik_all : acyclic q -> all_disturbed g endo -> endo <> [] -> forall variables, variables = None \/ variables = Some [] ->
    ((forall r, In r (f_rows data) -> mass D F (part endo (ro r)) <> 0%Qc) -> loglik variables = Ok (lg (likelihood_of D F data endo))) /\
    ((exists r, In r (f_rows data) /\ mass D F (part endo (ro r)) = 0%Qc) -> loglik variables = Raise ValueError).
  Proof.
    intros Ac Ad E0 vs Hv. destruct (q_facts topo Hto m D F vt endo HC q Hq) as (Wq & Nq & Pq). split.
    - now apply (log_all topo so pop heur dflt Hto Hs Hp Hh m D F vt endo HC q Hq Wq Nq Pq Ac Ad E0 L l0 ladd lg lnan linf HL data HD).
    - now apply (log_all_zero topo so pop heur dflt Hto Hs Hp Hh m D F vt endo HC q Hq Wq Nq Pq Ac Ad L l0 ladd lg lnan linf data HD).
  Qed.
  Lemma lik_some : acyclic q -> all_disturbed g endo -> forall vs, vs <> [] -> incl vs endo ->
    ((forall r v, In r (f_rows data) -> In v vs -> mass D F (part (v :: preds q v) (ro r)) <> 0%Qc) ->
       loglik (Some vs) = Ok (lg (product_of (map (fun r => product_of (map (fun v =>
         (mass D F (part (v :: preds q v) (ro r)) / mass D F (part (preds q v) (ro r)))%Qc) vs)) (f_rows data))))) /\
    ((exists r v, In r (f_rows data) /\ In v vs /\ mass D F (part (v :: preds q v) (ro r)) = 0%Qc /\ mass D F (part (preds q v) (ro r)) <> 0%Qc) ->
       loglik (Some vs) = Raise ValueError).
  Proof.
    intros Ac Ad vs Nv Iv. destruct (q_facts topo Hto m D F vt endo HC q Hq) as (Wq & Nq & Pq).
    assert (E0 : endo <> []) by (intros E; rewrite E in Iv; destruct vs as [|v vs]; [auto|destruct (Iv v); now left]).
    assert (Ea : asked q (Some vs) = vs) by (destruct vs; [congruence|reflexivity]). split.
    - intros P. rewrite <- Ea in P, Iv.
      rewrite (log_ok topo so pop heur dflt Hs Hp Hh m D F vt endo HC q Hq Wq Nq Pq Ac Ad E0 L l0 ladd lg lnan linf HL data HD (Some vs) Iv P).
      rewrite Ea. reflexivity.
    - intros P. rewrite <- Ea in P, Iv.
      now apply (log_zero topo so pop heur dflt Hs Hp Hh m D F vt endo HC q Hq Wq Nq Pq Ac Ad L l0 ladd lg lnan linf data HD).
  Qed.
  Lemma lik_unknown : acyclic q -> all_disturbed g endo -> endo <> [] -> forall vs v, In v vs -> ~ In v endo -> loglik (Some vs) = Raise KeyError.
  Proof.
    intros Ac Ad E0 vs v. destruct (q_facts topo Hto m D F vt endo HC q Hq) as (Wq & Nq & Pq).
    now apply (log_unknown_var topo so pop heur dflt Hs Hp Hh m D F vt endo HC q Hq Wq Nq Pq Ac Ad L l0 ladd lg lnan linf data HD).
  Qed.
  Lemma lik_cyclic : ~ acyclic q -> forall variables, loglik variables = Raise ValueError.
  Proof.
    intros Ac vs. destruct (q_facts topo Hto m D F vt endo HC q Hq) as (Wq & Nq & Pq). unfold log_likelihood.
    now rewrite (qbnet_model_cyclic topo so pop heur dflt Hs Hp Hh m D F vt endo HC q Hq Wq Nq Pq Ac).
  Qed.

  Hypothesis Hd : describes D m.
  Hypothesis Id : incl (keys (m_domains m)) (keys D).
  Hypothesis R0 : f_rows data <> [].

  Lemma max_tables : acyclic q -> all_disturbed g endo ->
    exists b, get_qbnet topo so pop heur dflt m (Some data) = Ok b /\ m_graph b = q /\ m_kind b = KBn /\
      forall x, In x endo -> exists t, stored b x (FM t) /\ table_given D dflt (fun o => qn (count data o)) x (preds q x) t.
  Proof.
    intros Ac Ad. destruct (q_facts topo Hto m D F vt endo HC q Hq) as (Wq & Nq & Pq).
    destruct (qbnet_data topo so pop heur dflt Hs Hp m D F vt endo HC Hd Id q Hq Wq Nq Pq data HD R0 Ac Ad) as (b & Eb & B & K).
    exists b. split; [exact Eb|]. split; [apply B|]. split; [exact K|]. intros x J. exists (data_table so heur dflt m F q data x).
    split; [apply B; now apply Nq|]. apply (data_tables so heur dflt Hs m D F vt endo HC Hd Id q Pq data HD R0 x J).
  Qed.
  Lemma max_value : acyclic q -> all_disturbed g endo -> endo <> [] -> forall variables, variables = None \/ variables = Some [] ->
    maxlik variables = Ok (lg (empirical q data)) /\ (0 < empirical q data)%Qc.
  Proof.
    intros Ac Ad E0 vs Hv. destruct (q_facts topo Hto m D F vt endo HC q Hq) as (Wq & Nq & Pq). split.
    - now apply (max_all topo so pop heur dflt Hs Hp m D F vt endo HC Hd Id q Hq Wq Nq Pq data HD R0 L l0 ladd lg lnan linf HL).
    - eapply (empirical_pos m D F vt endo HC q Nq Pq data HD).
  Qed.
  Lemma max_cyclic : ~ acyclic q -> forall variables, maxlik variables = Raise ValueError.
  Proof.
    intros Ac vs. destruct (q_facts topo Hto m D F vt endo HC q Hq) as (Wq & Nq & Pq). unfold max_log_likelihood.
    now rewrite (qbnet_data_cyclic topo so pop heur dflt Hs Hp m D F vt endo HC Hd Id q Hq Wq Nq Pq data HD R0 Ac).
  Qed.
End Statements.

(** models of the same structure *)
Lemma lik_bound topo m D F vt endo q data : sorts topo -> causal_tables m D F vt endo -> m_qgraph topo m = Ok q -> acyclic q ->
  full_data D data endo -> (likelihood_of D F data endo <= empirical q data)%Qc.
Proof.
  intros Hto HC Hq Ac HD. destruct (q_facts topo Hto m D F vt endo HC q Hq) as (Wq & Nq & Pq).
  assert (V := some_valid D (ct_wd m D F vt endo HC)).
  destruct V as (a & V).
  eapply (bound_all D data endo (ct_wd m D F vt endo HC) HD); eauto. intros v J. now apply (ct_keys m D F vt endo HC).
Qed.
Lemma same_qgraph topo m m' endo c c' : m_kind m = KScm endo c -> m_kind m' = KScm endo c' -> m_graph m' = m_graph m -> m_qgraph topo m' = m_qgraph topo m.
Proof. intros E E' Eg. unfold m_qgraph, scm_endogenous. now rewrite E, E', Eg. Qed.
Lemma lik_max topo so pop heur dflt : sorts topo -> is_set_order so -> pops pop -> is_heuristic heur ->
  forall m D F vt endo q, causal_tables m D F vt endo -> m_qgraph topo m = Ok q -> acyclic q -> all_disturbed (m_graph m) endo -> endo <> [] ->
  describes D m -> incl (keys (m_domains m)) (keys D) ->
  forall data, full_data D data endo -> f_rows data <> [] ->
  forall m' D' F' vt', causal_tables m' D' F' vt' endo -> m_graph m' = m_graph m -> full_data D' data endo ->
  (likelihood_of D' F' data endo <= empirical q data)%Qc /\
  forall (L : Type) l0 ladd lg lnan linf (le : L -> L -> Prop), logarithm l0 ladd lg -> (forall a b, (0 < a)%Qc -> (a <= b)%Qc -> le (lg a) (lg b)) ->
  forall x y, log_likelihood topo so pop heur dflt L l0 ladd lg lnan linf m' data None = Ok x ->
    max_log_likelihood topo so pop heur dflt L l0 ladd lg lnan linf m data None = Ok y -> le x y.
Proof.
  intros Hto Hs Hp Hh m D F vt endo q HC Hq Ac Ad E0 Hd Id data HD R0 m' D' F' vt' HC' Eg HD'.
  assert (Hq' : m_qgraph topo m' = Ok q).
  { destruct (ct_kind _ _ _ _ _ HC) as (c & K). destruct (ct_kind _ _ _ _ _ HC') as (c' & K'). now rewrite (same_qgraph topo m m' endo c c' K K' Eg). }
  assert (B := lik_bound topo m' D' F' vt' endo q data Hto HC' Hq' Ac HD'). split; [exact B|].
  intros L l0 ladd lg lnan linf le HL Mo x y Ex Ey. rewrite <- Eg in Ad.
  destruct (lik_all topo so pop heur dflt Hto Hs Hp Hh m' D' F' vt' endo HC' q Hq' L l0 ladd lg lnan linf HL data HD' Ac Ad E0 None) as [A1 A2]; [auto|].
  rewrite Eg in Ad. destruct (max_value topo so pop heur dflt Hto Hs Hp m D F vt endo HC q Hq L l0 ladd lg lnan linf HL data HD Hd Id R0 Ac Ad E0 None) as [M _]; [auto|].
  rewrite M in Ey. injection Ey as <-.
  destruct (existsb (fun r => if Qc_eq_dec (mass D' F' (part endo (row_obs data r))) 0 then true else false) (f_rows data)) eqn:Ez.
  - apply existsb_exists in Ez as (r & J & Z). destruct (Qc_eq_dec (mass D' F' (part endo (row_obs data r))) 0) as [Z0|]; [|discriminate].
    rewrite A2 in Ex by eauto. discriminate.
  - assert (P : forall r, In r (f_rows data) -> mass D' F' (part endo (row_obs data r)) <> 0%Qc).
    { intros r J Z. rewrite <- not_true_iff_false in Ez. apply Ez. apply existsb_exists. exists r. split; [auto|]. now rewrite Z. }
    rewrite (A1 P) in Ex. injection Ex as <-. apply Mo; [|exact B]. unfold likelihood_of. change product_of with qprod. apply pos_prod. intros z Jz. apply in_map_iff in Jz as (r & <- & J).
    destruct (q_facts topo Hto m' D' F' vt' endo HC' q Hq') as (Wq & Nq & Pq).
    assert (Z := part_nonneg m' D' F' vt' endo HC' endo (row_obs data r) (fun v J => J) (row_part m' D' F' vt' endo HC' data HD' r J)).
    apply Qcle_lt_or_eq in Z. destruct Z as [Z|Z]; [exact Z|]. now destruct (P r J).
Qed.
