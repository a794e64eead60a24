(** The Bayesian network of relative frequencies, and the whole statements. *)

From Coq Require Import String Bool Arith ZArith QArith Qcanon Lia Permutation List.
From Verif Require Import PyBase PyFacts Num NumFacts DomainModel NdArray StoreModel NumStore FactorModel GraphModel ModelModel InferModel DataModel
  Spec DomainFacts StoreSpec StoreFacts FactorSpec FactorFacts BigSum GraphSpec GraphFacts GraphFacts2 PropFacts3 ModelSpec ModelFacts
  NetSpec NetSem FactorSem NetFacts VeFacts2 VeFacts3 VeFacts4 CfFacts CfFacts3 BuildFacts CausalFacts PropFacts4 GenFacts3
  LearnModel DataSpec DataFacts3 DataFacts4 EmSpec EmMath EmFacts2 EmFacts5 QModel QSpec QFacts2 QFacts3 QFacts4 QFacts5 QFacts6 QFacts7 QFacts8 QFacts9.
From Coq Require Import List.
Import ListNotations.
Local Open Scope nat_scope.
Local Arguments eqd : simpl never.

Lemma net_usable m D F vt : network m D F vt -> usable D.
Proof.
  intros H. assert (WD : wf_dom D) by apply H.
  assert (X : forall v l, In (v, l) D -> usable (mf_domain (F v)) /\ In (v, l) (mf_domain (F v))).
  { intros v l J. assert (K : In v (keys D)) by (apply keys_In; eauto). destruct (net_cpt m D F vt H v K) as (W & _ & Lf & _ & Df & _).
    split; [apply W|]. assert (Jv : In v (mf_vars (F v))) by (apply (proj1 (proj2 (proj2 (proj2 (wf_mf_partitioned _ W))))); left; apply Lf; now left).
    apply keys_In in Jv as (l' & Jv). assert (l' = l) as <-; [|exact Jv]. apply Df in Jv.
    apply (In_dget v l D (proj1 WD)) in J. apply (In_dget v l' D (proj1 WD)) in Jv. congruence. }
  split; [exact WD|]. split.
  - intros v l x y J Jx Jy. destruct (X v l J) as [(_ & U & _) K]. eapply U; eauto.
  - intros v s J. apply keys_In in J as (l & J). destruct (X v l J) as [(_ & _ & U) K]. apply U. apply keys_In. eauto.
Qed.

(** the domains that the model records *)
Lemma known_domains_ok D m : wf_dom D -> describes D m -> incl (keys (m_domains m)) (keys D) ->
  exists D', QModel.known_domains m = Ok D' /\ keys D' = keys (m_domains m) /\ forall v l, In (v, l) D' <-> In (v, l) D.
Proof.
  intros WD (N & X) I. unfold QModel.known_domains.
  assert (Q : forall ds, NoDup (keys ds) -> (forall v o, In (v, o) ds -> In (v, o) (m_domains m)) ->
    exists D', mapM (fun vd => match snd vd with Some l => Ok (fst vd, l) | None => Raise Unmodelled end) ds = Ok D' /\ keys D' = keys ds /\
      forall v l, In (v, l) D' <-> In (v, Some l) ds).
  { induction ds as [|[v o] ds IH]; intros Nd Id; [exists []; cbn; split; [reflexivity|]; split; [reflexivity|tauto]|].
    change (NoDup (v :: keys ds)) in Nd. apply NoDup_cons_iff in Nd as [Nv Nd]. destruct IH as (D' & E & K & M); [exact Nd|intros; apply Id; now right|].
    assert (J : In (v, o) (m_domains m)) by (apply Id; now left). assert (Jk : In v (keys D)) by (apply I, keys_In; eauto).
    apply keys_In in Jk as (l & Jl). specialize (X v l Jl). unfold has_domain in X. rewrite (In_dget v o _ N J) in X. injection X as ->.
    exists ((v, l) :: D'). cbn [mapM fst snd bind]. rewrite E. cbn [bind]. split; [reflexivity|]. split; [change (v :: keys D' = v :: keys ds); now rewrite K|].
    intros w k. cbn [In]. rewrite M. split; (intros [Q|Q]; [left; congruence|right; exact Q]). }
  destruct (Q (m_domains m) N (fun v o J => J)) as (D' & E & K & M). exists D'. split; [exact E|]. split; [exact K|].
  intros v l. rewrite M. split.
  - intros J. assert (Jk : In v (keys D)) by (apply I, keys_In; eauto). apply keys_In in Jk as (l' & Jl). specialize (X v l' Jl). unfold has_domain in X.
    rewrite (In_dget v _ _ N J) in X. injection X as ->. exact Jl.
  - intros J. apply dget_In. now apply X.
Qed.

Section SameDomain.
  Variables D D' : domain.
  Hypothesis N' : NoDup (keys D').
  Hypothesis M : forall v l, In (v, l) D' <-> In (v, l) D.
  Lemma same_keys v : In v (keys D') <-> In v (keys D).
  Proof. rewrite !keys_In. split; intros (l & J); exists l; now apply M. Qed.
  Lemma same_usable : usable D -> usable D'.
  Proof.
    intros ((_ & A) & B & C). split; [split; [exact N'|]|].
    - intros v l J. apply (A v l). now apply M.
    - split; [intros v l x y J; apply (B v l x y); now apply M|]. intros v s J. apply C. now apply same_keys.
  Qed.
  Lemma same_assigns vs o : assigns D vs o -> assigns D' vs o.
  Proof.
    intros [A B]. split; [exact A|]. intros v l J. apply filter_In in J as [J K]. apply M in J. apply (B v l). apply filter_In. auto.
  Qed.
  Lemma same_complete data vs : complete data D vs -> complete data D' vs.
  Proof. intros A r v c J K X. destruct (A r v c J K X) as (l & s & Y & Z). exists l, s. split; [now apply M|auto]. Qed.
End SameDomain.

Section Empirical.
  Variables (topo : digraph -> list var) (so : list (list var) -> list var) (pop : list var -> var).
  Variables (heur : digraph -> list var -> dict var nat -> res (list var)) (dflt : vtype).
  Hypothesis Hto : sorts topo.
  Hypothesis Hs : is_set_order so.
  Hypothesis Hp : pops pop.
  Variables (m : pgm) (D : domain) (F : var -> mfactor) (vt : vtype) (endo : list var).
  Hypothesis HC : causal_tables m D F vt endo.
  Hypothesis Hd : describes D m.
  Hypothesis Id : incl (keys (m_domains m)) (keys D).
  Notation g := (m_graph m).
  Variable q : digraph.
  Hypothesis Hq : m_qgraph topo m = Ok q.
  Hypothesis Wq : wf_graph q.
  Hypothesis Nq : forall v, In v (nodes q) <-> In v endo.
  Hypothesis Pq : forall x, In x endo -> NoDup (preds q x) /\ incl (preds q x) endo /\ ~ In x (preds q x).
  Variable data : frame.
  Hypothesis HD : full_data D data endo.
  Hypothesis R0 : f_rows data <> [].

  Definition data_table (v : var) : mfactor := answer (q_query so heur dflt m (Some data) v (preds q v)) (F v).
  Lemma data_tables v : In v endo ->
    q_query so heur dflt m (Some data) v (preds q v) = Ok (data_table v) /\
    table_given D dflt (fun o => qn (count data o)) v (preds q v) (data_table v).
  Proof.
    intros J. destruct (Pq v J) as (N1 & I1 & N2). assert (WD := ct_wd m D F vt endo HC). unfold data_table, q_query.
    destruct (known_domains_ok D m WD Hd Id) as (D' & Ed & Kd & Md). rewrite Ed. cbn [bind].
    assert (N' : NoDup (keys D')) by (rewrite Kd; apply Hd). destruct HD as (Wf & Ic & Cp).
    assert (I2 : incl ([v] ++ preds q v) endo) by (intros w [<- | K]; auto).
    assert (KD : forall w, In w endo -> In w (keys D')) by (intros w K; apply (same_keys D D' Md); now apply (ct_keys m D F vt endo HC)).
    destruct (DataFacts4.query_given_ok so Hs dflt data D' true [] (same_usable D D' N' Md (net_usable m D F vt (ct_net m D F vt endo HC))) Wf) with (T := [v]) (C := preds q v)
      as (r & E & W & V & _ & L & R & Rd & X).
    - intros w [].
    - constructor; [auto|constructor].
    - discriminate.
    - exact N1.
    - intros w [<- | []]. auto.
    - intros w K. auto.
    - intros w K. auto.
    - intros w _ [].
    - now intros w [<- | []].
    - apply (same_complete D D' Md). intros r w c Jr K. apply Cp; auto.
    - unfold count. cbn [forallb]. rewrite filter_all by reflexivity. destruct (f_rows data); [congruence|discriminate].
    - rewrite E. cbn [answer]. split; [reflexivity|]. split; [exact W|]. split; [exact V|]. split; [exact L|]. split; [exact R|].
      split; [intros w l K; apply Md; now apply Rd|]. intros t c At Ac.
      destruct (X t c (same_assigns D D' Md _ _ At) (same_assigns D D' Md _ _ Ac)) as [X1 X2]. rewrite !app_nil_r in X1, X2. unfold quotient.
      destruct (Qc_eq_dec (qn (count data c)) 0) as [Z|Z]; [apply X2; now apply qn_inj_0|]. apply X1. intros Z1. apply Z. now rewrite Z1.
  Qed.
  Lemma qbnet_data : acyclic q -> all_disturbed g endo ->
    exists b, get_qbnet topo so pop heur dflt m (Some data) = Ok b /\ built D q data_table b /\ m_kind b = KBn.
  Proof.
    intros Ac Ad. destruct (ct_kind m D F vt endo HC) as (cast & Hk).
    apply (qbnet_built topo so pop heur dflt m endo cast (Some data) q Hs Hp (net_wg m D F vt (ct_net m D F vt endo HC)) Hk Hq Wq Nq data_table); auto.
    - intros v J. now apply data_tables.
    - apply (ct_wd m D F vt endo HC).
    - intros v J. destruct (data_tables v J) as (_ & A1 & _ & A2 & A3 & A4 & _). auto.
  Qed.
  Lemma qbnet_data_cyclic : ~ acyclic q -> get_qbnet topo so pop heur dflt m (Some data) = Raise ValueError.
  Proof.
    intros Ac. destruct (ct_kind m D F vt endo HC) as (cast & Hk).
    apply (qbnet_cyclic topo so pop heur dflt m endo cast (Some data) q Hs Hp (net_wg m D F vt (ct_net m D F vt endo HC)) Hk Hq Wq Nq data_table); auto.
    intros v J. now apply data_tables.
  Qed.

  Variables (L : Type) (l0 : L) (ladd : L -> L -> L) (lg : Qc -> L) (lnan linf : L).
  Hypothesis HL : logarithm l0 ladd lg.
  Notation maxlik := (max_log_likelihood topo so pop heur dflt L l0 ladd lg lnan linf m data).
  Notation ro := (row_obs data).
  Definition freq (v : var) (o : obs) : Qc := ratio (count data (part (v :: preds q v) o)) (count data (part (preds q v) o)).

  Lemma freq_pos v r : In v endo -> In r (f_rows data) -> (0 < freq v (ro r))%Qc.
  Proof.
    intros J Jr. destruct (Pq v J) as (N1 & I1 & N2). destruct (some_valid D (ct_wd m D F vt endo HC)) as (a0 & V0).
    assert (I2 : incl (v :: preds q v) endo) by (intros w [<- | K]; auto).
    assert (P1 := count_pos D data endo (ct_wd m D F vt endo HC) HD (ct_keys m D F vt endo HC) a0 (v :: preds q v) r Jr I2).
    assert (P2 := count_pos D data endo (ct_wd m D F vt endo HC) HD (ct_keys m D F vt endo HC) a0 (preds q v) r Jr I1).
    unfold freq, ratio. fold (qn (count data (part (v :: preds q v) (ro r)))). fold (qn (count data (part (preds q v) (ro r)))).
    apply qn_pos in P1, P2. unfold Qcdiv. apply pos_mul; [exact P1|].
    apply Qcnot_le_lt. intros C. assert (I := inv_nn _ (Qclt_le_weak _ _ P2)). apply (Qcle_antisym _ _ C) in I.
    assert (E : (qn (count data (part (preds q v) (ro r))) * / qn (count data (part (preds q v) (ro r))) = 1)%Qc)
      by (apply Qcmult_inv_r; intros Z; rewrite Z in P2; discriminate P2). rewrite I, Qcmult_0_r in E. discriminate E.
  Qed.
  Lemma freq_value v r : In v endo -> In r (f_rows data) -> mf_get_value (data_table v) (ro r) = Ok (Fin (freq v (ro r))).
  Proof.
    intros J Jr. destruct (Pq v J) as (N1 & I1 & N2). destruct (some_valid D (ct_wd m D F vt endo HC)) as (a0 & V0).
    assert (WD := ct_wd m D F vt endo HC). assert (IE := ct_keys m D F vt endo HC).
    assert (I2 : incl (v :: preds q v) endo) by (intros w [<- | K]; auto).
    rewrite (table_value D dflt _ v (preds q v) (data_table v) (row_asg data endo a0 r) (ro r) (proj2 (data_tables v J))).
    - cbv beta. rewrite !(count_like D data endo WD HD IE a0) by auto. rewrite <- !(count_part D data endo WD HD IE a0) by auto.
      assert (P2 := count_pos D data endo WD HD IE a0 (preds q v) r Jr I1). unfold quotient.
      destruct (Qc_eq_dec (qn (count data (part (preds q v) (ro r)))) 0) as [Z|Z]; [|reflexivity]. apply qn_inj_0 in Z. lia.
    - now apply (row_valid D data endo WD HD).
    - exact N2.
    - intros w K. apply (row_get D data endo WD HD IE); auto.
  Qed.
  Lemma max_ok variables : acyclic q -> all_disturbed g endo -> incl (asked q variables) endo -> endo <> [] ->
    maxlik variables = Ok (lg (product_of (map (fun r => product_of (map (fun v => freq v (ro r)) (asked q variables))) (f_rows data)))).
  Proof.
    intros Ac Ad I E0. destruct (qbnet_data Ac Ad) as (b & Eb & B & _).
    unfold max_log_likelihood. rewrite Eb. cbn [bind]. rewrite (records_ok D data endo HD). cbn [bind].
    destruct (log_prob_ok L l0 ladd lg lnan linf D q data_table b B (map ro (f_rows data)) variables freq) as (ls & E & S).
    - intros v J. apply Nq. auto.
    - intros v o J K. apply in_map_iff in K as (r & <- & K). split; [apply freq_value|apply freq_pos]; auto.
    - exact HL.
    - assert (X : nodes q <> []).
      { intros En. apply E0. destruct endo as [|w rs]; [reflexivity|]. assert (J := proj2 (Nq w) (or_introl eq_refl)). rewrite En in J. destruct J. }
      destruct variables as [[|x r]|]; cbn; [exact X|discriminate|exact X].
    - rewrite E. cbn [bind]. rewrite S. now rewrite map_map.
  Qed.
  Lemma max_all variables : acyclic q -> all_disturbed g endo -> endo <> [] -> variables = None \/ variables = Some [] ->
    maxlik variables = Ok (lg (empirical q data)).
  Proof.
    intros Ac Ad E0 Ev. assert (Ea : asked q variables = nodes q) by (destruct Ev as [-> | ->]; reflexivity).
    rewrite max_ok; auto; rewrite Ea; [reflexivity|]. intros v J. now apply Nq.
  Qed.
  Lemma empirical_pos : (0 < empirical q data)%Qc.
  Proof.
    unfold empirical. apply pos_prod. intros x J. apply in_map_iff in J as (r & <- & J). apply pos_prod. intros x K.
    apply in_map_iff in K as (v & <- & K). apply (freq_pos v r); [now apply Nq|exact J].
  Qed.
End Empirical.
