(** The log-likelihood of a causal model. *)

From Coq Require Import String Bool Arith ZArith QArith Qcanon Lia Permutation List.
From Verif Require Import PyBase PyFacts Num NumFacts DomainModel NdArray StoreModel NumStore FactorModel GraphModel ModelModel InferModel DataModel
  Spec DomainFacts StoreSpec StoreFacts FactorSpec FactorFacts BigSum GraphSpec GraphFacts GraphFacts2 PropFacts3 ModelSpec ModelFacts
  NetSpec NetSem FactorSem NetFacts VeFacts2 VeFacts3 VeFacts4 CfFacts CfFacts3 BuildFacts CausalFacts PropFacts4 GenFacts3
  LearnModel DataSpec DataFacts3 EmSpec EmMath EmFacts2 EmFacts5 QModel QSpec QFacts2 QFacts3 QFacts4 QFacts5 QFacts6.
From Coq Require Import List.
Import ListNotations.
Local Open Scope nat_scope.
Local Arguments eqd : simpl never.

Section Likelihood.
  Variables (topo : digraph -> list var) (so : list (list var) -> list var) (pop : list var -> var).
  Variables (heur : digraph -> list var -> dict var nat -> res (list var)) (dflt : vtype).
  Hypothesis Hto : sorts topo.
  Hypothesis Hs : is_set_order so.
  Hypothesis Hp : pops pop.
  Hypothesis Hh : is_heuristic heur.
  Variables (m : pgm) (D : domain) (F : var -> mfactor) (vt : vtype) (endo : list var).
  Hypothesis HC : causal_tables m D F vt endo.
  Notation g := (m_graph m).
  Variable q : digraph.
  Hypothesis Hq : m_qgraph topo m = Ok q.
  Hypothesis Wq : wf_graph q.
  Hypothesis Nq : forall v, In v (nodes q) <-> In v endo.
  Hypothesis Pq : forall x, In x endo -> NoDup (preds q x) /\ incl (preds q x) endo /\ ~ In x (preds q x).
  Hypothesis Ac : acyclic q.
  Hypothesis Ad : all_disturbed g endo.
  Hypothesis E0 : endo <> [].
  Variables (L : Type) (l0 : L) (ladd : L -> L -> L) (lg : Qc -> L) (lnan linf : L).
  Hypothesis HL : logarithm l0 ladd lg.
  Variable data : frame.
  Hypothesis HD : full_data D data endo.
  Notation H := (ct_net m D F vt endo HC).
  Notation NN := (ct_nn m D F vt endo HC).
  Notation loglik := (log_likelihood topo so pop heur dflt L l0 ladd lg lnan linf m data).
  Notation ro := (row_obs data).

  (** the probability of the state of [v] in [o] given its Q-parents *)
  Definition cond (o : obs) (v : var) : Qc := (mass D F (part (v :: preds q v) o) / mass D F (part (preds q v) o))%Qc.

  Lemma nodes0 : nodes q <> [].
  Proof. intros E. destruct endo as [|w r] eqn:Ee; [congruence|]. assert (J := proj2 (Nq w) (or_introl eq_refl)). rewrite E in J. destruct J. Qed.
  Lemma asked0 variables : asked q variables <> [].
  Proof. destruct variables as [[|x r]|]; cbn; [apply nodes0|discriminate|apply nodes0]. Qed.

  Lemma row_part r : In r (f_rows data) -> full (pick endo D) (ro r).
  Proof. intros J. apply (row_full D data endo r HD J). apply (ct_wd m D F vt endo HC). Qed.
  Lemma part_known l o : incl l endo -> full (pick endo D) o -> Spec.known D (part l o).
  Proof.
    intros I Fo v s x J E. rewrite part_get in E. destruct (mem v l) eqn:M; [|discriminate]. apply mem_In, I, mem_In in M.
    destruct (Fo v s) as (y & Ey & Jy); [apply filter_In; split; [exact J|exact M]|]. congruence.
  Qed.
  Lemma part_nonneg l o : incl l endo -> full (pick endo D) o -> (0 <= mass D F (part l o))%Qc.
  Proof. intros I Fo. apply (mass_nonneg m D F vt H _ NN). now apply part_known. Qed.
  Lemma part_fewer l l' o : incl l l' -> (mass D F (part l' o) <= mass D F (part l o))%Qc.
  Proof.
    intros I. apply (mass_mono m D F vt H NN). intros p. unfold consistent. rewrite !forallb_forall. intros C [x s] J. specialize (C _ J). cbn [fst snd] in *.
    rewrite part_get in *. destruct (mem x l) eqn:E; [|auto]. apply mem_In, I, mem_In in E. now rewrite E in C.
  Qed.
  Lemma part_pos l l' o : incl l l' -> incl l' endo -> full (pick endo D) o -> mass D F (part l' o) <> 0%Qc -> (0 < mass D F (part l o))%Qc.
  Proof.
    intros I I' Fo N. eapply Qclt_le_trans; [|apply (part_fewer l l' o I)]. assert (P := part_nonneg l' o I' Fo).
    apply Qcle_lt_or_eq in P as [P|P]; [exact P|congruence].
  Qed.
  Lemma fam_in v : In v endo -> incl (v :: preds q v) endo.
  Proof. intros J w [<- | K]; [auto|]. now apply (Pq v J). Qed.
  Lemma cond_pos v o : In v endo -> full (pick endo D) o -> mass D F (part (v :: preds q v) o) <> 0%Qc ->
    (0 < cond o v)%Qc /\ mass D F (part (preds q v) o) <> 0%Qc.
  Proof.
    intros J Fo N. assert (P1 := part_pos _ _ o (incl_refl _) (fam_in v J) Fo N).
    assert (P2 : (0 < mass D F (part (preds q v) o))%Qc) by (apply (part_pos _ (v :: preds q v)); auto; [intros w K; now right|now apply fam_in]).
    assert (N2 : mass D F (part (preds q v) o) <> 0%Qc) by (intros E; rewrite E in P2; discriminate P2).
    split; [|exact N2]. unfold cond, Qcdiv. apply pos_mul; [exact P1|].
    apply Qcnot_le_lt. intros C. assert (I := inv_nn _ (Qclt_le_weak _ _ P2)). apply (Qcle_antisym _ _ C) in I.
    assert (E : (mass D F (part (preds q v) o) * / mass D F (part (preds q v) o) = 1)%Qc) by (apply Qcmult_inv_r; auto). rewrite I, Qcmult_0_r in E. discriminate E.
  Qed.

  Lemma log_unknown_var vs v : In v vs -> ~ In v endo -> loglik (Some vs) = Raise KeyError.
  Proof.
    intros J N. destruct (qbnet_model topo so pop heur dflt Hs Hp Hh m D F vt endo HC q Hq Wq Nq Pq Ac Ad) as (b & Eb & B & _).
    unfold log_likelihood. rewrite Eb. cbn [bind]. rewrite (records_ok D data endo HD). cbn [bind].
    rewrite (log_unknown L ladd lg lnan linf D q (model_table so heur dflt m F q) b B _ vs v J); [reflexivity|]. now rewrite Nq.
  Qed.
  Lemma log_ok variables : incl (asked q variables) endo ->
    (forall r v, In r (f_rows data) -> In v (asked q variables) -> mass D F (part (v :: preds q v) (ro r)) <> 0%Qc) ->
    loglik variables = Ok (lg (product_of (map (fun r => product_of (map (cond (ro r)) (asked q variables))) (f_rows data)))).
  Proof.
    intros I X. destruct (qbnet_model topo so pop heur dflt Hs Hp Hh m D F vt endo HC q Hq Wq Nq Pq Ac Ad) as (b & Eb & B & _).
    unfold log_likelihood. rewrite Eb. cbn [bind]. rewrite (records_ok D data endo HD). cbn [bind].
    destruct (log_prob_ok L l0 ladd lg lnan linf D q (model_table so heur dflt m F q) b B (map ro (f_rows data)) variables (fun v o => cond o v)) as (ls & E & S).
    - intros v J. apply Nq. auto.
    - intros v o J K. apply in_map_iff in K as (r & <- & K). destruct (cond_pos v (ro r) (I v J) (row_part r K) (X r v K J)) as [P N]. split; [|exact P].
      rewrite (table_at m D F vt endo HC q Pq v _ (ro r) (I v J)); [|apply (model_tables so heur dflt Hs Hh m D F vt endo HC q Pq v (I v J))|now apply row_part].
      unfold value_at, quotient. destruct (Qc_eq_dec (mass D F (part (preds q v) (ro r))) 0); [congruence|]. reflexivity.
    - exact HL.
    - apply asked0.
    - rewrite E. cbn [bind]. rewrite S. now rewrite map_map.
  Qed.
  Lemma log_zero variables : incl (asked q variables) endo ->
    (exists r v, In r (f_rows data) /\ In v (asked q variables) /\ mass D F (part (v :: preds q v) (ro r)) = 0%Qc /\ mass D F (part (preds q v) (ro r)) <> 0%Qc) ->
    loglik variables = Raise ValueError.
  Proof.
    intros I (r & v & Jr & Jv & Z & N).
    destruct (qbnet_model topo so pop heur dflt Hs Hp Hh m D F vt endo HC q Hq Wq Nq Pq Ac Ad) as (b & Eb & B & _).
    unfold log_likelihood. rewrite Eb. cbn [bind]. rewrite (records_ok D data endo HD). cbn [bind].
    rewrite (log_prob_zero L ladd lg lnan linf D q (model_table so heur dflt m F q) b B (map ro (f_rows data)) variables
               (fun v o => value_at D F vt q o v)); [reflexivity| | |].
    - intros w J. apply Nq. auto.
    - intros w o J K. apply in_map_iff in K as (r' & <- & K). split.
      + apply (table_at m D F vt endo HC q Pq w _ (ro r') (I w J)); [apply (model_tables so heur dflt Hs Hh m D F vt endo HC q Pq w (I w J))|now apply row_part].
      + unfold value_at, quotient. destruct (Qc_eq_dec (mass D F (part (preds q w) (ro r'))) 0); [destruct vt|]; discriminate.
    - exists v, (ro r). split; [exact Jv|]. split; [now apply in_map|]. unfold value_at, quotient.
      destruct (Qc_eq_dec (mass D F (part (preds q v) (ro r))) 0); [congruence|]. rewrite Z. apply (f_equal Fin). unfold Qcdiv. ring.
  Qed.

  (** the conditional probabilities multiply to the joint one *)
  Lemma cond_product o : full (pick endo D) o -> product_of (map (cond o) (nodes q)) = mass D F (part endo o).
  Proof.
    intros Fo. destruct (part_asg D endo o (ct_wd m D F vt endo HC) (ct_keys m D F vt endo HC) Fo) as (a & Va & A & E).
    rewrite (mass_part D F endo a o E), (endo_chain topo Hto m D F vt endo HC q Hq Wq Nq a Ac Va). f_equal. apply map_ext_in. intros v J. apply Nq in J.
    unfold cond. rewrite !(fun l => part_mass D F endo a o l A); [reflexivity|now apply (Pq v J)|now apply fam_in].
  Qed.
  Lemma log_all variables : variables = None \/ variables = Some [] ->
    (forall r, In r (f_rows data) -> mass D F (part endo (ro r)) <> 0%Qc) -> loglik variables = Ok (lg (likelihood_of D F data endo)).
  Proof.
    intros Ev X. assert (Ea : asked q variables = nodes q) by (destruct Ev as [-> | ->]; reflexivity).
    rewrite log_ok.
    - rewrite Ea. unfold likelihood_of. do 2 f_equal. f_equal. apply map_ext_in. intros r J. apply cond_product. now apply row_part.
    - rewrite Ea. intros v J. now apply Nq.
    - intros r v J K. rewrite Ea in K. apply Nq in K. assert (P := part_pos (v :: preds q v) endo (ro r) (fam_in v K) (incl_refl _) (row_part r J) (X r J)).
      intros Z. rewrite Z in P. discriminate P.
  Qed.
  (** an impossible row has a first impossible variable *)
  Lemma first_zero o tau : topological q tau -> full (pick endo D) o -> forall P R, tau = P ++ R -> mass D F (part P o) = 0%Qc ->
    exists v, In v endo /\ mass D F (part (v :: preds q v) o) = 0%Qc /\ mass D F (part (preds q v) o) <> 0%Qc.
  Proof.
    intros Ht Fo. destruct (part_asg D endo o (ct_wd m D F vt endo HC) (ct_keys m D F vt endo HC) Fo) as (a & Va & A & _).
    assert (Mt : forall v, In v tau -> In v endo) by (intros v J; apply Nq; destruct Ht as (_ & M & _); now apply M).
    induction P as [|x P IH] using rev_ind; intros R Et Z.
    - exfalso. replace (mass D F (part [] o)) with 1%Qc in Z; [discriminate Z|]. rewrite <- (mass_nil m D F vt H). apply mass_get.
      intros y. now rewrite part_get.
    - rewrite <- app_assoc in Et. cbn [app] in Et. destruct (Qc_eq_dec (mass D F (part P o)) 0) as [Z1|Z1]; [apply (IH _ Et Z1)|].
      assert (Jx : In x endo) by (apply Mt; rewrite Et; apply in_or_app; right; now left). exists x. split; [exact Jx|].
      assert (IP : incl P endo) by (intros y J; apply Mt; rewrite Et; apply in_or_app; auto).
      assert (PP : incl (preds q x) P). { intros y J. apply in_preds in J. destruct Ht as (_ & _ & T). now apply (T y x P R). }
      assert (N : mass D F (part (preds q x) o) <> 0%Qc).
      { assert (K := part_pos (preds q x) P o PP IP Fo Z1). intros Z2. rewrite Z2 in K. discriminate K. }
      split; [|exact N].
      assert (Hg : get_qgraph g endo (topo (endo_graph g endo)) = Ok q) by (unfold m_qgraph in Hq; rewrite (ct_scm m D F vt endo HC) in Hq; exact Hq).
      assert (Q := q_step m D F vt endo _ q H (endo_topological topo Hto m D F vt endo HC) (ct_root m D F vt endo HC) Hg tau Ht P x R a Et Va).
      assert (IX : incl (P ++ [x]) endo) by (intros y J; apply in_app_or in J as [J|[<- | []]]; auto).
      rewrite <- (part_mass D F endo a o (P ++ [x]) A IX), <- (part_mass D F endo a o (preds q x) A (proj1 (proj2 (Pq x Jx)))),
        <- (part_mass D F endo a o (x :: preds q x) A (fam_in x Jx)), <- (part_mass D F endo a o P A IP) in Q.
      rewrite Z, Qcmult_0_l in Q. symmetry in Q. apply Qcmult_integral in Q as [Q|Q]; [exact Q|congruence].
  Qed.
  Lemma log_all_zero variables : variables = None \/ variables = Some [] ->
    (exists r, In r (f_rows data) /\ mass D F (part endo (ro r)) = 0%Qc) -> loglik variables = Raise ValueError.
  Proof.
    intros Ev (r & J & Z). assert (Ea : asked q variables = nodes q) by (destruct Ev as [-> | ->]; reflexivity).
    apply log_zero; rewrite Ea; [intros v K; now apply Nq|]. destruct (acyclic_topological q Wq Ac) as (tau & Ht).
    destruct (first_zero (ro r) tau Ht (row_part r J) tau [] (eq_sym (app_nil_r _))) as (v & K & Z1 & Z2).
    - rewrite <- Z. apply mass_get. intros y. rewrite !part_get. replace (mem y tau) with (mem y endo); [reflexivity|].
      apply Bool.eq_iff_eq_true. rewrite !mem_In. destruct Ht as (_ & M & _). rewrite M. symmetry. apply Nq.
    - exists r, v. split; [exact J|]. split; [now apply Nq|auto].
  Qed.
End Likelihood.
