(** Runs of the gradient learner. *)

From Coq Require Import String Bool Arith ZArith QArith Qcanon Lia Permutation List.
From Verif Require Import PyBase PyFacts Num DomainModel DomainFacts NdArray StoreModel NumStore FactorModel GraphModel ModelModel InferModel
  LearnModel UaiModel GradModel Spec StoreSpec FactorSpec GraphSpec ModelSpec NetSpec EmSpec QSpec GradSpec LearnSpec CausalModel CausalSpec
  StoreFacts FactorFacts NumFacts BigSum FactorSem NetSem NetFacts GraphFacts GraphFacts2 PropFacts1 ModelFacts BuildFacts EmMath EmFacts2 EmFacts3 EmFacts6 EmFacts7
  VeFacts4 CausalFacts ConvFacts2 LearnFacts UaiFacts QFacts5 QFacts6 GradSpec GradFacts1 GradFacts2 GradFacts3.
From Coq Require Import List.
Import ListNotations.
Local Open Scope nat_scope.
Local Arguments eqd : simpl never.

(** ** The table of one variable *)

Lemma only_key {V} (d : dict var V) v x : NoDup (keys d) -> same_set (keys d) [v] -> In (v, x) d -> d = [(v, x)].
Proof.
  intros N S J. destruct d as [|[a b] d]; [destruct J|]. cbn [keys map] in N. inversion N as [|? ? Na Nd]; subst. cbn [fst] in *.
  assert (a = v) as ->. { assert (K : In a [v]) by (apply S; now left). destruct K as [K | []]. auto. }
  destruct d as [|[a' b'] d].
  - destruct J as [J | []]. now rewrite J.
  - exfalso. apply Na. assert (K : In a' [v]) by (apply S; right; now left). destruct K as [<- | []]. now left.
Qed.

Section Table.
  Variables (m : pgm) (D : domain) (F : var -> mfactor) (vt : vtype) (endo : list var).
  Hypothesis HC : causal_tables m D F vt endo.
  Variable U : var.
  Hypothesis HU : sole_cause (m_graph m) F endo U.
  Notation g := (m_graph m).
  Let H : network m D F vt := proj1 HC.
  Let WD : wf_dom D := net_wd m D F vt H.
  Notation sts := (states_of D U).

  Lemma root_domain f : cpt D vt U [] f -> mf_domain f = [(U, sts)] /\ mf_right f = [].
  Proof.
    intros C. assert (C' := C). destruct C' as (W & _ & L & R & Sub & _).
    destruct (cpt_dom _ _ _ _ _ C (proj1 WD)) as (l & J & J').
    assert (l = sts) as -> by (apply (dom_unique D U l sts (proj1 WD) J'), (U_states m D F vt endo HC U HU)).
    split.
    - apply only_key; [apply W| |exact J]. intros w. change (keys (mf_domain f)) with (mf_vars f). rewrite (cpt_vars D vt U [] f w C).
      cbn [In]. intuition congruence.
    - destruct (mf_right f) as [|x r] eqn:Q; [reflexivity|]. exfalso. apply (R x). now left.
  Qed.
  Lemma root_cpt : cpt D vt U [] (F U).
  Proof.
    rewrite <- (U_root m D F vt endo HC U HU). apply (net_cpt m D F vt H), (U_key m D F vt endo HC U HU).
  Qed.
  Lemma sts_usable : usable [(U, sts)].
  Proof. destruct root_cpt as (W & _). destruct (root_domain (F U) root_cpt) as [Ed _]. rewrite <- Ed. apply W. Qed.
  Lemma sts_NoDup : NoDup sts.
  Proof. apply (proj2 (usable_wf _ sts_usable) U). now left. Qed.

  Lemma full_one o : full [(U, sts)] o <-> exists s, dget U o = Some s /\ In s sts.
  Proof.
    split; [intros Fo; apply Fo; now left|]. intros K w l [J | []]. injection J as <- <-. exact K.
  Qed.
  Lemma rowpos_one o s : dget U o = Some s -> In s sts -> nth_error sts (rowpos [(U, sts)] o) = Some s.
  Proof.
    intros Q J. assert (Fo : full [(U, sts)] o) by (apply full_one; eauto).
    rewrite rowpos_ravel by auto. unfold coords, card, vals. cbn [map fst snd ravel prodl fold_right]. rewrite Nat.mul_1_r, Nat.add_0_r.
    unfold asg_of. cbn [fst snd]. unfold over. rewrite Q. now apply pos_nth.
  Qed.

  (** The values of a table without parents are its parameters. *)
  Lemma values_params G : cpt D vt U [] (G U) -> mf_values (G U) = Ok (map Fin (params D G U)).
  Proof.
    intros C. destruct (root_domain (G U) C) as [Ed Er]. destruct C as (W & _ & _ & _ & _ & Fi & _). rewrite Ed in Fi.
    unfold mf_values, values_list. change (st_domain (mf_store (G U))) with (mf_domain (G U)). rewrite Ed, assignment_space_all, all_one'.
    unfold params. rewrite map_map. rewrite mapM_map. apply mapM_map_ok. intros s J. change (mf_get_value (G U) [(U, s)] = Ok (Fin (entry (G U) [(U, s)]))).
    destruct (Fi [(U, s)]) as (q & Q). { apply full_one. exists s. cbn [dget]. now rewrite eqd_refl. }
    unfold entry. now rewrite Q.
  Qed.
  Lemma params_distribution G : cpt D vt U [] (G U) -> (forall o, full (mf_domain (G U)) o -> 0 <= entry (G U) o)%Qc ->
    distribution (length sts) (params D G U).
  Proof.
    intros C NN. destruct (root_domain (G U) C) as [Ed Er]. split; [unfold params; apply map_length|]. split.
    - intros x J. unfold params in J. apply in_map_iff in J as (s & <- & J). apply NN. rewrite Ed. apply full_one. exists s. cbn [dget]. now rewrite eqd_refl.
    - destruct (some_valid D WD) as (a & Va). assert (Q := cpt_one D vt WD U [] (G U) a C Va).
      rewrite (sm_one D WD U sts) in Q; [|exact (dep_ext _ _ (fv_dep D vt (G U) (cpt_good D vt _ _ _ C)))|apply (U_states m D F vt endo HC U HU)].
      rewrite <- Q. unfold params. rewrite total_qsum. f_equal. apply map_ext_in. intros s J. apply (entry_fv D vt).
      + now apply (cpt_good D vt U []).
      + now apply (upd_valid m D F vt endo HC U).
      + intros w Jw. assert (w = U) as -> by (apply (cpt_vars D vt U [] (G U) w C) in Jw as [Jw | []]; exact Jw).
        cbn [dget]. unfold upd. destruct (eqd U U); [reflexivity|congruence].
  Qed.

  (** A table made from a distribution. *)
  Lemma table_made theta : distribution (length sts) theta ->
    exists f, mf_init [(U, sts)] (FArr (mkNd [length theta] (map Fin theta))) None None vt = Ok f /\
      replaces D vt U f /\ forall G, G U = f -> params D G U = theta.
  Proof.
    intros (Lt & Pt & Tt).
    destruct (mf_init_ok [(U, sts)] (FArr (mkNd [length theta] (map Fin theta))) (map Fin theta) None None [] vt sts_usable) as (f & Ef & Wf & Df & Tf & Rf & Hf & Vf).
    { unfold size. cbn. rewrite map_length. lia. }
    { left. unfold flist. now rewrite map_length. }
    { reflexivity. }
    assert (At : forall o s, dget U o = Some s -> In s sts -> exists q, mf_get_value f o = Ok (Fin q) /\ In q theta /\
        forall k, nth_error sts k = Some s -> nth_error theta k = Some q).
    { intros o s Q J. destruct (Hf o) as (x & Gx & Nx); [apply full_one; eauto|]. rewrite nth_error_map in Nx.
      destruct (nth_error theta (rowpos [(U, sts)] o)) as [q|] eqn:Nq; [|discriminate]. injection Nx as <-. exists q. split; [exact Gx|].
      split; [eapply nth_error_In; eauto|]. intros k Nk. rewrite <- Nq. f_equal.
      assert (R := rowpos_one o s Q J). apply (proj1 (NoDup_nth_error sts) sts_NoDup); [apply nth_error_Some; congruence|congruence]. }
    assert (Ep : map (fun s => entry f [(U, s)]) sts = theta).
    { apply list_nth_eq. intros k. rewrite nth_error_map. destruct (nth_error sts k) as [s|] eqn:Q.
      - destruct (At [(U, s)] s) as (q & Gq & _ & Nq); [cbn [dget]; now rewrite eqd_refl|eapply nth_error_In; eauto|].
        cbn [option_map]. unfold entry. rewrite Gq. symmetry. now apply Nq.
      - cbn [option_map]. symmetry. apply nth_error_None. rewrite Lt. now apply nth_error_None. }
    assert (Ev : forall o s, dget U o = Some s -> In s sts -> (0 <= entry f o)%Qc).
    { intros o s Q J. destruct (At o s Q J) as (q & Gq & Iq & _). unfold entry. rewrite Gq. now apply Pt. }
    exists f. split; [exact Ef|]. split; [|intros G <-; exact Ep]. split.
    - assert (L : mf_left f = [U]). { unfold mf_left, mf_vars. rewrite Df, Rf. reflexivity. }
      split. { split; [exact Wf|]. rewrite Df, Rf. split; [apply sts_usable|]. split; [constructor|intros x []]. }
      split; [exact Tf|]. split; [rewrite L; intros y; tauto|]. split; [rewrite Rf; intros y; tauto|]. split; [|split].
      + rewrite Df. intros w l [J | []]. injection J as <- <-. apply (U_states m D F vt endo HC U HU).
      + rewrite Df. intros o Fo. destruct (proj1 (full_one o) Fo) as (s & Q & J). destruct (At o s Q J) as (q & Gq & _). eauto.
      + intros o _. rewrite Df, Rf. unfold drop. cbn [filter fst mem existsb negb].
        exists (map Fin theta). split.
        * rewrite all_one'. rewrite <- Ep, map_map. assert (Hin : forall l, incl l sts ->
            Forall2 (fun p x => mf_get_value f (p ++ o) = Ok x) (map (fun s => [(U, s)]) l) (map (fun s => Fin (entry f [(U, s)])) l)); [|apply Hin, incl_refl].
          intros l. induction l as [|s l IH]; intros Hin; cbn [map]; constructor.
          -- destruct (At [(U, s)] s) as (q & Gq & _ & Nq); [cbn [dget]; now rewrite eqd_refl|apply Hin; now left|].
             destruct (At ([(U, s)] ++ o) s) as (q' & Gq' & _ & Nq'); [cbn [app dget]; now rewrite eqd_refl|apply Hin; now left|].
             unfold entry. rewrite Gq, Gq'. do 2 f_equal. destruct (In_nth_error sts s) as (k & Nk); [apply Hin; now left|].
             specialize (Nq k Nk). specialize (Nq' k Nk). congruence.
          -- apply IH. intros x J. apply Hin. now right.
        * rewrite nsum_Fin. rewrite <- total_qsum, Tt. reflexivity.
    - rewrite Df. intros o Fo. destruct (proj1 (full_one o) Fo) as (s & Q & J). now apply (Ev o s).
  Qed.
End Table.

(** ** A run *)

Section Run.
  Context {L : Type} (l0 : L) (ladd : L -> L -> L) (lopp : L -> L) (lg : Qc -> L) (lnan : L).
  Hypothesis LG : logarithm l0 ladd lg.
  Variable minimize : option Z -> (list Qc -> res (option L)) -> list num -> res (list Qc).
  Hypothesis SF : stays_feasible minimize.
  Variables (m : pgm) (D : domain) (F : var -> mfactor) (vt : vtype) (endo : list var).
  Hypothesis HC : causal_tables m D F vt endo.
  Hypothesis Dp : describes D m.
  Notation g := (m_graph m).
  Let H : network m D F vt := proj1 HC.
  Let WD : wf_dom D := net_wd m D F vt H.

  Lemma own_domain U : sole_cause g F endo U -> name_apart m U -> domains_only (get_domains_str m U) = Ok [(U, states_of D U)].
  Proof.
    intros HU Ha. destruct Dp as [Nd Hd]. assert (Hk := Hd _ _ (U_states m D F vt endo HC U HU)).
    assert (Q : get_domains_str m U = [(U, Some (states_of D U))]).
    { unfold get_domains_str. apply only_key.
      - now apply NoDup_dfilter.
      - intros w. rewrite keys_dfilter, filter_In, substr_of_spec. cbn [In]. split.
        + intros (J & a & b & Q). left. symmetry. now apply (Ha w a b).
        + intros [<- | []]. split; [apply dget_keys; eauto|]. exists ""%string, ""%string. cbn [append]. now rewrite str_app_nil.
      - apply filter_In. split; [now apply dget_In|]. cbn [fst]. apply substr_of_spec. exists ""%string, ""%string. cbn [append]. now rewrite str_app_nil. }
    rewrite Q. reflexivity.
  Qed.

  Variables (data : frame) (E : list var).
  Hypothesis OD : observes D data E.
  Hypothesis IE : incl endo E.
  Hypothesis Ic : incl endo (f_cols data).

  Lemma updated_ok s k U : gr_data s = Some data -> gr_max_iter s = Some k -> sole_cause g F endo U -> name_apart m U ->
    exists f, updated_factor L l0 ladd lopp lg lnan minimize vt m s U = Ok f /\ replaces D vt U f /\
      exists objective,
        (forall t, distribution (length (states_of D U)) t -> objective t = Ok (cost lopp lg (mixtures D F g U t data))) /\
        minimize k objective (map Fin (params D F U)) = Ok (params D (fun _ => f) U).
  Proof.
    intros Ed Ek HU Ha. unfold updated_factor. rewrite Ed, (stored_table m D F vt endo HC U (U_key m D F vt endo HC U HU)). cbn [bind].
    assert (Cu := root_cpt m D F vt endo HC U HU). rewrite (values_params m D F vt endo HC U HU F Cu). cbn [bind].
    destruct (objective_distribution l0 ladd lopp lg lnan LG m D F vt endo HC Dp U HU data E OD IE Ic) as (st & Es & Ho).
    rewrite Es. cbn [bind]. unfold fitPMF. rewrite Ek.
    assert (Dt : distribution (length (states_of D U)) (params D F U)).
    { apply (params_distribution m D F vt endo HC U HU F Cu). intros o Fo. apply (ct_nn m D F vt endo HC); [|exact Fo].
      apply (U_key m D F vt endo HC U HU). }
    destruct (SF k (negative_log_likelihood L l0 ladd lopp lg lnan st) _ _ Dt) as (theta & Em & Dn). { intros t Ht. eauto. }
    rewrite Em. cbn [bind]. rewrite (own_domain U HU Ha). cbn [bind].
    destruct (table_made m D F vt endo HC U HU theta Dn) as (f & Ef & Rp & Pf). exists f. split; [exact Ef|]. split; [exact Rp|].
    eexists. split; [exact Ho|]. rewrite Em. f_equal. symmetry. now apply Pf.
  Qed.
End Run.

Lemma dict_of_fun {V} (h : var -> V) l : (forall v x, dget v (dict_of (map (fun v => (v, h v)) l)) = Some x <-> In v l /\ x = h v).
Proof.
  assert (G : forall l d, (forall v x, dget v d = Some x -> x = h v) ->
    forall v x, dget v (dmerge d (map (fun v => (v, h v)) l)) = Some x <-> (In v l \/ In v (keys d)) /\ x = h v).
  { induction l0 as [|w l0 IH]; intros d Hd v x; cbn [map dmerge fold_left].
    - split; [|intros [[[] | J] ->]; apply dget_keys in J as (y & J); rewrite J; f_equal; now apply Hd].
      intros J. split; [|now apply Hd]. right. apply dget_keys. eauto.
    - unfold dmerge in IH. rewrite IH.
      + cbn [fst snd]. assert (K : In v (keys (dset w (h w) d)) <-> v = w \/ In v (keys d)).
        { rewrite !dget_keys. setoid_rewrite dget_dset. destruct (eqd v w) as [-> | N]; split; intros X; eauto; intuition congruence. }
        rewrite K. cbn [In]. intuition.
      + intros u y J. cbn [fst snd] in J. rewrite dget_dset in J. destruct (eqd u w) as [-> | N]; [congruence|]. now apply Hd. }
  intros v x. unfold dict_of. rewrite (G l []) by discriminate. cbn [keys map In]. tauto.
Qed.

Lemma kept_endo m D F vt endo : causal_tables m D F vt endo -> scm_endo (m_graph m) (Some endo) = endo.
Proof.
  intros HC. destruct endo as [|e endo]; [|reflexivity]. cbn [scm_endo]. apply filter_none. intros v J.
  destruct (preds (m_graph m) v) as [|p r] eqn:Q; [reflexivity|]. exfalso.
  assert (A : arc (m_graph m) p v) by (apply in_preds; rewrite Q; now left). now apply (arc_endo m D F vt [] HC) in A.
Qed.

(** The copy of a model. *)
Lemma copy_ok m D F vt endo : causal_tables m D F vt endo -> (forall v, In v endo -> zero_one (F v)) ->
  exists m0, m_copy m = Ok m0 /\ m_graph m0 = m_graph m /\ network m0 D F vt /\ built_kind m0 = m_kind m.
Proof.
  intros HC Z. assert (H := ct_net m D F vt endo HC). destruct (ct_kind m D F vt endo HC) as (cast & Ek).
  assert (Go : exists m0, m_copy m = Ok m0 /\ m_kind m0 = m_kind m).
  { unfold m_copy, m_builder. rewrite Ek.
    assert (Nf : NoDup (keys (m_factors m))) by apply H.
    destruct (scm_build D (m_graph m) true cast (Some endo) (m_factor_dict m) F (proj1 (net_wd m D F vt H)) (net_wg m D F vt H) (net_ac m D F vt H)) as (m0 & E0 & _ & _ & K0).
    - intros v f J. assert (Kv : In v (nodes (m_graph m))).
      { apply (in_map fst) in J. unfold m_factor_dict in J. rewrite map_map in J. now apply H in J. }
      assert (Q : f = FM (F v)).
      { unfold m_factor_dict in J. apply in_map_iff in J as ((w & o) & Q & J). injection Q as -> <-. cbn [snd]. apply (In_dget _ _ _ Nf) in J.
        assert (S := proj1 (proj2 (proj2 (proj2 (proj2 (proj2 (proj2 H))))) v Kv)). unfold stored in S. rewrite S in J. injection J as <-. reflexivity. }
      split; [exact Q|]. assert (C := net_cpt m D F vt H v (proj2 (net_nodes m D F vt H v) Kv)).
      split; [exact Kv|]. split; [apply (cpt_vars D vt v _ _ v C); now left|]. split; [apply C|]. split; [apply C|]. intros _.
      split; [apply C|]. split; [apply C|]. intros endo' cast' Qk Jv. rewrite (kept_endo m D F vt endo HC) in Qk. injection Qk as <- _.
      destruct (is_degenerate_ok (F v) (proj1 C)) as (b & Eb & Hb). rewrite Eb. f_equal. apply Hb. now apply Z.
    - intros v J. unfold m_factor_dict, keys. rewrite map_map. cbn [fst]. now apply H.
    - exists m0. split; [exact E0|]. rewrite K0. f_equal. apply (kept_endo m D F vt endo HC). }
  destruct Go as (m0 & E0 & K0). destruct (copy_network m D F vt m0 H E0) as [G0 N0]. exists m0. split; [exact E0|]. split; [exact G0|]. split; [exact N0|].
  unfold built_kind. rewrite K0, Ek, G0. f_equal. apply (kept_endo m D F vt endo HC).
Qed.

Section Runs.
  Context {L : Type} (l0 : L) (ladd : L -> L -> L) (lopp : L -> L) (lg : Qc -> L) (lnan : L).
  Hypothesis LG : logarithm l0 ladd lg.
  Variable minimize : option Z -> (list Qc -> res (option L)) -> list num -> res (list Qc).
  Hypothesis SF : stays_feasible minimize.
  Variables (D : domain) (F : var -> mfactor) (vt : vtype) (endo E : list var).
  Variables (l : learner gr_state) (data : frame) (k : option Z).
  Notation prior := (l_prior l).
  Notation g := (m_graph prior).
  Notation trained := (to_train (gr_trainable (l_sub l)) g data E).
  Hypothesis HC : causal_tables prior D F vt endo.
  Hypothesis HZ : forall v, In v endo -> zero_one (F v).
  Hypothesis Dp : describes D prior.
  Hypothesis OD : observes D data E.
  Hypothesis IE : incl endo E.
  Hypothesis Ht : forall v, trained v -> sole_cause g F endo v /\ ~ In v E /\ name_apart prior v.
  Notation data' := (add_missing prior data).
  Notation tr := (match gr_trainable (l_sub l) with Some (v :: r) => v :: r | _ => incomplete_columns data' end).
  Let H : network prior D F vt := proj1 HC.
  Let WG : wf_graph g := net_wg prior D F vt H.
  Let NC : NoDup (f_cols data) := proj1 OD.

  Lemma data_cols v : In v (nodes g) -> In v (f_cols data').
  Proof.
    intros J. cbn [add_missing f_cols]. apply in_or_app. destruct (in_dec eqd v (f_cols data)) as [I | N]; [now left|]. right.
    apply filter_In. split; [exact J|]. apply negb_true_iff. now apply mem_nIn.
  Qed.
  Lemma tr_trained v : In v tr -> trained v.
  Proof.
    intros J. unfold to_train. destruct (gr_trainable (l_sub l)) as [[|x r]|]; [|exact J|]; now apply (incomplete_ok prior data WG NC D E OD).
  Qed.
  Lemma checked v : In v tr -> check_trainable prior data' v = Ok tt.
  Proof.
    intros J. destruct (Ht v (tr_trained v J)) as ((Jn & Ne & _) & NE & _). unfold check_trainable.
    rewrite (kind_ok prior D F vt endo HC). cbn [bind]. apply mem_nIn in Ne. rewrite Ne.
    assert (Jc := data_cols v Jn). apply mem_In in Jc. rewrite Jc. cbn [negb].
    destruct (existsb _ (f_rows data')) eqn:Q; [|reflexivity]. exfalso. apply existsb_exists in Q as (r & Jr & Q). apply NE.
    destruct (observes_added prior data WG NC D E OD) as (_ & _ & OR). destruct (OR r Jr) as (_ & Kr & _). rewrite <- Kr.
    destruct (dget v (row_dict (f_cols data') r)) as [[s|]|] eqn:Qv; try discriminate. apply dget_keys. exists s. unfold row_obs.
    apply known_get; [apply row_dict_NoDup|exact Qv].
  Qed.
  Lemma processed l1 : l_prior l1 = prior -> gr_trainable (l_sub l1) = gr_trainable (l_sub l) ->
    gr_process_data l1 data = (MkG (Some tr) (gr_max_iter (l_sub l1)) (Some data'), None).
  Proof.
    intros E1 E2. unfold gr_process_data. rewrite E1, E2. rewrite (mapM_map_ok _ (fun _ => tt)); [reflexivity|]. apply checked.
  Qed.

  Hypothesis NR : f_rows data <> [].
  Lemma trained_tr v : trained v -> In v tr.
  Proof.
    intros J. unfold to_train in J. assert (G : ~ In v E /\ (In v (nodes g) \/ In v (f_cols data)) -> In v (incomplete_columns data')).
    { intros [NE K]. unfold incomplete_columns. apply filter_In. split.
      - destruct K as [K | K]; [now apply data_cols|]. cbn [add_missing f_cols]. apply in_or_app. now left.
      - destruct (f_rows data') as [|r rows] eqn:Q.
        { cbn [add_missing f_rows] in Q. apply map_eq_nil in Q. contradiction. }
        apply existsb_exists. exists r. split; [now left|].
        assert (Jr : In r (f_rows data')) by (rewrite Q; now left).
        destruct (observes_added prior data WG NC D E OD) as (_ & _ & OR). destruct (OR r Jr) as (Lr & Kr & _).
        destruct (dget v (row_dict (f_cols data') r)) as [[s|]|] eqn:Qv; [|reflexivity|].
        + exfalso. apply NE. rewrite <- Kr. apply dget_keys. exists s. unfold row_obs. apply known_get; [apply row_dict_NoDup|exact Qv].
        + exfalso. assert (Kc : forall (cs : list var) (rs : list (option state)), length rs = length cs -> keys (combine cs rs) = cs).
          { induction cs as [|c cs IH]; intros [|x rs] Q'; cbn in *; try discriminate; [auto|]. f_equal. apply IH. congruence. }
          unfold row_dict in Qv. rewrite dict_of_id in Qv by (rewrite Kc by exact Lr; exact (cols_NoDup prior data WG NC)).
          apply dget_None in Qv. apply Qv. rewrite Kc by exact Lr.
          destruct K as [K | K]; [now apply data_cols|]. cbn [add_missing f_cols]. apply in_or_app. now left. }
    destruct (gr_trainable (l_sub l)) as [[|x r]|]; [now apply G|exact J|now apply G].
  Qed.

  Lemma mixtures_added U theta : mixtures D F g U theta data' = mixtures D F g U theta data.
  Proof.
    unfold mixtures. f_equal. cbn [add_missing f_rows]. rewrite map_map. apply map_ext_in. intros r J. f_equal.
    apply (row_obs_added prior data WG NC). apply OD, J.
  Qed.

  Theorem run_ok : exists l' m' F',
    gr_run L l0 ladd lopp lg lnan minimize vt l data k = (l', None) /\ l_prior l' = prior /\ l_model l' = Some m' /\
    model_evolution l' = model_evolution l ++ [m'] /\ m_graph m' = g /\ m_kind m' = m_kind prior /\
    causal_tables m' D F' vt endo /\ fitted lopp lg minimize k D g data trained F F' /\
    forall lle, orders lopp lg lle -> descends lle minimize -> (likelihood D F data <= likelihood D F' data)%Qc.
  Proof.
    destruct (copy_ok prior D F vt endo HC HZ) as (m0 & E0 & G0 & N0 & K0).
    assert (OD' := observes_added prior data WG NC D E OD).
    assert (Ic : incl endo (f_cols data')). { intros v J. apply data_cols, (ct_endo prior D F vt endo HC), J. }
    set (s1 := MkG (Some tr) (Some k) (Some data')).
    destruct (choice_list (F "")%string (fun U f => updated_factor L l0 ladd lopp lg lnan minimize vt prior s1 U = Ok f /\ replaces D vt U f /\
      exists objective,
        (forall t, distribution (length (states_of D U)) t -> objective t = Ok (cost lopp lg (mixtures D F g U t data'))) /\
        minimize k objective (map Fin (params D F U)) = Ok (params D (fun _ => f) U)) tr) as (new & Hn).
    { intros U J. destruct (Ht U (tr_trained U J)) as (HU & _ & Ha).
      apply (updated_ok l0 ladd lopp lg lnan LG minimize SF prior D F vt endo HC Dp data' E OD' IE Ic s1 k U); auto. }
    set (probs := dict_of (map (fun U => (U, FM (new U))) tr)).
    assert (Hp : forall v f, dget v probs = Some f <-> In v tr /\ f = FM (new v)) by apply dict_of_fun.
    set (F' := swap F new tr).
    assert (ET : forall v, tables F probs v = F' v).
    { intros v. unfold tables, F', swap. destruct (mem v tr) eqn:Q.
      - apply mem_In in Q. assert (X : dget v probs = Some (FM (new v))) by (apply Hp; auto). now rewrite X.
      - apply mem_nIn in Q. destruct (dget v probs) as [f|] eqn:X; [|reflexivity]. apply Hp in X. tauto. }
    unfold gr_run, initialize. cbv zeta. cbn [with_sub l_prior l_model l_evo l_sub]. rewrite E0. cbv zeta.
    rewrite (processed (MkL prior (Some m0) (l_evo l) (MkG (gr_trainable (l_sub l)) (Some k) (gr_data (l_sub l))))) by reflexivity.
    cbn [with_sub l_prior l_model l_evo l_sub gr_max_iter]. fold s1.
    unfold gr_step, step.
    set (l1 := MkL prior (Some m0) (l_evo l) s1).
    assert (Ecal : gr_calculate L l0 ladd lopp lg lnan minimize vt l1 = (s1, Ok probs)).
    { unfold gr_calculate, l1. cbn [l_sub l_prior s1 gr_trainable]. rewrite (mapM_map_ok _ (fun U => (U, FM (new U)))); [reflexivity|].
      intros U J. fold s1. destruct (Hn U J) as (Q & _). now rewrite Q. }
    change (with_sub _ s1) with l1. rewrite Ecal. change (with_sub l1 s1) with l1.
    destruct (update_kind m0 D F vt N0 l1 probs eq_refl) as (m' & Eu & Gm & Nm & Km).
    { apply dict_of_NoDup. }
    { intros v f J. apply Hp in J as [J ->]. destruct (Ht v (tr_trained v J)) as (HU & _). destruct (Hn v J) as (_ & [Cp _] & _).
      rewrite G0. split; [apply HU|]. exists (new v). split; [reflexivity|]. now rewrite (U_root prior D F vt endo HC v HU). }
    exists (MkL prior (Some m') (Some (model_evolution l1 ++ [m'])) s1), m', F'.
    split; [exact Eu|].
    split; [reflexivity|]. split; [reflexivity|]. split; [reflexivity|]. split; [congruence|]. split; [congruence|].
    assert (Hs : forall U, In U tr -> sole_cause g F endo U /\ replaces D vt U (new U)).
    { intros U J. split; [apply (Ht U (tr_trained U J))|apply (Hn U J)]. }
    split; [|split].
    - assert (HC' := swap_ct prior D F vt endo HC new tr Hs). fold F' in HC'.
      assert (Gm' : m_graph m' = g) by congruence. assert (Kp := ct_kind prior D F vt endo HC). destruct Kp as (cast & Kp).
      destruct HC' as (Nw & NN & _ & X1 & X2). split; [|split; [exact NN|split; [exists cast; congruence|rewrite Gm'; split; [exact X1|exact X2]]]].
      destruct Nm as (Y1 & Y2 & Y3 & Y4 & Y5 & Y6 & Y7). split; [exact Y1|]. split; [exact Y2|]. split; [exact Y3|]. split; [exact Y4|].
      split; [exact Y5|]. split; [exact Y6|]. intros v J. rewrite <- ET. now apply Y7.
    - split.
      + intros v Nv. apply swap_out. intros J. apply Nv. now apply tr_trained.
      + intros U TU. assert (J := trained_tr U TU). destruct (Hn U J) as (_ & _ & obj & Ho & Em). exists obj. split.
        * intros t Dt. rewrite (Ho t Dt). now rewrite mixtures_added.
        * rewrite Em. f_equal. unfold params, F'. now rewrite swap_in.
    - intros lle Ord De. rewrite <- !(likelihood_added prior data WG NC D E OD).
      apply (swap_likelihood prior D F vt endo HC data' E OD' IE new tr). intros U J.
      destruct (Ht U (tr_trained U J)) as (HU & NE & _). destruct (Hn U J) as (_ & Rp & obj & Ho & Em).
      split; [exact HU|]. split; [exact Rp|]. split; [exact NE|].
      assert (D1 : distribution (length (states_of D U)) (params D F U)).
      { apply (params_distribution prior D F vt endo HC U HU F (root_cpt prior D F vt endo HC U HU)). intros o Fo.
        apply (ct_nn prior D F vt endo HC); [|exact Fo]. apply (U_key prior D F vt endo HC U HU). }
      assert (D2 : distribution (length (states_of D U)) (params D new U)).
      { apply (params_distribution prior D F vt endo HC U HU new); apply Rp. }
      assert (Le := De k obj _ _ (params D new U) _ _ D1 Em (Ho _ D1) (Ho _ D2)).
      assert (Nn : forall theta, (forall x, In x theta -> 0 <= x)%Qc -> (0 <= mixtures D F g U theta data')%Qc).
      { intros theta Pt. unfold mixtures. rewrite product_qprod. apply qprod_nonneg. intros x Jx. apply in_map_iff in Jx as (r & <- & Jr).
        destruct (proj2 (proj2 OD') r Jr) as (_ & Kr & Kn). apply (mixture_nonneg prior D F vt endo HC U theta _ HU Kn); [now rewrite Kr|exact Pt]. }
      assert (N1 := Nn _ (proj1 (proj2 D1))). assert (N2 := Nn _ (proj1 (proj2 D2))).
      unfold cost in Le. destruct (Qc_eq_dec (mixtures D F g U (params D F U) data') 0) as [-> | Z1]; [exact N2|].
      destruct (Qc_eq_dec (mixtures D F g U (params D new U) data') 0) as [Z2 | Z2]; [destruct Le|].
      apply Ord; [| |exact Le].
      + apply Qcle_lt_or_eq in N2 as [X | X]; [exact X|congruence].
      + apply Qcle_lt_or_eq in N1 as [X | X]; [exact X|congruence].
  Qed.
End Runs.
