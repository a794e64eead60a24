(** Runs of the EM learner. *)

From Coq Require Import String Bool Arith ZArith QArith Qcanon Lia Permutation List.
From Verif Require Import PyBase PyFacts Num DomainModel NdArray StoreModel NumStore FactorModel GraphModel ModelModel InferModel
  Spec DomainFacts StoreSpec StoreFacts NumFacts FactorSpec GraphSpec GraphFacts ModelSpec ModelFacts
  NetSpec NetSem FactorSem NetFacts BuildFacts VeFacts4 PropFacts4 LearnModel LearnSpec LearnFacts LearnFacts2 AggFacts2
  EmSpec EmMath EmFacts2 EmFacts6.
From Coq Require Import List.
Import ListNotations.
Local Open Scope nat_scope.
Local Arguments eqd : simpl never.

(** ** The columns added to the data *)
Section Columns.
  Variables (prior : pgm) (data : frame).
  Hypothesis WG : wf_graph (m_graph prior).
  Hypothesis NC : NoDup (f_cols data).
  Notation data' := (add_missing prior data).
  Notation missing := (filter (fun v => negb (mem v (f_cols data))) (nodes (m_graph prior))).

  Lemma cols_NoDup : NoDup (f_cols data').
  Proof.
    cbn [add_missing f_cols]. apply NoDup_app_intro; [auto|apply NoDup_filter, WG|]. intros x J K. apply filter_In in K as [_ K].
    apply negb_true_iff, mem_nIn in K. contradiction.
  Qed.
  Lemma known_app_nones (d : dict var (option state)) vs : LearnModel.known (d ++ map (fun v => (v, None)) vs) = LearnModel.known d.
  Proof.
    unfold LearnModel.known. rewrite flat_map_app. replace (flat_map _ (map _ vs)) with (@nil (var * state)); [apply app_nil_r|].
    symmetry. induction vs as [|v vs IH]; [reflexivity|]. exact IH.
  Qed.
  Lemma combine_nones (vs : list var) : combine vs (map (fun _ => None) vs) = map (fun v => (v, @None state)) vs.
  Proof. induction vs as [|v vs IH]; [reflexivity|]. cbn. now rewrite IH. Qed.
  Lemma row_obs_added r : length r = length (f_cols data) ->
    row_obs data' (r ++ map (fun _ => None) missing) = row_obs data r.
  Proof.
    intros L. unfold row_obs, row_dict. cbn [add_missing f_cols].
    assert (Kc : forall (cs : list var) (rs : list (option state)), length rs = length cs -> keys (combine cs rs) = cs).
    { induction cs as [|c cs IH]; intros [|x rs] Q; cbn in *; try discriminate; [auto|]. f_equal. apply IH. congruence. }
    assert (Ec : forall (cs ds : list var) (rs xs : list (option state)), length rs = length cs -> combine (cs ++ ds) (rs ++ xs) = combine cs rs ++ combine ds xs).
    { induction cs as [|c cs IH]; intros ds [|x rs] xs Q; cbn in *; try discriminate; [auto|]. f_equal. apply IH. congruence. }
    rewrite dict_of_id. 2:{ rewrite Kc; [exact cols_NoDup|]. rewrite !app_length, map_length. congruence. }
    rewrite dict_of_id by (rewrite Kc; auto).
    rewrite Ec by auto. rewrite combine_nones. apply known_app_nones.
  Qed.
  Lemma rows_added r' : In r' (f_rows data') <-> exists r, In r (f_rows data) /\ r' = r ++ map (fun _ => None) missing.
  Proof. cbn [add_missing f_rows]. rewrite in_map_iff. split; intros (r & A & B); eauto. Qed.

  Variables (D : domain) (E : list var).
  Hypothesis OD : observes D data E.
  Lemma observes_added : observes D data' E.
  Proof.
    destruct OD as (_ & IE & OR). split; [exact cols_NoDup|]. split; [auto|]. intros r' J. apply rows_added in J as (r & J & ->).
    destruct (OR r J) as (L & K & Kn). rewrite row_obs_added by auto. split; [|auto]. cbn [add_missing f_cols]. rewrite !app_length, map_length. congruence.
  Qed.
  Lemma likelihood_added F : likelihood D F data' = likelihood D F data.
  Proof.
    unfold likelihood. f_equal. cbn [add_missing f_rows]. rewrite map_map. apply map_ext_in. intros r J. f_equal.
    apply row_obs_added. apply OD, J.
  Qed.
  Lemma learnable_added F g v : learnable D F g data E v -> learnable D F g data' E v.
  Proof.
    intros (L1 & L2 & L3 & L4). split; [auto|]. split; [auto|]. split; [auto|]. intros t At. destruct (L4 t At) as (r & J & N).
    exists (r ++ map (fun _ => None) missing). split; [apply rows_added; eauto|]. rewrite row_obs_added; [auto|]. apply OD, J.
  Qed.
  Lemma incomplete_ok v : In v (incomplete_columns data') -> ~ In v E /\ (In v (nodes (m_graph prior)) \/ In v (f_cols data)).
  Proof.
    intros J. apply filter_In in J as [Jc J]. split.
    - apply existsb_exists in J as (r' & J & Q). intros K.
      destruct observes_added as (_ & _ & OR). destruct (OR r' J) as (_ & Kr & _). rewrite <- Kr in K. apply dget_keys in K as (s & K).
      unfold row_obs in K. apply known_get in K; [|apply row_dict_NoDup]. rewrite K in Q. discriminate.
    - cbn [add_missing f_cols] in Jc. apply in_app_or in Jc as [Jc|Jc]; [auto|]. apply filter_In in Jc as [Jc _]. auto.
  Qed.
End Columns.

Lemma rises_added prior data D vt E : wf_graph (m_graph prior) -> observes D data E -> forall ms F,
  rises D vt (add_missing prior data) F ms -> rises D vt data F ms.
Proof.
  intros WG OD. induction ms as [|m ms IH]; intros F R; [exact I|]. destruct R as (F' & A & B & C & R). exists F'.
  assert (NC := proj1 OD). rewrite !(likelihood_added prior data WG NC D E OD) in C. auto.
Qed.

(** ** The copy of the prior model *)
Lemma copy_network prior D F vt m0 : network prior D F vt -> m_copy prior = Ok m0 -> m_graph m0 = m_graph prior /\ network m0 D F vt.
Proof.
  intros (X1 & X2 & X3 & X4 & X5 & X6 & X7) Ec. assert (Nf := copy_nodup prior m0 (proj1 X1) Ec).
  assert (Ks : forall v, In v (keys (m_factors m0)) -> In v (nodes (m_graph prior))).
  { assert (Go : forall c k, foldM (fun m vf => set_or_raise m (fst vf) (snd vf)) (m_factor_dict prior) (fresh (m_graph prior) c k) = Ok m0 ->
      forall v, In v (keys (m_factors m0)) -> In v (nodes (m_graph prior))).
    { intros c k E0. eapply (foldM_inv (fun m => forall v, In v (keys (m_factors m)) -> In v (nodes (m_graph prior)))); [exact E0|..].
      - intros v J. cbn [fresh m_factors] in J. unfold keys in J. rewrite map_map in J. cbn [fst] in J. now rewrite map_id in J.
      - intros a (w & f) a' Jw E1 Ha v J. apply set_or_raise_inv, set_factor_keeps in E1 as (_ & _ & _ & f' & _ & Ef). rewrite Ef in J.
        apply dget_keys in J as (y & J). rewrite dget_dset in J. cbn [fst] in J. destruct (eqd v w) as [-> | N].
        + apply X6. apply (in_map fst) in Jw. unfold m_factor_dict in Jw. rewrite map_map in Jw. exact Jw.
        + apply Ha. apply dget_keys. eauto. }
    unfold m_copy, m_builder in Ec. destruct (m_kind prior) as [|endo cast].
    - unfold bn_init in Ec. apply bind_ok in Ec as (g & Eg & Ec). apply initialize_same in Eg as ->. eapply Go, Ec.
    - unfold scm_init in Ec. apply bind_ok in Ec as (g & Eg & Ec). apply initialize_same in Eg as ->.
      destruct endo as [|e endo]; cbn [bind] in Ec; eapply Go, Ec. }
  assert (NF : NoDup (keys (m_factor_dict prior))).
  { unfold m_factor_dict, keys. rewrite map_map. cbn [fst]. exact X5. }
  unfold m_copy in Ec. apply builder_keeps in Ec as (G & K & A & _); auto.
  assert (St : forall v, In v (nodes (m_graph prior)) -> stored m0 v (FM (F v))).
  { intros v Iv. destruct (A v (FM (F v))) as (f' & Kf & Sf).
    { unfold m_factor_dict. rewrite (dget_map_snd (fun _ o => as_fobj o)). destruct (X7 v Iv) as [S _]. unfold stored in S. rewrite S. reflexivity. }
    unfold kept_as in Kf. subst f'. exact Sf. }
  split; [auto|]. unfold network. rewrite G. split; [auto|]. split; [auto|]. split; [auto|]. split; [auto|]. split; [auto|]. split.
  - intros v. split; [auto|]. intros Iv. apply dget_keys. exists (Some (FM (F v))). now apply St.
  - intros v Iv. split; [auto|]. now apply X7.
Qed.

Section Runs.
  Variables (query : pgm -> list var -> obs -> res mfactor) (set_iter : list var -> list var) (no_divergence : list num -> list num -> res bool) (vt : vtype).
  Hypothesis Hq : exact_query query.
  Hypothesis Hs : iterates set_iter.
  Variables (D : domain) (E : list var).

  Lemma loop_rises data : observes D data E -> forall fuel max i l m F l' o, ready D vt E data l m F ->
    run_loop em_process_data (em_calculate query set_iter vt) (em_stop no_divergence) fuel max i l = (l', o) ->
    exists ms, model_evolution l' = model_evolution l ++ ms /\ rises D vt data F ms.
  Proof.
    intros OD. induction fuel as [|fuel IH]; intros max i l m F l' o Rd Er; cbn [run_loop] in Er.
    - destruct (match max with Some k => _ | None => _ end); injection Er as <- <-; exists []; rewrite app_nil_r; split; [auto|exact I|auto|exact I].
    - destruct (match max with Some k => _ | None => _ end); [|injection Er as <- <-; exists []; rewrite app_nil_r; split; [auto|exact I]].
      destruct (step_ready query set_iter vt Hq Hs D E data OD l m F Rd) as [S1 S2].
      assert (Dec : (forall v, trains l v -> ~ has_converged l v -> informed (m_graph m) E v) \/
                    (exists v, trains l v /\ ~ has_converged l v /\ ~ informed (m_graph m) E v)).
      { destruct Rd as ((El & Net & NN & Gp & Dp & Ed & Mr & (tr & Et & It)) & Lr).
        assert (Gd : forall vs, incl vs tr -> (forall v, In v vs -> ~ has_converged l v -> informed (m_graph m) E v) \/
                    (exists v, In v vs /\ ~ has_converged l v /\ ~ informed (m_graph m) E v)).
        { induction vs as [|v vs IHv]; intros Iv; [left; intros v []|].
          destruct IHv as [IHv|(w & J & A & B)]; [intros x J; apply Iv; now right| |right; exists w; split; [now right|auto]].
          destruct (in_dec eqd v (em_converged (l_sub l))) as [C|C].
          - left. intros w [<- | J] N; [contradiction|auto].
          - destruct (informed_or m D F vt Net E data OD v) as [Y|Y].
            + apply Lr; [exists tr; split; [auto|apply Iv; now left]|exact C].
            + left. intros w [<- | J] N; auto.
            + right. exists v. split; [now left|auto]. }
        destruct (Gd tr (incl_refl _)) as [Y|(v & J & A & B)].
        - left. intros v (tr' & Q & J) N. rewrite Et in Q. injection Q as <-. auto.
        - right. exists v. split; [exists tr; auto|auto]. }
      destruct Dec as [Inf|Un].
      + destruct (S1 Inf) as (m' & F' & l1 & Es & P1 & P2 & P3 & P4 & Rd' & L). unfold em_step in Es. rewrite Es in Er.
        destruct Rd' as ((El & Net & NN & Rest) & Lr).
        assert (One : rises D vt data F [m']). { exists F'. split; [auto|]. split; [auto|]. split; [auto|]. exact I. }
        destruct (em_stop no_divergence l1) as (s1 & r1) eqn:Est.
        assert (E1 : model_evolution (with_sub l1 s1) = model_evolution l ++ [m']) by exact P3.
        destruct r1 as [[|]|]; [injection Er as <- <-; exists [m']; split; auto| |injection Er as <- <-; exists [m']; split; auto].
        assert (Rd2 : ready D vt E data (with_sub l1 s1) m' F').
        { destruct Rest as (Gp & Dp & Ed & Mr & (tr & Et & It)). unfold em_stop in Est. unfold trainable_list in Est. rewrite Et in Est.
          destruct (check_converged no_divergence (model_evolution l1) tr (em_converged (l_sub l1))) as (conv & rr) eqn:Ecc.
          injection Est as <- _.
          apply check_converged_grows in Ecc as [Gr _].
          split; [|intros v (tr2 & Q & J) Cv; cbn in Q; apply Lr; [exists tr; split; [exact Et|congruence]|]; intros C; apply Cv; apply Gr; exact C].
          split; [exact El|]. split; [auto|]. split; [auto|]. split; [exact Gp|]. split; [exact Dp|]. split; [exact Ed|]. split; [auto|].
          exists tr. split; [reflexivity|auto]. }
        destruct (IH max (i + 1)%Z _ _ _ _ _ Rd2 Er) as (ms & A & B). exists (m' :: ms). split.
        * rewrite A, E1, <- app_assoc. reflexivity.
        * exists F'. destruct One as (F1 & N1 & NN1 & L1 & _). auto.
      + unfold em_step in S2. rewrite (S2 Un) in Er. injection Er as <- <-. exists []. rewrite app_nil_r. split; [auto|exact I].
  Qed.

  Theorem run_rises data fuel max l F l' o : network (l_prior l) D F vt -> nonnegative D F -> describes D (l_prior l) -> observes D data E ->
    (forall r, In r (f_rows data) -> mass D F (row_obs data r) <> 0%Qc) ->
    (forall v, to_train (em_trainable (l_sub l)) (m_graph (l_prior l)) data E v -> learnable D F (m_graph (l_prior l)) data E v) ->
    em_run query set_iter no_divergence vt fuel l data max = (l', o) ->
    exists ms, model_evolution l' = model_evolution l ++ ms /\ rises D vt data F ms.
  Proof.
    intros Net NN Dp OD Mr Ht Er. assert (WG := net_wg _ D F vt Net). assert (NC := proj1 OD).
    unfold em_run, run, initialize in Er. destruct (m_copy (l_prior l)) as [m0|e] eqn:Ec.
    2:{ injection Er as <- <-. exists []. rewrite app_nil_r. split; [auto|exact I]. }
    destruct (copy_network _ _ _ _ _ Net Ec) as [G0 Net0].
    unfold em_process_data in Er. cbn [l_model l_prior l_sub l_evo] in Er.
    set (data' := add_missing (l_prior l) data) in *.
    set (tr := match em_trainable (l_sub l) with Some (v :: r) => v :: r | _ => incomplete_columns data' end) in *.
    assert (OD' := observes_added (l_prior l) data WG NC D E OD). fold data' in OD'.
    assert (Htr : forall v, In v tr -> learnable D F (m_graph (l_prior l)) data E v).
    { intros v J. apply Ht. unfold to_train, tr in *. destruct (em_trainable (l_sub l)) as [[|x r]|]; [|exact J|]; now apply (incomplete_ok _ _ WG NC D E OD). }
    set (l0 := with_sub (MkL (l_prior l) (Some m0) (l_evo l) (l_sub l)) (MkE (Some tr) (em_converged (l_sub l)) (Some (m_graph m0, data')))) in *.
    assert (Rd : ready D vt E data' l0 m0 F).
    { split; [split; [reflexivity|]; split; [auto|]; split; [auto|]; split; [symmetry; exact G0|]; split; [exact Dp|]; split; [reflexivity|]; split|].
      - intros r' J. apply rows_added in J as (r & J & ->). unfold data'. rewrite row_obs_added; auto. apply OD, J.
      - exists tr. split; [reflexivity|]. rewrite G0. intros v J. apply Htr, J.
      - intros v (tr' & Q & J) _. cbn in Q. injection Q as <-. rewrite G0. apply (learnable_added _ _ WG NC D E OD). now apply Htr. }
    destruct (loop_rises data' OD' fuel max 0%Z l0 m0 F l' o Rd Er) as (ms & A & B). exists ms. split; [exact A|].
    eapply rises_added; eauto.
  Qed.
End Runs.

Lemma ve_exact heur so : is_heuristic heur -> is_set_order so -> exact_query (fun m T e => ve_query heur so m T None e).
Proof.
  intros Hh Hs m D F vt T e Net N T0 IT Ie Dj M.
  destruct (posterior m D F vt Net e T heur so Hh Hs N T0 IT Ie Dj M) as (r & Q & W & V & S & _ & _ & Dm & G & _).
  exists r. split; [exact Q|]. split; [exact W|]. split; [exact V|]. split; [exact S|]. split; [exact Dm|exact G].
Qed.
