(** Lemmas about the numbers behind the objective of the gradient learner. *)

From Coq Require Import String Bool Arith ZArith QArith Qcanon Lia Permutation List.
From Verif Require Import PyBase PyFacts Num DomainModel DomainFacts NdArray StoreModel NumStore FactorModel GraphModel ModelModel InferModel
  LearnModel UaiModel GradModel Spec StoreSpec FactorSpec GraphSpec ModelSpec NetSpec EmSpec QSpec GradSpec
  StoreFacts FactorFacts NumFacts BigSum FactorSem NetSem NetFacts GraphFacts GraphFacts2 PropFacts1 EmMath EmFacts2 DataFacts3 CfFacts UaiFacts UaiFacts2 VeFacts4 QFacts5.
Import ListNotations.
Local Open Scope nat_scope.
Local Arguments eqd : simpl never.

Lemma NoDup_pairs {A B} (l : list A) (l' : list B) : NoDup l -> NoDup l' -> NoDup (flat_map (fun x => map (pair x) l') l).
Proof.
  induction 1 as [|x l N _ IH]; intros N'; cbn [flat_map]; [constructor|]. apply NoDup_app_iff. repeat split; auto.
  - clear - N'. induction N'; cbn [map]; constructor; auto. rewrite in_map_iff. intros (z & E & J). injection E as ->. auto.
  - intros p J K. apply in_map_iff in J as (y & <- & _). apply in_flat_map in K as (z & Jz & K). apply in_map_iff in K as (y' & E & _).
    injection E as -> ->. auto.
Qed.

Lemma mapM_concat_map {A B} (f : A -> res (list B)) (h : A -> list B) l :
  (forall x, In x l -> f x = Ok (h x)) -> (let* r := mapM f l in Ok (concat r)) = Ok (flat_map h l).
Proof. intros H. rewrite (mapM_map_ok f h l H). cbn [bind]. now rewrite flat_map_concat_map. Qed.

(** The objective's inner sum. *)
Lemma sum_loop (p : state -> nat) us : forall theta pre acc, length theta = length us ->
  foldM (fun acc ip => let* t := py_nth (pre ++ theta) (fst ip) in
                       Ok (acc + Q2Qc (inject_Z (Z.of_nat (snd (snd ip)))) * t)%Qc)
        (combine (seq (length pre) (length us)) (map (fun u => (u, p u)) us)) acc
  = Ok (acc + qsum (map (fun st => Q2Qc (inject_Z (Z.of_nat (p (fst st)))) * snd st) (combine us theta)))%Qc.
Proof.
  induction us as [|u us IH]; intros [|t theta] pre acc E; try discriminate E; cbn [length seq map combine foldM].
  - f_equal. cbn. ring.
  - cbn [fst snd]. unfold py_nth at 1. rewrite nth_error_app2, Nat.sub_diag by lia. cbn [nth_error bind].
    replace (pre ++ t :: theta) with ((pre ++ [t]) ++ theta) by (rewrite <- app_assoc; reflexivity).
    replace (S (length pre)) with (length (pre ++ [t])) by (rewrite app_length; cbn [length]; lia).
    rewrite IH by (injection E as E; exact E). f_equal. cbn [map fst snd qsum]. ring.
Qed.
Lemma sum_lkh_ok (p : state -> nat) us theta : length theta = length us ->
  sum_lkh (map (fun u => (u, p u)) us) theta = Ok (qsum (map (fun st => Q2Qc (inject_Z (Z.of_nat (p (fst st)))) * snd st)%Qc (combine us theta))).
Proof.
  intros E. unfold sum_lkh. rewrite map_length. etransitivity; [exact (sum_loop p us theta [] 0%Qc E)|]. f_equal. ring.
Qed.

Section Statistics.
  Variables (m : pgm) (D : domain) (F : var -> mfactor) (vt : vtype) (endo : list var).
  Hypothesis HC : causal_tables m D F vt endo.
  Hypothesis Dp : describes D m.
  Variable U : var.
  Hypothesis HU : sole_cause (m_graph m) F endo U.
  Variables (data : frame) (E : list var).
  Hypothesis OD : observes D data E.
  Hypothesis IE : incl endo E.
  Hypothesis Ic : incl endo (f_cols data).
  Notation g := (m_graph m).
  Notation P := (P F).
  Notation prods := (prods P).
  Let H : network m D F vt := proj1 HC.
  Let WD : wf_dom D := net_wd m D F vt H.

  Lemma U_node : In U (nodes g). Proof. apply HU. Qed.
  Lemma U_exo : ~ In U endo. Proof. apply HU. Qed.
  Lemma U_key : In U (keys D). Proof. apply (net_nodes m D F vt H), U_node. Qed.
  Lemma U_states : In (U, states_of D U) D.
  Proof.
    assert (K := U_key). apply dget_keys in K as (l & K). unfold states_of. rewrite K. now apply dget_In.
  Qed.
  Lemma endo_keys v : In v endo -> In v (keys D).
  Proof. intros I. apply (net_nodes m D F vt H). now apply (proj1 (proj2 (proj2 (proj2 HC)))). Qed.
  Lemma arc_endo x y : arc g x y -> In y endo. Proof. apply HC. Qed.

  Lemma kind_ok : endogenous_of m = Ok endo.
  Proof. unfold endogenous_of. destruct (ct_kind m D F vt endo HC) as (cast & ->). reflexivity. Qed.

  Lemma children_ok : exists bmV, endo_children g endo U = Ok bmV /\ NoDup bmV /\ (forall v, In v bmV <-> arc g U v) /\
    Permutation bmV (succs g U).
  Proof.
    unfold endo_children. destruct (get_children_ok g [U]) as (l & El & N & I); [intros x [<- | []]; apply U_node|].
    rewrite El. cbn [bind].
    assert (Ia : forall v, In v (filter (fun x => mem x endo) l) <-> arc g U v).
    { intros v. rewrite filter_In, I, mem_In. split.
      - intros [(x & [<- | []] & A) _]. exact A.
      - intros A. split; [exists U; split; [now left|exact A]|eapply arc_endo; exact A]. }
    exists (filter (fun x => mem x endo) l). repeat split; try apply Ia; auto using NoDup_filter.
    apply NoDup_Permutation; [now apply NoDup_filter| |].
    - apply succs_NoDup, (proj1 (proj2 (net_wg m D F vt H))).
    - intros v. rewrite Ia. symmetry. apply in_succs.
  Qed.

  Lemma bmY_ok bmV : (forall v, In v bmV <-> arc g U v) ->
    exists bmY, get_bmY m endo bmV = Ok bmY /\
      forall v, In v bmY <-> (exists w, In w bmV /\ arc g v w) /\ In v endo /\ ~ In v bmV.
  Proof.
    intros Ia. unfold get_bmY.
    set (ep := fun v => match endo_parents g endo v with Ok l => l | Raise _ => [] end).
    assert (Hep : forall v, In v bmV -> endo_parents g endo v = Ok (ep v) /\ forall p, In p (ep v) <-> arc g p v /\ In p endo).
    { intros v J. destruct (endo_parents_ok g endo v) as (l & El & Il).
      - apply Ia in J. apply arc_endo in J. now apply (proj1 (proj2 (proj2 (proj2 HC)))).
      - unfold ep. rewrite El. auto. }
    rewrite (mapM_map_ok _ ep bmV) by (intros v J; now apply Hep). cbn [bind]. eexists. split; [reflexivity|].
    intros v. rewrite filter_In, negb_true_iff, mem_nIn, <- flat_map_concat_map, in_flat_map. split.
    - intros [(w & Jw & Jv) N]. apply (proj2 (Hep w Jw)) in Jv as [A I]. eauto 10.
    - intros ((w & Jw & A) & I & N). split; [|auto]. exists w. split; [auto|]. now apply (proj2 (Hep w Jw)).
  Qed.

  Lemma domains_ok vs : incl vs (keys D) ->
    exists d, domains_only (get_domains m vs) = Ok d /\ wf_dom d /\ (forall v, In v (keys d) <-> In v vs) /\
      (forall v l, In (v, l) d -> In (v, l) D).
  Proof.
    intros I. destruct Dp as [Nd Hd]. unfold domains_only, get_domains.
    set (h := fun vd : var * option (list state) => (fst vd, match snd vd with Some l => l | None => [] end)).
    assert (Hin : forall v o, In (v, o) (dfilter (fun v => mem v vs) (m_domains m)) -> exists l, o = Some l /\ In (v, l) D).
    { intros v o J. assert (Jv : In v vs).
      { assert (K : In v (keys (dfilter (fun v => mem v vs) (m_domains m)))) by (apply keys_In; eauto).
        rewrite keys_dfilter, filter_In, mem_In in K. tauto. }
      assert (K := I v Jv). apply dget_keys in K as (l & K). apply dget_In in K. exists l. split; [|auto].
      specialize (Hd v l K). unfold has_domain in Hd. apply In_dget in J; [|now apply NoDup_dfilter].
      rewrite dget_dfilter in J. destruct (mem v vs); [|discriminate]. congruence. }
    exists (map h (dfilter (fun v => mem v vs) (m_domains m))).
    assert (Kh : keys (map h (dfilter (fun v => mem v vs) (m_domains m))) = keys (dfilter (fun v => mem v vs) (m_domains m))).
    { unfold keys. rewrite map_map. apply map_ext. intros [v o]. reflexivity. }
    assert (Hl : forall v l, In (v, l) (map h (dfilter (fun v => mem v vs) (m_domains m))) -> In (v, l) D).
    { intros v l J. apply in_map_iff in J as ([w o] & Eq & J). destruct (Hin w o J) as (l' & -> & J'). unfold h in Eq. cbn in Eq.
      injection Eq as <- <-. exact J'. }
    split; [|split; [|split; [|exact Hl]]].
    - apply mapM_map_ok. intros [v o] J. destruct (Hin v o J) as (l & -> & _). reflexivity.
    - split; [rewrite Kh; now apply NoDup_dfilter|]. intros v l J. apply Hl in J. now apply (proj2 WD v).
    - intros v. rewrite Kh, keys_dfilter, filter_In, mem_In. split; [tauto|]. intros J. split; [|auto].
      assert (K := I v J). apply dget_keys in K as (l & K). apply dget_In in K. apply dget_keys. exists (Some l). now apply Hd.
  Qed.

  (** *** The value of a child's table *)
  Lemma fam_child V w : arc g U V -> In w (fam F V) -> w = U \/ In w endo.
  Proof.
    intros A J. assert (KV : In V (keys D)) by (apply endo_keys; eapply arc_endo; exact A).
    apply (fam_In m D F vt H V w KV) in J as [-> | J].
    - right. eapply arc_endo. exact A.
    - destruct (in_dec eqd w endo) as [I | N]; [auto|left]. destruct HU as (_ & _ & HS & _). now apply (HS V w).
  Qed.
  Lemma child_value V a : arc g U V -> valid D a -> P V a = 0%Qc \/ P V a = 1%Qc.
  Proof.
    intros A Va. assert (KV : In V (keys D)) by (apply endo_keys; eapply arc_endo; exact A).
    assert (G := net_good m D F vt H V KV). destruct HU as (_ & _ & _ & HZ). specialize (HZ V A).
    assert (Fo : full (mf_domain (F V)) (obs_of (keys D) a)) by (apply (good_full D vt); auto; now apply full_obs_D).
    assert (Eg := get_obs_D D vt (F V) a G Va).
    destruct (HZ _ Fo) as [Q | Q]; rewrite Eg in Q; injection Q as Q; [left | right]; exact Q.
  Qed.

  Lemma stored_table V : In V (keys D) -> dlook V (m_factors m) = Ok (Some (FM (F V))).
  Proof.
    intros KV. apply (net_nodes m D F vt H) in KV. assert (HF := H). destruct HF as (_ & _ & _ & _ & _ & _ & HF). destruct (HF V KV) as [S _].
    unfold dlook. unfold stored in S. now rewrite S.
  Qed.

  Lemma lookup_ok V a : In V (keys D) -> valid D a -> lookup_value m V (obs_of (mf_vars (F V)) a) = Ok (Fin (P V a)).
  Proof.
    intros KV Va. assert (G := net_good m D F vt H V KV). unfold lookup_value. rewrite stored_table by auto. cbn [bind].
    assert (Wm : wf_dom (mf_domain (F V))) by (apply G). assert (Wm1 := proj1 Wm).
    set (h := fun o => match mf_get_value (F V) o with Ok x => x | Raise _ => NaN end).
    unfold values_dict. rewrite assignment_space_all, (mapM_map_ok _ (fun o => (o, h o))).
    2:{ intros o J. apply (all_assignments_In_full _ _ Wm1) in J as [Ko Fo]. destruct (proj2 (proj2 (proj2 G)) o Fo) as (q & Eq).
        unfold h. rewrite Eq. reflexivity. }
    cbn [bind]. assert (Kk : keys (map (fun o => (o, h o)) (all_assignments (mf_domain (F V)))) = all_assignments (mf_domain (F V))).
    { unfold keys. rewrite map_map. apply map_id. }
    assert (Nk : NoDup (keys (map (fun o => (o, h o)) (all_assignments (mf_domain (F V)))))).
    { rewrite Kk. apply all_assignments_NoDup. intros v l J. now apply (proj2 Wm v). }
    rewrite (dict_of_id _ Nk). unfold dlook.
    assert (J : In (obs_of (mf_vars (F V)) a) (all_assignments (mf_domain (F V)))).
    { apply obs_of_all; auto. now apply (good_valid D vt). }
    rewrite (In_dget _ (h (obs_of (mf_vars (F V)) a)) _ Nk).
    - unfold h. rewrite (fv_get D vt (F V) a); [reflexivity|auto|auto|]. apply agrees_obs_of.
    - apply in_map_iff. eauto.
  Qed.

  (** *** The statistics *)
  Section Keys.
    Variables (bmV bmY : list var) (dv dy : domain).
    Hypothesis IV : forall v, In v bmV <-> arc g U v.
    Hypothesis IY : forall v, In v bmY <-> (exists w, In w bmV /\ arc g v w) /\ In v endo /\ ~ In v bmV.
    Hypothesis Wv : wf_dom dv.
    Hypothesis Wy : wf_dom dy.
    Hypothesis Kv : forall v, In v (keys dv) <-> In v bmV.
    Hypothesis Ky : forall v, In v (keys dy) <-> In v bmY.
    Hypothesis Sv : forall v l, In (v, l) dv -> In (v, l) D.
    Hypothesis Sy : forall v l, In (v, l) dy -> In (v, l) D.

    Lemma V_key v : In v bmV -> In v (keys D).
    Proof. intros J. apply IV, arc_endo, endo_keys in J. exact J. Qed.
    Lemma Y_key v : In v bmY -> In v (keys D).
    Proof. intros J. apply IY in J as (_ & J & _). now apply endo_keys. Qed.
    (** the variables of a child's table *)
    Lemma fam_cases V w : In V bmV -> In w (fam F V) -> w = U \/ (In w bmV /\ w <> U) \/ (In w bmY /\ ~ In w bmV /\ w <> U).
    Proof.
      intros JV J. assert (A := proj1 (IV V) JV). destruct (fam_child V w A J) as [-> | I]; [auto|right].
      assert (Nu : w <> U) by (intros ->; now apply U_exo).
      destruct (in_dec eqd w bmV) as [I' | N]; [auto|right]. split; [|auto]. apply IY. split; [|auto].
      apply (fam_In m D F vt H V w (V_key V JV)) in J as [-> | J]; [tauto|]. eauto.
    Qed.

    (** a pair of assignments as the code enumerates them, and the assignment
        [a] of all variables *)
    Definition kv (a : asg) : obs := obs_of (keys dv) a.
    Definition ky (a : asg) : obs := obs_of (keys dy) a.

    Lemma key_ok a u V : valid D a -> In u (states_of D U) -> In V bmV ->
      get_P_v_pav_key (kv a) (ky a) m endo u V bmV bmY = Ok (obs_of (mf_vars (F V)) (upd a U u)).
    Proof.
      intros Va Ju JV. unfold get_P_v_pav_key. rewrite stored_table by now apply V_key. cbn [bind fo_vars fo_domain].
      unfold obs_of at 1. apply mapM_map_ok. intros w Jw.
      assert (X : mem w (exogenous g endo) = true <-> w = U).
      { rewrite mem_In. unfold exogenous. rewrite filter_In, negb_true_iff, mem_nIn. split.
        - intros [_ N]. destruct (fam_child V w (proj1 (IV V) JV) Jw) as [-> | I]; tauto.
        - intros ->. split; [apply U_node|apply U_exo]. }
      destruct (fam_cases V w JV Jw) as [-> | [[I N] | (I & I' & N)]].
      - rewrite (proj2 X eq_refl). unfold upd. now rewrite eqd_refl.
      - destruct (mem w (exogenous g endo)); [exfalso; apply N, X; reflexivity|].
        rewrite (proj2 (mem_In w bmV) I). unfold dlook, kv. rewrite obs_of_get by now apply Kv. cbn [bind].
        unfold upd. now rewrite eqd_neq.
      - destruct (mem w (exogenous g endo)); [exfalso; apply N, X; reflexivity|].
        rewrite (proj2 (mem_nIn w bmV) I'), (proj2 (mem_In w bmY) I). unfold dlook, ky. rewrite obs_of_get by now apply Ky. cbn [bind].
        unfold upd. now rewrite eqd_neq.
    Qed.

    Lemma upd_valid a u : valid D a -> In u (states_of D U) -> valid D (upd a U u).
    Proof.
      intros Va Ju v l J. unfold upd. destruct (eqd v U) as [-> | N]; [|now apply Va].
      assert (Q := In_dget _ _ _ (proj1 WD) J). unfold states_of in Ju. now rewrite Q in Ju.
    Qed.

    Definition bit (a : asg) (vs : list var) (u : state) : nat := if Qc_eq_dec (prods vs (upd a U u)) 0 then 0 else 1.
    Lemma prod_P_ok a u vs : valid D a -> In u (states_of D U) -> incl vs bmV ->
      prod_P m endo (kv a) (ky a) u bmV bmY vs = Ok (bit a vs u) /\
      (prods vs (upd a U u) = 0%Qc \/ prods vs (upd a U u) = 1%Qc).
    Proof.
      intros Va Ju. induction vs as [|V vs IH]; intros I.
      - split; [|right; reflexivity]. cbn [prod_P]. unfold bit, NetSem.prods. cbn [map qprod].
        destruct (Qc_eq_dec 1 0) as [Q | _]; [discriminate Q|reflexivity].
      - assert (JV : In V bmV) by (apply I; now left). destruct IH as [IH1 IH2]; [intros x J; apply I; now right|].
        cbn [prod_P]. rewrite key_ok by auto. cbn [bind]. rewrite lookup_ok; [|now apply V_key|now apply upd_valid]. cbn [bind].
        unfold bit. rewrite (prods_cons P).
        destruct (child_value V (upd a U u) (proj1 (IV V) JV) (upd_valid a u Va Ju)) as [Q | Q]; rewrite Q.
        + split; [|left; ring]. unfold qzero. destruct (Qc_eq_dec 0 0) as [_ | N]; [|congruence].
          destruct (Qc_eq_dec (0 * prods vs (upd a U u)) 0) as [_ | N]; [reflexivity|]. exfalso. apply N. ring.
        + rewrite Qcmult_1_l. split; [|exact IH2]. unfold qzero. destruct (Qc_eq_dec 1 0) as [N | _]; [discriminate N|]. exact IH1.
    Qed.
    Lemma bit_value a u vs : valid D a -> In u (states_of D U) -> incl vs bmV ->
      Q2Qc (inject_Z (Z.of_nat (bit a vs u))) = prods vs (upd a U u).
    Proof.
      intros Va Ju I. destruct (prod_P_ok a u vs Va Ju I) as [_ [Q | Q]]; unfold bit; rewrite Q.
      - destruct (Qc_eq_dec 0 0) as [_ | N]; [reflexivity|congruence].
      - destruct (Qc_eq_dec 1 0) as [N | _]; [discriminate N|]. reflexivity.
    Qed.

    Lemma name_itself s : substr_of s s = true.
    Proof. apply substr_of_spec. exists ""%string, ""%string. induction s; [reflexivity|]. cbn in *. now rewrite <- IHs. Qed.
    Lemma compute_P_ok a : valid D a ->
      compute_P (kv a) (ky a) m endo U bmV bmY = Ok (map (fun u => (u, bit a bmV u)) (states_of D U)).
    Proof.
      intros Va. unfold compute_P, dlook, get_domains_str. rewrite dget_dfilter, name_itself.
      destruct Dp as [_ Hd]. rewrite (Hd U _ U_states). cbn [bind].
      rewrite (mapM_map_ok _ (fun u => (u, bit a bmV u))).
      - cbn [bind]. rewrite dict_of_id; [reflexivity|]. unfold keys. rewrite map_map. cbn [fst]. rewrite map_id.
        apply (proj2 WD U _ U_states).
      - intros u Ju. destruct (prod_P_ok a u bmV Va Ju (incl_refl _)) as [-> _]. reflexivity.
    Qed.

    (** the share of the data at [a] *)
    Definition sh (theta : list Qc) (a : asg) : Qc :=
      qsum (map (fun st => prods bmV (upd a U (fst st)) * snd st)%Qc (combine (states_of D U) theta)).
    Lemma sum_ok a theta : valid D a -> length theta = length (states_of D U) ->
      sum_lkh (map (fun u => (u, bit a bmV u)) (states_of D U)) theta = Ok (sh theta a).
    Proof.
      intros Va L. rewrite sum_lkh_ok by auto. f_equal. unfold sh. f_equal. apply map_ext_in. intros [u t] J.
      apply in_combine_l in J. cbn [fst snd]. rewrite bit_value by auto using incl_refl. reflexivity.
    Qed.
    Lemma sh_dep theta a b : (forall v, In v bmV \/ In v bmY -> a v = b v) -> sh theta a = sh theta b.
    Proof.
      intros Q. unfold sh. f_equal. apply map_ext. intros [u t]. cbn [fst snd]. f_equal.
      apply (prods_dep' m D F vt H bmV); [intros v; apply V_key|]. intros w J. apply in_flat_map in J as (V & JV & J).
      unfold upd. destruct (fam_cases V w JV J) as [-> | [[I N] | (I & I' & N)]]; [now rewrite !eqd_refl|..]; rewrite !eqd_neq by auto; auto.
    Qed.

    Variable a0 : asg.
    Hypothesis Va0 : valid D a0.
    Definition A (xy : obs * obs) : asg := over (fst xy ++ snd xy) a0.
    Definition pairs : list (obs * obs) := flat_map (fun x => map (pair x) (all_assignments dy)) (all_assignments dv).
    Lemma pairs_In x y : In (x, y) pairs <-> In x (all_assignments dv) /\ In y (all_assignments dy).
    Proof.
      unfold pairs. rewrite in_flat_map. split.
      - intros (x' & Jx & J). apply in_map_iff in J as (y' & Q & Jy). injection Q as -> ->. auto.
      - intros [Jx Jy]. exists x. split; [auto|]. apply in_map_iff. eauto.
    Qed.
    Lemma pairs_NoDup : NoDup pairs.
    Proof. apply NoDup_pairs; apply all_assignments_NoDup; intros v l J; [apply (proj2 Wv v) in J|apply (proj2 Wy v) in J]; tauto. Qed.
    Lemma pair_asg x y : In (x, y) pairs -> valid D (A (x, y)) /\ x = kv (A (x, y)) /\ y = ky (A (x, y)).
    Proof.
      intros J. apply pairs_In in J as [Jx Jy]. unfold A. cbn [fst snd].
      assert (Fx := proj1 (all_assignments_In_full dv x (proj1 Wv)) Jx). assert (Fy := proj1 (all_assignments_In_full dy y (proj1 Wy)) Jy).
      destruct Fx as [Kx Fx], Fy as [Ky' Fy].
      destruct (all_assignments_In dv x Wv Jx) as (ax & Vx & ->). destruct (all_assignments_In dy y Wy Jy) as (ay & Vy & ->).
      assert (Gx : forall v, In v (keys dv) -> over (obs_of (keys dv) ax ++ obs_of (keys dy) ay) a0 v = ax v).
      { intros v J. unfold over. now rewrite dget_app, obs_of_get. }
      assert (Gy : forall v, In v (keys dy) -> over (obs_of (keys dv) ax ++ obs_of (keys dy) ay) a0 v = ay v).
      { intros v J. unfold over. rewrite dget_app, (proj2 (dget_None v (obs_of (keys dv) ax))); [now rewrite obs_of_get|].
        rewrite keys_obs_of, Kv. apply Ky, IY in J. tauto. }
      repeat split.
      - intros v l J. destruct (in_dec eqd v (keys dv)) as [I | N].
        + rewrite Gx by auto. apply (keys_In dv) in I as (l' & I). rewrite (dom_unique _ v l l' (proj1 WD) J (Sv _ _ I)). now apply Vx.
        + destruct (in_dec eqd v (keys dy)) as [I | N'].
          * rewrite Gy by auto. apply (keys_In dy) in I as (l' & I). rewrite (dom_unique _ v l l' (proj1 WD) J (Sy _ _ I)). now apply Vy.
          * unfold over. rewrite dget_app, !(proj2 (dget_None _ _)); [now apply Va0|now rewrite keys_obs_of|now rewrite keys_obs_of].
      - unfold kv, obs_of. apply map_ext_in. intros v J. now rewrite <- Gx.
      - unfold ky, obs_of. apply map_ext_in. intros v J. now rewrite <- Gy.
    Qed.

    Definition row_asg (r : list (option state)) : asg := over (row_obs data r) a0.
    Lemma row_valid r : In r (f_rows data) -> valid D (row_asg r).
    Proof. intros J. apply over_valid; [|exact Va0]. apply (proj2 (proj2 OD) r J). Qed.
    Lemma row_get r v : In r (f_rows data) -> In v endo -> dget v (row_dict (f_cols data) r) = Some (Some (row_asg r v)).
    Proof.
      intros J I. destruct (proj2 (proj2 OD) r J) as (_ & Kr & _). apply IE in I. rewrite <- Kr in I. apply dget_keys in I as (s & Q).
      unfold row_asg, over. rewrite Q. unfold row_obs in Q. apply known_get in Q; [exact Q|apply row_dict_NoDup].
    Qed.
    Lemma matches_obs r a vs : In r (f_rows data) -> incl vs endo ->
      (matches (f_cols data) (obs_of vs a) r = true <-> forall v, In v vs -> a v = row_asg r v).
    Proof.
      intros J I. rewrite matches_iff. split.
      - intros Q v Jv. assert (K : In (v, a v) (obs_of vs a)) by (apply in_map_iff; eauto). apply Q in K.
        rewrite (row_get r v J (I v Jv)) in K. congruence.
      - intros Q v s K. apply in_map_iff in K as (w & W & Jw). injection W as -> <-. rewrite (row_get r v J (I v Jw)). now rewrite Q.
    Qed.
    Lemma dv_endo : incl (keys dv) endo.
    Proof. intros v J. apply Kv, IV, arc_endo in J. exact J. Qed.
    Lemma dy_endo : incl (keys dy) endo.
    Proof. intros v J. apply Ky, IY in J. tauto. Qed.
    Definition row_key (r : list (option state)) : obs * obs := (kv (row_asg r), ky (row_asg r)).
    Lemma row_key_In r : In r (f_rows data) -> In (row_key r) pairs.
    Proof.
      intros J. apply pairs_In. assert (Vr := row_valid r J).
      split; apply obs_of_all; try apply Wv; try apply Wy; intros v l K; apply Vr; [now apply Sv|now apply Sy].
    Qed.
    Definition hit (xy : obs * obs) (r : list (option state)) : bool :=
      matches (f_cols data) (fst xy) r && matches (f_cols data) (snd xy) r.
    Lemma hit_key xy r : In xy pairs -> In r (f_rows data) -> (hit xy r = true <-> row_key r = xy).
    Proof.
      intros Jp J. destruct xy as [x y]. destruct (pair_asg x y Jp) as (Va & Qx & Qy). unfold hit, row_key. cbn [fst snd].
      revert Va Qx Qy. generalize (A (x, y)). intros a Va -> ->. clear Jp. rewrite andb_true_iff.
      rewrite (matches_obs r a _ J dv_endo), (matches_obs r a _ J dy_endo). split.
      - intros [Hx Hy]. unfold kv, ky, obs_of. f_equal; apply map_ext_in; intros v K; f_equal; symmetry; auto.
      - intros Q. injection Q as Q1 Q2.
        assert (G : forall vs (a b : asg), obs_of vs a = obs_of vs b -> forall v, In v vs -> b v = a v).
        { intros vs b c Q v K. assert (K1 := obs_of_get vs b v K). rewrite Q in K1. rewrite obs_of_get in K1 by auto. congruence. }
        split; eapply G; eauto.
    Qed.

    Definition cnt (xy : obs * obs) : nat := match fst xy with [] => 0 | _ => length (filter (hit xy) (f_rows data)) end.
    Lemma count_ok xy : In xy pairs -> count_filtered data (fst xy) (snd xy) = Ok (cnt xy).
    Proof.
      intros J. destruct xy as [x y]. destruct (pair_asg x y J) as (_ & Qx & Qy). unfold count_filtered. cbn [fst snd].
      assert (Kx : keys x = keys dv) by (rewrite Qx; apply keys_obs_of). assert (Ky' : keys y = keys dy) by (rewrite Qy; apply keys_obs_of).
      rewrite Kx, Ky'.
      assert (C : forall vs, incl vs endo -> forallb (fun v => mem v (f_cols data)) vs = true).
      { intros vs I. apply forallb_forall. intros v K. apply mem_In. auto. }
      rewrite (C _ dv_endo), (C _ dy_endo). cbn [negb]. unfold cnt. cbn [fst]. destruct x; reflexivity.
    Qed.
    Lemma compute_ok : domains_only (get_domains m bmV) = Ok dv -> domains_only (get_domains m bmY) = Ok dy ->
      compute_N_and_P bmV bmY data m endo U =
      Ok (map (fun xy => (xy, (cnt xy, map (fun u => (u, bit (A xy) bmV u)) (states_of D U)))) pairs).
    Proof.
      intros Ev Ey. unfold compute_N_and_P. rewrite Ev. cbn [bind].
      rewrite (mapM_map_ok _ (fun x => map (fun y => ((x, y), (cnt (x, y), map (fun u => (u, bit (A (x, y)) bmV u)) (states_of D U))))
                                           (assignment_space dy))).
      - cbn [bind]. rewrite !assignment_space_all, <- flat_map_concat_map.
        assert (Q : flat_map (fun x => map (fun y => ((x, y), (cnt (x, y), map (fun u => (u, bit (A (x, y)) bmV u)) (states_of D U))))
                                           (all_assignments dy)) (all_assignments dv) =
                    map (fun xy => (xy, (cnt xy, map (fun u => (u, bit (A xy) bmV u)) (states_of D U)))) pairs).
        { unfold pairs. rewrite !flat_map_concat_map, concat_map, map_map. f_equal. apply map_ext. intros x. now rewrite map_map. }
        rewrite Q, dict_of_id; [reflexivity|]. unfold keys. rewrite map_map. cbn [fst]. rewrite map_id. apply pairs_NoDup.
      - intros x Jx. rewrite Ey. cbn [bind]. apply mapM_map_ok. intros y Jy. rewrite !assignment_space_all in *.
        assert (J : In (x, y) pairs) by (apply pairs_In; auto).
        assert (C := count_ok (x, y) J). cbn [fst snd] in C. rewrite C. cbn [bind].
        destruct (pair_asg x y J) as (Va & Qx & Qy). assert (C' := compute_P_ok _ Va).
        rewrite <- Qx, <- Qy in C'. rewrite C'. reflexivity.
    Qed.

    (** *** Shares *)
    Lemma share_row theta r : Permutation bmV (succs g U) -> In r (f_rows data) ->
      mixture D F g U theta (row_obs data r) = sh theta (row_asg r).
    Proof.
      intros Pm J. unfold mixture, sh. etransitivity; [apply total_qsum|]. f_equal. apply map_ext_in. intros [u t] Jc. apply in_combine_l in Jc. cbn [fst snd].
      rewrite Qcmult_comm. f_equal. etransitivity; [apply product_qprod|]. unfold NetSem.prods.
      rewrite (qprod_perm _ _ (Permutation_map _ (Permutation_sym Pm))). f_equal. apply map_ext_in. intros V JV.
      apply (entry_fv D vt).
      - apply (net_good m D F vt H). now apply V_key.
      - apply upd_valid; [|exact Jc]. now apply row_valid.
      - intros w Jw. cbn [dget]. unfold upd. destruct (eqd w U) as [-> | N]; [reflexivity|].
        destruct (fam_child V w (proj1 (IV V) JV) Jw) as [-> | I]; [congruence|].
        destruct (proj2 (proj2 OD) r J) as (_ & Kr & _). apply IE in I. rewrite <- Kr in I. apply dget_keys in I as (s & Q).
        unfold row_asg, over. now rewrite Q.
    Qed.
    Lemma sh_key theta r xy : In r (f_rows data) -> row_key r = xy -> sh theta (A xy) = sh theta (row_asg r).
    Proof.
      intros J <-. assert (Jp := row_key_In r J). destruct (pair_asg _ _ Jp) as (_ & Qx & Qy). change (kv (row_asg r), ky (row_asg r)) with (row_key r) in *.
      assert (G : forall vs (a b : asg), obs_of vs a = obs_of vs b -> forall v, In v vs -> b v = a v).
      { intros vs a b Q v K. assert (K1 := obs_of_get vs a v K). rewrite Q in K1. rewrite obs_of_get in K1 by auto. congruence. }
      apply sh_dep. intros v [I | I].
      - apply (G _ _ _ Qx). now apply Kv.
      - apply (G _ _ _ Qy). now apply Ky.
    Qed.
    Lemma sh_nonneg theta a : (forall x, In x theta -> 0 <= x)%Qc -> valid D a -> (0 <= sh theta a)%Qc.
    Proof.
      intros Ht Va. apply qsum_nn. intros x J. apply in_map_iff in J as ([u t] & <- & J). cbn [fst snd].
      assert (Ju := in_combine_l _ _ _ _ J). apply in_combine_r in J.
      destruct (prod_P_ok a u bmV Va Ju (incl_refl _)) as [_ [-> | ->]].
      - replace (0 * t)%Qc with 0%Qc by ring. apply Qcle_refl.
      - rewrite Qcmult_1_l. now apply Ht.
    Qed.
  End Keys.
End Statistics.
