(** One step of the EM learner: all variables together. *)

From Coq Require Import String Bool Arith ZArith QArith Qcanon Lia Permutation List.
From Verif Require Import PyBase PyFacts Num DomainModel NdArray StoreModel NumStore FactorModel GraphModel ModelModel InferModel
  Spec DomainFacts StoreSpec StoreFacts NumFacts PropFacts1 FactorSpec FactorFacts FactorFacts2 FactorFacts3 BigSum
  GraphSpec GraphFacts ModelSpec ModelFacts
  NetSpec NetSem FactorSem NetFacts BuildFacts VeFacts4 VeFacts5 CfFacts LearnModel LearnSpec LearnFacts LearnFacts2
  EmSpec EmMath EmFacts1 EmFacts2 EmFacts3 EmFacts4 EmFacts5.
From Coq Require Import List.
Import ListNotations.
Local Open Scope nat_scope.
Local Arguments eqd : simpl never.

Lemma dmerge_all {V} (Q : var -> V -> Prop) l : (forall v f, In (v, f) l -> Q v f) ->
  forall d : dict var V, (forall v f, dget v d = Some f -> Q v f) -> forall v f, dget v (dmerge d l) = Some f -> Q v f.
Proof.
  induction l as [|[w x] l IH]; intros Ql d Qd v f E; [auto|]. unfold dmerge in E. cbn [fold_left] in E.
  refine (IH (fun v f J => Ql v f (or_intror J)) _ _ v f E). intros v' f' E'. rewrite dget_dset in E'.
  cbn [fst snd] in E'. destruct (eqd v' w) as [-> | N]; [injection E' as <-; apply Ql; now left|auto].
Qed.

Section Whole.
  Variables (m : pgm) (D : domain) (F : var -> mfactor) (vt : vtype).
  Hypothesis H : network m D F vt.
  Hypothesis NN : nonnegative D F.
  Notation g := (m_graph m).
  Let WD : wf_dom D := net_wd m D F vt H.
  Notation good := (good D vt).
  Notation sm := (sm D).
  Variable prior : pgm.
  Hypothesis Gp : m_graph prior = g.
  Hypothesis Dp : describes D prior.
  Variable query : pgm -> list var -> obs -> res mfactor.
  Hypothesis Hq : exact_query query.
  Variables (E : list var) (data : frame) (s : em_state).
  Hypothesis OD : observes D data E.
  Hypothesis Ed : em_data s = Some (g, data).
  Notation rows := (f_rows data).
  Hypothesis Mr : forall r, In r rows -> mass D F (row_obs data r) <> 0%Qc.
  Notation es := (map (row_obs data) rows).

  Definition T (v : var) : list var := v :: match get_parents g [v] with Ok pa => pa | _ => [] end.
  Lemma T_ok v : In v (nodes g) -> same_family m v (T v).
  Proof.
    intros Iv. destruct (family m D F vt H v Iv) as (T0 & HT). assert (HT' := HT). destruct HT' as (pa & Epa & -> & _).
    unfold T. rewrite Epa. exact HT.
  Qed.

  Lemma informed_or v : learnable D F g data E v -> informed g E v \/ ~ informed g E v.
  Proof.
    intros (Iv & NvE & _).
    destruct (blanket_ok g D v E data (net_wg m D F vt H) (net_ac m D F vt H) (net_nodes m D F vt H) Iv OD NvE) as (keep & _ & Hk & _).
    destruct (existsb keep E) eqn:Ex.
    - left. apply existsb_exists in Ex as (w & J & K). exists w. now apply Hk.
    - right. intros (w & B). rewrite <- not_true_iff_false in Ex. apply Ex. apply existsb_exists. exists w. split; [apply B|]. apply Hk; [apply B|exact B].
  Qed.

  Lemma pseudo_ok tr : incl tr (nodes g) ->
    exists pcs, get_pseudocounts_dict vt prior tr = Ok pcs /\
      forall v, In v tr -> exists pc, dget v pcs = Some pc /\ get_pcounts vt prior v = Ok pc.
  Proof.
    intros I. unfold get_pseudocounts_dict.
    assert (G : exists l, mapM (fun v => let* f := get_pcounts vt prior v in Ok (v, f)) tr = Ok l /\ map fst l = tr /\
      forall v f, In (v, f) l -> get_pcounts vt prior v = Ok f).
    { induction tr as [|v tr IH]; [exists []; repeat split; intros ? ? []|]. cbn [mapM].
      destruct IH as (l & El & Kl & Hl); [intros x J; apply I; now right|].
      assert (Iv : In v (nodes g)) by (apply I; now left).
      destruct (pcounts_ok m D F vt H prior Gp Dp v Iv (T v) (T_ok v Iv)) as (pc & Epc & _). rewrite Epc. cbn [bind]. rewrite El. cbn [bind].
      exists ((v, pc) :: l). split; [auto|]. split; [cbn; congruence|]. intros w f [Q|J]; [injection Q as <- <-; auto|auto]. }
    destruct G as (l & El & Kl & Hl). rewrite El. cbn [bind]. exists (dict_of l). split; [auto|]. intros v Jv.
    assert (K : In v (keys (dict_of l))). { unfold dict_of. apply keys_dmerge_In. right. unfold keys. now rewrite Kl. }
    apply dget_keys in K as (pc & K). exists pc. split; [auto|].
    refine (dmerge_all _ l Hl [] _ v pc K). intros ? ? Q. discriminate Q.
  Qed.

  Definition joint_of (v : var) (pc : mfactor) : Prop :=
    good pc /\ (forall x, In x (mf_vars pc) <-> In x (T v)) /\ (forall x, In x (mf_left pc) <-> In x (T v)) /\
    forall a, valid D a -> fv pc a = counts D F es (T v) a.
  Definition one (pcounts : dict var mfactor) (v : var) : res (dict var mfactor) :=
    let* ocs := get_obs_counts s v in
    let* pc := dlook v pcounts in
    let* pc := expected_counts query prior m v ocs pc in
    Ok (dset v pc pcounts).

  Lemma one_ok v pcs pc : learnable D F g data E v -> informed g E v -> dget v pcs = Some pc -> get_pcounts vt prior v = Ok pc ->
    exists pc', one pcs v = Ok (dset v pc' pcs) /\ joint_of v pc'.
  Proof.
    intros Lv Inf Eg Epc. assert (Iv := proj1 Lv). assert (HT := T_ok v Iv).
    destruct (counts_informed m D F vt H NN E data s OD Ed Mr v Lv (T v) HT Inf) as (ocs & Eo & Ho & So).
    unfold one. rewrite Eo. cbn [bind]. unfold dlook. rewrite Eg. cbn [bind].
    destruct (pcounts_ok m D F vt H prior Gp Dp v Iv (T v) HT) as (pc0 & Epc0 & G0 & V0 & R0 & Z0). rewrite Epc in Epc0. injection Epc0 as <-.
    destruct (expected_ok m D F vt H prior Gp query Hq v Iv (T v) ocs HT Ho pc G0 V0) as (pc' & Ee & G' & V' & L' & F').
    { intros x. rewrite mf_left_In, R0, V0. cbn. tauto. }
    rewrite Ee. cbn [bind]. exists pc'. split; [auto|]. split; [auto|]. split; [auto|]. split; [auto|].
    intros a Va. rewrite (F' a Va), (Z0 a Va), (So a Va). ring.
  Qed.

  Lemma expect_ok act : NoDup act -> (forall v, In v act -> learnable D F g data E v /\ informed g E v) ->
    forall pcs, (forall v, In v act -> exists pc, dget v pcs = Some pc /\ get_pcounts vt prior v = Ok pc) ->
    exists pcs', foldM one act pcs = Ok pcs' /\ (forall v, In v act -> exists pc, dget v pcs' = Some pc /\ joint_of v pc) /\
      forall v, ~ In v act -> dget v pcs' = dget v pcs.
  Proof.
    induction act as [|v act IH]; intros ND Hl pcs Hp; [exists pcs; repeat split; intros ? []|].
    apply NoDup_cons_iff in ND as [Nv ND]. cbn [foldM].
    destruct (Hl v) as [Lv Inf]; [now left|]. destruct (Hp v) as (pc & Eg & Epc); [now left|].
    destruct (one_ok v pcs pc Lv Inf Eg Epc) as (pc' & E1 & J1). rewrite E1. cbn [bind].
    destruct (IH ND (fun w J => Hl w (or_intror J)) (dset v pc' pcs)) as (pcs' & E' & A & B).
    { intros w J. destruct (Hp w (or_intror J)) as (pc0 & ? & ?). exists pc0. rewrite dget_dset.
      destruct (eqd w v) as [-> | N]; [contradiction|auto]. }
    exists pcs'. split; [exact E'|]. split.
    - intros w [<- | J]; [|auto]. exists pc'. split; [|auto]. rewrite B by auto. now rewrite dget_dset, eqd_refl.
    - intros w N. rewrite B by (intros J; apply N; now right). rewrite dget_dset. destruct (eqd w v) as [-> | Nw]; [destruct N; now left|auto].
  Qed.

  Lemma expect_raises act : NoDup act -> (forall v, In v act -> learnable D F g data E v) -> (exists v, In v act /\ ~ informed g E v) ->
    forall pcs, (forall v, In v act -> exists pc, dget v pcs = Some pc /\ get_pcounts vt prior v = Ok pc) ->
    foldM one act pcs = Raise TypeError.
  Proof.
    induction act as [|v act IH]; intros ND Hl Hu pcs Hp; [destruct Hu as (? & [] & _)|].
    apply NoDup_cons_iff in ND as [Nv ND]. cbn [foldM].
    assert (Lv : learnable D F g data E v) by (apply Hl; now left). destruct (Hp v) as (pc & Eg & Epc); [now left|].
    destruct (informed_or v Lv) as [Inf|Ninf].
    - destruct (one_ok v pcs pc Lv Inf Eg Epc) as (pc' & E1 & J1). rewrite E1. cbn [bind].
      apply IH; auto.
      + intros w J. apply Hl. now right.
      + destruct Hu as (w & [<- | J] & N); [contradiction|eauto].
      + intros w J. destruct (Hp w (or_intror J)) as (pc0 & ? & ?). exists pc0. rewrite dget_dset.
        destruct (eqd w v) as [-> | N]; [contradiction|auto].
    - unfold one. rewrite (counts_uninformed m D F vt H E data s OD Ed v Lv Ninf). reflexivity.
  Qed.

  Definition new_table (v : var) (p : mfactor) : Prop :=
    cpt D vt v (preds g v) p /\
    forall a, valid D a -> sm [v] (counts D F es (T v)) a <> 0%Qc /\
      fv p a = (counts D F es (T v) a / sm [v] (counts D F es (T v)) a)%Qc.

  Lemma max_ok act pcs : NoDup act -> (forall v, In v act -> learnable D F g data E v) ->
    (forall v, In v act -> exists pc, dget v pcs = Some pc /\ joint_of v pc) ->
    forall probs, exists probs', foldM (fun new_probs v => let* joint := dlook v pcs in
                                              let* p := maximize joint v in
                                              Ok (dset v (FM p) new_probs)) act probs = Ok probs' /\
      (forall v, In v act -> exists p, dget v probs' = Some (FM p) /\ new_table v p) /\
      forall v, ~ In v act -> dget v probs' = dget v probs.
  Proof.
    induction act as [|v act IH]; intros ND Hl Hp probs; [exists probs; repeat split; intros ? []|].
    apply NoDup_cons_iff in ND as [Nv ND]. cbn [foldM].
    assert (Lv : learnable D F g data E v) by (apply Hl; now left). assert (Iv := proj1 Lv). assert (HT := T_ok v Iv).
    destruct (Hp v) as (pc & Eg & (G1 & V1 & L1 & F1)); [now left|]. unfold dlook at 1. rewrite Eg. cbn [bind].
    assert (Sn : forall a, valid D a -> sm [v] (counts D F es (T v)) a <> 0%Qc).
    { intros a Va. now apply (seen m D F vt H NN E data OD Mr v Lv). }
    assert (Es : forall a, valid D a -> sm [v] (fv pc) a = sm [v] (counts D F es (T v)) a).
    { intros a Va. apply (sm_ext D WD); auto. }
    destruct (maximize_ok m D F vt H v Iv (T v) pc HT G1 V1 L1) as (p & Ep & Cp & Fp).
    { intros a Va. rewrite Es; auto. }
    rewrite Ep. cbn [bind].
    destruct (IH ND (fun w J => Hl w (or_intror J)) (fun w J => Hp w (or_intror J)) (dset v (FM p) probs)) as (probs' & E' & A & B).
    exists probs'. split; [exact E'|]. split.
    - intros w [<- | J]; [|auto]. exists p. split; [rewrite B by auto; now rewrite dget_dset, eqd_refl|].
      split; [auto|]. intros a Va. split; [auto|]. rewrite (Fp a Va), (F1 a Va), (Es a Va). reflexivity.
    - intros w N. rewrite B by (intros J; apply N; now right). rewrite dget_dset. destruct (eqd w v) as [-> | Nw]; [destruct N; now left|auto].
  Qed.

  (** building the new model *)
  Lemma complete_ok (probs : dict var fobj) ns : incl ns (nodes g) ->
    exists fs, foldM (fun d v => if mem v (keys d) then Ok d else let* f := dlook v (m_factors m) in Ok (dset v (as_fobj f) d)) ns probs = Ok fs /\
      (forall v, In v ns -> In v (keys fs)) /\
      (forall v f, dget v fs = Some f -> dget v probs = Some f \/ (dget v probs = None /\ In v ns /\ f = FM (F v))) /\
      (forall v f, dget v probs = Some f -> dget v fs = Some f).
  Proof.
    revert probs. induction ns as [|n ns IH]; intros probs I; cbn [foldM].
    - exists probs. split; [auto|]. split; [intros ? []|]. split; auto.
    - assert (In0 : In n (nodes g)) by (apply I; now left). assert (I' : incl ns (nodes g)) by (intros x J; apply I; now right).
      destruct (mem n (keys probs)) eqn:M.
      + cbn [bind]. destruct (IH probs I') as (fs & Ef & A & B & C). exists fs. split; [exact Ef|]. split; [|split; [|auto]].
        * intros v [<- | J]; [|auto]. apply mem_In, dget_keys in M as (f & M). apply dget_keys. eauto.
        * intros v f Q. destruct (B v f Q) as [?|(? & ? & ?)]; [auto|]. right. split; [auto|]. split; [now right|auto].
      + apply mem_nIn in M. assert (St := proj1 (proj2 (proj2 (proj2 (proj2 (proj2 (proj2 H))))) n In0)). unfold stored in St.
        unfold dlook at 1. rewrite St. cbn [bind as_fobj].
        destruct (IH (dset n (FM (F n)) probs) I') as (fs & Ef & A & B & C). exists fs. split; [exact Ef|].
        assert (Cn : dget n fs = Some (FM (F n))) by (apply C; now rewrite dget_dset, eqd_refl).
        split; [|split].
        * intros v [<- | J]; [|auto]. apply dget_keys. eauto.
        * intros v f Q. destruct (eqd v n) as [-> | N].
          -- right. split; [now apply dget_None|]. split; [now left|]. congruence.
          -- destruct (B v f Q) as [Q'|(Q' & J & Q2)].
             ++ rewrite dget_dset, (eqd_neq _ _ _ _ N) in Q'. auto.
             ++ rewrite dget_dset, (eqd_neq _ _ _ _ N) in Q'. right. split; [auto|]. split; [now right|auto].
        * intros v f Q. apply C. rewrite dget_dset. destruct (eqd v n) as [-> | N]; [|auto].
          apply dget_None in M. congruence.
  Qed.

  Definition tables (probs : dict var fobj) (v : var) : mfactor := match dget v probs with Some (FM p) => p | _ => F v end.

  Lemma update_kind {Sub_state} (l : learner Sub_state) probs : l_model l = Some m -> NoDup (keys probs) ->
    (forall v f, dget v probs = Some f -> In v (nodes g) /\ exists p, f = FM p /\ cpt D vt v (preds g v) p) ->
    exists m', update_model l probs = (MkL (l_prior l) (Some m') (Some (model_evolution l ++ [m'])) (l_sub l), None) /\
      m_graph m' = g /\ network m' D (tables probs) vt /\ m_kind m' = built_kind m.
  Proof.
    intros El NP Hp. unfold update_model. rewrite El. unfold complete_probs.
    destruct (complete_ok probs (nodes g) (incl_refl _)) as (fs & Ef & A & B & C). rewrite Ef. cbn [bind].
    assert (Nf : NoDup (keys fs)). { destruct (complete_probs_ok m probs fs Ef NP) as (Y & _). exact Y. }
    assert (Cp : forall v, In v (nodes g) -> cpt D vt v (preds g v) (tables probs v)).
    { intros v Iv. unfold tables. destruct (dget v probs) as [f|] eqn:Q.
      - destruct (Hp v f Q) as (_ & p & -> & Cp). exact Cp.
      - apply (net_cpt m D F vt H). now apply (net_nodes m D F vt H). }
    assert (St : forall check k, check = false -> forall v f, In (v, f) fs -> f = FM (tables probs v) /\ storable D g check k v (tables probs v)).
    { intros check k -> v f J. apply (In_dget _ _ _ Nf) in J.
      assert (Q : In v (nodes g) /\ f = FM (tables probs v)).
      { unfold tables. destruct (B v f J) as [Q|(Q & Iv & ->)]; rewrite Q; [|auto]. destruct (Hp v f Q) as (Iv & p & -> & _). auto. }
      destruct Q as [Iv ->]. split; [auto|]. destruct (Cp v Iv) as (W & _ & L & _ & Sub & _).
      split; [auto|]. split; [|split; [exact Sub|split; [apply W|discriminate]]].
      assert (Jl : In v (mf_left (tables probs v))) by (apply L; now left). now apply mf_left_In in Jl. }
    assert (Net : forall m', built D g (tables probs) m' -> network m' D (tables probs) vt).
    { intros m' (Gm & Kf & _ & Sf & _). assert (H0 := H). destruct H0 as (X1 & X2 & X3 & X4 & _). unfold network. rewrite Gm, Kf.
      split; [auto|]. split; [auto|]. split; [auto|]. split; [auto|]. split; [apply X1|]. split; [intros x; tauto|]. intros v Iv. split; auto. }
    assert (Go : exists m', m_builder m g (Some (FsDict fs)) false = Ok m' /\ built D g (tables probs) m' /\ m_kind m' = built_kind m).
    { unfold m_builder, built_kind. destruct (m_kind m) as [|endo cast].
      - destruct (bn_build D g false fs (tables probs) (proj1 WD) (net_wg m D F vt H) (net_ac m D F vt H) (St false KBn eq_refl) A) as (m' & Em & Bm & _ & Km). eauto.
      - destruct (scm_build D g false cast (Some endo) fs (tables probs) (proj1 WD) (net_wg m D F vt H) (net_ac m D F vt H)
          (St false _ eq_refl) A) as (m' & Em & Bm & _ & Km). eauto. }
    destruct Go as (m' & Em & Bm & Km). rewrite Em. exists m'. split; [reflexivity|]. split; [apply Bm|]. split; [now apply Net|exact Km].
  Qed.
  Lemma update_network (l : learner em_state) probs : l_model l = Some m -> NoDup (keys probs) ->
    (forall v f, dget v probs = Some f -> In v (nodes g) /\ exists p, f = FM p /\ cpt D vt v (preds g v) p) ->
    exists m', update_model l probs = (MkL (l_prior l) (Some m') (Some (model_evolution l ++ [m'])) (l_sub l), None) /\
      m_graph m' = g /\ network m' D (tables probs) vt.
  Proof. intros El NP Hp. destruct (update_kind l probs El NP Hp) as (m' & Eu & Gm & Nm & _). eauto. Qed.
End Whole.

(** what one step does *)
Section TheStep.
  Variables (query : pgm -> list var -> obs -> res mfactor) (set_iter : list var -> list var) (vt : vtype).
  Hypothesis Hq : exact_query query.
  Hypothesis Hs : iterates set_iter.
  Variables (D : domain) (E : list var) (data : frame).
  Hypothesis OD : observes D data E.
  Notation estep := (em_step query set_iter vt).

  Lemma step_most l m F : ready D vt E data l m F ->
    ((forall v, trains l v -> ~ has_converged l v -> informed (m_graph m) E v) ->
       exists m' F' l', estep l None = (l', None) /\ l_prior l' = l_prior l /\ l_sub l' = l_sub l /\
         model_evolution l' = model_evolution l ++ [m'] /\ m_graph m' = m_graph m /\ ready D vt E data l' m' F' /\
         (likelihood D F data <= likelihood D F' data)%Qc /\
         (forall v, ~ trains l v -> F' v = F v) /\ m_kind m' = built_kind m /\
         (forall v, trains l v -> ~ has_converged l v -> new_table m D F vt data v (F' v)) /\
         (forall v, has_converged l v -> F' v = F v)) /\
    ((exists v, trains l v /\ ~ has_converged l v /\ ~ informed (m_graph m) E v) -> estep l None = (l, Some TypeError)).
  Proof.
    intros ((El & Net & NN & Gp & Dp & Ed & Mr & (tr & Et & It)) & Lr).
    set (act := set_iter (filter (fun v => negb (mem v (em_converged (l_sub l)))) tr)).
    destruct (Hs (filter (fun v => negb (mem v (em_converged (l_sub l)))) tr)) as (Na & Sa). fold act in Na, Sa.
    assert (Ha : forall v, In v act <-> trains l v /\ ~ has_converged l v).
    { intros v. rewrite (Sa v), filter_In, negb_true_iff, mem_nIn. unfold trains, has_converged. rewrite Et. split.
      - intros [J N]. split; [eauto|auto].
      - intros [(tr' & Q & J) N]. injection Q as <-. auto. }
    assert (La : forall v, In v act -> learnable D F (m_graph m) data E v) by (intros v J; apply Ha in J as [? ?]; auto).
    assert (Ea : active_vars set_iter (l_sub l) = Ok act) by (unfold active_vars, trainable_list; rewrite Et; reflexivity).
    destruct (pseudo_ok m D F vt Net (l_prior l) Gp Dp tr It) as (pcs & Ep & Hp).
    assert (Hpa : forall v, In v act -> exists pc, dget v pcs = Some pc /\ get_pcounts vt (l_prior l) v = Ok pc).
    { intros v J. apply Hp. apply Sa, filter_In in J. apply J. }
    assert (Ex : expectation query set_iter vt l = foldM (one m (l_prior l) query (l_sub l)) act pcs).
    { unfold expectation. rewrite El. unfold trainable_list. rewrite Et. cbn [bind]. rewrite Ep. cbn [bind]. rewrite Ea. reflexivity. }
    split.
    - intros Inf.
      destruct (expect_ok m D F vt Net NN (l_prior l) Gp Dp query Hq E data (l_sub l) OD Ed Mr act Na) with (pcs := pcs) as (pcs' & Ef & Hj & _); auto.
      { intros v J. split; [auto|]. apply Ha in J as [? ?]. auto. }
      destruct (max_ok m D F vt Net NN E data OD Mr act pcs' Na La Hj []) as (probs & Eb & Hn & Hz).
      assert (Ec : em_calculate query set_iter vt l = (l_sub l, Ok probs)).
      { unfold em_calculate. rewrite Ex, Ef. cbn [bind]. unfold maximization. rewrite Ea. cbn [bind]. rewrite Eb. reflexivity. }
      assert (NP : NoDup (keys probs)) by (destruct (em_probs query set_iter vt Hs l (l_sub l) probs Ec) as (_ & X & _); exact X).
      assert (Ka : forall v f, dget v probs = Some f -> In v act).
      { intros v f Q. destruct (in_dec eqd v act) as [J|J]; [auto|]. rewrite Hz in Q by auto. discriminate. }
      destruct (update_kind m D F vt Net (with_sub l (l_sub l)) probs El NP) as (m' & Eu & Gm & Nm & Km).
      { intros v f Q. assert (J := Ka v f Q). split; [apply La, J|]. destruct (Hn v J) as (p & Q' & Cp & _). exists p. split; [congruence|auto]. }
      set (F' := tables F probs) in *.
      exists m', F', (MkL (l_prior l) (Some m') (Some (model_evolution l ++ [m'])) (l_sub l)).
      assert (Es : estep l None = (MkL (l_prior l) (Some m') (Some (model_evolution l ++ [m'])) (l_sub l), None)).
      { unfold em_step, step. rewrite Ec. exact Eu. }
      split; [exact Es|]. split; [auto|]. split; [auto|]. split; [auto|]. split; [auto|].
      destruct OD as (OD1 & IE & OR).
      set (es := map (row_obs data) (f_rows data)).
      assert (Ke : forall e, In e es -> Spec.known D e). { intros e J. apply in_map_iff in J as (r & <- & Jr). apply OR, Jr. }
      assert (Me : forall e, In e es -> mass D F e <> 0%Qc). { intros e J. apply in_map_iff in J as (r & <- & Jr). auto. }
      assert (HT : forall v, In v act -> In v (keys D) /\ NoDup (T m v) /\ incl (T m v) (keys D) /\ apart es (T m v) /\ In v (T m v) /\
        forall x, In x (T m v) <-> In x (mf_vars (F v))).
      { intros v J. assert (Lv := La v J). assert (Iv := proj1 Lv). assert (HT := T_ok m D F vt Net v Iv).
        split; [now apply (net_nodes m D F vt Net)|]. split; [destruct HT as (pa & _ & _ & N & _); exact N|].
        split; [now apply (family_keys m D F vt Net v Iv)|]. split; [now apply (family_apart m D F E data OD v Lv)|].
        split; [now left|]. intros x. symmetry. now apply (family_vars m D F vt Net v Iv). }
      assert (Hg : forall v, In v act -> FactorSem.good D vt (F' v) /\ (forall x, In x (mf_vars (F' v)) -> In x (T m v)) /\
        forall a, valid D a -> sm D [v] (counts D F es (T m v)) a <> 0%Qc /\
          fv (F' v) a = (counts D F es (T m v) a / sm D [v] (counts D F es (T m v)) a)%Qc).
      { intros v J. destruct (Hn v J) as (p & Q & Cp & Fp). assert (EF : F' v = p) by (unfold F', tables; now rewrite Q). rewrite EF.
        assert (Iv := proj1 (La v J)).
        split; [exact (cpt_good D vt v _ _ Cp)|]. split; [|exact Fp]. intros x Jx.
        apply (cpt_vars D vt v _ _ x Cp) in Jx. destruct (T_ok m D F vt Net v Iv) as (pa & _ & _ & _ & HTx). apply HTx.
        rewrite in_preds in Jx. exact Jx. }
      assert (Hi : forall v, ~ In v act -> F' v = F v).
      { intros v J. unfold F', tables. now rewrite (Hz v J). }
      split.
      + assert (SP := still_possible m D F vt Net NN es Ke Me act F' (T m) HT Hg Hi). split.
        * split; [reflexivity|]. split; [auto|].
          split; [apply (nonnegative_new m D F vt Net NN es Ke Me act F' (T m) Hg Hi)|].
          split; [rewrite Gm; exact Gp|]. split; [exact Dp|]. split; [rewrite Gm; exact Ed|].
          split; [|exists tr; rewrite Gm; auto].
          intros r Jr Z. assert (P := SP [] (row_obs data r)). cbn [app] in P.
          assert (P' : (0 < mass D F' (row_obs data r))%Qc).
          { apply P; auto; [now apply in_map|intros v lv x _ Q; discriminate Q]. }
          rewrite Z in P'. discriminate P'.
        * intros v Tv Cv. rewrite Gm. destruct (Lr v Tv Cv) as (L1 & L2 & L3 & L4). split; [auto|]. split; [auto|]. split; [auto|].
          intros t At. destruct (L4 t At) as (r & Jr & Nz). exists r. split; [auto|]. intros Z.
          assert (P : (0 < mass D F' (t ++ row_obs data r))%Qc).
          { apply SP; auto; [now apply in_map|eapply assigns_known; eauto|].
            intros x Jx. rewrite (proj1 At) in Jx. apply in_preds in Jx. destruct (OR r Jr) as (_ & -> & _). auto. }
          rewrite Z in P. discriminate P.
      + split; [|split; [intros v Nv; apply Hi; intros J; apply Nv; now apply Ha in J|split; [exact Km|split]]].
        2:{ intros v Tv Cv. destruct (Hn v) as (p & Q & X); [now apply Ha|]. assert (EF : F' v = p) by (unfold F', tables; now rewrite Q). rewrite EF. exact X. }
        2:{ intros v Cv. apply Hi. intros J. now apply Ha in J. }
        assert (Gn := gain m D F vt Net NN es Ke Me act F' (T m) HT Hg Hi).
        unfold likelihood. rewrite !product_qprod. unfold es in Gn. rewrite !map_map in Gn. exact Gn.
    - intros (v & Tv & Cv & Nv).
      assert (Er : expectation query set_iter vt l = Raise TypeError).
      { rewrite Ex. apply (expect_raises m D F vt Net NN (l_prior l) Gp Dp query Hq E data (l_sub l) OD Ed Mr act Na La); [|auto].
        exists v. split; [apply Ha; auto|auto]. }
      unfold em_step, step. unfold em_calculate. rewrite Er. cbn [bind]. destruct l; reflexivity.
  Qed.
  Lemma step_more l m F : ready D vt E data l m F ->
    ((forall v, trains l v -> ~ has_converged l v -> informed (m_graph m) E v) ->
       exists m' F' l', estep l None = (l', None) /\ l_prior l' = l_prior l /\ l_sub l' = l_sub l /\
         model_evolution l' = model_evolution l ++ [m'] /\ m_graph m' = m_graph m /\ ready D vt E data l' m' F' /\
         (likelihood D F data <= likelihood D F' data)%Qc /\
         (forall v, ~ trains l v -> F' v = F v) /\ m_kind m' = built_kind m) /\
    ((exists v, trains l v /\ ~ has_converged l v /\ ~ informed (m_graph m) E v) -> estep l None = (l, Some TypeError)).
  Proof.
    intros R. destruct (step_most l m F R) as [A B]. split; [|exact B]. intros I.
    destruct (A I) as (m' & F' & l' & X1 & X2 & X3 & X4 & X5 & X6 & X7 & X8 & X9 & _). exists m', F', l'. auto 12.
  Qed.
  Lemma step_ready l m F : ready D vt E data l m F ->
    ((forall v, trains l v -> ~ has_converged l v -> informed (m_graph m) E v) ->
       exists m' F' l', estep l None = (l', None) /\ l_prior l' = l_prior l /\ l_sub l' = l_sub l /\
         model_evolution l' = model_evolution l ++ [m'] /\ m_graph m' = m_graph m /\ ready D vt E data l' m' F' /\
         (likelihood D F data <= likelihood D F' data)%Qc) /\
    ((exists v, trains l v /\ ~ has_converged l v /\ ~ informed (m_graph m) E v) -> estep l None = (l, Some TypeError)).
  Proof.
    intros R. destruct (step_more l m F R) as [A B]. split; [|exact B]. intros I.
    destruct (A I) as (m' & F' & l' & X1 & X2 & X3 & X4 & X5 & X6 & X7 & _). exists m', F', l'. auto 10.
  Qed.
End TheStep.
