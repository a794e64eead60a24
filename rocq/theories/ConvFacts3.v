(** Filling a model with random tables: networks, models refilled, and the
    cases where an exception is raised. *)

From Coq Require Import String Bool Arith ZArith QArith Qcanon Lia Permutation List.
From Verif Require Import PyBase PyFacts Num DomainModel NdArray StoreModel NumStore FactorModel GenModel GenSpec Spec StoreSpec DomainFacts StoreFacts
  NumFacts PropFacts1 FactorSpec FactorFacts FactorFacts2 FactorFacts3 GenFacts GenFacts2 GenFacts3 GraphModel GraphSpec GraphFacts
  ModelModel ModelSpec ModelFacts NetSpec NetSem FactorSem NetFacts VeFacts4 BuildFacts BuildFacts2 InferModel InferChecks CausalModel CausalSpec
  CausalFacts BigSum UaiModel UaiFacts4 LearnModel EmFacts3 AggModel ConvModel ConvSpec ConvFacts ConvFacts2.
From Coq Require Import List.
Import ListNotations.
Local Open Scope nat_scope.
Local Arguments eqd : simpl never.

Lemma fresh_prepared D g check k : wf_graph g -> acyclic g -> prepared D (fresh g check k).
Proof. intros Wg Ac. eapply partial_prepared; eauto. apply partial_fresh. Qed.

Lemma pick_same (D : domain) S T : (forall v, In v (keys D) -> (In v S <-> In v T)) -> pick S D = pick T D.
Proof.
  intros E. unfold pick. apply filter_ext_in. intros [v l] I. cbn [fst]. apply (in_map fst) in I. cbn in I. specialize (E v I).
  destruct (mem v S) eqn:A, (mem v T) eqn:B; auto.
  - apply mem_In in A. apply mem_nIn in B. tauto.
  - apply mem_nIn in A. apply mem_In in B. tauto.
Qed.
Lemma pick_all' (D : domain) S : incl (keys D) S -> pick S D = D.
Proof.
  intros E. unfold pick. assert (H : forall vl, In vl D -> mem (fst vl) S = true) by (intros [v l] I; apply mem_In, E; apply (in_map fst) in I; exact I).
  clear E. induction D as [|x D IH]; [reflexivity|]. cbn [filter]. rewrite H by now left. f_equal. apply IH. intros y J. apply H. now right.
Qed.
Lemma drop_same (D : domain) S T : (forall v, In v (keys D) -> (In v S <-> In v T)) -> drop S D = drop T D.
Proof.
  intros E. unfold drop. apply filter_ext_in. intros [v l] I. cbn [fst]. apply (in_map fst) in I. cbn in I. specialize (E v I).
  destruct (mem v S) eqn:A, (mem v T) eqn:B; auto.
  - apply mem_In in A. apply mem_nIn in B. tauto.
  - apply mem_nIn in A. apply mem_In in B. tauto.
Qed.
Lemma drawn_same dom r r' az xs : (forall v, In v r <-> In v r') -> drawn_for dom r az xs -> drawn_for dom r' az xs.
Proof.
  intros E (L & Q & P). split; [auto|]. split; [auto|]. intros A o Fo.
  rewrite <- (pick_same dom r r') in Fo by auto. rewrite <- (drop_same dom r r') by auto. now apply P.
Qed.

(** ** Bayesian networks *)

Lemma bn_fill_ok dflt draw D m : usable D -> prepared D m -> incl (nodes (m_graph m)) (keys D) -> m_kind m = KBn ->
  (forall v, In v (nodes (m_graph m)) -> drawn_for (pick (v :: preds (m_graph m) v) D) (preds (m_graph m) v) true (draw v)) ->
  exists m' F, bn_randomize_factors dflt draw D m = (m', None) /\
    network m' (pick (nodes (m_graph m)) D) F dflt /\ m_graph m' = m_graph m /\ m_kind m' = KBn /\ prepared D m'.
Proof.
  intros U Pr SD Ek Hd. set (g := m_graph m) in *. assert (WD := usable_wf _ U).
  assert (Wg : wf_graph g) by apply Pr. assert (Ac : acyclic g) by apply Pr.
  assert (Hdom : forall v ps, (forall y, In y ps <-> In y (preds g v)) ->
     filter (fun xd => (if eqd (fst xd) v then true else false) || mem (fst xd) ps) D = pick (v :: preds g v) D).
  { intros v ps E. unfold pick. apply filter_ext_in. intros [w l] _. cbn [fst].
    destruct (eqd w v) as [->|N].
    - cbn [orb]. symmetry. apply mem_In. now left.
    - cbn [orb]. destruct (mem w ps) eqn:A, (mem w (v :: preds g v)) eqn:B; auto.
      + apply mem_In, E in A. apply mem_nIn in B. exfalso. apply B. now right.
      + apply mem_nIn in A. apply mem_In in B. destruct B as [B|B]; [congruence|]. exfalso. apply A, E, B. }
  assert (Hps : forall v, In v (nodes g) -> exists ps, get_parents g [v] = Ok ps /\ NoDup ps /\ forall y, In y ps <-> In y (preds g v)).
  { intros v Iv. destruct (get_parents_ok g [v]) as (ps & Ep & Nps & Hp). { intros x [<-|[]]. auto. }
    exists ps. split; [auto|]. split; [auto|]. intros y. rewrite Hp, in_preds. split; [intros (w & [<-|[]] & A); auto|intros A; exists v; split; auto; now left]. }
  destruct (choice_list no_table (fun v f => (let* ps := get_parents g [v] in
       let dom := filter (fun xd => (if eqd (fst xd) v then true else false) || mem (fst xd) ps) D in
       random_multinomial dom ps dflt true (draw v)) = Ok f /\ cpt D dflt v (preds g v) f) (nodes g)) as (G & HG).
  { intros v Iv. destruct (Hps v Iv) as (ps & Ep & Nps & Hp). rewrite Ep. cbn [bind]. cbv zeta. rewrite (Hdom v ps Hp).
    destruct (drawn_table dflt D g Ac (pick (v :: preds g v) D) ps v true (draw v) Iv) as (f & Ef & C & _); auto.
    - now apply usable_pick.
    - intros w. rewrite keys_pick, in_app_iff. cbn [In]. split; [tauto|]. intros J. split; [|tauto]. apply SD.
      destruct J as [J|[<-|[]]]; [|auto]. apply in_preds in J. apply (proj2 (proj2 Wg) w v), J.
    - intros w l J. apply filter_In in J. apply J.
    - apply (drawn_same _ (preds g v)); [|now apply Hd]. intros y. now rewrite Hp.
    - eauto. }
  destruct (prepared_partial D g (m_check m) KBn m Pr eq_refl eq_refl Ek) as (done & P0).
  destruct (fill_loop D (proj1 WD) g (m_check m) KBn
      (fun m v => set_computed m v (let* ps := get_parents (m_graph m) [v] in
                let dom := filter (fun xd => (if eqd (fst xd) v then true else false) || mem (fst xd) ps) D in
                random_multinomial dom ps dflt true (draw v))) G (nodes g)) with (done := done) (m := m) as (m' & Em & P'); auto.
  - intros v Iv. destruct (HG v Iv) as (_ & C). eapply accept_table; eauto. discriminate.
  - intros m1 d1 v Iv P1. rewrite (proj1 P1). f_equal. apply HG, Iv.
  - exists m', G. split; [exact Em|]. split; [|split; [apply P'|split; [apply P'|eapply partial_prepared; eauto]]].
    eapply full_network; [exact WD|exact Wg|exact Ac|exact SD|exact P'| |].
    + intros v Iv. now apply HG.
    + intros v Iv. rewrite loop_put. apply mem_In in Iv. now rewrite Iv.
Qed.

(** ** Exogenous variables with parents *)

Lemma marginals_bad dflt draw D m endo cast x u : usable D -> prepared D m -> incl (nodes (m_graph m)) (keys D) ->
  m_kind m = KScm endo cast -> m_check m = true -> arc (m_graph m) x u -> ~ In u endo ->
  (forall w l, In w (nodes (m_graph m)) -> ~ In w endo -> In (w, l) D -> drawn_for [(w, l)] [] true (draw w)) ->
  exists m', fill_random_marginals dflt draw D m = (m', Some ValueError).
Proof.
  intros U Pr SD Ek Ec A Nu Hd. set (g := m_graph m) in *. assert (WD := usable_wf _ U).
  assert (Wg : wf_graph g) by apply Pr. assert (Ac : acyclic g) by apply Pr.
  set (exo := filter (fun v => negb (mem v endo)) (nodes g)).
  assert (He : forall u, In u exo <-> In u (nodes g) /\ ~ In u endo).
  { intros w. unfold exo. rewrite filter_In, negb_true_iff. rewrite mem_nIn. tauto. }
  destruct (choice_list no_table (fun u f => (let* dom := subdomain D [u] in random_multinomial dom [] dflt true (draw u)) = Ok f /\
              wf_mf f /\ (preds g u = [] -> cpt D dflt u (preds g u) f) /\ mf_right f = []) exo) as (G & HG).
  { intros w I. apply He in I as [I N]. assert (K := SD w I). apply dget_keys in K as (l & El). apply dget_In in El.
    destruct (one_dom D U w l El) as [Es Us]. rewrite Es. cbn [bind]. destruct (Hd w l I N El) as (L & Q & Pz).
    destruct (random_multinomial_ok [(w, l)] [] dflt true (draw w) Us) as (f & Ef & W & _ & R & _); auto; [constructor|intros v []|].
    exists f. split; [auto|]. split; [auto|]. split; [|auto]. intros Ep.
    destruct (drawn_table dflt D g Ac [(w, l)] [] w true (draw w) I Us) as (f' & Ef' & C & _).
    - constructor.
    - rewrite Ep. intros y; tauto.
    - rewrite Ep. intros y; tauto.
    - intros v l' [E|[]]. injection E as <- <-. auto.
    - now apply Hd.
    - congruence. }
  destruct (prepared_partial D g (m_check m) (KScm endo cast) m Pr eq_refl eq_refl Ek) as (done & P0).
  unfold fill_random_marginals.
  assert (E0 : scm_exogenous m = exo) by (unfold scm_exogenous, scm_endogenous; now rewrite Ek).
  rewrite E0.
  apply (loop_raises D (proj1 WD) g (m_check m) (KScm endo cast) (fun _ => True) _ G (fun v => 0 <? length (preds g v))) with (done := done); auto.
  - intros w I Bw. destruct (HG w I) as (_ & _ & C & _). apply He in I as [I N]. assert (Ep : preds g w = []) by (destruct (preds g w); [reflexivity|discriminate]).
    eapply accept_table; eauto. intros e c E J. injection E as <- <-. contradiction.
  - intros m1 d1 w I _ P1. f_equal. apply HG, I.
  - intros m1 d1 w I Bw P1. destruct (HG w I) as (_ & W & _ & R). apply He in I as [I N].
    unfold set_factor. rewrite (proj1 (proj2 (proj2 P1))). unfold scm_prepare. apply mem_nIn in N. rewrite N.
    unfold set_factor_base. rewrite (proj1 (proj2 P1)), Ec. unfold check_factor. rewrite (proj1 P1).
    destruct (get_parents_ok g [w]) as (ps & Ep & _ & Hp). { intros y [<-|[]]. auto. }
    rewrite Ep. cbn [bind fo_right]. rewrite R.
    assert (E1 : set_eqb ps [] = false).
    { destruct (preds g w) as [|p r] eqn:Epr; [discriminate|]. assert (J : In p ps) by (apply Hp; exists w; split; [now left|apply in_preds; rewrite Epr; now left]).
      destruct ps as [|p' ps]; [destruct J|]. reflexivity. }
    rewrite E1. reflexivity.
  - exists u. split.
    + apply He. split; [apply (proj2 (proj2 Wg) x u), A|auto].
    + apply in_preds in A. destruct (preds g u); [destruct A|reflexivity].
Qed.

(** ** randomize_factors of a causal model *)

Section Randomize.
  Variables (m : pgm) (D : domain) (F : var -> mfactor) (vt : vtype) (endo : list var) (cast : bool).
  Hypothesis H : causal m D F vt endo cast.
  Notation g := (m_graph m).

  Lemma causal_usable : usable D.
  Proof.
    destruct H as (_ & Wg & _ & WD & SD & _ & _ & Hv & _). split; [auto|].
    assert (Hu : forall v l, In (v, l) D -> exists f, wf_mf f /\ In (v, l) (mf_domain f)).
    { intros v l I. assert (Iv : In v (nodes g)) by (apply SD, keys_In; eauto). destruct (Hv v Iv) as (f & _ & _ & C & _).
      destruct (cpt_dom _ _ _ _ _ C (proj1 WD)) as (l' & J & J'). exists (F v). split; [apply C|].
      assert (l' = l).
      { assert (A := In_dget _ _ _ (proj1 WD) I). rewrite (In_dget _ _ _ (proj1 WD) J') in A. congruence. }
      now subst. }
    split.
    - intros v l x y I. destruct (Hu v l I) as (f & (_ & (_ & T & _) & _) & J). now apply (T v).
    - intros v s I. apply keys_In in I as (l & I). destruct (Hu v l I) as (f & (_ & (_ & _ & S) & _) & J). apply S. apply keys_In. eauto.
  Qed.

  Definition objects (v : var) : option fobj := match dget v (m_factors m) with Some o => o | None => None end.
  Lemma objects_ok v : In v (nodes g) -> exists f, stored m v f /\ objects v = Some f /\ tabulates v f (F v) /\
     cpt D vt v (preds g v) (F v) /\ (In v endo -> zero_one (F v) /\ (cast = true -> f = FM (F v))).
  Proof.
    intros Iv. destruct H as (_ & _ & _ & _ & _ & _ & _ & Hv & _). destruct (Hv v Iv) as (f & St & Hf). exists f.
    split; [auto|]. split; [unfold objects; unfold stored in St; now rewrite St|auto].
  Qed.

  Lemma copy_partial : exists m0, m_copy m = Ok m0 /\ partial D g true (KScm endo cast) objects m0.
  Proof.
    assert (H0 := H). destruct H0 as (K & Wg & Ac & WD & SD & NF & SF & Hv & Ar).
    unfold m_copy, m_builder. rewrite K.
    assert (Ee := causal_endo m D F vt endo cast H g Wg (fun x y A => A)).
    set (T := fun v => match objects v with Some f => f | None => FObj end).
    assert (Hfd : forall v f, In (v, f) (m_factor_dict m) -> In v (nodes g) /\ stored m v f).
    { intros v f I. apply factor_dict_In in I as [Iv St]; [|exact NF|].
      - apply SF in Iv. auto.
      - intros w Iw. apply SF in Iw. destruct (Hv w Iw) as (f1 & ? & _). eauto. }
    destruct (scm_complete D g true cast (Some endo) (m_factor_dict m) (m_factor_dict m) T (proj1 WD) Wg Ac) as (m1 & Em & Cm & Ck & Kk).
    - rewrite Ee. apply zip_dict. intros [v f] I. split; [reflexivity|]. cbn [fst snd]. destruct (Hfd v f I) as [Iv St].
      destruct (objects_ok v Iv) as (f0 & S0 & _ & Tb & C & Z). assert (f0 = f) by (unfold stored in *; congruence). subst f0.
      eapply accept_scm; eauto. apply WD.
    - intros v f I. destruct (Hfd v f I) as [Iv St]. destruct (objects_ok v Iv) as (f0 & S0 & E & _). unfold T. rewrite E. unfold stored in *. congruence.
    - intros v Iv. rewrite factor_dict_keys. now apply SF.
    - exists m1. split; [exact Em|]. destruct Cm as (Cg & Cf & Cd & Cs & Ch). rewrite Ee in Kk.
      split; [auto|]. split; [auto|]. split; [auto|]. split; [auto|]. split; [auto|]. split.
      + intros v Iv. destruct (objects_ok v Iv) as (f & St & E & _). specialize (Cs v Iv). unfold stored, T in *. now rewrite E in *.
      + intros v Iv. destruct (objects_ok v Iv) as (f & St & E & _). rewrite E. destruct (Ch v Iv) as (l & Hl & J). eauto.
  Qed.

  Lemma place_partial : prepared D m -> partial D g (m_check m) (KScm endo cast) objects m.
  Proof.
    intros (Wg & Ac & Kf & Kd & Hv). split; [auto|]. split; [auto|]. split; [apply H|]. split; [auto|]. split; [auto|]. split.
    - intros v Iv. destruct (objects_ok v Iv) as (f & St & E & _). rewrite E. exact St.
    - intros v Iv. destruct (objects_ok v Iv) as (f & St & E & _). rewrite E.
      destruct (Hv v Iv) as [[E1 _]|(f' & l & _ & Hl & J)]; [unfold stored in *; congruence|]. eauto.
  Qed.

  Definition complete_done (done : var -> option fobj) : Prop := forall v, In v (nodes g) -> done v <> None.
  Lemma objects_complete : complete_done objects.
  Proof. intros v Iv. destruct (objects_ok v Iv) as (f & _ & E & _). congruence. Qed.
  Lemma complete_upd done x f : complete_done done -> complete_done (fun w => if eqd w x then Some f else done w).
  Proof. intros C v Iv. destruct (eqd v x); [discriminate|now apply C]. Qed.

  Lemma partial_domains check k done m0 : complete_done done -> partial D g check k done m0 ->
    NoDup (keys (known_domains m0)) /\ (forall v l, In v (nodes g) -> In (v, l) D -> In (v, l) (known_domains m0)) /\
    (forall v, dget v (m_domains m0) <> Some None).
  Proof.
    intros C (_ & _ & _ & _ & Kd & _ & Hd). assert (H0 := H). destruct H0 as (K & Wg & Ac & WD & SD & NF & SF & Hv & Ar).
    assert (ND : NoDup (keys (m_domains m0))) by (rewrite Kd; apply Wg). split; [now apply known_domains_NoDup|].
    assert (Hs : forall v, In v (nodes g) -> exists l, dget v (m_domains m0) = Some (Some l) /\ In (v, l) D).
    { intros v Iv. destruct (Hd v Iv) as (o & E & S). specialize (C v Iv). destruct (done v); [|congruence].
      destruct S as (l & -> & J). eauto. }
    split.
    - intros v l Iv J. apply known_domains_In. destruct (Hs v Iv) as (l' & E & J').
      assert (l' = l).
      { assert (A := In_dget _ _ _ (proj1 WD) J). rewrite (In_dget _ _ _ (proj1 WD) J') in A. congruence. }
      subst. now apply dget_In.
    - intros v E. assert (Iv : In v (nodes g)) by (rewrite <- Kd; apply dget_keys; eauto). destruct (Hs v Iv) as (l & E' & _). congruence.
  Qed.

  Variables (vars : list var) (az : bool) (draw : var -> list num).
  Hypothesis Iv : incl vars (nodes g).
  Hypothesis Hd : forall x, In x vars -> drawn_for (order_dom D (preds g x ++ [x])) (preds g x) az (draw x).

  Definition body (m : pgm) (x : var) : pgm * option err :=
    set_computed m x (
      let* vs := relevat_vars (m_graph m) x in
      if existsb (fun w => match dget w (m_domains m) with Some None => true | _ => false end) vs
      then Raise TypeError else
      let* dom := var_parents_domain (known_domains m) (m_graph m) x in
      random_multinomial dom (others x dom) vt az (draw x)).

  Lemma tables_drawn : exists G, (forall x, In x vars -> cpt D vt x (preds g x) (G x) /\
      (az = false -> forall o, full (mf_domain (G x)) o -> exists q, mf_get_value (G x) o = Ok (Fin q) /\ (0 < q)%Qc) /\
      random_multinomial (order_dom D (preds g x ++ [x])) (preds g x) vt az (draw x) = Ok (G x)) /\
    forall check k m0 done x, In x vars -> complete_done done -> partial D g check k done m0 -> body m0 x = set_computed m0 x (Ok (G x)).
  Proof.
    assert (H0 := H). destruct H0 as (K & Wg & Ac & WD & SD & NF & SF & Hv & Ar).
    assert (SD' : incl (nodes g) (keys D)) by (intros v J; now apply SD).
    destruct (choice_list no_table (fun x f => random_multinomial (order_dom D (preds g x ++ [x])) (preds g x) vt az (draw x) = Ok f /\
       cpt D vt x (preds g x) f /\
       (az = false -> forall o, full (mf_domain f) o -> exists q, mf_get_value f o = Ok (Fin q) /\ (0 < q)%Qc)) vars) as (G & HG).
    { intros x Ix. assert (Nx := Iv x Ix).
      destruct (drawn_table vt D g Ac (order_dom D (preds g x ++ [x])) (preds g x) x az (draw x) Nx) as (f & Ef & C & Pf & _).
      - apply family_usable; auto. apply causal_usable.
      - apply preds_NoDup, Wg.
      - intros y; tauto.
      - rewrite order_dom_keys. intros y; tauto.
      - intros v l J. apply (family_In D causal_usable g Wg SD' x v l Nx J).
      - now apply Hd.
      - eauto. }
    exists G. split; [intros x Ix; destruct (HG x Ix) as (a & b & c); auto|].
    intros check k m0 done x Ix C P. unfold body. f_equal.
    destruct (partial_domains check k done m0 C P) as (N & Sub & Nn). rewrite (proj1 P).
    unfold relevat_vars, predecessors. assert (M := Iv x Ix). apply mem_In in M. rewrite M. cbn [bind].
    assert (Ex : existsb (fun w => match dget w (m_domains m0) with Some None => true | _ => false end) (preds g x ++ [x]) = false).
    { apply not_true_iff_false. intros E. apply existsb_exists in E as (w & _ & E). specialize (Nn w).
      destruct (dget w (m_domains m0)) as [[l|]|]; congruence. }
    rewrite Ex. rewrite (family_ok D g Wg Ac SD' (known_domains m0) x) by auto. cbn [bind].
    rewrite (others_family D g Ac x) by auto. apply HG, Ix.
  Qed.

  (** The variables are not endogenous: their tables are replaced. *)
  Section Exogenous.
    Hypothesis Nv : forall x, In x vars -> ~ In x endo.

    Lemma randomize_run check m0 : partial D g check (KScm endo cast) objects m0 ->
      exists m' F', for_each body vars m0 = (m', None) /\ causal m' D F' vt endo cast /\ m_graph m' = g /\
        (forall v, In v (nodes g) -> ~ In v vars -> F' v = F v) /\
        (forall v f, stored m v f -> ~ In v vars -> stored m' v f) /\
        (forall x, In x vars -> stored m' x (FM (F' x)) /\
           random_multinomial (order_dom D (preds g x ++ [x])) (preds g x) vt az (draw x) = Ok (F' x)) /\
        prepared D m'.
    Proof.
      intros P0. assert (H0 := H). destruct H0 as (K & Wg & Ac & WD & SD & NF & SF & Hv & Ar).
      destruct tables_drawn as (G & HG & HB).
      destruct (fill_loop_inv D (proj1 WD) g check (KScm endo cast) complete_done body G vars complete_upd) with (done := objects) (m := m0) as (m' & Em & P'); auto.
      - intros x Ix. eapply accept_table; [now apply Iv|apply HG, Ix|]. intros e c E J. injection E as <- <-. exfalso. eapply Nv; eauto.
      - intros m1 d1 x Ix C P. eapply HB; eauto.
      - apply objects_complete.
      - set (F' := fun v => if mem v vars then G v else F v). exists m', F'. split; [exact Em|].
        set (T := fun v => if mem v vars then FM (G v) else match objects v with Some f => f | None => FObj end).
        split; [|split; [apply P'|split; [|split; [|split; [|eapply partial_prepared; eauto]]]]].
        + rewrite <- (pick_all' D (nodes g)) by (intros v J; now apply SD).
          eapply full_causal with (T := T); [exact WD|exact Wg|exact Ac|intros v J; now apply SD|exact P'| |reflexivity|exact Ar|].
          * intros v Iv'. unfold F'. destruct (mem v vars) eqn:M; [apply HG; now apply mem_In|]. now destruct (objects_ok v Iv') as (f & _ & _ & _ & C & _).
          * intros v Iv'. rewrite loop_put. unfold T, F'. destruct (mem v vars) eqn:M.
            -- split; [auto|]. split; [reflexivity|]. intros J. apply mem_In in M. exfalso. eapply Nv; eauto.
            -- destruct (objects_ok v Iv') as (f & _ & E & Tb & _ & Z). rewrite E. auto.
        + intros v _ N. unfold F'. apply mem_nIn in N. now rewrite N.
        + intros v f St N. assert (Jv : In v (nodes g)) by (apply SF, dget_keys; eauto).
          destruct P' as (_ & _ & _ & _ & _ & p6 & _). unfold stored. rewrite (p6 v Jv), loop_put. apply mem_nIn in N. rewrite N.
          destruct (objects_ok v Jv) as (f0 & S0 & E & _). rewrite E. unfold stored in *. congruence.
        + intros x Ix. assert (M := Ix). apply mem_In in M. unfold F'. rewrite M. split; [|apply HG, Ix].
          destruct P' as (_ & _ & _ & _ & _ & p6 & _). unfold stored. rewrite (p6 x (Iv x Ix)), loop_put, M. reflexivity.
    Qed.
  End Exogenous.

  (** An endogenous variable with at least two states gets a table without
      zeros: it is refused. *)
  Lemma randomize_bad check m0 x l : az = false -> check = true -> In x vars -> In x endo -> In (x, l) D -> 2 <= length l ->
    partial D g check (KScm endo cast) objects m0 -> exists m', for_each body vars m0 = (m', Some ValueError).
  Proof.
    intros Ez Ec Ix Ie Il L2 P0. assert (H0 := H). destruct H0 as (K & Wg & Ac & WD & SD & NF & SF & Hv & Ar).
    destruct tables_drawn as (G & HG & HB).
    assert (Hdeg : forall y, In y vars -> exists b, mf_is_degenerate (G y) = Ok b /\ (b = true <-> zero_one (G y))).
    { intros y Iy. apply is_degenerate_ok. apply HG, Iy. }
    apply (loop_raises D (proj1 WD) g check (KScm endo cast) complete_done body G
             (fun y => mem y endo && match mf_is_degenerate (G y) with Ok b => negb b | _ => false end) ValueError vars complete_upd) with (done := objects); auto.
    - intros y Iy B. eapply accept_table; [now apply Iv|apply HG, Iy|]. intros e c E J. injection E as <- <-.
      destruct (Hdeg y Iy) as (b & Eb & Hb). rewrite Eb in B. apply mem_In in J. rewrite J in B. cbn in B. apply Hb. now destruct b.
    - intros m1 d1 y Iy C P. eapply HB; eauto.
    - intros m1 d1 y Iy B P1. apply andb_true_iff in B as [B1 B2]. unfold set_factor. rewrite (proj1 (proj2 (proj2 P1))).
      unfold scm_prepare. rewrite B1, (proj1 (proj2 P1)), Ec. destruct (mf_is_degenerate (G y)) as [b|]; [|discriminate]. cbn [bind].
      rewrite B2. reflexivity.
    - exists x. split; [auto|]. assert (M := Ie). apply mem_In in M. rewrite M. cbn [andb].
      destruct (Hdeg x Ix) as (b & Eb & Hb). rewrite Eb. destruct b; [|reflexivity]. exfalso.
      assert (Z := proj1 Hb eq_refl). destruct (HG x Ix) as (C & Pos & _). specialize (Pos Ez).
      assert (Lx := cpt_left _ _ _ _ _ C). destruct (cpt_dom _ _ _ _ _ C (proj1 WD)) as (l' & J & J').
      assert (El : l' = l) by (assert (A := In_dget _ _ _ (proj1 WD) J'); rewrite (In_dget _ _ _ (proj1 WD) Il) in A; congruence). subst l'.
      assert (Wf := proj1 C). assert (Wd := usable_wf _ (proj1 (proj2 Wf))).
      destruct (some_valid _ Wd) as (a & Va).
      set (o := obs_of (keys (mf_domain (G x))) a).
      assert (Fo : full (mf_domain (G x)) o).
      { intros v k I. exists (a v). split; [|now apply (Va v k)]. unfold o. rewrite obs_of_get; [reflexivity|]. apply keys_In. eauto. }
      destruct (table_function x l (G x) Wf Lx J Z) with (o := o) as (y & Iy & Hy).
      { apply C. } { intros v k I. apply Fo. apply filter_In in I. apply I. }
      destruct (proj2 WD x l Il) as [Nl _].
      assert (Es : exists s, In s l /\ s <> y).
      { destruct l as [|s1 [|s2 r]]; cbn in L2; try lia. destruct (eqd s1 y) as [->|N1].
        - exists s2. split; [right; now left|]. intros ->. apply NoDup_cons_iff in Nl as [N _]. apply N. now left.
        - exists s1. split; [now left|auto]. }
      destruct Es as (s & Is & Ns). specialize (Hy s Is). rewrite eqd_neq in Hy by congruence.
      destruct (Pos ((x, s) :: o)) as (q & Eq & Pq).
      { intros v k I. cbn [dget]. destruct (eqd v x) as [->|N]; [|now apply Fo]. exists s. split; [auto|].
        assert (k = l) by (assert (A := In_dget _ _ _ (proj1 Wd) I); rewrite (In_dget _ _ _ (proj1 Wd) J) in A; congruence). now subst. }
      rewrite Hy in Eq. injection Eq as <-. now apply Qclt_irrefl0 in Pq.
    - apply objects_complete.
  Qed.

  Lemma foldM_for_each m0 : forall xs, match for_each body xs m0 with
    | (m', None) => foldM (fun m x =>
           let* vs := relevat_vars (m_graph m) x in
           if existsb (fun w => match dget w (m_domains m) with Some None => true | _ => false end) vs
           then Raise TypeError else
           let* dom := var_parents_domain (known_domains m) (m_graph m) x in
           let* f := random_multinomial dom (filter (fun v => if eqd x v then false else true) (keys dom)) vt az (draw x) in
           match set_factor m x (FM f) with
           | (m, None) => Ok m
           | (_, Some e) => Raise e
           end) xs m0 = Ok m'
    | (_, Some e) => foldM (fun m x =>
           let* vs := relevat_vars (m_graph m) x in
           if existsb (fun w => match dget w (m_domains m) with Some None => true | _ => false end) vs
           then Raise TypeError else
           let* dom := var_parents_domain (known_domains m) (m_graph m) x in
           let* f := random_multinomial dom (filter (fun v => if eqd x v then false else true) (keys dom)) vt az (draw x) in
           match set_factor m x (FM f) with
           | (m, None) => Ok m
           | (_, Some e) => Raise e
           end) xs m0 = Raise e
    end.
  Proof.
    intros xs. revert m0. induction xs as [|x xs IH]; intros m0; [reflexivity|]. cbn [for_each foldM]. unfold body at 1. unfold set_computed.
    destruct (relevat_vars (m_graph m0) x) as [vs|e]; cbn [bind]; [|reflexivity].
    destruct (existsb _ vs); [reflexivity|].
    destruct (var_parents_domain (known_domains m0) (m_graph m0) x) as [dom|e]; cbn [bind]; [|reflexivity].
    unfold others. destruct (random_multinomial dom _ vt az (draw x)) as [f|e]; cbn [bind]; [|reflexivity].
    destruct (set_factor m0 x (FM f)) as [m1 [e|]]; cbn [bind]; [reflexivity|]. apply IH.
  Qed.

  Lemma randomize_copy_ok : (forall x, In x vars -> ~ In x endo) ->
    exists m' F', randomize_factors vt m vars az draw = Ok m' /\ causal m' D F' vt endo cast /\ m_graph m' = g /\
      (forall v, In v (nodes g) -> ~ In v vars -> F' v = F v) /\
      (forall v f, stored m v f -> ~ In v vars -> stored m' v f) /\
      (forall x, In x vars -> stored m' x (FM (F' x)) /\
         random_multinomial (order_dom D (preds g x ++ [x])) (preds g x) vt az (draw x) = Ok (F' x)) /\
      prepared D m'.
  Proof.
    intros Nv. destruct copy_partial as (m0 & E0 & P0). destruct (randomize_run Nv true m0 P0) as (m' & F' & Em & R).
    exists m', F'. split; [|exact R]. unfold randomize_factors. rewrite E0. cbn [bind].
    assert (S := foldM_for_each m0 vars). rewrite Em in S. exact S.
  Qed.
  Lemma randomize_place_ok : prepared D m -> (forall x, In x vars -> ~ In x endo) ->
    exists m' F', randomize_in_place vt draw vars az m = (m', None) /\ causal m' D F' vt endo cast /\ m_graph m' = g /\
      (forall v, In v (nodes g) -> ~ In v vars -> F' v = F v) /\
      (forall v f, stored m v f -> ~ In v vars -> stored m' v f) /\
      (forall x, In x vars -> stored m' x (FM (F' x)) /\
         random_multinomial (order_dom D (preds g x ++ [x])) (preds g x) vt az (draw x) = Ok (F' x)) /\
      prepared D m'.
  Proof. intros Pr Nv. apply (randomize_run Nv (m_check m) m). now apply place_partial. Qed.
  Lemma randomize_copy_bad x l : az = false -> In x vars -> In x endo -> In (x, l) D -> 2 <= length l ->
    randomize_factors vt m vars az draw = Raise ValueError.
  Proof.
    intros Ez Ix Ie Il L2. destruct copy_partial as (m0 & E0 & P0).
    destruct (randomize_bad true m0 x l Ez eq_refl Ix Ie Il L2 P0) as (m' & Em). unfold randomize_factors. rewrite E0. cbn [bind].
    assert (S := foldM_for_each m0 vars). rewrite Em in S. exact S.
  Qed.
End Randomize.

(** ** Models without tables *)

Lemma new_scm D g endo cast check : wf_graph g -> acyclic g ->
  exists m0, scm_init (GDag g) None endo cast check = Ok m0 /\ prepared D m0 /\ m_graph m0 = g /\ m_check m0 = check /\
    m_kind m0 = KScm (scm_endo g endo) cast.
Proof.
  intros Wg Ac. exists (fresh g check (KScm (scm_endo g endo) cast)). split; [|split; [now apply fresh_prepared|auto]].
  unfold scm_init. destruct (initialize_ok g Wg) as [E _]. rewrite (E Ac). cbn [bind]. rewrite scm_endo_ok. reflexivity.
Qed.
Lemma new_bn D g check : wf_graph g -> acyclic g ->
  exists m0, bn_init (GDag g) None check = Ok m0 /\ prepared D m0 /\ m_graph m0 = g /\ m_kind m0 = KBn.
Proof.
  intros Wg Ac. exists (fresh g check KBn). split; [|split; [now apply fresh_prepared|auto]].
  unfold bn_init. destruct (initialize_ok g Wg) as [E _]. rewrite (E Ac). reflexivity.
Qed.

Lemma fill_new dflt choose draw g D cast check : wf_graph g -> acyclic g -> usable D -> incl (nodes g) (keys D) ->
  (forall x j v l, (exists y, arc g y x) -> In (v, l) D -> choose x j v < length l) ->
  (forall u l, In u (nodes g) -> (forall y, ~ arc g y u) -> In (u, l) D -> drawn_for [(u, l)] [] true (draw u)) ->
  exists m0 m F endo, scm_init (GDag g) None None cast check = Ok m0 /\ fill_random_factors dflt choose draw D m0 = (m, None) /\
    m_graph m = g /\ children_of g endo /\ causal m (pick (nodes g) D) F dflt endo cast /\
    (forall v, In v (nodes g) -> stored m v (FM (F v))) /\ prepared D m.
Proof.
  intros Wg Ac U SD Hc Hd. assert (Hn := nonroots g Wg).
  destruct (new_scm D g None cast check Wg Ac) as (m0 & E0 & P0 & G0 & _ & K0).
  destruct (fill_ok dflt choose draw D m0 (scm_endo g None) cast U P0) as (m & F & Em & C & Gm & St & P); rewrite ?G0; auto.
  - intros v J. apply Hn in J as (x & A). apply (proj2 (proj2 Wg) x v), A.
  - intros x j v l J. apply Hc. now apply Hn.
  - intros x v A. apply Hn. eauto.
  - intros u l Iu N. apply Hd; auto. intros y A. apply N, Hn. eauto.
  - exists m0, m, F, (scm_endo g None). rewrite G0 in *. auto 8.
Qed.

Lemma bn_fill_new dflt draw g D check : wf_graph g -> acyclic g -> usable D -> incl (nodes g) (keys D) ->
  (forall v, In v (nodes g) -> drawn_for (pick (v :: preds g v) D) (preds g v) true (draw v)) ->
  exists m0 m F, bn_init (GDag g) None check = Ok m0 /\ bn_randomize_factors dflt draw D m0 = (m, None) /\
    m_graph m = g /\ network m (pick (nodes g) D) F dflt.
Proof.
  intros Wg Ac U SD Hd. destruct (new_bn D g check Wg Ac) as (m0 & E0 & P0 & G0 & K0).
  destruct (bn_fill_ok dflt draw D m0 U P0) as (m & F & Em & C & Gm & _); rewrite ?G0; auto.
  exists m0, m, F. rewrite G0 in *. auto.
Qed.

(** ** The joint distribution *)

Lemma same_joint D F F' : wf_dom D -> same_tables D F F' ->
  (forall o, full D o -> joint F' (keys D) o = joint F (keys D) o) /\ forall o, mass D F' o = mass D F o.
Proof.
  intros WD S. assert (E : forall o, full D o -> joint F' (keys D) o = joint F (keys D) o).
  { intros o Fo. unfold joint. f_equal. apply map_ext_in. intros v J. now apply S. }
  split; [exact E|]. intros o. unfold mass. f_equal. apply map_ext_in. intros p J. apply filter_In in J as [J _].
  apply E. now apply (all_assignments_In_full D p (proj1 WD)) in J.
Qed.
