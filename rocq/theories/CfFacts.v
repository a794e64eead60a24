(** Networks whose equations are functions: every unit has exactly one
    solution, and masses are sums over units. *)

From Coq Require Import String Bool Arith ZArith QArith Qcanon Lia Permutation List.
From Verif Require Import PyBase PyFacts Num DomainModel NdArray StoreModel NumStore FactorModel Spec StoreSpec DomainFacts StoreFacts
  NumFacts PropFacts1 BigSum FactorSpec FactorFacts FactorFacts2 FactorFacts3 GraphModel GraphSpec GraphFacts ModelModel ModelSpec ModelFacts
  NetSpec NetSem FactorSem NetFacts VeFacts4 PropFacts4 BuildFacts BuildFacts2 InferModel CausalModel CausalSpec CausalFacts CausalFacts2.
From Coq Require Import List.
Import ListNotations.
Local Open Scope nat_scope.
Local Arguments eqd : simpl never.

Lemma qsum01 {A} (f : A -> Qc) L : NoDup L -> (forall x, In x L -> f x = 0%Qc \/ f x = 1%Qc) -> qsum (map f L) = 1%Qc ->
  exists x, In x L /\ f x = 1%Qc /\ forall y, In y L -> f y = 1%Qc -> y = x.
Proof.
  induction L as [|x L IH]; intros N B S; [discriminate S|]. inversion N as [|? ? N1 N2]; subst.
  cbn [map] in S. change (qsum (f x :: map f L)) with (f x + qsum (map f L))%Qc in S.
  destruct (B x (or_introl eq_refl)) as [E|E].
  - destruct IH as (z & I & Ez & U); auto.
    + intros y J. apply B. now right.
    + rewrite E in S. rewrite <- S. ring.
    + exists z. split; [now right|]. split; [auto|]. intros y [<-|J] Ey; [exfalso; rewrite E in Ey; discriminate|auto].
  - exists x. split; [now left|]. split; [auto|]. intros y [<-|J] Ey; [auto|]. exfalso.
    assert (Z : qsum (map f L) = 0%Qc). { rewrite E in S. transitivity (1 + qsum (map f L) - 1)%Qc; [ring|rewrite S; ring]. }
    assert (Zy := qsum_zero (map f L)). specialize (Zy ltac:(intros q I; apply in_map_iff in I as (w & <- & I);
      destruct (B w (or_intror I)) as [-> | ->]; discriminate) Z (f y) (in_map f L y J)). rewrite Ey in Zy. discriminate.
Qed.

Lemma keys_drop' (X : list var) (D : domain) : keys (drop X D) = minus (keys D) X.
Proof. unfold drop, minus, keys. induction D as [|[v l] D IH]; [reflexivity|]. cbn. destruct (mem v X); cbn; now rewrite IH. Qed.
Lemma keys_pick' (X : list var) (D : domain) : keys (pick X D) = filter (fun v => mem v X) (keys D).
Proof. unfold pick, keys. induction D as [|[v l] D IH]; [reflexivity|]. cbn. destruct (mem v X); cbn; now rewrite IH. Qed.
Lemma wf_pick' X D : wf_dom D -> wf_dom (pick X D).
Proof.
  intros [N S]. split; [rewrite keys_pick'; now apply NoDup_filter|]. intros v l I. apply filter_In in I as [I _]. eauto.
Qed.
Lemma obs_ext (o o' : obs) : keys o = keys o' -> NoDup (keys o) -> (forall v, In v (keys o) -> dget v o = dget v o') -> o = o'.
Proof.
  revert o'. induction o as [|[v s] o IH]; intros [|[w t] o'] K N E; try discriminate; [reflexivity|].
  cbn in K. injection K as <- K. inversion N as [|? ? N1 N2]; subst.
  assert (Ev := E v (or_introl eq_refl)). cbn [dget] in Ev. destruct (eqd v v) as [_|]; [|contradiction]. injection Ev as <-.
  f_equal. apply IH; auto. intros x I. assert (Ex := E x (or_intror I)). cbn [dget] in Ex. destruct (eqd x v) as [->|]; [contradiction|auto].
Qed.
Lemma keys_obs_of vs a : keys (obs_of vs a) = vs.
Proof. unfold obs_of, keys. rewrite map_map. cbn. apply map_id. Qed.
Lemma full_asg D o v : full D o -> In v (keys D) -> dget v o = Some (asg_of o v).
Proof.
  intros Fo I. apply in_map_iff in I as ([w l] & <- & I). destruct (Fo w l I) as (s & E & _). cbn. unfold asg_of, over. now rewrite E.
Qed.
Lemma full_valid' D o : full D o -> valid D (asg_of o).
Proof. intros Fo v l I. destruct (Fo v l I) as (s & E & J). unfold asg_of, over. now rewrite E. Qed.
Lemma obs_of_all D a : NoDup (keys D) -> valid D a -> In (obs_of (keys D) a) (all_assignments D).
Proof.
  intros N V. apply all_assignments_In_full; auto. split; [apply keys_obs_of|]. eapply valid_full; [exact V|apply agrees_obs_of].
Qed.

Section Functional.
  Variables (m : pgm) (D : domain) (F : var -> mfactor) (vt : vtype).
  Hypothesis H : network m D F vt.
  Variable X : list var.
  Hypothesis HX : forall v x, In v X -> ~ arc (m_graph m) x v.
  Hypothesis HN : forall v, In v (keys D) -> ~ In v X -> zero_one (F v).
  Notation N := (minus (keys D) X).
  Notation P := (P F).
  Let WD : wf_dom D := net_wd m D F vt H.

  Lemma N_keys : incl N (keys D).
  Proof. intros v I. apply minus_In in I. apply I. Qed.
  Lemma N_NoDup : NoDup N.
  Proof. apply NoDup_minus, WD. Qed.

  Lemma P01 v a : In v N -> valid D a -> P v a = 0%Qc \/ P v a = 1%Qc.
  Proof.
    intros I V. apply minus_In in I as [I J]. assert (G := net_good m D F vt H v I).
    assert (E := get_obs_D D vt (F v) a G V). destruct (HN v I J (obs_of (keys D) a)) as [Z|Z].
    - eapply good_full; [exact G|]. now apply full_obs_D.
    - rewrite E in Z. injection Z as Z. left. exact Z.
    - rewrite E in Z. injection Z as Z. right. exact Z.
  Qed.
  Lemma prods01 S a : incl S N -> valid D a -> 
    (prods P S a = 1%Qc /\ forall v, In v S -> P v a = 1%Qc) \/ (prods P S a = 0%Qc /\ exists v, In v S /\ P v a <> 1%Qc).
  Proof.
    intros I V. induction S as [|v S IH]; [left; split; [reflexivity|intros v []]|]. rewrite prods_cons.
    destruct (P01 v a (I v (or_introl eq_refl)) V) as [E|E]; rewrite E.
    - right. split; [ring|]. exists v. split; [now left|]. rewrite E. discriminate.
    - destruct IH as [(E1 & A)|(E1 & w & J & K)]; [intros w J; apply I; now right| |].
      + left. rewrite E1. split; [ring|]. intros w [<-|J]; auto.
      + right. rewrite E1. split; [ring|]. exists w. split; [now right|auto].
  Qed.

  Lemma N_sum a : valid D a -> qsum (map (fun p => prods P N (over p a)) (all_assignments (pick N D))) = 1%Qc.
  Proof.
    intros V. destruct (rank_exists m D F vt H) as (rank & R).
    assert (S := sum_one' D WD P (fam F) rank (P_dep m D F vt H) R (P_one m D F vt H) N a N_NoDup N_keys V).
    unfold sm, sumdom in S. rewrite <- S. symmetry. apply bsum_qsum.
  Qed.
  Lemma N_unique a : valid D a -> exists p, In p (all_assignments (pick N D)) /\ prods P N (over p a) = 1%Qc /\
     forall q, In q (all_assignments (pick N D)) -> prods P N (over q a) = 1%Qc -> q = p.
  Proof.
    intros V. apply (qsum01 (fun p => prods P N (over p a))); [|intros p I|apply N_sum, V].
    - apply all_assignments_NoDup. intros v l I. apply filter_In in I as [I _]. apply (proj2 WD v l I).
    - assert (Vp := over_assign_valid D WD N p a I V).
      destruct (prods01 N (over p a)) as [(E & _)|(E & _)]; auto. apply incl_refl.
  Qed.

  Lemma solution_exists a : valid D a -> exists b, valid D b /\ (forall w, ~ In w N -> b w = a w) /\ forall v, In v N -> P v b = 1%Qc.
  Proof.
    intros V. destruct (N_unique a V) as (p & I & E & _). exists (over p a).
    assert (Vp := over_assign_valid D WD N p a I V). split; [auto|]. split.
    - intros w J. eapply over_assign_out; eauto.
    - destruct (prods01 N (over p a) (incl_refl _) Vp) as [(_ & A)|(Z & _)]; [auto|rewrite Z in E; discriminate].
  Qed.
  Lemma prods_all1 S b : (forall v, In v S -> P v b = 1%Qc) -> prods P S b = 1%Qc.
  Proof. intros A. induction S as [|v S IH]; [reflexivity|]. rewrite prods_cons, A by now left. rewrite IH; [ring|]. intros w I. apply A. now right. Qed.
  Lemma solution_unique b b' : valid D b -> valid D b' -> (forall v, In v (keys D) -> In v X -> b v = b' v) ->
    (forall v, In v N -> P v b = 1%Qc) -> (forall v, In v N -> P v b' = 1%Qc) -> forall v, In v (keys D) -> b v = b' v.
  Proof.
    intros V V' EX A A' v Iv. destruct (in_dec eqd v X) as [J|J]; [auto|].
    destruct (N_unique b V) as (p & I & E & U). set (K := keys (pick N D)).
    assert (NK : NoDup K) by (apply (wf_pick' N D WD)).
    assert (KN : forall w, In w K <-> In w N).
    { intros w. unfold K. rewrite keys_pick'. rewrite filter_In, mem_In. rewrite minus_In. tauto. }
    assert (In1 : forall c, valid D c -> In (obs_of K c) (all_assignments (pick N D))).
    { intros c Vc. apply obs_of_all; auto. intros w l Iw. apply filter_In in Iw as [Iw _]. auto. }
    assert (Q1 : obs_of K b = p).
    { apply U; [auto|]. rewrite <- (prods_all1 N b A). eapply (prods_dep' m D F vt H N N_keys). intros w Iw.
      unfold over. destruct (dget w (obs_of K b)) eqn:Ew; [|auto]. apply dget_In, in_map_iff in Ew as (x & Ex & _). congruence. }
    assert (Q2 : obs_of K b' = p).
    { apply U; [auto|]. rewrite <- (prods_all1 N b' A'). eapply (prods_dep' m D F vt H N N_keys). intros w Iw.
      assert (Kw : In w (keys D)). { apply in_flat_map in Iw as (n & In' & Iw). eapply fam_keys; [exact H|apply N_keys, In'|exact Iw]. }
      unfold over. destruct (in_dec eqd w X) as [Jx|Jx].
      - rewrite <- EX by auto. replace (dget w (obs_of K b')) with (@None state); [auto|]. symmetry. apply dget_None. rewrite keys_obs_of.
        intros Kx. apply KN, minus_In in Kx. tauto.
      - assert (Aw : agrees (obs_of K b') b' K) by apply agrees_obs_of. rewrite (Aw w); [auto|]. apply KN, minus_In. auto. }
    assert (Ib : agrees (obs_of K b) b K) by apply agrees_obs_of. assert (Ib' : agrees (obs_of K b') b' K) by apply agrees_obs_of.
    assert (Kv : In v K) by (apply KN, minus_In; auto). specialize (Ib v Kv). specialize (Ib' v Kv). congruence.
  Qed.

  Lemma solves_iff o : full D o -> solves D F X [] o = true <-> forall v, In v N -> P v (asg_of o) = 1%Qc.
  Proof.
    intros Fo. unfold solves. rewrite keys_drop', forallb_forall.
    assert (E : forall v, In v N -> entry (F v) o = P v (asg_of o)).
    { intros v I. apply (entry_fv D vt); [eapply net_good; [exact H|apply N_keys, I]|now apply full_valid'|].
      intros w Iw. apply (full_asg D); [exact Fo|]. eapply fam_keys; [exact H|apply N_keys, I|exact Iw]. }
    split; intros A v I; specialize (A v I); cbn [dget] in *; rewrite (E v I) in *.
    - destruct (Qc_eq_dec (P v (asg_of o)) 1); [auto|discriminate].
    - rewrite A. destruct (Qc_eq_dec 1 1); [auto|contradiction].
  Qed.

  Lemma cons_X u o : keys u = keys (pick X D) -> full D o -> keys o = keys D -> consistent u o = true ->
    forall v, In v (keys (pick X D)) -> dget v o = dget v u.
  Proof.
    intros Ku Fo Ko C v I. assert (No : NoDup (keys o)) by (rewrite Ko; apply WD).
    assert (Iu := I). rewrite <- Ku in Iu. apply dget_keys in Iu as (x & Ex).
    assert (Id : In v (keys D)). { rewrite keys_pick' in I. apply filter_In in I. apply I. }
    rewrite (full_asg D o v Fo Id), Ex. f_equal. symmetry.
    exact (cons_get o v (asg_of o v) No (full_asg D o v Fo Id) u C x Ex).
  Qed.

  Lemma unit_solution u : In u (all_assignments (pick X D)) ->
    exists o, In o (all_assignments D) /\ solves D F X [] o = true /\ consistent u o = true.
  Proof.
    intros Iu. destruct (some_valid D WD) as (a & Va).
    assert (Vu := over_assign_valid D WD X u a Iu Va).
    destruct (solution_exists _ Vu) as (b & Vb & Eb & A). exists (obs_of (keys D) b).
    assert (Io := obs_of_all D b (proj1 WD) Vb). split; [auto|].
    apply (all_assignments_In_full D _ (proj1 WD)) in Io as [Ko Fo].
    apply (all_assignments_In_full (pick X D) _ (proj1 (wf_pick' X D WD))) in Iu as [Ku Fu].
    assert (Ea : forall v, In v (keys D) -> asg_of (obs_of (keys D) b) v = b v).
    { intros v I. unfold asg_of, over. assert (Aw : agrees (obs_of (keys D) b) b (keys D)) by apply agrees_obs_of. now rewrite (Aw v I). }
    split.
    - apply solves_iff; [auto|]. intros v I. rewrite <- (A v I). eapply (P_dep m D F vt H v (N_keys v I)). intros w Iw.
      apply Ea. eapply fam_keys; [exact H|apply N_keys, I|exact Iw].
    - apply cons_intro; [rewrite Ko; apply WD|]. intros v s x Es Ex.
      assert (Iv : In v (keys D)). { rewrite <- Ko. apply dget_keys. eauto. }
      rewrite (full_asg D _ v Fo Iv), (Ea v Iv) in Es. injection Es as <-. rewrite Eb.
      + unfold over. now rewrite Ex.
      + intros J. apply minus_In in J as [_ J]. apply J. assert (K : In v (keys u)) by (apply dget_keys; eauto).
        rewrite Ku, keys_pick' in K. apply filter_In in K as [_ K]. now apply mem_In.
  Qed.
  Lemma unit_unique u o o' : keys u = keys (pick X D) -> In o (all_assignments D) -> In o' (all_assignments D) ->
    solves D F X [] o = true -> solves D F X [] o' = true -> consistent u o = true -> consistent u o' = true -> o = o'.
  Proof.
    intros Ku Io Io' S S' C C'.
    apply (all_assignments_In_full D _ (proj1 WD)) in Io as [Ko Fo]. apply (all_assignments_In_full D _ (proj1 WD)) in Io' as [Ko' Fo'].
    rewrite solves_iff in S, S' by auto. apply obs_ext; [congruence|rewrite Ko; apply WD|]. intros v I. rewrite Ko in I.
    rewrite (full_asg D o v), (full_asg D o' v) by auto. f_equal.
    apply solution_unique; auto using full_valid'. intros w Iw Jw.
    assert (Kw : In w (keys (pick X D))). { rewrite keys_pick'. apply filter_In. split; [auto|now apply mem_In]. }
    assert (E1 := cons_X u o Ku Fo Ko C w Kw). assert (E2 := cons_X u o' Ku Fo' Ko' C' w Kw). unfold asg_of, over. now rewrite E1, E2.
  Qed.

  Definition unit_of (o : obs) : obs := filter (fun vs => mem (fst vs) X) o.
  Lemma keys_unit o : keys o = keys D -> keys (unit_of o) = keys (pick X D).
  Proof.
    intros K. rewrite keys_pick', <- K. clear K. unfold unit_of, keys. induction o as [|[v s] o IH]; [reflexivity|]. cbn.
    destruct (mem v X); cbn; now rewrite IH.
  Qed.
  Lemma dget_unit o v : dget v (unit_of o) = if mem v X then dget v o else None.
  Proof.
    unfold unit_of. induction o as [|[w s] o IH]; [now destruct (mem v X)|]. cbn [filter fst].
    destruct (mem w X) eqn:M; cbn [dget]; destruct (eqd v w) as [->|]; rewrite ?M, ?IH; auto. now rewrite M.
  Qed.
  Lemma unit_all o : In o (all_assignments D) -> In (unit_of o) (all_assignments (pick X D)) /\ consistent (unit_of o) o = true.
  Proof.
    intros Io. apply (all_assignments_In_full D _ (proj1 WD)) in Io as [Ko Fo]. split.
    - apply (all_assignments_In_full (pick X D) _ (proj1 (wf_pick' X D WD))). split; [now apply keys_unit|].
      intros v l I. apply filter_In in I as [I M]. cbn in M. rewrite dget_unit, M. apply Fo. auto.
    - apply cons_intro; [rewrite Ko; apply WD|]. intros v s x Es Ex. rewrite dget_unit in Ex. destruct (mem v X); congruence.
  Qed.
  Lemma unit_eq u o : In u (all_assignments (pick X D)) -> In o (all_assignments D) -> consistent u o = true -> unit_of o = u.
  Proof.
    intros Iu Io C. apply (all_assignments_In_full (pick X D) _ (proj1 (wf_pick' X D WD))) in Iu as [Ku Fu].
    apply (all_assignments_In_full D _ (proj1 WD)) in Io as [Ko Fo].
    assert (Kn := keys_unit o Ko). apply obs_ext; [congruence|rewrite Kn; apply (wf_pick' X D WD)|]. intros v I. rewrite Kn in I.
    rewrite dget_unit. assert (I' := I). rewrite keys_pick' in I'. apply filter_In in I' as [_ M]. rewrite M. now apply cons_X.
  Qed.

  Lemma joint_solved o : In o (all_assignments D) -> solves D F X [] o = true -> joint F (keys D) o = joint F (keys (pick X D)) (unit_of o).
  Proof.
    intros Io S. apply (all_assignments_In_full D _ (proj1 WD)) in Io as [Ko Fo]. rewrite solves_iff in S by auto.
    rewrite (joint_prods m D F vt H) by (auto; apply incl_refl).
    assert (PP : Permutation (keys D) (keys (pick X D) ++ N)).
    { rewrite keys_pick'. unfold minus. clear. induction (keys D) as [|v l IH]; [constructor|]. cbn. destruct (mem v X); cbn.
      - now constructor.
      - now apply Permutation_cons_app. }
    rewrite (prods_perm P _ _ (asg_of o) PP), prods_app, (prods_all1 N _ S).
    replace (joint F (keys (pick X D)) (unit_of o)) with (prods P (keys (pick X D)) (asg_of o)); [ring|].
    unfold joint. rewrite product_qprod. unfold prods. f_equal. apply map_ext_in. intros v I.
    assert (I' := I). rewrite keys_pick' in I'. apply filter_In in I' as [Kv M]. apply mem_In in M.
    symmetry. apply (entry_fv D vt); [eapply net_good; eauto|now apply full_valid'|].
    intros w Iw. apply (fam_In m D F vt H v w Kv) in Iw as [->|Iw]; [|exfalso; eapply HX; eauto].
    rewrite dget_unit. rewrite (proj2 (mem_In v X) M). now apply (full_asg D).
  Qed.
  Lemma joint_unsolved o : In o (all_assignments D) -> solves D F X [] o = false -> joint F (keys D) o = 0%Qc.
  Proof.
    intros Io S. apply (all_assignments_In_full D _ (proj1 WD)) in Io as [Ko Fo].
    rewrite (joint_prods m D F vt H) by (auto; apply incl_refl).
    destruct (prods01 N (asg_of o) (incl_refl _) (full_valid' D o Fo)) as [(_ & A)|(_ & v & I & Nv)].
    - apply solves_iff in A; [congruence|auto].
    - destruct (P01 v (asg_of o) I (full_valid' D o Fo)) as [E|E]; [|contradiction].
      unfold prods. apply qprod_zero. rewrite <- E. apply (in_map (fun n => P n (asg_of o))). apply N_keys, I.
  Qed.

  (** Masses are sums over the units in which the event happens. *)
  Lemma mass_units E : mass D F E = cf_mass D F X [([], E)].
  Proof.
    unfold mass, cf_mass.
    set (Q := fun o => solves D F X [] o && consistent E o).
    assert (E1 : total (map (joint F (keys D)) (filter (consistent E) (all_assignments D)))
               = total (map (joint F (keys D)) (filter Q (all_assignments D)))).
    { apply total_filter. intros o Io Ne. apply joint_unsolved; [auto|]. unfold Q in Ne. destruct (solves D F X [] o); [|auto].
      cbn in Ne. contradiction. }
    rewrite E1. rewrite (total_ext (joint F (keys D)) (fun o => joint F (keys (pick X D)) (unit_of o))).
    2:{ intros o I. apply filter_In in I as [I S]. apply andb_prop in S as [S _]. now apply joint_solved. }
    rewrite !total_qsum. rewrite <- (map_map unit_of (joint F (keys (pick X D)))). apply qsum_perm, Permutation_map.
    apply NoDup_Permutation.
    - apply NoDup_map_inj.
      + intros o o' I I' Eu. apply filter_In in I as [I S]. apply filter_In in I' as [I' S']. 
        apply andb_prop in S as [S _]. apply andb_prop in S' as [S' _].
        destruct (unit_all o I) as [J C]. destruct (unit_all o' I') as [J' C'].
        apply (unit_unique (unit_of o)); auto.
        * apply keys_unit. apply (all_assignments_In_full D _ (proj1 WD)) in I. apply I.
        * now rewrite Eu.
      + apply NoDup_filter, all_assignments_NoDup. intros v l I. apply (proj2 WD v l I).
    - apply NoDup_filter, all_assignments_NoDup. intros v l I. apply filter_In in I as [I _]. apply (proj2 WD v l I).
    - intros u. rewrite in_map_iff, filter_In. cbn [forallb fst snd]. rewrite andb_true_r. split.
      + intros (o & <- & I). apply filter_In in I as [I S]. destruct (unit_all o I) as [J C]. split; [auto|].
        unfold happens. apply existsb_exists. exists o. split; [auto|]. apply andb_prop in S as [S S'].
        rewrite S, S', C. reflexivity.
      + intros [I S]. unfold happens in S. apply existsb_exists in S as (o & Io & S). apply andb_prop in S as [S S3].
        apply andb_prop in S as [S1 S2]. exists o. split; [now apply unit_eq|]. apply filter_In. split; [auto|].
        unfold Q. now rewrite S1, S3.
  Qed.

  (** What happens in a unit can be read off its solution. *)
  Lemma happens_solution u o E : In u (all_assignments (pick X D)) -> In o (all_assignments D) -> solves D F X [] o = true ->
    consistent u o = true -> happens D F X u [] E = consistent E o.
  Proof.
    intros Iu Io S C. assert (Ku : keys u = keys (pick X D)).
    { apply (all_assignments_In_full (pick X D) _ (proj1 (wf_pick' X D WD))) in Iu. apply Iu. }
    unfold happens. destruct (consistent E o) eqn:CE.
    - apply existsb_exists. exists o. now rewrite S, C, CE.
    - apply not_true_is_false. intros A. apply existsb_exists in A as (o' & Io' & A). apply andb_prop in A as [A A3].
      apply andb_prop in A as [A1 A2]. assert (o' = o) by (eapply unit_unique; eauto). subst o'. congruence.
  Qed.
End Functional.
