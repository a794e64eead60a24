(** From networks to sums of products. *)

From Coq Require Import String Bool Arith ZArith QArith Qcanon Lia Permutation List.
From Verif Require Import PyBase PyFacts Num DomainModel NdArray StoreModel NumStore FactorModel Spec StoreSpec DomainFacts StoreFacts
  NumFacts PropFacts1 StoreMarg2 FactorSpec FactorFacts FactorFacts2 FactorFacts3 BigSum GraphModel GraphSpec GraphFacts
  ModelModel ModelSpec NetSpec NetSem FactorSem.
From Coq Require Import List.
Import ListNotations.
Local Open Scope nat_scope.
Local Arguments eqd : simpl never.

Lemma total_qsum l : total l = qsum l.
Proof. reflexivity. Qed.
Lemma product_qprod l : product_of l = qprod l.
Proof. induction l; cbn; [reflexivity|]. unfold product_of in *. cbn. now rewrite IHl. Qed.

(** ** Filtered assignments *)

Lemma consistent_cons o v s p : consistent o ((v, s) :: p) =
  (match dget v o with Some x => if eqd x s then true else false | None => true end) && consistent o p.
Proof. reflexivity. Qed.

Lemma filter_map_cons o v s L : filter (consistent o) (map (cons (v, s)) L) =
  if (match dget v o with Some x => if eqd x s then true else false | None => true end)
  then map (cons (v, s)) (filter (consistent o) L) else [].
Proof.
  induction L as [|p L IH]; cbn [map filter]; [now destruct (match dget v o with Some _ => _ | None => _ end)|].
  rewrite consistent_cons, IH. destruct (match dget v o with Some _ => _ | None => _ end); cbn; [|auto].
  destruct (consistent o p); auto.
Qed.

Lemma filter_flat_map {A B} (p : B -> bool) (f : A -> list B) l : filter p (flat_map f l) = flat_map (fun x => filter p (f x)) l.
Proof. induction l; cbn; auto. now rewrite filter_app, IHl. Qed.

Lemma flat_map_one {A B} (f : A -> list B) l x : NoDup l -> In x l -> (forall y, In y l -> y <> x -> f y = []) -> flat_map f l = f x.
Proof.
  induction 1 as [|y l N ND IH]; [intros []|]. intros [-> | I] H; cbn.
  - replace (flat_map f l) with (@nil B); [apply app_nil_r|]. symmetry.
    assert (H' : forall y, In y l -> f y = []) by (intros y J; apply H; [now right|]; intros ->; tauto).
    clear -H'. induction l as [|z l IH]; auto. cbn. rewrite H' by (now left). cbn. apply IH. intros. apply H'. now right.
  - rewrite IH; auto; [|intros; apply H; auto; now right]. rewrite H; [reflexivity|now left|]. intros ->. tauto.
Qed.

Lemma filtered_sum D : wf_dom D -> forall o (g : asg -> Qc) b, known D o -> ext_fun g ->
  (forall v s, In v (keys D) -> dget v o = Some s -> b v = s) ->
  qsum (map (fun p => g (over p b)) (filter (consistent o) (all_assignments D))) = sumdom 0%Qc Qcplus (drop (keys o) D) g b.
Proof.
  induction D as [|[v l] D IH]; intros W o g b K E B.
  - cbn. unfold sumdom, qsum. cbn. reflexivity.
  - destruct W as [N L]. cbn in N. inversion N as [|? ? Nv ND]; subst.
    assert (W' : wf_dom D) by (split; [auto|intros; eapply L; right; eauto]).
    assert (K' : known D o) by (intros w m s J; apply K; now right).
    assert (B' : forall w s, In w (keys D) -> dget w o = Some s -> b w = s) by (intros w s J; apply B; now right).
    cbn [all_assignments]. rewrite filter_flat_map.
    assert (Hov : forall s p, In p (all_assignments D) -> g (over ((v, s) :: p) b) = g (over p (upd b v s))).
    { intros s p J. apply E. intros w. apply over_cons. rewrite (all_assignments_keys _ _ J). auto. }
    unfold drop. cbn [filter fst]. destruct (dget v o) as [s0|] eqn:Eo.
    + change (filter (fun vl => negb (mem (fst vl) (keys o))) D) with (drop (keys o) D).
      assert (I0 : In s0 l) by (eapply K; [left; reflexivity|auto]).
      assert (M : mem v (keys o) = true) by (apply mem_In; apply dget_keys; eauto).
      rewrite M. cbn [negb].
      rewrite (flat_map_one _ l s0).
      * rewrite filter_map_cons, Eo. destruct (eqd s0 s0) as [_|X]; [|congruence]. rewrite map_map.
        rewrite <- (IH W' o g b K' E B'). f_equal. apply map_ext_in. intros p J. apply filter_In in J as [J _].
        rewrite Hov by auto. apply E. intros w. unfold over. destruct (dget w p); [auto|]. unfold upd.
        destruct (eqd w v) as [-> | ]; auto. symmetry. apply B; [now left|auto].
      * apply (L v l). now left.
      * auto.
      * intros y J X. rewrite filter_map_cons, Eo. destruct (eqd s0 y); [congruence|auto].
    + assert (M : mem v (keys o) = false) by (apply mem_nIn; apply dget_None; auto).
      rewrite M. cbn [negb]. change (filter (fun vl => negb (mem (fst vl) (keys o))) D) with (drop (keys o) D).
      assert (Nd : ~ In v (keys (drop (keys o) D))) by (rewrite In_keys_drop; tauto).
      rewrite sumdom_cons by (auto using Qcplus_comm, Qcplus_assoc, Qcplus_0_l).
      clear - IH W' K' E B' Hov Eo.
      assert (G : forall m, qsum (map (fun p => g (over p b)) (flat_map (fun x => filter (consistent o) (map (cons (v, x)) (all_assignments D))) m)) =
                            qsum (map (fun s => sumdom 0%Qc Qcplus (drop (keys o) D) g (upd b v s)) m)).
      { induction m as [|s m IHm]; cbn [flat_map map]; [reflexivity|].
        rewrite map_app, qsum_app, IHm. cbn [qsum]. unfold qsum at 3. cbn [fold_right]. f_equal.
        rewrite filter_map_cons, Eo, map_map.
        rewrite <- (IH W' o g (upd b v s) K' E).
        - f_equal. apply map_ext_in. intros p J. apply filter_In in J as [J _]. now apply Hov.
        - intros w x J Ex. rewrite <- (B' w x J Ex). apply upd_other. intros ->. congruence. }
      etransitivity; [apply G|]. symmetry. apply bsum_qsum.
Qed.

(** ** Networks *)

Section Net.
  Variables (D : domain) (vt : vtype).
  Hypothesis WD : wf_dom D.

  Lemma cpt_good v ps f : cpt D vt v ps f -> good D vt f.
  Proof. intros (A & B & _ & _ & C & E & _). split; auto. Qed.
  Lemma cpt_vars v ps f w : cpt D vt v ps f -> (In w (mf_vars f) <-> w = v \/ In w ps).
  Proof.
    intros (A & _ & L & R & _). destruct (wf_mf_partitioned f A) as (_ & _ & _ & P & _). rewrite P, (L w), (R w).
    cbn. intuition congruence.
  Qed.

  Lemma cpt_one v ps f a : cpt D vt v ps f -> valid D a -> sm D [v] (fv f) a = 1%Qc.
  Proof.
    intros C V. assert (G := cpt_good _ _ _ C). destruct C as (W & _ & L & R & I & F & N).
    destruct (wf_mf_partitioned f W) as (NV & NL & NR & P & Dj).
    assert (Iv : In v (mf_vars f)) by (apply P; left; apply L; now left).
    assert (Ed : drop (mf_right f) (mf_domain f) = pick [v] (mf_domain f)).
    { unfold drop, pick. apply filter_ext_in. intros [w l] J. cbn [fst].
      assert (Jw : In w (mf_vars f)) by (unfold mf_vars, keys; apply (in_map fst) in J; auto).
      destruct (mem w (mf_right f)) eqn:M1; destruct (mem w [v]) eqn:M2; auto; cbn.
      - apply mem_In in M1. apply mem_In in M2. exfalso. apply (Dj w). split; [now apply L|auto].
      - apply mem_nIn in M1. apply mem_nIn in M2. exfalso. apply P in Jw. destruct Jw as [Jw|Jw]; [apply L in Jw|]; auto. }
    destruct (good_marg D WD vt f [v] G) as (h & Eh & Gh & _ & _ & _ & Vh).
    { repeat constructor. intros []. } { intros w [<-|[]]. auto. }
    destruct (N (obs_of (keys D) a)) as (xs & X & S).
    { intros w l J. apply filter_In in J as [J _]. apply (full_obs_D D a V). auto. }
    rewrite Ed in X.
    destruct (mf_marginalize_ok f [v] W) as (h' & E' & _ & _ & Dh & _ & _ & Vm).
    { repeat constructor. intros []. } { intros w [<-|[]]. auto. }
    destruct (Vm (obs_of (keys D) a)) as (xs' & X' & S').
    { apply full_drop. apply (good_full D vt f _ G). now apply full_obs_D. }
    assert (xs' = xs).
    { clear - X X'. revert xs X. induction X' as [|p x ps xs H X' IH]; intros ys Y; inversion Y; subst; auto.
      f_equal; [congruence|]. now apply IH. }
    subst xs'. rewrite Eh in E'. injection E' as <-. rewrite (get_obs_D D vt h a Gh V) in S'. rewrite S in S'.
    rewrite <- (Vh a V). injection S' as ->. reflexivity.
  Qed.
End Net.

Lemma NoDup_app_l {A} (l1 l2 : list A) : NoDup (l1 ++ l2) -> NoDup l1.
Proof. induction l1; cbn; [constructor|]. intros N. inversion N; subst. constructor; auto. intros I. apply H1. apply in_or_app. auto. Qed.
Lemma NoDup_app_r {A} (l1 l2 : list A) : NoDup (l1 ++ l2) -> NoDup l2.
Proof. induction l1; cbn; auto. intros N. inversion N; subst. auto. Qed.
Lemma NoDup_app_disj {A} (l1 l2 : list A) x : NoDup (l1 ++ l2) -> In x l1 -> In x l2 -> False.
Proof.
  induction l1 as [|y l1 IH]; [intros _ []|]. cbn. intros N [-> | I] J; inversion N; subst; auto.
  apply H1. apply in_or_app. auto.
Qed.

(** Variables of [vs] outside [ws]. *)
Definition minus (vs ws : list var) : list var := filter (fun v => negb (mem v ws)) vs.
Lemma minus_In vs ws v : In v (minus vs ws) <-> In v vs /\ ~ In v ws.
Proof. unfold minus. rewrite filter_In, negb_true_iff, mem_nIn. tauto. Qed.
Lemma NoDup_minus vs ws : NoDup vs -> NoDup (minus vs ws).
Proof. apply NoDup_filter. Qed.

Section Network.
  Variables (m : pgm) (D : domain) (F : var -> mfactor) (vt : vtype).
  Hypothesis H : network m D F vt.
  Notation g := (m_graph m).

  Definition P (n : var) : asg -> Qc := fv (F n).
  Definition fam (n : var) : list var := mf_vars (F n).

  Lemma net_wd : wf_dom D.
  Proof. apply H. Qed.
  Lemma net_wg : wf_graph g.
  Proof. apply H. Qed.
  Lemma net_ac : acyclic g.
  Proof. apply H. Qed.
  Lemma net_nodes v : In v (keys D) <-> In v (nodes g).
  Proof. destruct H as (_ & _ & _ & E & _). apply E. Qed.
  Lemma net_cpt v : In v (keys D) -> cpt D vt v (preds g v) (F v).
  Proof. intros I. apply net_nodes in I. apply H. auto. Qed.
  Lemma net_good v : In v (keys D) -> good D vt (F v).
  Proof. intros I. exact (cpt_good D vt v _ _ (net_cpt v I)). Qed.
  Lemma fam_In n p : In n (keys D) -> (In p (fam n) <-> p = n \/ arc g p n).
  Proof. intros I. unfold fam. rewrite (cpt_vars D vt n _ _ p (net_cpt n I)), in_preds. tauto. Qed.
  Lemma fam_keys n p : In n (keys D) -> In p (fam n) -> In p (keys D).
  Proof. intros I J. exact (good_vars D vt _ (net_good n I) p J). Qed.
  Lemma P_dep n : In n (keys D) -> dep (fam n) (P n).
  Proof. intros I. exact (fv_dep D vt _ (net_good n I)). Qed.
  Lemma P_one n a : In n (keys D) -> valid D a -> sm D [n] (P n) a = 1%Qc.
  Proof. intros I V. exact (cpt_one D vt net_wd n _ _ a (net_cpt n I) V). Qed.

  Lemma rank_exists : exists rank : var -> nat, forall n p, In n (keys D) -> In p (fam n) -> p <> n -> rank p < rank n.
  Proof.
    destruct (acyclic_topological g net_wg net_ac) as (order & ND & Cov & Ord).
    exists (fun v => match index_of v order with Some i => i | None => 0 end).
    intros n p In_ Ip Ne. apply (fam_In n p In_) in Ip as [Ip|A]; [congruence|].
    assert (Io : In n order) by (apply Cov, net_nodes; auto).
    apply in_split in Io as (l1 & l2 & E). assert (Ip := Ord p n l1 l2 E A).
    assert (Nn : ~ In n l1).
    { intros J. rewrite E in ND. apply NoDup_remove_2 in ND. apply ND. apply in_or_app. auto. }
    rewrite E, !index_of_app. destruct (index_of_In p l1 Ip) as (i & Ei). rewrite Ei.
    apply index_of_None in Nn. rewrite Nn. cbn. destruct (eqd n n); [|congruence]. cbn.
    apply index_of_Some in Ei. destruct Ei as [Ei _]. assert (nth_error l1 i <> None) by congruence. apply nth_error_Some in H0. lia.
  Qed.

  Notation sm := (sm D).
  Notation prods := (prods P).

  Lemma entry_fv f a o : good D vt f -> valid D a -> agrees o a (mf_vars f) -> entry f o = fv f a.
  Proof. intros G V A. unfold entry. now rewrite (fv_get D vt f a o G V A). Qed.

  Lemma joint_prods vs o : incl vs (keys D) -> full D o -> joint F vs o = prods vs (asg_of o).
  Proof.
    intros I Fo. unfold joint, NetSem.prods. rewrite product_qprod. f_equal. apply map_ext_in. intros v J.
    apply entry_fv; [apply net_good; auto|now apply full_valid|]. apply full_agrees.
    apply (good_full D vt); auto. apply net_good. auto.
  Qed.

  Lemma prods_ext' S : incl S (keys D) -> ext_fun (prods S).
  Proof. intros I. apply (prods_ext D P fam); auto using P_dep. Qed.
  Lemma prods_dep' S : incl S (keys D) -> dep (flat_map fam S) (prods S).
  Proof. intros I. apply (prods_dep D P fam); auto using P_dep. Qed.

  Lemma over_valid o a : known D o -> valid D a -> valid D (over o a).
  Proof. intros K V v l I. unfold over. destruct (dget v o) as [s|] eqn:E; [eapply K; eauto|now apply V]. Qed.

  Lemma mass_sm o a : known D o -> valid D a ->
    mass D F o = sm (minus (keys D) (keys o)) (prods (keys D)) (over o a).
  Proof.
    intros K V. unfold mass. rewrite total_qsum.
    assert (Ex : ext_fun (prods (keys D))) by (apply prods_ext', incl_refl).
    transitivity (sumdom 0%Qc Qcplus (drop (keys o) D) (prods (keys D)) (over o a)).
    - rewrite <- (filtered_sum D net_wd o (prods (keys D)) (over o a) K Ex).
      + f_equal. apply map_ext_in. intros p J. apply filter_In in J as [J _].
        apply (all_assignments_In_full D p (proj1 net_wd)) in J as [Kp Fp].
        rewrite joint_prods by (auto using incl_refl).
        apply (prods_dep' (keys D) (incl_refl _)). intros w Jw. apply in_flat_map in Jw as (n & Jn & Jw).
        apply fam_keys in Jw; auto. rewrite <- Kp in Jw. apply dget_keys in Jw as (s & Es).
        unfold asg_of, over. now rewrite Es.
      + intros v s _ Es. unfold over. now rewrite Es.
    - unfold NetSem.sm. f_equal. unfold drop, pick. apply filter_ext_in. intros [v l] J. cbn [fst].
      assert (In v (keys D)) by (apply (in_map fst) in J; auto).
      destruct (mem v (keys o)) eqn:M1, (mem v (minus (keys D) (keys o))) eqn:M2; auto; exfalso.
      + apply mem_In in M1. apply mem_In, minus_In in M2. tauto.
      + apply mem_nIn in M1. apply mem_nIn in M2. apply M2, minus_In. auto.
  Qed.

  (** ** Dropping barren and disconnected nodes *)

  Lemma mass_split R B C o a : known D o -> valid D a -> Permutation (keys D) ((R ++ C) ++ B) ->
    (forall n p, In n (R ++ C) -> In p (fam n) -> ~ In p B) -> (forall v, In v (keys o) -> ~ In v B) ->
    (forall n p, In n R -> In p (fam n) -> In p C -> In p (keys o)) ->
    (forall n p, In n C -> In p (fam n) -> In p R -> In p (keys o)) ->
    mass D F o = (sm (minus R (keys o)) (prods R) (over o a) * sm (minus C (keys o)) (prods C) (over o a))%Qc.
  Proof.
    intros K V Pm Hb Ho Hrc Hcr. destruct rank_exists as (rank & Hr).
    assert (ND : NoDup ((R ++ C) ++ B)) by (eapply Permutation_NoDup; [exact Pm|apply net_wd]).
    assert (I : incl ((R ++ C) ++ B) (keys D)) by (intros x; apply Permutation_in; now symmetry).
    rewrite (mass_sm o a K V).
    set (b := over o a). assert (Vb : valid D b) by (now apply over_valid).
    transitivity (sm (minus (R ++ C) (keys o) ++ B) (prods ((R ++ C) ++ B)) b).
    { rewrite (sm_set D _ (minus (R ++ C) (keys o) ++ B)).
      - apply (sm_ext D net_wd); [exact Vb|]. intros c _ _. apply (prods_perm P). exact Pm.
      - intros v Iv. rewrite in_app_iff, !minus_In. split.
        + intros [_ N]. apply (Permutation_in _ Pm) in Iv. apply in_app_or in Iv. tauto.
        + intros [[J N]|J]; split; auto. intros J'. exact (Ho v J' J). }
    rewrite (barren_sum D net_wd P fam rank P_dep Hr P_one); auto.
    2:{ intros v J. apply minus_In in J as [J _]. intros J'. exact (NoDup_app_disj _ _ v ND J J'). }
    assert (IRC : incl (R ++ C) (keys D)) by (intros x J; apply I; apply in_or_app; auto).
    rewrite (sm_set D _ (minus R (keys o) ++ minus C (keys o))).
    2:{ intros v _. rewrite in_app_iff, !minus_In, in_app_iff. tauto. }
    apply (split_sum D net_wd P fam); auto using P_dep.
    - intros n p Jn Jp J. apply minus_In in J as [J N]. apply N. eauto.
    - intros n p Jn Jp J. apply minus_In in J as [J N]. apply N. eauto.
    - intros v J J'. apply minus_In in J as [J _]. apply minus_In in J' as [J' _].
      exact (NoDup_app_disj _ _ v (NoDup_app_l _ _ ND) J J').
  Qed.
End Network.
