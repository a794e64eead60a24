(** Variable elimination: the loop invariant. *)

From Coq Require Import String Bool Arith ZArith QArith Qcanon Lia Permutation List.
From Verif Require Import PyBase PyFacts Num DomainModel NdArray StoreModel NumStore FactorModel Spec StoreSpec DomainFacts StoreFacts
  NumFacts PropFacts1 StoreMarg2 FactorSpec FactorFacts FactorFacts2 FactorFacts3 BigSum GraphModel GraphSpec GraphFacts
  ModelModel ModelSpec InferModel NetSpec NetSem FactorSem NetFacts.
From Coq Require Import List.
Import ListNotations.
Local Open Scope nat_scope.
Local Arguments eqd : simpl never.

Lemma partition_perm {A} (p : A -> bool) l : Permutation l (filter (fun x => negb (p x)) l ++ filter p l).
Proof.
  induction l as [|x l IH]; [constructor|]. cbn. destruct (p x); cbn.
  - etransitivity; [apply perm_skip, IH|]. apply Permutation_middle.
  - now apply perm_skip.
Qed.
Lemma flat_map_perm {A B} (f : A -> list B) l l' : Permutation l l' -> Permutation (flat_map f l) (flat_map f l').
Proof.
  induction 1 as [|x l l' H IH|x y l|l l' l'' H1 IH1 H2 IH2]; cbn; auto.
  - now apply Permutation_app_head.
  - rewrite !app_assoc. apply Permutation_app_tail. apply Permutation_app_comm.
  - now transitivity (flat_map f l').
Qed.
Lemma filter_map_comm {A B} (h : A -> B) (p : B -> bool) l : filter p (map h l) = map h (filter (fun x => p (h x)) l).
Proof. induction l as [|x l IH]; cbn; auto. destruct (p (h x)); cbn; congruence. Qed.

Definition inter (S Z : list var) : list var := filter (fun v => mem v Z) S.
Lemma inter_In S Z v : In v (inter S Z) <-> In v S /\ In v Z.
Proof. unfold inter. rewrite filter_In, mem_In. tauto. Qed.

Section Products.
  Variables (D : domain) (vt : vtype).
  Hypothesis WD : wf_dom D.

  Lemma product_fold fs : forall f, good D vt f -> (forall g, In g fs -> good D vt g) ->
    exists h, foldM (fun f1 f2 => mf_multiply f1 (OFac f2)) fs f = Ok h /\ good D vt h /\
      (forall v, In v (mf_vars h) <-> exists g, In g (f :: fs) /\ In v (mf_vars g)) /\
      (forall v, In v (mf_left h) <-> exists g, In g (f :: fs) /\ In v (mf_left g)) /\
      forall a, valid D a -> fv h a = qprod (map (fun g => fv g a) (f :: fs)).
  Proof.
    induction fs as [|g fs IH]; intros f Gf Gs.
    - exists f. split; [reflexivity|]. split; [auto|]. split; [|split].
      + intros v. split; [intros I; exists f; split; [now left|auto]|intros (g & [<-|[]] & I); auto].
      + intros v. split; [intros I; exists f; split; [now left|auto]|intros (g & [<-|[]] & I); auto].
      + intros a V. cbn. ring.
    - destruct (good_mul D WD vt f g Gf (Gs g (or_introl eq_refl))) as (h1 & E1 & G1 & V1 & L1 & X1).
      destruct (IH h1 G1 (fun k I => Gs k (or_intror I))) as (h & E & G & V & L & X).
      exists h. cbn [foldM]. rewrite E1. cbn [bind]. split; [exact E|]. split; [auto|]. split; [|split].
      + intros v. rewrite V. split.
        * intros (k & [<-|I] & J).
          -- apply V1 in J as [J|J]; [exists f|exists g]; split; auto; [now left|now right; left].
          -- exists k. split; [now right; right|auto].
        * intros (k & [<-|[<-|I]] & J).
          -- exists h1. split; [now left|]. apply V1. auto.
          -- exists h1. split; [now left|]. apply V1. auto.
          -- exists k. split; [now right|auto].
      + intros v. rewrite L. split.
        * intros (k & [<-|I] & J).
          -- apply L1 in J as [J|J]; [exists f|exists g]; split; auto; [now left|now right; left].
          -- exists k. split; [now right; right|auto].
        * intros (k & [<-|[<-|I]] & J).
          -- exists h1. split; [now left|]. apply L1. auto.
          -- exists h1. split; [now left|]. apply L1. auto.
          -- exists k. split; [now right|auto].
      + intros a Va. rewrite (X a Va). cbn. rewrite (X1 a Va). ring.
  Qed.

  Lemma product_all_ok fs : fs <> [] -> (forall g, In g fs -> good D vt g) ->
    exists h, product_all fs = Ok h /\ good D vt h /\
      (forall v, In v (mf_vars h) <-> exists g, In g fs /\ In v (mf_vars g)) /\
      (forall v, In v (mf_left h) <-> exists g, In g fs /\ In v (mf_left g)) /\
      forall a, valid D a -> fv h a = qprod (map (fun g => fv g a) fs).
  Proof.
    destruct fs as [|f fs]; [congruence|]. intros _ G. apply (product_fold fs f); [apply G; now left|].
    intros g I. apply G. now right.
  Qed.
End Products.

Section Ve.
  Variables (m : pgm) (D : domain) (F : var -> mfactor) (vt : vtype).
  Hypothesis H : network m D F vt.
  Variable e : obs.
  Hypothesis Ke : known D e.
  Variable R : list var.
  Hypothesis NR : NoDup R.
  Hypothesis IR : incl R (keys D).
  Notation P := (P F).
  Notation fam := (fam F).
  Notation sm := (sm D).
  Notation prods := (prods P).
  Hypothesis closed : forall n p, In n R -> In p (fam n) -> ~ In p (keys e) -> In p R.

  Let WD : wf_dom D := net_wd m D F vt H.

  Definition ok (a : asg) : Prop := valid D a /\ forall v s, dget v e = Some s -> In v (keys D) -> a v = s.

  Lemma ok_move a b S : ok a -> valid D b -> (forall w, ~ In w S -> b w = a w) -> (forall v, In v S -> ~ In v (keys e)) -> ok b.
  Proof.
    intros [_ A] V E N. split; [auto|]. intros v s Es Iv. rewrite E; [eauto|]. intros J. apply (N v J). apply dget_keys. eauto.
  Qed.

  Definition item (Z : list var) (fS : mfactor * list var) : Prop :=
    let (f, S) := fS in
    good D vt f /\ incl S R /\ (forall v, In v (mf_left f) <-> In v S /\ ~ In v Z) /\
    (forall v, ~ In v (keys e) -> (In v (mf_vars f) <-> ~ In v Z /\ exists n, In n S /\ In v (fam n))) /\
    (forall n z, In n S -> In z Z -> In z (fam n) -> In z S) /\
    (forall a, ok a -> fv f a = sm (inter S Z) (prods S) a).

  Definition inv (L : list (mfactor * list var)) (Z : list var) : Prop :=
    (forall p, In p L -> item Z p) /\ NoDup (flat_map snd L) /\
    (forall n, In n R -> ~ In n Z -> In n (flat_map snd L)) /\
    incl Z R /\ (forall z, In z Z -> ~ In z (keys e)) /\
    (forall a, ok a -> qprod (map (fun p => fv (fst p) a) L) = sm Z (prods R) a).

  Lemma prods_inclR S : incl S R -> incl S (keys D).
  Proof. intros I x J. auto. Qed.

  (** the product of independent items *)
  Lemma items_product Z L : (forall p, In p L -> item Z p) -> NoDup (flat_map snd L) -> (forall z, In z Z -> ~ In z (keys e)) ->
    forall a, ok a -> qprod (map (fun p => fv (fst p) a) L) = sm (inter (flat_map snd L) Z) (prods (flat_map snd L)) a.
  Proof.
    intros It ND Nz a Oa. induction L as [|[f S] L IH].
    - cbn. rewrite sm_nil; [reflexivity|]. intros x y _. reflexivity.
    - cbn [map qprod fst flat_map snd]. rewrite IH.
      2:{ intros p I. apply It. now right. }
      2:{ cbn in ND. now apply NoDup_app_r in ND. }
      destruct (It (f, S) (or_introl eq_refl)) as (G & IS & Lf & Vf & Loc & Val). rewrite (Val a Oa).
      assert (IL : incl (flat_map snd L) R).
      { intros x J. apply in_flat_map in J as ([f' S'] & J & J'). destruct (It (f', S') (or_intror J)) as (_ & I' & _). apply I'. auto. }
      assert (Dj : forall x, In x S -> In x (flat_map snd L) -> False) by (intros x; cbn in ND; now apply NoDup_app_disj).
      rewrite (sm_mul D WD (inter S Z) (inter (flat_map snd L) Z) _ _ (flat_map fam S) (flat_map fam (flat_map snd L))).
      + rewrite (sm_set D (inter (S ++ flat_map snd L) Z) (inter S Z ++ inter (flat_map snd L) Z)).
        * apply (sm_ext D WD); [apply Oa|]. intros b _ _. symmetry. apply prods_app.
        * intros v _. rewrite in_app_iff, !inter_In, in_app_iff. tauto.
      + apply (prods_dep' m D F vt H). now apply prods_inclR.
      + apply (prods_dep' m D F vt H). now apply prods_inclR.
      + intros v J J'. apply in_flat_map in J as (n & Jn & Jv). apply inter_In in J' as [J' Jz]. apply (Dj v); eauto.
      + intros v J J'. apply in_flat_map in J as (n & Jn & Jv). apply inter_In in J' as [J' Jz].
        apply in_flat_map in Jn as ([f' S'] & Jp & Jn). destruct (It (f', S') (or_intror Jp)) as (_ & _ & _ & _ & Loc' & _).
        apply (Dj v); auto. apply in_flat_map. exists (f', S'). split; auto. eapply Loc'; eauto.
      + intros v J J'. apply inter_In in J as [J _]. apply inter_In in J' as [J' _]. eauto.
  Qed.

  Lemma item_no_var Z z f S : item Z (f, S) -> ~ In z Z -> ~ In z (keys e) -> In z R -> ~ In z (mf_vars f) -> item (z :: Z) (f, S).
  Proof.
    intros (G & IS & Lf & Vf & Loc & Val) Nz Ne IzR Nv.
    assert (NS : ~ In z S).
    { intros J. apply Nv. apply Vf; auto. split; auto. exists z. split; auto. apply (fam_In m D F vt H); auto. }
    assert (NF : forall n, In n S -> ~ In z (fam n)) by (intros n J J'; apply Nv; apply Vf; eauto).
    split; [auto|]. split; [auto|]. split; [|split; [|split]].
    - intros v. rewrite Lf. cbn. split; [intros [A B]; split; auto; intros [<-|C]; auto|tauto].
    - intros v Nve. rewrite (Vf v Nve). cbn. split; [intros (A & n & B & C)|intros (A & B); split; auto].
      split; [|eauto]. intros [<-|C']; [|auto]. apply (NF n B). auto.
    - intros n w Jn [<-|Jw] Jf; [exfalso; eapply NF; eauto|eauto].
    - intros a Oa. rewrite (Val a Oa). apply sm_set. intros v _. rewrite !inter_In. cbn. split; [tauto|].
      intros [A [<-|B]]; [tauto|auto].
  Qed.

  Lemma ve_step_ok L Z z : inv L Z -> In z R -> ~ In z Z -> ~ In z (keys e) ->
    exists L', ve_step (map fst L) z = Ok (map fst L') /\ inv L' (z :: Z).
  Proof.
    intros (It & ND & Cov & ZR & Ze & Gl) IzR Nz Nze.
    set (rel := filter (fun p => mem z (mf_vars (fst p))) L).
    set (irr := filter (fun p => negb (mem z (mf_vars (fst p)))) L).
    assert (Pm : Permutation L (irr ++ rel)) by apply partition_perm.
    assert (Irel : forall p, In p rel -> In p L /\ In z (mf_vars (fst p))).
    { intros p J. apply filter_In in J as [J M]. split; auto. now apply mem_In. }
    assert (Iirr : forall p, In p irr -> In p L /\ ~ In z (mf_vars (fst p))).
    { intros p J. apply filter_In in J as [J M]. split; auto. apply mem_nIn. now apply negb_true_iff. }
    assert (Pc : Permutation (flat_map snd L) (flat_map snd irr ++ flat_map snd rel)).
    { rewrite <- flat_map_app. now apply flat_map_perm. }
    assert (ND' : NoDup (flat_map snd irr ++ flat_map snd rel)) by (eapply Permutation_NoDup; eauto).
    set (Sn := flat_map snd rel).
    assert (zS : In z Sn).
    { assert (J := Cov z IzR Nz). apply in_flat_map in J as ([f S] & J & Jz). apply in_flat_map. exists (f, S). split; auto.
      apply filter_In. split; auto. cbn. apply mem_In. destruct (It _ J) as (_ & _ & _ & Vf & _). apply Vf; auto.
      split; auto. exists z. split; auto. apply (fam_In m D F vt H); auto. }
    assert (ISn : incl Sn R).
    { intros x J. apply in_flat_map in J as ([f S] & J & J'). apply Irel in J as [J _]. destruct (It _ J) as (_ & I' & _). auto. }
    assert (Nrel : map fst rel <> []).
    { apply in_flat_map in zS as (p & J & _). destruct rel; [destruct J|discriminate]. }
    destruct (product_all_ok D vt WD (map fst rel) Nrel) as (jn & Ej & Gj & Vj & Lj & Xj).
    { intros g J. apply in_map_iff in J as ([f S] & <- & J). apply Irel in J as [J _]. apply (It _ J). }
    assert (Iz : incl [z] (mf_vars jn)).
    { intros w [<-|[]]. apply Vj. apply in_flat_map in zS as (p & J & _). exists (fst p). split; [now apply in_map|]. now apply Irel. }
    destruct (good_marg D WD vt jn [z] Gj) as (fn & En & Gn & _ & Vn & Ln & Xn); [repeat constructor; intros []|exact Iz|].
    assert (Xj' : forall a, ok a -> fv jn a = sm (inter Sn Z) (prods Sn) a).
    { intros a Oa. rewrite (Xj a (proj1 Oa)), map_map. apply (items_product Z rel); auto.
      - intros p J. apply It. now apply Irel.
      - now apply NoDup_app_r in ND'. }
    assert (okz : forall a b, ok a -> valid D b -> (forall w, ~ In w [z] -> b w = a w) -> ok b).
    { intros a b Oa Vb E. eapply ok_move; eauto. intros v [<-|[]]. auto. }
    assert (Exn : ext_fun (prods Sn)) by (apply (prods_ext' m D F vt H); now apply prods_inclR).
    assert (Xn' : forall a, ok a -> fv fn a = sm (inter Sn (z :: Z)) (prods Sn) a).
    { intros a Oa. rewrite (Xn a (proj1 Oa)).
      rewrite (sm_ext D WD [z] (fv jn) (sm (inter Sn Z) (prods Sn)) a (proj1 Oa)) by (intros; apply Xj'; eapply okz; eauto).
      rewrite <- (sm_app D WD [z] (inter Sn Z)); auto.
      - apply sm_set. intros v _. cbn. rewrite !inter_In. cbn. split; [intros [<-|J]; tauto|intuition].
      - intros v [<-|[]] J _. apply inter_In in J. tauto. }
    assert (Lfn : forall v, In v (mf_left fn) <-> In v Sn /\ ~ In v (z :: Z)).
    { intros v. rewrite Ln, Lj. split.
      - intros ((g & J & Jv) & N). apply in_map_iff in J as ([f S] & <- & J). assert (J' := J). apply Irel in J as [J _].
        destruct (It _ J) as (_ & _ & Lf & _). apply Lf in Jv as [Jv Nv]. split; [apply in_flat_map; exists (f, S); auto|].
        cbn in N |- *. tauto.
      - intros (J & N). apply in_flat_map in J as ([f S] & J & Jv). split; [|cbn in N |- *; tauto].
        exists f. split; [apply in_map_iff; exists (f, S); auto|]. apply Irel in J as [J _]. destruct (It _ J) as (_ & _ & Lf & _).
        apply Lf. split; auto. cbn in N. tauto. }
    assert (It_irr : forall p, In p irr -> item (z :: Z) p).
    { intros [f S] J. apply Iirr in J as [J Nv]. apply item_no_var; auto. }
    assert (It_new : item (z :: Z) (fn, Sn)).
    { split; [auto|]. split; [auto|]. split; [auto|]. split; [|split; [|auto]].
      - intros v Nve. rewrite Vn, Vj. split.
        + intros ((g & J & Jv) & N). apply in_map_iff in J as ([f S] & <- & J). assert (J' := J). apply Irel in J as [J _].
          destruct (It _ J) as (_ & _ & _ & Vf & _). apply Vf in Jv as (Nv & n & Jn & Jf); auto. split; [cbn in N |- *; tauto|].
          exists n. split; auto. apply in_flat_map. exists (f, S). auto.
        + intros (N & n & Jn & Jf). split; [|cbn in N |- *; tauto]. apply in_flat_map in Jn as ([f S] & J & Jn).
          exists f. split; [apply in_map_iff; exists (f, S); auto|]. apply Irel in J as [J _]. destruct (It _ J) as (_ & _ & _ & Vf & _).
          apply Vf; auto. split; [cbn in N; tauto|eauto].
      - intros n w Jn Jw Jf. destruct Jw as [<-|Jw]; [auto|]. apply in_flat_map in Jn as ([f S] & J & Jn).
        apply in_flat_map. exists (f, S). split; auto. apply Irel in J as [J _]. destruct (It _ J) as (_ & _ & _ & _ & Loc & _). eapply Loc; eauto. }
    assert (Gl' : forall a, ok a -> (qprod (map (fun p => fv (fst p) a) irr) * fv fn a)%Qc = sm (z :: Z) (prods R) a).
    { intros a Oa.
      assert (ExR : ext_fun (prods R)) by (apply (prods_ext' m D F vt H); auto).
      change (z :: Z) with ([z] ++ Z). rewrite (sm_app D WD [z] Z); auto.
      2:{ intros v [<-|[]] J _. tauto. }
      rewrite (sm_ext D WD [z] (sm Z (prods R)) (fun b => qprod (map (fun p => fv (fst p) b) irr) * fv jn b)%Qc a (proj1 Oa)).
      - rewrite sm_scale.
        + now rewrite (Xn a (proj1 Oa)).
        + intros b E. f_equal. apply map_ext_in. intros [f S] J. apply Iirr in J as [J Nv]. destruct (It _ J) as (G & _).
          apply (fv_dep D vt f G). intros w Jw. apply E. intros [<-|[]]. auto.
      - intros b Vb E. assert (Ob : ok b) by (eapply okz; eauto). rewrite <- (Gl b Ob), (Xj b Vb), map_map, <- qprod_app, <- map_app.
        apply qprod_perm. now apply Permutation_map. }
    assert (Es : ve_step (map fst L) z = Ok (if 0 <? length (mf_left fn) then map fst irr ++ [fn] else map fst irr)).
    { unfold ve_step. rewrite (filter_map_comm fst (fun f => mem z (mf_vars f)) L).
      rewrite (filter_map_comm fst (fun f => negb (mem z (mf_vars f))) L).
      fold rel irr. rewrite Ej. cbn [bind]. rewrite En. reflexivity. }
    assert (Cov' : forall n, In n R -> ~ In n (z :: Z) -> In n (flat_map snd irr ++ Sn)).
    { intros n J N. apply (Permutation_in _ Pc). apply Cov; auto. cbn in N. tauto. }
    assert (ZR' : incl (z :: Z) R) by (intros v [<-|J]; auto).
    assert (Ze' : forall w, In w (z :: Z) -> ~ In w (keys e)) by (intros w [<-|J]; auto).
    destruct (0 <? length (mf_left fn)) eqn:Lz.
    - exists (irr ++ [(fn, Sn)]). rewrite map_app. split; [exact Es|].
      split; [|split; [|split; [|split; [|split]]]]; auto.
      + intros p J. apply in_app_or in J as [J|[<-|[]]]; auto.
      + rewrite flat_map_app. cbn. now rewrite app_nil_r.
      + intros n J N. rewrite flat_map_app. cbn. rewrite app_nil_r. auto.
      + intros a Oa. rewrite map_app, qprod_app. cbn. rewrite <- (Gl' a Oa). ring.
    - exists irr. split; [exact Es|].
      assert (E0 : mf_left fn = []) by (destruct (mf_left fn); auto; discriminate).
      assert (SZ : forall v, In v Sn -> In v (z :: Z)).
      { intros v J. destruct (in_dec eqd v (z :: Z)) as [I|N]; auto. exfalso. assert (X : In v (mf_left fn)) by (apply Lfn; auto).
        rewrite E0 in X. destruct X. }
      split; [|split; [|split; [|split; [|split]]]]; auto.
      + now apply NoDup_app_l in ND'.
      + intros n J N. assert (C := Cov' n J N). apply in_app_or in C as [C|C]; auto. exfalso. apply N. auto.
      + intros a Oa. rewrite <- (Gl' a Oa), (Xn' a Oa).
        destruct (rank_exists m D F vt H) as (rank & Hr).
        rewrite (sm_set D (inter Sn (z :: Z)) Sn).
        * rewrite (sum_one' D WD P fam rank (P_dep m D F vt H) Hr (P_one m D F vt H)); [ring| | |apply Oa].
          -- now apply NoDup_app_r in ND'.
          -- now apply prods_inclR.
        * intros v _. rewrite inter_In. split; [tauto|auto].
  Qed.

  Lemma ve_loop_ok order : forall L Z, inv L Z -> NoDup (order ++ Z) -> (forall z, In z order -> In z R /\ ~ In z (keys e)) ->
    exists L' Z', foldM ve_step order (map fst L) = Ok (map fst L') /\ inv L' Z' /\ forall v, In v Z' <-> In v order \/ In v Z.
  Proof.
    induction order as [|z order IH]; intros L Z I N Ho.
    - exists L, Z. cbn. split; [reflexivity|]. split; [auto|]. intuition.
    - cbn in N. inversion N as [|? ? Nz N']; subst. destruct (Ho z (or_introl eq_refl)) as [A B].
      destruct (ve_step_ok L Z z I A) as (L1 & E1 & I1); auto. { intros J. apply Nz. apply in_or_app. auto. }
      destruct (IH L1 (z :: Z) I1) as (L' & Z' & E' & I' & C').
      + eapply Permutation_NoDup; [apply Permutation_middle|]. constructor; auto.
      + intros w J. apply Ho. now right.
      + exists L', Z'. cbn [foldM]. rewrite E1. cbn [bind]. split; [exact E'|]. split; [auto|].
        intros v. rewrite C'. cbn. intuition congruence.
  Qed.

  (** ** The start *)
  Variable F' : var -> mfactor.
  Hypothesis G' : forall n, In n R -> good D vt (F' n).
  Hypothesis V' : forall n v, In n R -> (In v (mf_vars (F' n)) <-> In v (fam n) /\ (v = n \/ ~ In v (keys e))).
  Hypothesis L' : forall n v, In n R -> (In v (mf_left (F' n)) <-> v = n).
  Hypothesis X' : forall n a, In n R -> ok a -> fv (F' n) a = P n a.

  Lemma inv_start ks : Permutation ks R -> inv (map (fun n => (F' n, [n])) ks) [].
  Proof.
    intros Pk. assert (IK : forall n, In n ks <-> In n R) by (intros n; split; apply Permutation_in; [|symmetry]; auto).
    assert (Ef : flat_map snd (map (fun n => (F' n, [n])) ks) = ks).
    { clear. induction ks as [|n ks IH]; cbn; auto. now rewrite IH. }
    split; [|split; [|split; [|split; [|split]]]].
    - intros p J. apply in_map_iff in J as (n & <- & J). apply IK in J. split; [auto|]. split; [intros v [<-|[]]; auto|].
      split; [|split; [|split]].
      + intros v. rewrite L' by auto. cbn. intuition.
      + intros v Nv. rewrite V' by auto. cbn. split; [intros [A _]; split; auto; exists n; auto|].
        intros (_ & k & [<-|[]] & A). auto.
      + intros k z _ [].
      + intros a Oa. rewrite (sm_set D (inter [n] []) []) by (intros v _; rewrite inter_In; cbn; tauto).
        rewrite sm_nil; [|].
        * unfold NetSem.prods. cbn. rewrite (X' n a J Oa). ring.
        * apply (prods_ext' m D F vt H). intros v [<-|[]]. auto.
    - rewrite Ef. eapply Permutation_NoDup; [symmetry; exact Pk|auto].
    - intros n J _. rewrite Ef. now apply IK.
    - intros v [].
    - intros z [].
    - intros a Oa. rewrite sm_nil; [|now apply (prods_ext' m D F vt H)]. rewrite map_map. cbn [fst].
      unfold NetSem.prods. rewrite <- (qprod_perm _ _ (Permutation_map (fun n => P n a) Pk)). f_equal.
      apply map_ext_in. intros n J. apply X'; auto. now apply IK.
  Qed.
End Ve.
