(** Glue for the properties of inference. *)

From Coq Require Import String Bool Arith ZArith QArith Qcanon Lia Permutation List.
From Verif Require Import PyBase PyFacts Num DomainModel NdArray StoreModel NumStore FactorModel Spec StoreSpec DomainFacts StoreFacts
  NumFacts PropFacts1 StoreMarg2 FactorSpec FactorFacts FactorFacts2 FactorFacts3 BigSum GraphModel GraphSpec GraphFacts GraphFacts2
  ModelModel ModelSpec ModelFacts BuildFacts InferModel NetSpec NetSem FactorSem NetFacts VeFacts VeFacts2 VeFacts3 VeFacts4 VeFacts5
  OrderSpec OrderFacts.
From Coq Require Import List.
Import ListNotations.
Local Open Scope nat_scope.
Local Arguments eqd : simpl never.

Section Infer.
  Variables (m : pgm) (D : domain) (F : var -> mfactor) (vt : vtype).
  Hypothesis H : network m D F vt.
  Let WD : wf_dom D := net_wd m D F vt H.
  Notation ns := (nodes (m_graph m)).

  Lemma nodes_keys vs : incl vs ns -> incl vs (keys D).
  Proof. intros I v J. apply (net_nodes m D F vt H). auto. Qed.

  Lemma mass_known e : mass D F e <> 0%Qc -> known D e.
  Proof.
    intros M. unfold mass in M. destruct (filter (consistent e) (all_assignments D)) as [|p ps] eqn:E; [exfalso; apply M; reflexivity|].
    assert (J : In p (filter (consistent e) (all_assignments D))) by (rewrite E; now left).
    apply filter_In in J as [J C]. apply (all_assignments_In_full D p (proj1 WD)) in J as [Kp Fp].
    intros v l s Jv Es. destruct (Fp v l Jv) as (s' & Es' & Js'). unfold consistent in C. rewrite forallb_forall in C.
    apply dget_In in Es'. specialize (C (v, s') Es'). cbn in C. rewrite Es in C. destruct (eqd s s'); [now subst|discriminate].
  Qed.

  Lemma posterior e T heur so : is_heuristic heur -> is_set_order so ->
    NoDup T -> T <> [] -> incl T ns -> incl (keys e) ns -> (forall v, In v T -> ~ In v (keys e)) -> mass D F e <> 0%Qc ->
    exists r, ve_query heur so m T None e = Ok r /\ wf_mf r /\ mf_vtype r = vt /\
      same_set (mf_vars r) T /\ same_set (mf_left r) T /\ mf_right r = [] /\ (forall v l, In (v, l) (mf_domain r) -> In (v, l) D) /\
      (forall t, assigns D T t -> mf_get_value r t = Ok (Fin (mass D F (t ++ e) / mass D F e)%Qc)) /\
      total (map (entry r) (all_assignments (pick T D))) = 1%Qc.
  Proof.
    intros Hh Hs N T0 IT Ie Dj M. apply (query_ok m D F vt H e); auto using nodes_keys, mass_known.
  Qed.

  Lemma rejects e T heur so : 
    (~ NoDup T -> ve_query heur so m T None e = Raise ValueError) /\
    (NoDup T -> forall v, In v T -> In v (keys e) -> ve_query heur so m T None e = Raise ValueError) /\
    (NoDup T -> (forall v, In v T -> ~ In v (keys e)) -> ~ incl (T ++ keys e) ns -> ve_query heur so m T None e = Raise NodeNotFound) /\
    (forall C v, In v T -> In v C -> ve_query heur so m T (Some C) e = Raise ValueError).
  Proof.
    assert (E1 : forall l : list var, NoDup l -> length (nodup eqd l) =? length l = true) by (intros l N; now rewrite (nodup_fixed_point eqd N), Nat.eqb_refl).
    split; [|split; [|split]].
    - intros N. unfold ve_query, ve_compile. destruct (length (nodup eqd T) =? length T) eqn:E; [|reflexivity]. exfalso. apply N.
      apply Nat.eqb_eq in E. clear - E. assert (L : forall l : list var, length (nodup eqd l) <= length l).
      { induction l as [|x l IH]; cbn; auto. destruct (in_dec eqd x l); cbn; lia. }
      induction T as [|x l IH]; [constructor|]. cbn in E. destruct (in_dec eqd x l) as [J|J]; [specialize (L l); cbn in E; lia|].
      constructor; auto.
    - intros N v J1 J2. unfold ve_query, ve_compile. rewrite E1 by auto. cbn [negb].
      assert (E2 : existsb (fun v => mem v (keys e)) T = true) by (apply existsb_exists; exists v; split; auto; now apply mem_In).
      now rewrite E2.
    - intros N Dj I. unfold ve_query, ve_compile. rewrite E1 by auto. cbn [negb].
      assert (E2 : existsb (fun v => mem v (keys e)) T = false).
      { apply not_true_is_false. intros E. apply existsb_exists in E as (v & J & K). apply mem_In in K. now apply (Dj v). }
      rewrite E2. destruct (forallb (fun v => mem v ns) (T ++ keys e)) eqn:E3; [|reflexivity]. exfalso. apply I. intros v J.
      rewrite forallb_forall in E3. apply mem_In. auto.
    - intros C v J1 J2. unfold ve_query. 
      assert (E2 : existsb (fun v => mem v C) T = true) by (apply existsb_exists; exists v; split; auto; now apply mem_In).
      now rewrite E2.
  Qed.

  Lemma same_answers e T heur1 heur2 so1 so2 : is_heuristic heur1 -> is_heuristic heur2 -> is_set_order so1 -> is_set_order so2 ->
    NoDup T -> T <> [] -> incl T ns -> incl (keys e) ns -> known D e -> (forall v, In v T -> ~ In v (keys e)) ->
    exists r1 r2, ve_query heur1 so1 m T None e = Ok r1 /\ ve_query heur2 so2 m T None e = Ok r2 /\
      same_set (mf_vars r1) T /\ same_set (mf_vars r2) T /\
      forall t, assigns D T t -> exists x, mf_get_value r1 t = Ok x /\ mf_get_value r2 t = Ok x.
  Proof.
    intros H1 H2 S1 S2 N T0 IT Ie Ke Dj.
    destruct (ve_run_value m D F vt H e Ke (nodes_keys _ Ie) T N T0 (nodes_keys _ IT) Dj) as (im & Ec & R & _ & Hr).
    destruct (Hr heur1 so1 H1 S1) as (r1 & E1 & _ & _ & V1 & _ & _ & X1).
    destruct (Hr heur2 so2 H2 S2) as (r2 & E2 & _ & _ & V2 & _ & _ & X2).
    exists r1, r2. unfold ve_query. rewrite Ec. cbn [bind]. do 4 (split; [assumption|]). intros t At.
    destruct (some_valid D WD) as (a & Va). eexists. split; [exact (X1 a t Va At)|exact (X2 a t Va At)].
  Qed.

  Lemma same_answers_given e T C heur1 heur2 so1 so2 : is_heuristic heur1 -> is_heuristic heur2 -> is_set_order so1 -> is_set_order so2 ->
    NoDup T -> NoDup C -> T <> [] -> incl T ns -> incl C ns -> incl (keys e) ns -> (forall v, In v (T ++ C) -> ~ In v (keys e)) ->
    (forall v, In v T -> ~ In v C) -> mass D F e <> 0%Qc ->
    exists r1 r2, ve_query heur1 so1 m T (Some C) e = Ok r1 /\ ve_query heur2 so2 m T (Some C) e = Ok r2 /\
      same_set (mf_vars r1) (mf_vars r2) /\
      forall t c, assigns D T t -> assigns D C c -> exists x, mf_get_value r1 (t ++ c) = Ok x /\ mf_get_value r2 (t ++ c) = Ok x.
  Proof.
    intros H1 H2 S1 S2 N NC T0 IT IC Ie Dj TC M. assert (Ke := mass_known e M).
    assert (A1 := query_given_ok m D F vt H e Ke (nodes_keys _ Ie) heur1 H1 so1 S1 T C N T0 (nodes_keys _ IT) (nodes_keys _ IC)
              (fun v J => Dj v (in_or_app _ _ _ (or_introl J))) (fun v J => Dj v (in_or_app _ _ _ (or_intror J))) TC M).
    assert (A2 := query_given_ok m D F vt H e Ke (nodes_keys _ Ie) heur2 H2 so2 S2 T C N T0 (nodes_keys _ IT) (nodes_keys _ IC)
              (fun v J => Dj v (in_or_app _ _ _ (or_introl J))) (fun v J => Dj v (in_or_app _ _ _ (or_intror J))) TC M).
    destruct A1 as (r1 & E1 & _ & _ & V1 & _ & _ & _ & X1). destruct A2 as (r2 & E2 & _ & _ & V2 & _ & _ & _ & X2).
    exists r1, r2. do 2 (split; [assumption|]). split; [intros v; rewrite (V1 v), (V2 v); tauto|].
    intros t c At Ac. eexists. split; [exact (X1 t c At Ac NC)|exact (X2 t c At Ac NC)].
  Qed.

  Lemma conditional e T C heur so : is_heuristic heur -> is_set_order so ->
    NoDup T -> NoDup C -> T <> [] -> incl T ns -> incl C ns -> incl (keys e) ns -> (forall v, In v (T ++ C) -> ~ In v (keys e)) ->
    (forall v, In v T -> ~ In v C) -> mass D F e <> 0%Qc ->
    exists r, ve_query heur so m T (Some C) e = Ok r /\ wf_mf r /\ mf_vtype r = vt /\
      same_set (mf_vars r) (T ++ C) /\ same_set (mf_left r) T /\ same_set (mf_right r) C /\ (forall v l, In (v, l) (mf_domain r) -> In (v, l) D) /\
      (forall t c, assigns D T t -> assigns D C c -> mass D F (c ++ e) <> 0%Qc ->
        mf_get_value r (t ++ c) = Ok (Fin (mass D F (t ++ c ++ e) / mass D F (c ++ e))%Qc)) /\
      (forall t c, assigns D T t -> assigns D C c -> nonnegative D F -> mass D F (c ++ e) = 0%Qc ->
        mf_get_value r (t ++ c) = Ok (match vt with VNumpy => Fin 0 | _ => NaN end)%Qc).
  Proof.
    intros H1 S1 N NC T0 IT IC Ie Dj TC M. assert (Ke := mass_known e M).
    assert (A1 := query_given_ok m D F vt H e Ke (nodes_keys _ Ie) heur H1 so S1 T C N T0 (nodes_keys _ IT) (nodes_keys _ IC)
              (fun v J => Dj v (in_or_app _ _ _ (or_introl J))) (fun v J => Dj v (in_or_app _ _ _ (or_intror J))) TC M).
    destruct A1 as (r & E & W & Tv & V & L & R & Rd & X). exists r. do 7 (split; [assumption|]). split.
    - intros t c At Ac Mc. rewrite (X t c At Ac NC). apply (f_equal Ok). rewrite div_fin; [apply (f_equal Fin); field; auto|].
      intros Z. apply Mc. replace (mass D F (c ++ e)) with (mass D F (c ++ e) / mass D F e * mass D F e)%Qc by (field; auto). rewrite Z. ring.
    - intros t c At Ac NN Mc. rewrite (X t c At Ac NC). apply (f_equal Ok).
      rewrite (mass_zero m D F vt H T (c ++ e) t); auto.
      + rewrite Mc. replace (0 / mass D F e)%Qc with 0%Qc by (unfold Qcdiv; ring). destruct vt; reflexivity.
      + apply known_app; auto. eapply assigns_known; eauto.
      + now apply nodes_keys.
      + intros v J K. unfold keys in K. rewrite map_app in K. apply in_app_or in K as [K|K].
        * fold (keys c) in K. rewrite (proj1 Ac) in K. now apply (TC v).
        * apply (Dj v); auto. apply in_or_app. auto.
  Qed.

  Lemma minimalized e T : incl T ns -> incl (keys e) ns -> (forall v, In v T -> ~ In v (keys e)) -> known D e ->
    exists im G, minimalize m T e = Ok im /\
      let D' := pick (nodes (m_graph im)) D in
      network im D' G vt /\ incl T (nodes (m_graph im)) /\ incl (nodes (m_graph im)) ns /\
      (forall v o, In v (nodes (m_graph im)) -> full D o -> consistent o e = true -> entry (G v) o = entry (F v) o) /\
      (mass D F e <> 0%Qc -> mass D' G e <> 0%Qc /\
        forall t, assigns D T t -> (mass D' G (t ++ e) / mass D' G e = mass D F (t ++ e) / mass D F e)%Qc).
  Proof.
    intros IT Ie Dj Ke. exact (minimal_network m D F vt H e Ke T (nodes_keys _ IT) Dj).
  Qed.

  Lemma rows_ok os : (forall o, In o os -> full D o) -> forall vs, incl vs (keys D) ->
    mapM (fo_prob os) (map (fun v => Some (FM (F v))) vs) = Ok (map (fun v => map (fun o => Fin (entry (F v) o)) os) vs).
  Proof.
    intros Fo vs. induction vs as [|v vs IH]; intros I; [reflexivity|]. cbn [map mapM fo_prob].
    assert (E : mf_prob (F v) os = Ok (map (fun o => Fin (entry (F v) o)) os)).
    { unfold mf_prob. clear IH. induction os as [|o os IHo]; [reflexivity|]. cbn [mapM map].
      assert (Gv := net_good m D F vt H v (I v (or_introl eq_refl))).
      destruct (proj2 (proj2 (proj2 Gv)) o) as (q & Eq). { apply (good_full D vt _ _ Gv). apply Fo. now left. }
      unfold entry at 1. rewrite Eq. cbn [bind]. rewrite IHo by (intros; apply Fo; now right). reflexivity. }
    rewrite E. cbn [bind]. rewrite IH; [reflexivity|]. intros w J. apply I. now right.
  Qed.

  Lemma prod_rows os (rows : list (obs -> Qc)) r0 :
    fold_left (fun acc row => map (fun xy => nmul (fst xy) (snd xy)) (combine acc row)) (map (fun r => map (fun o => Fin (r o)) os) rows)
      (map (fun o => Fin (r0 o)) os) =
    map (fun o => Fin (product_of (map (fun r => r o) (r0 :: rows)))) os.
  Proof.
    revert r0. induction rows as [|r rows IH]; intros r0; cbn [map fold_left].
    - apply map_ext. intros o. cbn. now rewrite Qcmult_1_r.
    - assert (E : map (fun xy => nmul (fst xy) (snd xy)) (combine (map (fun o => Fin (r0 o)) os) (map (fun o => Fin (r o)) os)) =
          map (fun o => Fin (r0 o * r o)%Qc) os).
      { clear. induction os as [|o os IH]; [reflexivity|]. cbn [map combine]. rewrite IH. reflexivity. }
      rewrite E, IH. apply map_ext. intros o. cbn. now rewrite Qcmult_assoc.
  Qed.

  Lemma prob_ok os : keys (m_factors m) <> [] -> (forall o, In o os -> full D o) ->
    m_prob m os = Ok (map (fun o => Fin (joint F (keys D) o)) os).
  Proof.
    intros K0 Fo. assert (H0 := H). destruct H0 as (_ & _ & _ & _ & NK & SK & St).
    unfold m_prob. rewrite (vals_of (m_factors m) (fun v => Some (FM (F v))) NK) by (intros v J; apply St; now apply SK).
    assert (I : incl (keys (m_factors m)) (keys D)) by (intros v J; apply nodes_keys with [v]; [intros w [<-|[]]; now apply SK|now left]).
    rewrite (rows_ok os Fo _ I). cbn [bind].
    assert (Pm : Permutation (keys (m_factors m)) (keys D)).
    { apply NoDup_Permutation; [auto|apply WD|]. intros v. split; [apply I|]. intros J. apply SK. now apply (net_nodes m D F vt H). }
    destruct (keys (m_factors m)) as [|v vs] eqn:E; [congruence|]. cbn [map np_prod_rows]. apply (f_equal Ok).
    rewrite <- (map_map (fun v => entry (F v)) (fun r => map (fun o => Fin (r o)) os) vs), (prod_rows os (map (fun v => entry (F v)) vs) (entry (F v))).
    apply map_ext. intros o. apply (f_equal Fin). unfold joint. rewrite !product_qprod. cbn [map]. rewrite map_map.
    change (qprod (map (fun w => entry (F w) o) (v :: vs)) = qprod (map (fun w => entry (F w) o) (keys D))). apply qprod_perm. now apply Permutation_map.
  Qed.

  Lemma prob_total : total (map (joint F (keys D)) (all_assignments D)) = 1%Qc.
  Proof.
    rewrite <- (mass_nil m D F vt H). unfold mass. f_equal. f_equal. symmetry. apply filter_all.
    intros p _. unfold consistent. apply forallb_forall. intros. reflexivity.
  Qed.
End Infer.
