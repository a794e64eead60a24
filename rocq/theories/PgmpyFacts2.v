(** Conversion of factors to pgmpy and back. *)

From Coq Require Import String Bool Arith ZArith Lia Permutation List.
From Verif Require Import PyBase Num DomainModel NdArray StoreModel NumStore FactorModel GraphModel ModelModel PgmpyModel
  PyFacts Spec DomainFacts StoreSpec StoreFacts StoreOps PropFacts1 FactorSpec FactorFacts FactorFacts2 FactorFacts3
  DataFacts PgmpySpec PgmpyFacts.
Import ListNotations.
Local Open Scope nat_scope.
Local Arguments eqd : simpl never.

Section Convert.
  Variables (f : mfactor) (v : var) (l : list state).
  Hypothesis Wf : wf_mf f.
  Hypothesis Lv : mf_left f = [v].
  Hypothesis Iv : In (v, l) (mf_domain f).
  Let D := mf_domain f.
  Let R := arrange (mf_right f) D.
  Let n := length l.

  Lemma WD : wf_dom D.
  Proof. apply usable_wf, Wf. Qed.
  Lemma Dv : dget v D = Some l.
  Proof. apply In_dget; [apply WD|assumption]. Qed.
  Lemma n_pos : 0 < n.
  Proof. unfold n. destruct l as [|x r] eqn:E; [|cbn; lia]. exfalso. now apply (proj2 WD v [] Iv). Qed.
  Lemma v_right : ~ In v (mf_right f).
  Proof. assert (I : In v (mf_left f)) by (rewrite Lv; now left). now apply mf_left_In in I. Qed.
  Lemma right_keys : keys R = mf_right f.
  Proof. apply arrange_keys, Wf. Qed.
  Lemma perm : Permutation D (R ++ [(v, l)]).
  Proof.
    apply NoDup_Permutation.
    - apply (NoDup_map_inv fst), WD.
    - apply (NoDup_map_inv fst). rewrite map_app. change (map fst R) with (keys R). rewrite right_keys.
      apply (Permutation_NoDup (l := v :: mf_right f)); [apply Permutation_cons_append|]. constructor; [apply v_right|apply Wf].
    - intros [w k]. rewrite in_app_iff. unfold R. rewrite arrange_In. cbn [In]. split.
      + intros I. assert (E : dget w D = Some k) by (apply In_dget; [apply WD|assumption]).
        destruct (in_dec string_dec w (mf_right f)) as [J | J]; [left; auto|]. right. left.
        assert (M : In w (mf_left f)) by (apply mf_left_In; split; [eapply keys_In; eauto|assumption]).
        rewrite Lv in M. destruct M as [<- | []]. rewrite Dv in E. now injection E as ->.
      + intros [[_ E] | [E | []]]; [now apply dget_In|]. now injection E as <- <-.
  Qed.
  Lemma size_D : size D = size R * n.
  Proof.
    rewrite (size_perm _ _ perm). assert (S : forall d1 d2, size (d1 ++ d2) = size d1 * size d2).
    { induction d1 as [|[w k] d1 IH]; intros d2; cbn [app size]; [lia|rewrite IH; lia]. }
    rewrite S. cbn [size]. fold n. lia.
  Qed.
  Lemma WR : wf_dom R.
  Proof.
    split; [rewrite right_keys; apply Wf|]. intros w k I. apply arrange_In in I. destruct I as (_ & E).
    apply (proj2 WD w k). now apply dget_In.
  Qed.
  Lemma right_cards : mapM (fun w => let* k := dlook w D in Ok (length k)) (mf_right f) = Ok (card R).
  Proof.
    rewrite <- right_keys. unfold R.
    assert (G : forall vs, incl vs (keys D) -> mapM (fun w => let* k := dlook w D in Ok (length k)) (keys (arrange vs D)) = Ok (card (arrange vs D))).
    { induction vs as [|w vs IH]; intros I; [reflexivity|]. cbn [arrange flat_map].
      destruct (dget w D) as [k|] eqn:E; [|exfalso; apply dget_None in E; apply E, I; now left].
      cbn [app keys map fst mapM]. unfold dlook at 1. rewrite E. cbn [bind].
      unfold keys in IH. unfold arrange in IH. rewrite IH by (intros x J; apply I; now right). reflexivity. }
    apply G, Wf.
  Qed.

  (** the matrix *)
  Lemma prodl_last (L : list nat) : L <> [] -> prodl L = prodl (removelast L) * last L 0.
  Proof. intros N. rewrite (app_removelast_last 0 N) at 1. rewrite prodl_app, prodl_cons, prodl_nil. lia. Qed.
  Lemma last_card (d : domain) : d <> [] -> last (card d) 0 = length (snd (last d (EmptyString, []))).
  Proof.
    induction d as [|[x k] [|y d] IH]; intros N; [now elim N|reflexivity|].
    change (last (card (y :: d)) 0 = length (snd (last (y :: d) (EmptyString, [])))). now apply IH.
  Qed.
  Lemma card_many (x y z : var * list state) d : exists c1 c2 c3 cs, card (x :: y :: z :: d) = c1 :: c2 :: c3 :: cs /\ c1 = length (snd x) /\
    last (c1 :: c2 :: c3 :: cs) 0 = length (snd (last (y :: z :: d) (EmptyString, []))).
  Proof.
    exists (length (snd x)), (length (snd y)), (length (snd z)), (card d). split; [reflexivity|]. split; [reflexivity|].
    rewrite <- last_card by discriminate. reflexivity.
  Qed.

  Lemma single w k : D = [(w, k)] -> R = [] /\ k = l.
  Proof.
    intros E. assert (P := perm). rewrite E in P. assert (Q := Permutation_length P). rewrite app_length in Q. cbn [length] in Q.
    destruct R as [|r R']; [|cbn [length] in Q; lia]. split; [reflexivity|]. apply Permutation_length_1 in P. now injection P as -> ->.
  Qed.

  Lemma as_matrix_ok (a : nd num) : shape a = card D -> length (flat a) = size D -> convertible n D ->
    as_matrix a = Ok (mkNd [size R; n] (flat a)).
  Proof.
    intros Sa La C. assert (P := n_pos). assert (E := size_D). assert (Sg := single).
    unfold as_matrix. rewrite Sa. assert (Sz := size_prodl D). destruct a as [sh fl]. cbn [shape flat] in *. subst sh.
    clearbody D R. destruct D as [|[x k] [|[y k'] [|z d]]].
    - destruct C.
    - destruct (Sg x k eq_refl) as (-> & ->). reflexivity.
    - cbn [convertible] in C. cbn [size] in E.
      assert (X : length k = size R) by nia.
      unfold card. cbn [vals map snd length Nat.ltb Nat.leb shape]. now rewrite X, C.
    - destruct (card_many (x, k) (y, k') z d) as (c1 & c2 & c3 & cs & Ec & E1 & El).
      unfold convertible in C. cbv beta iota in C. destruct C as (C1 & C2). cbn [snd] in E1.
      rewrite Ec in *. cbn [length Nat.ltb Nat.leb shape flat]. unfold py_nth. cbn [nth_error bind].
      unfold np_reshape. cbn [flat]. rewrite prodl2.
      rewrite (prodl_last (c1 :: c2 :: c3 :: cs)) in Sz by discriminate. rewrite El, C2 in Sz.
      assert (X : prodl (removelast (c1 :: c2 :: c3 :: cs)) = size R) by nia.
      rewrite X. replace c1 with n by lia. replace (length fl) with (size R * n) by lia. rewrite Nat.eqb_refl. reflexivity.
  Qed.

  Lemma as_matrix_bad (a : nd num) : shape a = card D -> length (flat a) = size D -> ~ convertible n D ->
    as_matrix a = Raise ValueError \/ exists r c, as_matrix a = Ok (mkNd [r; c] (flat a)) /\ length (flat a) = r * c /\ c <> n.
  Proof.
    intros Sa La C. assert (P := n_pos). assert (SP := card_pos D WD). rewrite <- size_prodl in SP. assert (Iv' := Iv). fold D in Iv'.
    unfold as_matrix. rewrite Sa. assert (Sz := size_prodl D). destruct a as [sh fl]. cbn [shape flat] in *. subst sh.
    clearbody D R. destruct D as [|[x k] [|[y k'] [|z d]]].
    - destruct Iv'.
    - exfalso. now apply C.
    - right. cbn [convertible] in C. exists (length k), (length k'). split; [reflexivity|]. split; [cbn [size] in La; lia|assumption].
    - destruct (card_many (x, k) (y, k') z d) as (c1 & c2 & c3 & cs & Ec & E1 & El).
      unfold convertible in C. cbv beta iota in C. cbn [snd] in E1.
      rewrite Ec in *. cbn [length Nat.ltb Nat.leb shape flat]. unfold py_nth. cbn [nth_error bind].
      unfold np_reshape. cbn [flat]. rewrite prodl2.
      rewrite (prodl_last (c1 :: c2 :: c3 :: cs)) in Sz by discriminate. rewrite El in Sz.
      set (p := prodl (removelast (c1 :: c2 :: c3 :: cs))) in *. set (q := length (snd (last ((y, k') :: z :: d) (EmptyString, [])))) in *.
      destruct (length fl =? p * c1) eqn:Eq; [|now left]. right. apply Nat.eqb_eq in Eq. exists p, c1. split; [reflexivity|]. split; [assumption|].
      intros ->. apply C. split; [congruence|].
      clearbody p q. rewrite <- La in SP, Sz. rewrite Eq in SP, Sz. assert (0 < p) by nia. nia.
  Qed.

  (** the table *)
  Lemma left_first : py_nth (keys (mf_left_domain f)) 0 = Ok v.
  Proof. rewrite left_domain_keys, Lv. reflexivity. Qed.

  Lemma to_tabular_ok : convertible n D -> exists ys,
    to_tabular f = Ok (MkTab v (v :: mf_right f) (mkNd (n :: card R) ys) D) /\ length ys = n * size R /\
    forall i o, i < n -> full R o -> exists o' x, full D o' /\ rowpos D o' = rowpos R o * n + i /\ mf_get_value f o' = Ok x /\
      nth_error ys (i * size R + rowpos R o) = Some x.
  Proof.
    intros C. destruct (factor_array f Wf) as (a & Ea & Sa & La & Ga).
    destruct (transpose_matrix (size R) n (flat a)) as (ys & Ey & Ly & Ty); [rewrite La; apply size_D|].
    exists ys. split; [|split; [assumption|]].
    - unfold to_tabular. rewrite left_first. cbn [bind]. rewrite Ea. cbn [bind]. rewrite (as_matrix_ok a Sa La C). cbn [bind].
      fold D. assert (E := Dv). unfold dlook at 1. rewrite E. cbn [bind]. rewrite Ey. cbn [bind]. rewrite right_cards. cbn [bind].
      unfold tab_init. rewrite <- right_keys. rewrite card_length. unfold keys at 1. rewrite map_length, Nat.eqb_refl. cbn [negb shape length Nat.eqb].
      rewrite <- size_prodl. change (length l) with n. rewrite eqd_refl. cbn [negb].
      rewrite distinct_NoDup.
      2:{ rewrite right_keys. constructor; [apply v_right|apply Wf]. }
      cbn [negb]. unfold np_reshape. cbn [flat]. rewrite prodl_cons, <- size_prodl, Ly, Nat.eqb_refl. cbn [bind].
      assert (X : forallb (fun k : var * list state => distinct (snd k)) D = true).
      { apply forallb_forall. intros [w k] I. apply distinct_NoDup. apply (proj2 WD w k I). }
      rewrite X. reflexivity.
    - intros i o Li Fo. assert (Lr := rowpos_lt R o WR Fo). assert (P := n_pos).
      destruct (at_position D (rowpos R o * n + i) WD) as (o' & Fo' & _ & Eo'); [rewrite size_D; nia|].
      destruct (Ga o' Fo') as (x & Gx & Nx). exists o', x. repeat split; try assumption. rewrite Ty by assumption.
      fold D in Nx. now rewrite Eo' in Nx.
  Qed.

  Lemma to_tabular_raises : ~ convertible n D -> to_tabular f = Raise ValueError.
  Proof.
    intros C. destruct (factor_array f Wf) as (a & Ea & Sa & La & Ga).
    unfold to_tabular. rewrite left_first. cbn [bind]. rewrite Ea. cbn [bind].
    destruct (as_matrix_bad a Sa La C) as [-> | (r & c & -> & Lrc & Nc)]; [reflexivity|]. cbn [bind].
    fold D. assert (E := Dv). unfold dlook at 1. rewrite E. cbn [bind].
    destruct (transpose_matrix r c (flat a) Lrc) as (ys & -> & _). cbn [bind]. rewrite right_cards. cbn [bind].
    unfold tab_init. rewrite <- right_keys. rewrite card_length. unfold keys at 1. rewrite map_length, Nat.eqb_refl. cbn [negb shape length Nat.eqb].
    change (length l) with n. rewrite (eqd_neq [c; r]) by congruence. reflexivity.
  Qed.

  (** and back *)
  Lemma back_ok idx vt : convertible n D -> (forall w k, In (w, k) D -> finds idx k) ->
    exists t f', to_tabular f = Ok t /\ to_multinomial_factor idx t vt = Ok f' /\ wf_mf f' /\ mf_vtype f' = vt /\
      mf_domain f' = D /\ mf_right f' = mf_right f /\
      forall o, full D o -> exists o' x, full D o' /\ rowpos D o' = rowpos (R ++ [(v, l)]) o /\ mf_get_value f o' = Ok x /\ mf_get_value f' o = Ok x.
  Proof.
    intros C Fi. destruct (to_tabular_ok C) as (ys & Et & Ly & Gy).
    set (t := MkTab v (v :: mf_right f) (mkNd (n :: card R) ys) D) in *. exists t.
    assert (Rd : forall o, In o (assignment_space D) -> exists y, tab_get idx t o = Ok y /\
       exists o', full D o' /\ rowpos D o' = rowpos (R ++ [(v, l)]) o /\ mf_get_value f o' = Ok y).
    { intros o Io. apply (proj1 (proj2 (enumeration_ok D (proj1 WD)))) in Io. destruct Io as (Ko & Fo).
      unfold tab_get. cbn [tb_variables tb_states tb_values t].
      assert (A : forallb (fun w => mem w (v :: mf_right f)) (keys o) = true).
      { apply forallb_forall. intros w J. apply mem_In. rewrite Ko in J. apply (Permutation_in w (Permutation_map fst perm)) in J.
        rewrite map_app in J. change (map fst R) with (keys R) in J. rewrite right_keys in J. apply in_app_iff in J. cbn in J. cbn. tauto. }
      rewrite A. cbn [negb].
      set (h := fun w : var => _).
      assert (H : forall w k, In (w, k) D -> exists s i, dget w o = Some s /\ nth_error k i = Some s /\ h w = Ok i).
      { intros w k J. destruct (Fo w k J) as (s & Es & Is). apply In_nth_error in Is. destruct Is as (i & Ei).
        exists s, i. split; [assumption|]. split; [assumption|]. unfold h. rewrite Es. unfold dlook.
        rewrite (In_dget _ _ _ (proj1 WD) J). cbn [bind]. now apply (Fi w k J). }
      assert (HR : exists js, mapM h (mf_right f) = Ok js /\
                  Forall2 (fun vl i => exists s, dget (fst vl) o = Some s /\ nth_error (snd vl) i = Some s) R js).
      { rewrite <- right_keys. assert (IR : forall w k, In (w, k) R -> In (w, k) D) by (intros w k J; apply arrange_In in J; apply dget_In, J).
        clear -H IR. induction R as [|[w k] R' IH]; [exists []; split; [reflexivity|constructor]|].
        destruct IH as (js & Ej & Fj); [intros x y J; apply IR; now right|].
        destruct (H w k (IR w k (or_introl eq_refl))) as (s & i & Es & Ei & Eh).
        exists (i :: js). cbn [keys map fst mapM]. rewrite Eh. cbn [bind]. unfold keys in Ej. rewrite Ej. split; [reflexivity|].
        constructor; [exists s; auto|assumption]. }
      destruct (H v l Iv) as (s & i & Es & Ei & Eh). destruct HR as (js & Ej & Fj).
      cbn [mapM]. rewrite Eh. cbn [bind]. rewrite Ej. cbn [bind].
      assert (FR : full R o) by (intros w k J; apply arrange_In in J; apply Fo, dget_In, J).
      destruct (rowpos_ravel_idx R o js FR (fun w k J => proj1 (proj2 WR w k J)) Fj) as (B & Er).
      assert (Li : i < n) by (apply nth_error_Some; fold n; congruence).
      destruct (Gy i o Li FR) as (o' & x & Fo' & Eo' & Gx & Nx). exists x. split.
      - apply nd_get_flat; [cbn [shape]; apply in_bounds_cons; auto|]. cbn [shape flat ravel]. rewrite Er, <- size_prodl. assumption.
      - exists o'. split; [assumption|]. split; [|assumption]. rewrite Eo', rowpos_app. cbn [size rowpos]. rewrite Es.
        rewrite (index_of_nth l i s); [|apply (proj2 WD v l Iv)|assumption]. fold n. lia. }
    destruct (mapM_all (tab_get idx t) _ (assignment_space D) Rd) as (xs & Ex & Fx).
    assert (Lx : length xs = size D).
    { rewrite <- (Forall2_length _ _ _ Fx). apply (enumeration_ok D (proj1 WD)). }
    assert (Gv : given_values D (FArr (mkNd (card D) xs)) xs) by (right; left; reflexivity).
    destruct (mf_init_ok D (FArr (mkNd (card D) xs)) xs None (Some (mf_right f)) (mf_right f) vt) as (f' & Ef & Wf' & Df & Vf & Rf & Gf & _);
      [apply Wf|assumption|assumption|reflexivity|].
    exists f'. split; [exact Et|]. split.
    { unfold to_multinomial_factor. change (tb_states t) with D. change (tb_variable t) with v. change (tb_variables t) with (v :: mf_right f). rewrite Ex. cbn [bind]. unfold np_reshape. cbn [flat].
      rewrite <- size_prodl, Lx, Nat.eqb_refl. cbn [bind filter]. rewrite eqd_refl.
      replace (filter _ (mf_right f)) with (mf_right f); [exact Ef|]. symmetry.
      assert (NV := v_right). clear -NV. induction (mf_right f) as [|w r IH]; [reflexivity|]. cbn [filter].
      rewrite eqd_neq by (intros ->; apply NV; now left). f_equal. apply IH. intros J. apply NV. now right. }
    split; [eapply mf_init_wf; [apply Wf|exact Lx|exact Gv| | |exact Ef]; intros r' E; [injection E as <-; apply Wf|intros E'; injection E' as <-; apply Wf]|].
    split; [assumption|]. split; [assumption|]. split; [assumption|].
    intros o Fo. destruct (Gf o Fo) as (x & Gx & Nx).
    set (o1 := obs_of (keys D) (asg_of o)).
    assert (O1 : forall w, In w (keys D) -> dget w o1 = dget w o).
    { intros w J. unfold o1. rewrite obs_of_get by assumption. apply keys_In in J. destruct J as (k & J).
      destruct (Fo w k J) as (s & E & _). rewrite E. unfold asg_of, over. now rewrite E. }
    assert (F1 : full D o1).
    { intros w k J. rewrite O1 by (apply keys_In; eauto). apply (Fo w k J). }
    assert (RP : forall d, incl (keys d) (keys D) -> rowpos d o1 = rowpos d o).
    { induction d as [|[w k] d IH]; intros I; [reflexivity|]. cbn [rowpos]. rewrite O1 by (apply I; now left). rewrite IH; [reflexivity|]. intros y J. apply I. now right. }
    assert (K1 : keys o1 = keys D) by (unfold o1, obs_of, keys; rewrite map_map; apply map_id).
    assert (N1 := proj1 (proj2 (proj2 (proj2 (enumeration_ok D (proj1 WD))))) o1 K1 F1).
    rewrite RP in N1 by apply incl_refl.
    destruct (Forall2_at _ _ _ Fx _ _ N1) as (y & Ny & o' & Fo' & Eo' & Go'). rewrite Nx in Ny. injection Ny as <-.
    exists o', x. split; [assumption|]. split; [|auto]. rewrite Eo'. apply RP.
    intros w J. unfold keys in J. rewrite map_app in J. change (map fst R) with (keys R) in J. rewrite right_keys in J. apply in_app_iff in J.
    destruct J as [J | [<- | []]]; [now apply Wf|apply keys_In; eauto].
  Qed.
End Convert.
