(** Store-type independence of calculations and the algebra laws. *)

From Coq Require Import String Bool Arith ZArith QArith Qcanon Lia Permutation List.
From Verif Require Import PyBase Num DomainModel NdArray StoreModel NumStore PyFacts Spec DomainFacts
  StoreSpec TreeFacts StoreFacts NumFacts StoreOps BigSum StoreMarg StoreMarg2 PropFacts1 StoreExpr.
Import ListNotations.
Local Open Scope nat_scope.

Lemma coherent_ok vt e d g : denotes e d g ->
  exists s, eval vt e = Ok s /\ wf_store s /\ st_type s = vt /\ st_domain s = d /\
    forall o, full d o -> get_value s o = Ok (Fin (g o)).
Proof.
  assert (BIN : forall op qop s1 s2 d1 d2 g1 g2 , wf_store s1 -> wf_store s2 -> st_type s1 = vt ->
     st_type s2 = vt -> st_domain s1 = d1 -> st_domain s2 = d2 -> compatible d1 d2 ->
     (forall o, full d1 o -> get_value s1 o = Ok (Fin (g1 o))) ->
     (forall o, full d2 o -> get_value s2 o = Ok (Fin (g2 o))) ->
     (forall o, full d2 o -> op (Fin (g1 o)) (Fin (g2 o)) = Fin (qop (g1 o) (g2 o) : Qc)) ->
     exists s, st_combine n0 op s1 s2 = Ok s /\ wf_store s /\ st_type s = vt /\ st_domain s = join d1 d2 /\
       forall o, full (join d1 d2) o -> get_value s o = Ok (Fin (qop (g1 o) (g2 o)))).
  { intros op qop s1 s2 d1 d2 g1 g2 W1 W2 T1 T2 D1 D2 C G1 G2 HO. subst d1 d2.
    destruct (combine_obs n0 op s1 s2) as (s & E & W & T & D & H); auto; [congruence|].
    exists s. split; [auto|]. split; [auto|]. split; [congruence|]. split; [auto|].
    intros o F. destruct (H o F) as (x & y & X & Y & Z).
    rewrite G1 in X by (eapply full_join_l; eauto). rewrite G2 in Y by (eapply full_join_r; eauto).
    injection X as <-. injection Y as <-. rewrite Z, HO; auto. eapply full_join_r; eauto. }
  induction 1 as [d l W L|e d g o De IH K|e1 d1 g1 e2 d2 g2 _ IH1 _ IH2 C|e1 d1 g1 e2 d2 g2 _ IH1 _ IH2 C
                 |e1 d1 g1 e2 d2 g2 _ IH1 _ IH2 C|e1 d1 g1 e2 d2 g2 _ IH1 _ IH2 C NZ|e d g vs De IH N I];
    cbn [eval].
  - destruct (st_init_flat vt d (map Fin l)) as (s & E & Ws & D & T & Lk); auto.
    { rewrite map_length, L. apply size_prodl. }
    exists s. split; [auto|]. split; [auto|]. split; [auto|]. split; [auto|]. intros o F.
    apply get_look; auto; [rewrite D; auto|]. rewrite Lk by (apply full_valid; auto).
    rewrite nth_error_map, <- rowpos_ravel by auto.
    assert (B : rowpos d o < length l).
    { rewrite L, size_prodl, rowpos_ravel by auto. apply ravel_lt, coords_bounds, full_valid; auto. }
    rewrite (nth_error_nth' l 0%Qc B). reflexivity.
  - destruct IH as (s & -> & W & T & D & G). cbn [bind]. subst d.
    destruct (restrict_obs s o W K) as (s' & E & W' & T' & D' & H).
    exists s'. split; [auto|]. split; [auto|]. split; [congruence|]. split; [auto|]. intros o' F.
    destruct (H o' F) as (x & X & Y). rewrite X. rewrite G in Y; [auto|].
    intros v l Iv. rewrite dget_app. destruct (dget v o) as [y|] eqn:Gy; [eauto|].
    apply F. apply filter_In. split; auto. simpl. apply dget_None in Gy. apply mem_nIn in Gy. rewrite Gy. auto.
  - destruct IH1 as (s1 & -> & W1 & T1 & D1 & G1). destruct IH2 as (s2 & -> & W2 & T2 & D2 & G2). cbn [bind].
    apply (BIN nmul Qcmult s1 s2 d1 d2); auto.
  - destruct IH1 as (s1 & -> & W1 & T1 & D1 & G1). destruct IH2 as (s2 & -> & W2 & T2 & D2 & G2). cbn [bind].
    apply (BIN nadd Qcplus s1 s2 d1 d2); auto.
  - destruct IH1 as (s1 & -> & W1 & T1 & D1 & G1). destruct IH2 as (s2 & -> & W2 & T2 & D2 & G2). cbn [bind].
    apply (BIN nsub Qcminus s1 s2 d1 d2); auto.
  - destruct IH1 as (s1 & -> & W1 & T1 & D1 & G1). destruct IH2 as (s2 & -> & W2 & T2 & D2 & G2). cbn [bind].
    unfold st_divide. rewrite T1. apply (BIN (div_op vt) Qcdiv s1 s2 d1 d2); auto.
    intros o F. assert (X : ndiv (Fin (g1 o)) (Fin (g2 o)) = Fin (g1 o / g2 o)).
    { unfold ndiv. assert (Z := proj2 (qzero_false (g2 o)) (NZ o F)). rewrite Z. auto. }
    destruct vt; cbn [div_op]; auto. unfold np_div. rewrite X. reflexivity.
  - destruct IH as (s & -> & W & T & D & G). cbn [bind]. subst d.
    destruct (marginalize_obs s vs W N I) as (s' & E & W' & T' & D' & H).
    exists s'. split; [auto|]. split; [auto|]. split; [congruence|]. split; [auto|]. intros o F.
    destruct (H o F) as (xs & X & Y). rewrite Y. f_equal. rewrite <- nsum_Fin. f_equal.
    rewrite map_map.
    assert (Y' : forall L xs, (forall p, In p L -> In p (all_assignments (pick vs (st_domain s)))) ->
         Forall2 (fun p x => get_value s (p ++ o) = Ok x) L xs -> xs = map (fun p => Fin (g (p ++ o))) L).
    { intros L ys Hin HF. induction HF as [|p y L ys Hp HF IH']; [auto|]. simpl. f_equal.
      - rewrite G in Hp; [congruence|]. eapply full_app_within; eauto; [apply W|apply Hin; left; auto].
      - apply IH'. intros; apply Hin; right; auto. }
    apply Y' in X; auto.
Qed.

(** ** algebra laws *)

Lemma compatible_sym d1 d2 : compatible d1 d2 -> compatible d2 d1.
Proof. intros C v l1 l2 A B. symmetry. eapply C; eauto. Qed.

Lemma full_join d1 d2 o : full d1 o -> full d2 o -> full (join d1 d2) o.
Proof.
  intros A B v l I. apply in_app_or in I as [I|I]; [auto|]. apply filter_In in I as [I _]. auto.
Qed.

Lemma multiply_comm_obs s1 s2 : wf_store s1 -> wf_store s2 -> st_type s1 = st_type s2 ->
  compatible (st_domain s1) (st_domain s2) ->
  exists p q, st_multiply s1 s2 = Ok p /\ st_multiply s2 s1 = Ok q /\
    forall o, full (st_domain s1) o -> full (st_domain s2) o ->
      exists x, get_value p o = Ok x /\ get_value q o = Ok x.
Proof.
  intros W1 W2 T C.
  destruct (combine_obs n0 nmul s1 s2) as (p & E & W & Tp & D & H); auto.
  destruct (combine_obs n0 nmul s2 s1) as (q & E' & W' & Tq & D' & H'); auto using compatible_sym.
  exists p, q. split; [auto|]. split; [auto|]. intros o F1 F2.
  destruct (H o) as (x & y & X & Y & Z); [apply full_join; auto|].
  destruct (H' o) as (x' & y' & X' & Y' & Z'); [apply full_join; auto|].
  exists (nmul x y). split; auto. rewrite Z'. f_equal. rewrite nmul_comm. congruence.
Qed.

Lemma compatible_join d1 d2 d : compatible d1 d -> compatible d2 d -> compatible (join d1 d2) d.
Proof.
  intros A B v l1 l2 I J. apply in_app_or in I as [I|I]; [eapply A; eauto|].
  apply filter_In in I as [I _]. eapply B; eauto.
Qed.

Lemma mem_app {K} `{EqD K} (x : K) l1 l2 : mem x (l1 ++ l2) = mem x l1 || mem x l2.
Proof. unfold mem. apply existsb_app. Qed.

Lemma mem_cons {K} `{EqD K} (x y : K) l : mem x (y :: l) = (if eqd x y then true else false) || mem x l.
Proof. reflexivity. Qed.

Lemma drop_cons vs v l d : drop vs ((v, l) :: d) = if mem v vs then drop vs d else (v, l) :: drop vs d.
Proof. unfold drop. cbn [filter fst]. destruct (mem v vs); reflexivity. Qed.

Lemma keys_app {K V} (d1 d2 : dict K V) : keys (d1 ++ d2) = keys d1 ++ keys d2.
Proof. apply map_app. Qed.

Lemma mem_keys_drop v vs d : mem v (keys (drop vs d)) = mem v (keys d) && negb (mem v vs).
Proof.
  induction d as [|[w l] d IH]; [reflexivity|]. unfold drop in *. cbn [filter fst].
  change (keys ((w, l) :: d)) with (w :: keys d). rewrite mem_cons.
  destruct (mem w vs) eqn:M; simpl negb; cbn iota.
  - rewrite IH. destruct (eqd v w) as [->|]; simpl; auto. rewrite M. destruct (mem w (keys d)); reflexivity.
  - unfold keys at 1. cbn [map fst]. fold (keys (filter (fun vl : var * list state => negb (mem (fst vl) vs)) d)).
    rewrite mem_cons, IH. destruct (eqd v w) as [->|]; simpl; auto. rewrite M. reflexivity.
Qed.

Lemma join_assoc d1 d2 d3 : join (join d1 d2) d3 = join d1 (join d2 d3).
Proof.
  unfold join. rewrite <- app_assoc. f_equal.
  assert (X : forall a b : domain, drop (keys d1) (a ++ b) = drop (keys d1) a ++ drop (keys d1) b).
  { intros. apply filter_app. }
  rewrite X. f_equal. induction d3 as [|[v l] d IH]; [reflexivity|].
  rewrite !drop_cons, IH, keys_app, mem_app, mem_keys_drop.
  destruct (mem v (keys d1)) eqn:B1, (mem v (keys d2)) eqn:B2; simpl; rewrite ?drop_cons, ?B1; reflexivity.
Qed.

Lemma multiply_assoc_obs s1 s2 s3 : wf_store s1 -> wf_store s2 -> wf_store s3 ->
  st_type s1 = st_type s2 -> st_type s2 = st_type s3 ->
  compatible (st_domain s1) (st_domain s2) -> compatible (st_domain s1) (st_domain s3) ->
  compatible (st_domain s2) (st_domain s3) ->
  exists p12 p l23 q, st_multiply s1 s2 = Ok p12 /\ st_multiply p12 s3 = Ok p /\
    st_multiply s2 s3 = Ok l23 /\ st_multiply s1 l23 = Ok q /\ st_domain p = st_domain q /\
    forall o, full (st_domain p) o -> exists x, get_value p o = Ok x /\ get_value q o = Ok x.
Proof.
  intros W1 W2 W3 T12 T23 C12 C13 C23.
  destruct (combine_obs n0 nmul s1 s2) as (p12 & E12 & W12 & Tp12 & D12 & H12); auto.
  destruct (combine_obs n0 nmul p12 s3) as (p & E & W & Tp & D & H); auto; [congruence| |].
  { rewrite D12. apply compatible_join; auto. }
  destruct (combine_obs n0 nmul s2 s3) as (r & Er & Wr & Tr & Dr & Hr); auto.
  destruct (combine_obs n0 nmul s1 r) as (q & Eq & Wq & Tq & Dq & Hq); auto; [congruence| |].
  { rewrite Dr. apply compatible_sym, compatible_join; apply compatible_sym; auto. }
  exists p12, p, r, q. split; [auto|]. split; [auto|]. split; [auto|]. split; [auto|]. split.
  { rewrite D, Dq, D12, Dr. apply join_assoc. }
  intros o F. rewrite D, D12 in F.
  assert (F12 := full_join_l _ _ _ F). assert (F1 := full_join_l _ _ _ F12).
  assert (F2 := full_join_r _ _ _ C12 F12).
  assert (F3 : full (st_domain s3) o).
  { eapply full_join_r; [|exact F]. apply compatible_join; auto. }
  destruct (H o) as (x & z & X & Z & P). { rewrite D12. auto. }
  destruct (H12 o) as (u & w & U & V & R). { auto. }
  destruct (Hq o) as (x' & y' & X' & Y' & Q). { rewrite Dr. apply full_join; auto. apply full_join; auto. }
  destruct (Hr o) as (w' & z' & V' & Z' & S). { apply full_join; auto. }
  eexists. split; [exact P|]. rewrite Q. f_equal.
  assert (x = nmul u w) by congruence. assert (y' = nmul w' z') by congruence. subst.
  assert (x' = u) by congruence. assert (w' = w) by congruence. assert (z' = z) by congruence. subst.
  apply nmul_assoc.
Qed.

Lemma qsum_scale c l : qsum (map (fun x => c * x)%Qc l) = (c * qsum l)%Qc.
Proof. induction l; simpl; [ring|]. rewrite IHl. ring. Qed.

Lemma sum_out_obs s1 s2 v : wf_store s1 -> wf_store s2 -> st_type s1 = st_type s2 ->
  compatible (st_domain s1) (st_domain s2) ->
  (forall o, full (st_domain s1) o -> exists q, get_value s1 o = Ok (Fin q)) ->
  (forall o, full (st_domain s2) o -> exists q, get_value s2 o = Ok (Fin q)) ->
  ~ In v (keys (st_domain s1)) -> In v (keys (st_domain s2)) ->
  exists p p' m m', st_multiply s1 s2 = Ok p /\ st_marginalize p [v] = Ok p' /\
    st_marginalize s2 [v] = Ok m /\ st_multiply s1 m = Ok m' /\ st_domain p' = st_domain m' /\
    forall o, full (st_domain p') o -> exists x, get_value p' o = Ok x /\ get_value m' o = Ok x.
Proof.
  intros W1 W2 T C Fi1 Fi2 N1 I2.
  destruct (combine_obs n0 nmul s1 s2) as (p & E & W & Tp & D & H); auto.
  assert (Nv : NoDup [v]) by (repeat constructor; intros []).
  destruct (marginalize_obs p [v]) as (p' & E' & W' & T' & D' & H'); auto.
  { intros w [<-|[]]. rewrite D. unfold join. rewrite keys_app. apply in_or_app. right.
    apply keys_In in I2 as (l & I2). apply keys_In. exists l. apply filter_In. split; auto.
    cbn [fst]. apply mem_nIn in N1. rewrite N1. auto. }
  destruct (marginalize_obs s2 [v]) as (m & Em & Wm & Tm & Dm & Hm); auto.
  { intros w [<-|[]]. auto. }
  assert (C' : compatible (st_domain s1) (st_domain m)).
  { rewrite Dm. intros w l1 l2 A B. apply filter_In in B as [B _]. eapply C; eauto. }
  destruct (combine_obs n0 nmul s1 m) as (m' & Em' & Wm' & Tm' & Dm' & Hm'); auto; [congruence|].
  exists p, p', m, m'. split; [auto|]. split; [auto|]. split; [auto|]. split; [auto|].
  assert (DD : drop [v] (join (st_domain s1) (st_domain s2)) = join (st_domain s1) (drop [v] (st_domain s2))).
  { unfold join, drop at 1. rewrite filter_app. fold (drop [v] (st_domain s1)).
    fold (drop [v] (drop (keys (st_domain s1)) (st_domain s2))). f_equal.
    - assert (K := N1). clear -K. induction (st_domain s1) as [|[w l] d IH]; [reflexivity|].
      simpl in K. rewrite drop_cons, mem_cons, eqd_neq by (intros ->; auto). simpl. f_equal. apply IH. auto.
    - clear. induction (st_domain s2) as [|[w l] d IH]; [reflexivity|]. rewrite !drop_cons.
      destruct (mem w (keys (st_domain s1))) eqn:A, (mem w [v]) eqn:B; rewrite ?drop_cons, ?A, ?B; congruence. }
  assert (PP : pick [v] (join (st_domain s1) (st_domain s2)) = pick [v] (st_domain s2)).
  { unfold join, pick at 1. rewrite filter_app.
    assert (Z : filter (fun vl : var * list state => mem (fst vl) [v]) (st_domain s1) = []).
    { clear -N1. induction (st_domain s1) as [|[w l] d IH]; simpl in *; auto.
      rewrite eqd_neq by (intros ->; auto). simpl. apply IH. auto. }
    rewrite Z. cbn [app]. fold (pick [v] (drop (keys (st_domain s1)) (st_domain s2))).
    clear -N1. induction (st_domain s2) as [|[w l] d IH]; [reflexivity|].
    rewrite drop_cons. destruct (mem w (keys (st_domain s1))) eqn:M.
    - rewrite IH. unfold pick at 2. cbn [filter fst]. rewrite mem_cons, eqd_neq; [reflexivity|].
      intros ->. apply mem_In in M. auto.
    - unfold pick in *. cbn [filter fst]. rewrite IH. reflexivity. }
  split. { rewrite D', Dm', D, Dm. auto. }
  intros o F. rewrite D', D in F.
  destruct (H' o) as (xs & X & Y). { rewrite D. auto. }
  rewrite D, PP in X.
  assert (F' : full (join (st_domain s1) (st_domain m)) o) by (rewrite Dm, <- DD; auto).
  destruct (Hm' o F') as (a & b & A & B & R).
  assert (F1 := full_join_l _ _ _ F'). assert (Fm := full_join_r _ _ _ C' F').
  rewrite Dm in Fm. destruct (Hm o Fm) as (ys & Y1 & Y2).
  destruct (Fi1 o F1) as (qa & Qa). assert (a = Fin qa) by congruence. subst a.
  assert (b = nsum ys) by congruence. subst b. clear B.
  exists (nsum xs). split; auto. rewrite R. f_equal. clear R Y Y2.
  assert (FIN : exists qs, ys = map Fin qs /\ xs = map (fun q => Fin (qa * q)) qs).
  { assert (HIn : forall q, In q (all_assignments (pick [v] (st_domain s2))) ->
       get_value s1 (q ++ o) = Ok (Fin qa) /\ full (join (st_domain s1) (st_domain s2)) (q ++ o)).
    { intros q Iq.
      assert (Fq : full (join (st_domain s1) (st_domain s2)) (q ++ o)).
      { apply (full_app_within [v]); auto; [|rewrite PP; auto].
        rewrite <- D. apply W. }
      split; auto. rewrite <- Qa.
      destruct (get_full s1 o W1 F1) as (g & G1 & G2). rewrite G2.
      apply get_look; auto; [eapply full_join_l; eauto|]. rewrite <- G1. apply look_ext; auto.
      intros w Iw. rewrite asg_of_app. apply (over_outside (st_domain s2) [v]); auto.
      intros [->|[]]. auto. }
    revert HIn X ys Y1. generalize (all_assignments (pick [v] (st_domain s2))). intros L HIn X.
    induction X as [|q x L xs Hx X IH]; intros ys Y1; inversion Y1; subst.
    - exists []. auto.
    - match goal with K : Forall2 _ L ?l' |- _ => destruct (IH (fun q I => HIn q (or_intror I)) l' K) as (qs & -> & ->) end.
      destruct (HIn q (or_introl eq_refl)) as [G Fq].
      destruct (H _ Fq) as (u & w & U & V & P).
      destruct (Fi2 (q ++ o)) as (qb & Qb); [eapply full_join_r; eauto|].
      exists (qb :: qs). simpl. split; f_equal; try congruence.
      assert (u = Fin qa) by congruence. assert (w = Fin qb) by congruence. subst. simpl in P. congruence. }
  destruct FIN as (qs & -> & ->). rewrite nsum_Fin, <- map_map with (g := Fin), nsum_Fin, qsum_scale. reflexivity.
Qed.

Lemma store_independence e d g : denotes e d g ->
  forall vt1 vt2, exists s1 s2, eval vt1 e = Ok s1 /\ eval vt2 e = Ok s2 /\
    st_domain s1 = st_domain s2 /\ forall o, full (st_domain s1) o -> get_value s1 o = get_value s2 o.
Proof.
  intros De vt1 vt2. destruct (coherent_ok vt1 e d g De) as (s1 & E1 & _ & _ & D1 & G1).
  destruct (coherent_ok vt2 e d g De) as (s2 & E2 & _ & _ & D2 & G2).
  exists s1, s2. split; [auto|]. split; [auto|]. split; [congruence|]. intros o F. rewrite D1 in F.
  rewrite G1, G2; auto.
Qed.

Lemma divide_obs s1 s2 : wf_store s1 -> wf_store s2 ->
  st_type s1 = st_type s2 -> compatible (st_domain s1) (st_domain s2) ->
  exists s, st_divide s1 s2 = Ok s /\ wf_store s /\ st_type s = st_type s1 /\
    st_domain s = join (st_domain s1) (st_domain s2) /\
    forall o, full (join (st_domain s1) (st_domain s2)) o ->
      exists x y z, get_value s1 o = Ok x /\ get_value s2 o = Ok y /\ get_value s o = Ok z /\
        (forall a b, x = Fin a -> y = Fin b -> b <> 0%Qc -> z = Fin (a / b)) /\
        (forall a, x = Fin a -> y = n0 ->
           match st_type s1 with
           | VNumpy => (a = 0%Qc -> z = n0) /\ ((0 < a)%Qc -> z = Fin flt_max) /\ ((a < 0)%Qc -> z = Fin (- flt_max))
           | _ => (a = 0%Qc -> z = NaN) /\ ((0 < a)%Qc -> z = PInf) /\ ((a < 0)%Qc -> z = NInf)
           end).
Proof.
  intros W1 W2 T C. destruct (combine_obs n0 (div_op (st_type s1)) s1 s2 W1 W2 T C) as (s & E & W & Ts & D & H).
  exists s. split; [auto|]. split; [auto|]. split; [auto|]. split; [auto|]. intros o F.
  destruct (H o F) as (x & y & X & Y & Z). exists x, y. eexists. split; [auto|]. split; [auto|]. split; [exact Z|].
  split.
  - intros a b -> -> NB. apply qzero_false in NB.
    assert (ndiv (Fin a) (Fin b) = Fin (a / b)) as R by (simpl; rewrite NB; auto).
    destruct (st_type s1); cbn [div_op]; auto. unfold np_div. rewrite R. reflexivity.
  - intros a -> ->. assert (Z0 : a = 0%Qc -> ndiv (Fin a) n0 = NaN).
    { intros ->. reflexivity. }
    assert (Zp : (0 < a)%Qc -> ndiv (Fin a) n0 = PInf).
    { intros P. unfold n0. simpl. assert (qzero a = false) as -> by (apply qzero_false; intros ->; qclra).
      apply qpos_spec in P. rewrite P. reflexivity. }
    assert (Zn : (a < 0)%Qc -> ndiv (Fin a) n0 = NInf).
    { intros P. unfold n0. simpl. assert (qzero a = false) as -> by (apply qzero_false; intros ->; qclra).
      assert (qpos a = false) as -> by (apply qpos_false; qclra). reflexivity. }
    destruct (st_type s1); cbn [div_op]; auto; unfold np_div.
    split; [intros P; rewrite Z0 by auto; reflexivity|].
    split; intros P; [rewrite Zp by auto|rewrite Zn by auto]; reflexivity.
Qed.

Lemma divide_numpy_finite s1 s2 s : st_type s1 = VNumpy -> wf_store s1 -> wf_store s2 ->
  compatible (st_domain s1) (st_domain s2) -> st_divide s1 s2 = Ok s ->
  forall o, full (st_domain s) o -> exists r, get_value s o = Ok (Fin r).
Proof.
  intros T W1 W2 C E o F. unfold st_divide in E. rewrite T in E.
  assert (T2 : st_type s1 = st_type s2).
  { destruct s1, s2; try discriminate; auto. }
  destruct (combine_obs n0 np_div s1 s2 W1 W2 T2 C) as (s' & E' & W & Ts & D & H).
  cbn [div_op] in E. rewrite E in E'. injection E' as <-. rewrite D in F.
  destruct (H o F) as (x & y & _ & _ & ->). unfold np_div. destruct (ndiv x y); simpl; eauto.
Qed.

Lemma perm_mem {K} `{EqD K} (l1 l2 : list K) x : Permutation l1 l2 -> mem x l1 = mem x l2.
Proof.
  intros P. destruct (mem x l2) eqn:M.
  - apply mem_In. apply mem_In in M. eapply Permutation_in; [apply Permutation_sym|]; eauto.
  - apply mem_nIn. apply mem_nIn in M. intros I. apply M. eapply Permutation_in; eauto.
Qed.

Lemma marginalize_perm_obs s s1 s2 vs ws : wf_store s -> NoDup vs ->
  incl vs (keys (st_domain s)) -> Permutation vs ws ->
  st_marginalize s vs = Ok s1 -> st_marginalize s ws = Ok s2 ->
  st_domain s1 = st_domain s2 /\ forall o, full (st_domain s1) o -> get_value s1 o = get_value s2 o.
Proof.
  intros W N I P E1 E2.
  destruct (marginalize_obs s vs W N I) as (s1' & E1' & _ & _ & D1 & H1).
  destruct (marginalize_obs s ws W) as (s2' & E2' & _ & _ & D2 & H2).
  { eapply Permutation_NoDup; eauto. }
  { intros v J. apply I. eapply Permutation_in; [apply Permutation_sym|]; eauto. }
  assert (s1' = s1) by congruence. assert (s2' = s2) by congruence. subst.
  assert (DD : drop vs (st_domain s) = drop ws (st_domain s)).
  { unfold drop. apply filter_ext. intros vl. rewrite (perm_mem _ _ _ P). auto. }
  assert (PP : pick vs (st_domain s) = pick ws (st_domain s)).
  { unfold pick. apply filter_ext. intros vl. apply perm_mem; auto. }
  split; [congruence|]. intros o F. rewrite D1 in F.
  destruct (H1 o F) as (xs & X & ->). destruct (H2 o) as (ys & Y & ->). { rewrite <- DD. auto. }
  f_equal. f_equal. rewrite <- PP in Y. clear -X Y. revert ys Y.
  induction X as [|p x L xs Hx X IH]; intros ys Y; inversion Y; subst; auto. f_equal; [congruence|auto].
Qed.

Lemma maxmarginalize_np1 s vs : st_type s = VNumpy1D -> st_maxmarginalize s vs = Raise NotImplementedError.
Proof. destruct s; try discriminate. reflexivity. Qed.
