(** Elimination orderings: proofs. *)

From Coq Require Import String Bool Arith ZArith QArith Qcanon Lia Permutation List.
From Verif Require Import PyBase PyFacts Num DomainModel NdArray StoreModel NumStore FactorModel Spec 
  GraphModel GraphSpec GraphFacts GraphFacts2 ModelModel ModelSpec InferModel NetSpec OrderSpec.
From Coq Require Import List.
Import ListNotations.
Local Open Scope nat_scope.
Local Arguments eqd : simpl never.

Lemma comb2_In {A} (x y : A) l : In (x, y) (combinations2 l) -> In x l /\ In y l.
Proof.
  induction l as [|z l IH]; cbn; [tauto|]. rewrite in_app_iff, in_map_iff. intros [(w & E & J)|J].
  - injection E as <- <-. auto.
  - apply IH in J. tauto.
Qed.

Lemma comb2_neq {A} (x : A) l : NoDup l -> ~ In (x, x) (combinations2 l).
Proof.
  induction l as [|z l IH]; cbn; auto. intros N. inversion N; subst. rewrite in_app_iff, in_map_iff. intros [(w & E & J)|J].
  - injection E as <- <-. contradiction.
  - now apply IH in J.
Qed.

Lemma comb2_iff {A} (x y : A) l : NoDup l -> (In (x, y) (combinations2 l) \/ In (y, x) (combinations2 l) <-> x <> y /\ In x l /\ In y l).
Proof.
  intros N. split.
  - intros J. split; [intros ->; now apply (comb2_neq y l N); destruct J|]. destruct J as [J|J]; apply comb2_In in J; tauto.
  - induction l as [|z l IH]; cbn; [tauto|]. inversion N; subst. rewrite !in_app_iff, !in_map_iff. intros (Ne & Jx & Jy).
    destruct Jx as [<-|Jx]; destruct Jy as [<-|Jy].
    + congruence.
    + left. left. eauto.
    + right. left. eauto.
    + destruct (IH H2) as [J|J]; auto.
Qed.

Lemma comb2_once {A} (x y : A) l : NoDup l -> In (x, y) (combinations2 l) -> ~ In (y, x) (combinations2 l).
Proof.
  induction l as [|z l IH]; cbn; auto. intros N. inversion N; subst. rewrite !in_app_iff, !in_map_iff.
  intros [(w & E & J)|J] [(w' & E' & J')|J'].
  - injection E as <- <-. injection E' as -> ->. contradiction.
  - injection E as <- <-. apply comb2_In in J'. tauto.
  - injection E' as <- <-. apply comb2_In in J. tauto.
  - now apply (IH H2 J).
Qed.

Lemma comb2_NoDup {A} (l : list A) : NoDup l -> NoDup (combinations2 l).
Proof.
  induction l as [|z l IH]; cbn; [constructor|]. intros N. inversion N; subst. apply NoDup_app_intro; auto.
  - apply FinFun.Injective_map_NoDup; auto. intros a b E. congruence.
  - intros [x y] J J'. apply in_map_iff in J as (w & E & J). injection E as <- <-. apply comb2_In in J'. tauto.
Qed.

Lemma u_adj_sym u x y : u_adj u x y = u_adj u y x.
Proof. unfold u_adj. apply orb_comm. Qed.
Lemma u_adj_In u x y : u_adj u x y = true <-> In (x, y) (u_edges u) \/ In (y, x) (u_edges u).
Proof. unfold u_adj. rewrite orb_true_iff, !mem_In. tauto. Qed.

Lemma moral_sym g x y : moral g x y -> moral g y x.
Proof. intros [N [A|[A|(z & A & B)]]]; split; auto. right. right. eauto. Qed.

Lemma through_trans g l x v y : In v l -> through g l x v -> through g l v y -> through g l x y.
Proof. intros J A. revert y. induction A as [x v M|x w v M Jw A IH]; intros y B; eapply th_step; eauto. Qed.

Lemma through_mono g l l' x y : incl l l' -> through g l x y -> through g l' x y.
Proof. intros I A. induction A; [now apply th_one|eapply th_step; eauto]. Qed.

Lemma through_add g l v x y : through g (l ++ [v]) x y <-> through g l x y \/ (through g l x v /\ through g l v y).
Proof.
  split.
  - intros A. induction A as [x y M|x w y M J A IH]; [left; now apply th_one|].
    apply in_app_or in J as [J|[<-|[]]].
    + destruct IH as [B|[B C]]; [left; eapply th_step; eauto|right; split; auto; eapply th_step; eauto].
    + right. split; [now apply th_one|]. destruct IH as [B|[_ B]]; auto.
  - intros [A|[A B]].
    + eapply through_mono; [|exact A]. apply incl_appl, incl_refl.
    + assert (I : incl l (l ++ [v])) by apply incl_appl, incl_refl.
      apply (through_trans g (l ++ [v]) x v y); [apply in_or_app; right; now left| |]; eapply through_mono; eauto.
Qed.

(** What is known about the current graph once [gone] has been eliminated. *)
Definition ginv (g : digraph) (gone : list var) (u : ugraph) : Prop :=
  NoDup (u_nodes u) /\ (forall v, In v (u_nodes u) <-> In v (nodes g) /\ ~ In v gone) /\
  (forall x y, u_adj u x y = true <-> adjacent g gone x y) /\
  (forall x y, u_adj u x y = true -> In x (u_nodes u) /\ In y (u_nodes u)).

Section Dag.
  Variable g : digraph.
  Hypothesis Wg : wf_graph g.
  Hypothesis Ac : acyclic g.

  Lemma ginv_start : ginv g [] (moral_graph g).
  Proof.
    unfold ginv, moral_graph; cbn [u_nodes u_edges].
    assert (E : forall x y, u_adj (mkU (nodes g) (g_edges g ++ flat_map (fun v => combinations2 (preds g v)) (nodes g))) x y = true <-> moral g x y).
    { intros x y. rewrite u_adj_In. cbn [u_edges]. rewrite !in_app_iff, !in_flat_map.
      assert (Ae : forall a b, In (a, b) (g_edges g) <-> arc g a b) by (intros; now apply in_g_edges).
      assert (Ab : forall a b, arc g a b -> a <> b) by (intros a b A ->; apply (Ac b); now constructor).
      assert (Cb : forall z, In z (nodes g) -> NoDup (preds g z)) by (intros z _; apply preds_NoDup; apply Wg).
      rewrite !Ae. split.
      - intros [[A|(z & Jz & A)]|[A|(z & Jz & A)]].
        + split; auto.
        + assert (Q : In (x, y) (combinations2 (preds g z)) \/ In (y, x) (combinations2 (preds g z))) by auto.
          apply (comb2_iff x y _ (Cb z Jz)) in Q as (Ne & P1 & P2). apply in_preds in P1. apply in_preds in P2. split; auto. right. right. eauto.
        + split; [intros ->; now apply (Ab _ _ A)|auto].
        + assert (Q : In (x, y) (combinations2 (preds g z)) \/ In (y, x) (combinations2 (preds g z))) by auto.
          apply (comb2_iff x y _ (Cb z Jz)) in Q as (Ne & P1 & P2). apply in_preds in P1. apply in_preds in P2. split; auto. right. right. eauto.
      - intros [Ne [A|[A|(z & A & B)]]]; auto. assert (Jz : In z (nodes g)) by (apply Wg in A; tauto).
        destruct (proj2 (comb2_iff x y _ (Cb z Jz))) as [Q|Q]; [split; [auto|split; now apply in_preds]|left|right]; right; eauto. }
    split; [apply Wg|]. split; [cbn; tauto|]. split.
    - intros x y. rewrite E. unfold adjacent. cbn. split.
      + intros M. split; [apply M|]. repeat split; auto. now apply th_one.
      + intros (_ & _ & _ & Th). destruct Th as [|x w y M []]. auto.
    - intros x y Q. apply E in Q as [_ [A|[A|(z & A & B)]]]; apply Wg in A; try apply Wg in B; tauto.
  Qed.

  Lemma u_neighbours_ok gone u v : ginv g gone u -> neighbours g gone v (u_neighbours u v).
  Proof.
    intros (N & V & A & I). split; [now apply NoDup_filter|]. intros w. unfold u_neighbours. rewrite filter_In, (A v w).
    split; [tauto|]. intros Q. split; auto. apply A in Q. apply I in Q. tauto.
  Qed.

  Lemma fillin_ok gone u v : ginv g gone u -> In v (u_nodes u) ->
    exists ps, fillin_arcs v u = Ok ps /\ missing_pairs g gone v ps.
  Proof.
    intros G J. unfold fillin_arcs, u_get. apply mem_In in J. rewrite J. cbn [bind]. eexists. split; [reflexivity|].
    destruct (u_neighbours_ok gone u v G) as [N Nb]. destruct G as (_ & _ & A & _).
    split; [now apply NoDup_filter, comb2_NoDup|]. split.
    - intros x y P Q. apply filter_In in P as [P _]. apply filter_In in Q as [Q _]. now apply (comb2_once x y _ N).
    - intros x y. rewrite !filter_In. cbn [fst snd]. rewrite !negb_true_iff, (u_adj_sym u y x).
      assert (E : u_adj u x y = false <-> ~ adjacent g gone x y) by (rewrite <- (A x y); destruct (u_adj u x y); split; congruence || tauto).
      rewrite E. assert (C := comb2_iff x y _ N). rewrite (Nb x), (Nb y) in C. tauto.
  Qed.

  Lemma eliminate_ok gone u v : ginv g gone u -> In v (u_nodes u) ->
    exists u', u_eliminate v u = Ok u' /\ ginv g (gone ++ [v]) u'.
  Proof.
    intros G J. destruct (fillin_ok gone u v G J) as (ps & E & N & O & M). unfold u_eliminate. rewrite E. cbn [bind].
    eexists. split; [reflexivity|]. assert (Nv : ~ In v gone) by (apply G in J; tauto). destruct G as (ND & V & A & I).
    assert (El : forall x y, u_adj (mkU (filter (fun w => negb (if eqd w v then true else false)) (u_nodes u))
         (filter (fun e => negb (if eqd (fst e) v then true else false) && negb (if eqd (snd e) v then true else false)) (u_edges u ++ ps))) x y = true
         <-> x <> v /\ y <> v /\ (u_adj u x y = true \/ In (x, y) ps \/ In (y, x) ps)).
    { intros x y. rewrite !u_adj_In. cbn [u_edges]. rewrite !filter_In, !in_app_iff. cbn [fst snd]. rewrite !andb_true_iff, !negb_true_iff.
      destruct (eqd x v), (eqd y v); split; intros Q; try tauto; intuition congruence. }
    split; [now apply NoDup_filter|]. split; [|split].
    - intros w. cbn [u_nodes]. rewrite filter_In, (V w), negb_true_iff, in_app_iff. cbn. destruct (eqd w v) as [->|Nw]; split; intros Q.
      + destruct Q; discriminate.
      + exfalso. tauto.
      + split; [tauto|]. intros [|[|[]]]; [tauto|congruence].
      + tauto.
    - intros x y. rewrite El, (A x y), (M x y). unfold adjacent at 5. rewrite through_add, !in_app_iff. cbn.
      assert (Sy : adjacent g gone v x <-> adjacent g gone x v) by (rewrite <- (A v x), <- (A x v), u_adj_sym; tauto).
      rewrite Sy. unfold adjacent. split.
      + intros (N1 & N2 & [(N3 & N4 & N5 & Th)|(N3 & (_ & N4 & _ & T1) & (_ & _ & N5 & T2) & _)]); repeat split; auto; try (intros [|[|[]]]; auto; congruence).
      + intros (N1 & N2 & N3 & Th).
        assert (Q : x <> v /\ y <> v /\ ~ In x gone /\ ~ In y gone) by (repeat split; [intros ->; tauto|intros ->; tauto|tauto|tauto]).
        destruct Q as (Q1 & Q2 & Q3 & Q4). split; [auto|]. split; [auto|].
        destruct (u_adj u x y) eqn:Au; [left; now apply A|]. right.
        assert (Na : ~ adjacent g gone x y) by (rewrite <- (A x y); congruence). unfold adjacent in Na.
        destruct Th as [Th|[T1 T2]]; [exfalso; apply Na; auto|]. repeat split; auto.
    - intros x y Q. apply El in Q as (N1 & N2 & Q). cbn [u_nodes]. rewrite !filter_In, !negb_true_iff.
      destruct (eqd x v), (eqd y v); try congruence.
      enough (In x (u_nodes u) /\ In y (u_nodes u)) by tauto. destruct Q as [Q|Q]; [now apply I|].
      apply M in Q as (_ & Q1 & Q2 & _). apply A in Q1. apply A in Q2. apply I in Q1. apply I in Q2. tauto.
  Qed.

  Lemma fold_mul l a : fold_left Nat.mul l a = a * fold_right Nat.mul 1 l.
  Proof. revert a. induction l as [|x l IH]; intros a; cbn; [lia|]. rewrite IH. lia. Qed.
  Lemma prod_app l1 l2 : fold_right Nat.mul 1 (l1 ++ l2) = fold_right Nat.mul 1 l1 * fold_right Nat.mul 1 l2.
  Proof. induction l1; cbn; [lia|]. rewrite IHl1. lia. Qed.

  Variables (h : heuristic) (sizes : dict var nat).
  Hypothesis Hs : h = MIN_WEIGHT -> forall v, In v (nodes g) -> exists n, dget v sizes = Some n.

  Lemma sizes_ok ns : incl ns (nodes g) -> h = MIN_WEIGHT ->
    exists ks, mapM (fun w => dlook w sizes) ns = Ok ks /\ Forall2 (fun w k => dget w sizes = Some k) ns ks.
  Proof.
    intros I E. induction ns as [|w ns IH]; [exists []; split; [reflexivity|constructor]|].
    destruct (Hs E w (I w (or_introl eq_refl))) as (k & Ek). destruct IH as (ks & Eks & F). { intros x J. apply I. now right. }
    exists (k :: ks). cbn [mapM]. unfold dlook at 1. rewrite Ek. cbn [bind]. rewrite Eks. split; [reflexivity|]. now constructor.
  Qed.

  Lemma cost_ok gone u v : ginv g gone u -> In v (u_nodes u) ->
    exists c, cost_fn h sizes v u = Ok c /\ cost_is h g sizes gone v c.
  Proof.
    intros G J. assert (Nb := u_neighbours_ok gone u v G). assert (Jm := J). apply mem_In in Jm.
    assert (In_ : incl (u_neighbours u v) (nodes g)).
    { intros w K. unfold u_neighbours in K. apply filter_In in K as [K _]. now apply G in K. }
    assert (K1 := sizes_ok _ In_). assert (K2 := Hs). unfold cost_fn, cost_is. clear Hs. destruct h.
    - destruct (fillin_ok gone u v G J) as (ps & E & M). rewrite E. cbn. eauto.
    - unfold u_get. rewrite Jm. cbn. eauto.
    - unfold u_get. rewrite Jm. cbn [bind]. assert (Iv : In v (nodes g)) by now apply G.
      destruct (K1 eq_refl) as (ks & E & F).
      destruct (K2 eq_refl v Iv) as (k & Ek).
      exists (fold_left Nat.mul (ks ++ [k]) 1). split.
      + assert (Em : mapM (fun w => dlook w sizes) (u_neighbours u v ++ [v]) = Ok (ks ++ [k])).
        { clear - E Ek. revert ks E. induction (u_neighbours u v) as [|w ns IH]; intros ks E.
          - injection E as <-. cbn. unfold dlook. now rewrite Ek.
          - cbn [mapM app] in E |- *. destruct (dlook w sizes) as [x|]; [|discriminate]. cbn [bind] in *.
            destruct (mapM (fun w => dlook w sizes) ns) as [xs|]; [|discriminate]. cbn [bind] in E. injection E as <-.
            now rewrite (IH xs eq_refl). }
        now rewrite Em.
      + exists (u_neighbours u v), (k :: ks). split; [auto|]. split; [now constructor|].
        rewrite fold_mul, prod_app. cbn. lia.
  Qed.

  Lemma py_min_ok l : l <> [] -> exists c, py_min l = Ok c /\ In c l /\ forall x, In x l -> c <= x.
  Proof.
    destruct l as [|x l]; [congruence|]. intros _. exists (fold_left Nat.min l x). split; [reflexivity|].
    revert x. induction l as [|y l IH]; intros x; cbn.
    - split; auto. intros z [->|[]]. auto.
    - destruct (IH (Nat.min x y)) as [A B]. split.
      + destruct A as [A|A]; [|auto]. rewrite <- A. destruct (Nat.min_spec x y) as [[_ ->]|[_ ->]]; auto.
      + assert (Q := B (Nat.min x y) (or_introl eq_refl)). intros z [E|[E|J]]; [| |apply B; now right]; subst z; lia.
  Qed.

  Lemma remove_first_ok v l : In v l -> exists l', remove_first v l = Ok l' /\ Permutation l (v :: l').
  Proof.
    induction l as [|w l IH]; [intros []|]. intros J. cbn. destruct (eqd v w) as [->|N]; [eexists; split; [reflexivity|auto]|].
    destruct J as [->|J]; [congruence|]. destruct (IH J) as (l' & E & Pm). rewrite E. cbn. eexists. split; [reflexivity|].
    etransitivity; [apply perm_skip; exact Pm|]. constructor.
  Qed.

  (** the costs of a round *)
  Lemma costs_ok gone u R : ginv g gone u -> incl R (u_nodes u) ->
    exists cs, mapM (fun v => let* c := cost_fn h sizes v u in Ok (v, c)) R = Ok cs /\
      map fst cs = R /\ forall v c, In (v, c) cs -> cost_fn h sizes v u = Ok c /\ cost_is h g sizes gone v c.
  Proof.
    intros G. induction R as [|v R IH]; intros I; [exists []; repeat split; intros; contradiction|].
    destruct (cost_ok gone u v G (I v (or_introl eq_refl))) as (c & E & C).
    destruct IH as (cs & Es & Ef & Q). { intros x J. apply I. now right. }
    exists ((v, c) :: cs). cbn [mapM]. rewrite E. cbn [bind]. rewrite Es. cbn [bind]. split; [reflexivity|]. split; [cbn; now rewrite Ef|].
    intros w d [Ew|J]; [injection Ew as <- <-; auto|auto].
  Qed.

  Lemma dict_of_in {V} (l : list (var * V)) : (forall k x y, In (k, x) l -> In (k, y) l -> x = y) ->
    (forall k x, In (k, x) (dict_of l) <-> In (k, x) l) /\ NoDup (keys (dict_of l)).
  Proof.
    intros Fn. unfold dict_of.
    enough (Q : forall d, NoDup (keys d) -> (forall k x y, In (k, x) (d ++ l) -> In (k, y) (d ++ l) -> x = y) ->
       (forall k x, In (k, x) (fold_left (fun d kv => dset (fst kv) (snd kv) d) l d) <-> In (k, x) (d ++ l)) /\
       NoDup (keys (fold_left (fun d kv => dset (fst kv) (snd kv) d) l d))).
    { apply (Q []); [constructor|auto]. }
    clear Fn. induction l as [|[k x] l IH]; intros d N Fn; cbn [fold_left].
    - split; auto. intros. now rewrite app_nil_r.
    - cbn [fst snd].
      assert (Dk : forall k' x', In (k', x') (dset k x d) <-> In (k', x') (d ++ [(k, x)])).
      { intros k' x'. rewrite in_app_iff. cbn. assert (N' : NoDup (keys (dset k x d))) by now apply NoDup_dset.
        split.
        - intros J. apply (In_dget _ _ _ N') in J. rewrite dget_dset in J. destruct (eqd k' k) as [->|Nk]; [injection J as <-; auto|].
          left. now apply dget_In.
        - intros J. apply dget_In. rewrite dget_dset. destruct (eqd k' k) as [->|Nk].
          + destruct J as [J|[E|[]]]; [|congruence]. f_equal. apply (Fn k x x'); apply in_or_app; [right; now left|now left].
          + destruct J as [J|[E|[]]]; [|congruence]. now apply In_dget. }
      destruct (IH (dset k x d)) as [A B].
      + now apply NoDup_dset.
      + intros k' x' y' J1 J2. rewrite in_app_iff, Dk in J1. rewrite in_app_iff, Dk in J2. apply (Fn k'); rewrite in_app_iff; cbn; rewrite in_app_iff in J1, J2; cbn in J1, J2; tauto.
      + split; auto. intros k' x'. rewrite A, !in_app_iff, Dk, in_app_iff. cbn. tauto.
  Qed.

  Lemma Permutation_NoDup' {A} (l l' : list A) : NoDup l -> Permutation l l' -> NoDup l'.
  Proof. intros N Pm. eapply Permutation_NoDup; eauto. Qed.

  Variable choose : nat -> list var -> var.
  Hypothesis Hc : chooses choose.

  (** one round: some variable of minimal cost is eliminated *)
  Lemma round_ok gone u R round : ginv g gone u -> incl R (u_nodes u) -> R <> [] ->
    exists v u' R' c,
      (forall fuel ordering, elim_loop h sizes choose (S fuel) round u R ordering = elim_loop h sizes choose fuel (S round) u' R' (ordering ++ [v])) /\
      ginv g (gone ++ [v]) u' /\ Permutation R (v :: R') /\ cost_is h g sizes gone v c /\
      forall w, In w R -> exists c', cost_is h g sizes gone w c' /\ c <= c'.
  Proof.
    intros G I R0. destruct (costs_ok gone u R G I) as (cs & E & Ef & Q).
    destruct (dict_of_in cs) as [Din _].
    { intros k x y J1 J2. apply Q in J1 as [J1 _]. apply Q in J2 as [J2 _]. congruence. }
    set (costs := dict_of cs) in *.
    assert (c0 : vals costs <> []).
    { destruct R as [|v R']; [congruence|]. destruct cs as [|[k x] cs]; [discriminate|]. assert (J : In (k, x) costs) by (apply Din; now left).
      destruct costs; [destruct J|discriminate]. }
    destruct (py_min_ok (vals costs) c0) as (c & Ec & Jc & Min).
    set (cand := map fst (filter (fun vc => snd vc =? c) costs)).
    assert (cand0 : cand <> []).
    { unfold vals in Jc. apply in_map_iff in Jc as ([v c'] & E' & J). cbn in E'. subst c'.
      assert (J' : In v cand) by (apply in_map_iff; exists (v, c); split; auto; apply filter_In; split; auto; cbn; apply Nat.eqb_refl).
      intros Z. rewrite Z in J'. destruct J'. }
    assert (Jv := Hc round cand cand0). set (v := choose round cand) in *.
    unfold cand in Jv. apply in_map_iff in Jv as ([v' c'] & E' & Jv). cbn in E'. subst v'. apply filter_In in Jv as [Jv Ev].
    apply Nat.eqb_eq in Ev. cbn in Ev. subst c'. apply Din in Jv.
    assert (JR : In v R) by (rewrite <- Ef; apply in_map_iff; exists (v, c); auto).
    destruct (eliminate_ok gone u v G (I v JR)) as (u' & Eu & G'). destruct (remove_first_ok v R JR) as (R' & ER & Pm).
    exists v, u', R', c. split.
    { intros fuel ordering. cbn [elim_loop]. destruct R as [|w R1] eqn:EqR; [congruence|]. rewrite <- EqR in *.
      rewrite E. cbn [bind]. fold costs. rewrite Ec. cbn [bind]. fold cand. fold v. rewrite Eu. cbn [bind]. rewrite ER. reflexivity. }
    split; [auto|]. split; [auto|]. split; [now apply Q|]. intros w Jw. rewrite <- Ef in Jw. apply in_map_iff in Jw as ([w' c'] & E' & Jw).
    cbn in E'. subst w'. exists c'. split; [now apply Q|]. apply Min. unfold vals. apply in_map_iff. exists (w, c'). split; auto. now apply Din.
  Qed.

  Lemma loop_ok : forall n gone u R round ordering, length R = n -> ginv g gone u -> incl R (u_nodes u) -> NoDup R ->
    exists order, elim_loop h sizes choose n round u R ordering = Ok (ordering ++ order, []) /\ Permutation order R /\
      forall l1 v l2, order = l1 ++ v :: l2 -> exists c, cost_is h g sizes (gone ++ l1) v c /\
        forall w, In w l2 -> exists c', cost_is h g sizes (gone ++ l1) w c' /\ c <= c'.
  Proof.
    induction n as [|n IH]; intros gone u R round ordering L G I N.
    - destruct R; [|discriminate]. exists []. rewrite app_nil_r. split; [reflexivity|]. split; [auto|]. intros [|] ? ? E; discriminate.
    - destruct (round_ok gone u R round G I) as (v & u' & R' & c & E & G' & Pm & C & Min). { destruct R; [discriminate|discriminate]. }
      assert (N' := Permutation_NoDup' _ _ N Pm). inversion N'; subst.
      destruct (IH (gone ++ [v]) u' R' (S round) (ordering ++ [v])) as (order & Eo & Po & Gr); auto.
      { apply Permutation_length in Pm. cbn in Pm. lia. }
      { intros w J. apply G'. assert (JR : In w R) by (apply (Permutation_in _ (Permutation_sym Pm)); now right).
        apply I in JR. apply G in JR. split; [tauto|]. rewrite in_app_iff. cbn. intros [|[|[]]]; [tauto|congruence]. }
      exists (v :: order). rewrite E, Eo, <- app_assoc. split; [reflexivity|].
      assert (Pv : Permutation (v :: order) R) by (etransitivity; [apply perm_skip; exact Po|now symmetry]).
      split; [exact Pv|]. intros l1 w l2 Ew. destruct l1 as [|x l1]; cbn in Ew; injection Ew as <- Ew.
      + exists c. rewrite app_nil_r. split; auto. intros w Jw. apply Min. apply (Permutation_in _ Pv). rewrite Ew. now right.
      + destruct (Gr l1 w l2 Ew) as (c1 & C1 & M1). rewrite <- app_assoc in C1, M1. eauto.
  Qed.

  Lemma ordering_ok vs : NoDup vs -> incl vs (nodes g) ->
    exists order, get_elim_ordering h choose g vs sizes = Ok (order, []) /\ Permutation order vs /\ greedy h g sizes order.
  Proof.
    intros N I. destruct (loop_ok (length vs) [] (moral_graph g) vs 0 [] eq_refl ginv_start) as (order & E & Pm & Gr); auto.
    exists order. split; [|split; [auto|exact Gr]]. unfold get_elim_ordering.
    assert (K1 := sizes_ok (nodes g) (incl_refl _)).
    clear - E K1. destruct h; try exact E. destruct (K1 eq_refl) as (ks & Ek & _). rewrite Ek. exact E.
  Qed.

  (** unknown and repeated variables *)
  Lemma round_unknown u R round n ordering v : In v R -> ~ In v (u_nodes u) -> incl (filter (fun w => mem w (u_nodes u)) R) R ->
    (forall w, In w (u_nodes u) -> exists c, cost_fn h sizes w u = Ok c) ->
    elim_loop h sizes choose (S n) round u R ordering = Raise KeyError.
  Proof.
    intros J Nv _ Co. assert (E : mapM (fun v => let* c := cost_fn h sizes v u in Ok (v, c)) R = Raise KeyError).
    { induction R as [|w R IH]; [destruct J|]. cbn [mapM]. destruct (in_dec eqd w (u_nodes u)) as [K|K].
      - destruct (Co w K) as (c & Ec). rewrite Ec. cbn [bind]. destruct J as [->|J]; [contradiction|]. now rewrite (IH J).
      - assert (Ew : cost_fn h sizes w u = Raise KeyError); [|now rewrite Ew].
        unfold cost_fn, fillin_arcs, u_get. apply mem_nIn in K. rewrite K. now destruct h. }
    cbn [elim_loop]. destruct R as [|w R]; [destruct J|]. now rewrite E.
  Qed.

  Lemma loop_repeated : forall n gone u R round ordering, length R = n -> ginv g gone u -> incl R (u_nodes u) -> ~ NoDup R ->
    elim_loop h sizes choose n round u R ordering = Raise KeyError.
  Proof.
    induction n as [|n IH]; intros gone u R round ordering L G I N.
    - destruct R; [|discriminate]. exfalso. apply N. constructor.
    - destruct (round_ok gone u R round G I) as (v & u' & R' & c & E & G' & Pm & _). { destruct R; [discriminate|discriminate]. }
      rewrite E. assert (L' : length R' = n) by (apply Permutation_length in Pm; cbn in Pm; lia).
      destruct (in_dec eqd v R') as [J|J].
      + destruct n; [destruct R'; [destruct J|discriminate]|]. apply (round_unknown u' R' _ n _ v J).
        * intros K. apply G' in K as [_ K]. apply K, in_or_app. right. now left.
        * intros w K. apply filter_In in K. tauto.
        * intros w K. destruct (cost_ok _ _ _ G' K) as (c' & Ec & _). eauto.
      + apply (IH (gone ++ [v])); auto.
        * intros w K. apply G'. assert (JR : In w R) by (apply (Permutation_in _ (Permutation_sym Pm)); now right).
          apply I in JR. apply G in JR. split; [tauto|]. rewrite in_app_iff. cbn. intros [|[|[]]]; [tauto|congruence].
        * intros N'. apply N. apply (Permutation_NoDup (l := v :: R')); [now symmetry|]. now constructor.
  Qed.

  Lemma ordering_raises vs : ~ NoDup vs \/ ~ incl vs (nodes g) -> get_elim_ordering h choose g vs sizes = Raise KeyError.
  Proof.
    intros Q. unfold get_elim_ordering.
    assert (E : elim_loop h sizes choose (length vs) 0 (moral_graph g) vs [] = Raise KeyError).
    { destruct (existsb (fun v => negb (mem v (nodes g))) vs) eqn:Ex.
      - apply existsb_exists in Ex as (v & J & K). apply negb_true_iff, mem_nIn in K.
        destruct vs as [|w vs]; [destruct J|]. apply (round_unknown (moral_graph g) (w :: vs) 0 (length vs) [] v J); auto.
        + intros x K'. apply filter_In in K'. tauto.
        + intros x K'. destruct (cost_ok _ _ _ ginv_start K') as (c & Ec & _). eauto.
      - assert (I : incl vs (nodes g)).
        { intros v J. destruct (in_dec eqd v (nodes g)) as [|K]; auto. exfalso. apply not_true_iff_false in Ex. apply Ex.
          apply existsb_exists. exists v. split; auto. apply negb_true_iff. now apply mem_nIn. }
        destruct Q as [Q|Q]; [|contradiction]. now apply (loop_repeated _ [] (moral_graph g)); auto using ginv_start. }
    assert (K1 := sizes_ok (nodes g) (incl_refl _)).
    clear - E K1. destruct h; try exact E. destruct (K1 eq_refl) as (ks & Ek & _). rewrite Ek. exact E.
  Qed.
End Dag.

Lemma heuristic_ok h choose : chooses choose -> is_heuristic (heuristic_fn h choose).
Proof.
  intros Hc dag vs sizes Wg Ac N I Hs. unfold heuristic_fn.
  destruct (ordering_ok dag Wg Ac h sizes (fun _ => Hs) choose Hc vs N I) as (order & E & Pm & _). rewrite E. cbn. eauto.
Qed.
