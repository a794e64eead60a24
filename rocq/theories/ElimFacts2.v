(** The costs of the heuristics are the sizes of the tables (C75). *)

From Coq Require Import String Bool Arith ZArith QArith Qcanon Lia Permutation List.
From Verif Require Import PyBase PyFacts Num DomainModel NdArray StoreModel NumStore FactorModel Spec StoreSpec DomainFacts StoreFacts
  NumFacts PropFacts1 StoreMarg2 FactorSpec FactorFacts FactorFacts2 FactorFacts3 BigSum GraphModel GraphSpec GraphFacts GraphFacts2
  ModelModel ModelSpec ModelFacts BuildFacts InferModel NetSpec NetSem FactorSem NetFacts VeFacts VeFacts2 VeFacts3 VeFacts4 VeFacts5
  LearnFacts OrderSpec OrderFacts ElimSpec ElimFacts.
From Coq Require Import List.
Import ListNotations.
Local Open Scope nat_scope.
Local Arguments eqd : simpl never.

Definition sz (sizes : dict var nat) (v : var) : nat := match dget v sizes with Some n => n | None => 0 end.
Definition prodn (l : list nat) : nat := fold_right Nat.mul 1 l.

Lemma prodn_perm l l' : Permutation l l' -> prodn l = prodn l'.
Proof. unfold prodn. induction 1; cbn in *; lia. Qed.
Lemma prodn_incl (f : var -> nat) l : forall l', NoDup l -> incl l l' -> NoDup l' -> (forall v, In v l' -> 1 <= f v) -> prodn (map f l) <= prodn (map f l').
Proof.
  induction l as [|x l IH]; intros l' N I N' P.
  - cbn. clear - P. induction l' as [|y l' IH]; cbn; [lia|]. assert (1 <= f y) by (apply P; now left).
    assert (1 <= prodn (map f l')) by (apply IH; intros v J; apply P; now right). unfold prodn in *. cbn in *. nia.
  - destruct (in_split x l' (I x (or_introl eq_refl))) as (a & b & ->).
    assert (Pm : Permutation (x :: a ++ b) (a ++ x :: b)) by apply Permutation_middle.
    rewrite <- (prodn_perm _ _ (Permutation_map f Pm)). inversion N as [|? ? Nx Nl]; subst.
    change (f x * prodn (map f l) <= f x * prodn (map f (a ++ b))). apply Nat.mul_le_mono_l. apply IH; auto.
    + intros y J. assert (K : In y (x :: a ++ b)) by (apply (Permutation_in y (Permutation_sym Pm)), I; now right).
      destruct K as [-> | K]; [contradiction|auto].
    + now apply NoDup_remove_1 in N'.
    + intros v J. apply P. apply in_or_app. apply in_app_or in J as [J|J]; auto. right. now right.
Qed.

Lemma size_sz (d : domain) sizes : (forall v l, In (v, l) d -> dget v sizes = Some (length l)) -> size d = prodn (map (sz sizes) (keys d)).
Proof.
  induction d as [|[v l] d IH]; intros E; [reflexivity|]. cbn [size keys map fst]. unfold prodn. cbn [fold_right].
  rewrite IH by (intros; apply E; now right). f_equal. unfold sz. now rewrite (E v l (or_introl eq_refl)).
Qed.
Lemma sz_list sizes vs ks : Forall2 (fun w k => dget w sizes = Some k) vs ks -> ks = map (sz sizes) vs.
Proof. induction 1 as [|w k vs ks E _ IH]; cbn; [reflexivity|]. unfold sz at 1. rewrite E. congruence. Qed.

Section Costs.
  Variables (g : digraph) (D : domain) (vt : vtype) (gone : list var) (v : var) (t : mfactor).
  Hypothesis WD : wf_dom D.
  Hypothesis Gt : good D vt t.
  Hypothesis KD : forall x, In x (nodes g) -> In x (keys D).
  Hypothesis Wg : wf_graph g.
  Hypothesis Jv : In v (mf_vars t).
  Hypothesis A : forall w, In w (mf_vars t) -> w = v \/ adjacent g gone v w.

  Lemma nb_nodup ns : neighbours g gone v ns -> NoDup (v :: ns).
  Proof. intros [N H]. constructor; auto. intros J. apply H in J. destruct J as [J _]. congruence. Qed.
  Lemma vars_nodup : NoDup (mf_vars t).
  Proof. apply (wf_mf_partitioned t (proj1 Gt)). Qed.
  Lemma nb_incl ns : neighbours g gone v ns -> incl (mf_vars t) (v :: ns).
  Proof. intros [_ H] w J. apply A in J as [-> | J]; [now left|right; now apply H]. Qed.

  Lemma size_bound c : cost_is MIN_SIZE g [] gone v c -> length (mf_vars t) <= S c.
  Proof. intros (ns & Hn & ->). change (S (length ns)) with (length (v :: ns)). apply NoDup_incl_length; [apply vars_nodup|now apply nb_incl]. Qed.

  Lemma through_node x y : through g gone x y -> In y (nodes g).
  Proof.
    induction 1 as [x y M|]; auto. destruct M as (_ & [M|[M|(z & _ & M)]]); apply Wg in M; tauto.
  Qed.

  Lemma weight_bound sizes c : sizes_of D sizes -> cost_is MIN_WEIGHT g sizes gone v c -> size (mf_domain t) <= c.
  Proof.
    intros Hs (ns & ks & Hn & F & ->). rewrite (size_sz (mf_domain t) sizes) by (intros w l J; apply Hs; now apply Gt).
    rewrite (sz_list _ _ _ F). fold (prodn (map (sz sizes) (v :: ns))). apply prodn_incl.
    - apply vars_nodup.
    - now apply nb_incl.
    - now apply nb_nodup.
    - intros w J. assert (Kw : In w (keys D)).
      { destruct J as [<-|J]; [now apply (good_vars D vt t Gt)|]. apply KD. apply Hn in J. eapply through_node. apply J. }
      unfold keys in Kw. apply in_map_iff in Kw as ([w' l] & <- & Kw). cbn. unfold sz. rewrite (Hs _ _ Kw).
      destruct WD as [_ Wl]. destruct (Wl _ _ Kw) as [_ Nl]. destruct l; [congruence|cbn; lia].
  Qed.

  Hypothesis A' : forall w, adjacent g gone v w -> In w (mf_vars t).
  Lemma nb_perm ns : neighbours g gone v ns -> Permutation (mf_vars t) (v :: ns).
  Proof.
    intros Hn. apply NoDup_Permutation; [apply vars_nodup|now apply nb_nodup|]. intros w. split; [now apply nb_incl|].
    intros [<-|J]; auto. apply A'. now apply Hn.
  Qed.
  Lemma size_exact c : cost_is MIN_SIZE g [] gone v c -> length (mf_vars t) = S c.
  Proof. intros (ns & Hn & ->). now rewrite (Permutation_length (nb_perm ns Hn)). Qed.
  Lemma weight_exact sizes c : sizes_of D sizes -> cost_is MIN_WEIGHT g sizes gone v c -> size (mf_domain t) = c.
  Proof.
    intros Hs (ns & ks & Hn & F & ->). rewrite (size_sz (mf_domain t) sizes) by (intros w l J; apply Hs; now apply Gt).
    rewrite (sz_list _ _ _ F). apply prodn_perm. apply Permutation_map. now apply nb_perm.
  Qed.
End Costs.

Lemma net_tables m D F vt : network m D F vt -> mapM multinomial_of (vals (m_factors m)) = Ok (map F (keys (m_factors m))).
Proof.
  intros (_ & _ & _ & _ & NK & SK & St).
  rewrite (vals_of (m_factors m) (fun v => Some (FM (F v)))); [|auto|intros v J; apply SK in J; now apply St].
  rewrite mapM_map. apply mapM_map_ok. reflexivity.
Qed.

Lemma elim_tables m D F vt : network m D F vt -> forall gone v, NoDup (gone ++ [v]) -> incl (gone ++ [v]) (nodes (m_graph m)) ->
  exists fs t, mapM multinomial_of (vals (m_factors m)) = Ok fs /\ creates fs gone v t /\ good D vt t /\ In v (mf_vars t) /\
    (forall w, In w (mf_vars t) -> w = v \/ adjacent (m_graph m) gone v w) /\
    (all_used (m_graph m) (gone ++ [v]) -> forall w, adjacent (m_graph m) gone v w -> In w (mf_vars t)).
Proof.
  intros H gone v N I. assert (SK : same_set (keys (m_factors m)) (nodes (m_graph m))) by apply H.
  destruct (tables (m_graph m) D vt F (net_wg _ _ _ _ H) (net_wd _ _ _ _ H)) with (ks := keys (m_factors m)) (gone := gone) (v := v)
    as (t & C & Gt & Jv & A & X); auto.
  { intros n J. apply (net_nodes m D F vt H) in J. split; [now apply (net_good m D F vt H)|]. split.
    - intros w. apply (fam_In m D F vt H n w J).
    - intros w. destruct (net_cpt m D F vt H n J) as (_ & _ & L & _). rewrite (L w). cbn. split; [intros [E|[]]; auto|auto]. }
  exists (map F (keys (m_factors m))), t. split; [exact (net_tables m D F vt H)|]. split; [exact C|]. auto.
Qed.

Lemma elim_bound m D F vt : network m D F vt -> forall gone v, NoDup (gone ++ [v]) -> incl (gone ++ [v]) (nodes (m_graph m)) ->
  exists fs t, mapM multinomial_of (vals (m_factors m)) = Ok fs /\ creates fs gone v t /\ In v (mf_vars t) /\
    (forall w, In w (mf_vars t) -> w = v \/ adjacent (m_graph m) gone v w) /\
    (forall c, cost_is MIN_SIZE (m_graph m) [] gone v c -> length (mf_vars t) <= S c) /\
    (forall sizes c, sizes_of D sizes -> cost_is MIN_WEIGHT (m_graph m) sizes gone v c -> size (mf_domain t) <= c).
Proof.
  intros H gone v N I. destruct (elim_tables m D F vt H gone v N I) as (fs & t & E & C & Gt & Jv & A & _).
  exists fs, t. do 4 (split; [assumption|]). split.
  - intros c Hc. eapply (size_bound (m_graph m) D vt gone v t Gt); eauto.
  - intros sizes c Hs Hc. eapply (weight_bound (m_graph m) D vt gone v t (net_wd _ _ _ _ H) Gt); eauto.
    + intros x J. now apply (net_nodes m D F vt H).
    + exact (net_wg _ _ _ _ H).
Qed.

Lemma elim_exact m D F vt : network m D F vt -> forall gone v, NoDup (gone ++ [v]) -> incl (gone ++ [v]) (nodes (m_graph m)) ->
  all_used (m_graph m) (gone ++ [v]) ->
  exists fs t, mapM multinomial_of (vals (m_factors m)) = Ok fs /\ creates fs gone v t /\
    (forall w, In w (mf_vars t) <-> w = v \/ adjacent (m_graph m) gone v w) /\
    (forall c, cost_is MIN_SIZE (m_graph m) [] gone v c -> length (mf_vars t) = S c) /\
    (forall sizes c, sizes_of D sizes -> cost_is MIN_WEIGHT (m_graph m) sizes gone v c -> size (mf_domain t) = c).
Proof.
  intros H gone v N I Al. destruct (elim_tables m D F vt H gone v N I) as (fs & t & E & C & Gt & Jv & A & X).
  specialize (X Al). exists fs, t. do 2 (split; [assumption|]). split; [|split].
  - intros w. split; auto. intros [-> | J]; auto.
  - intros c Hc. eapply (size_exact (m_graph m) D vt gone v t Gt); eauto.
  - intros sizes c Hs Hc. eapply (weight_exact (m_graph m) D vt gone v t Gt); eauto.
Qed.

(** ** The model that a query compiles has no barren variables *)

Lemma set_all_graph fs : forall m m', foldM (fun m vf => set_or_raise m (fst vf) (snd vf)) (fs : dict var fobj) m = Ok m' -> m_graph m' = m_graph m.
Proof.
  induction fs as [|[v f] fs IH]; intros m m' E; [injection E as <-; reflexivity|]. cbn [foldM fst snd] in E.
  apply bind_ok in E as (m1 & E1 & E). rewrite (IH _ _ E). unfold set_or_raise in E1.
  destruct (set_factor m v f) as [m2 [err|]] eqn:Es; [discriminate|]. injection E1 as <-. now apply set_factor_keeps in Es.
Qed.
Lemma builder_graph m g fs check m' : m_builder m g (Some (FsDict fs)) check = Ok m' -> m_graph m' = g.
Proof.
  unfold m_builder. intros E. destruct (m_kind m) as [|endo cast].
  - unfold bn_init in E. apply bind_ok in E as (g' & Eg & E). apply initialize_same in Eg as ->. now apply set_all_graph in E.
  - unfold scm_init in E. apply bind_ok in E as (g' & Eg & E). apply initialize_same in Eg as ->.
    destruct endo as [|x endo]; cbn [bind] in E; now apply set_all_graph in E.
Qed.

Lemma minimal_used m T e im : wf_graph (m_graph m) -> acyclic (m_graph m) -> incl T (nodes (m_graph m)) -> minimalize m T e = Ok im ->
  forall x, In x (nodes (m_graph im)) -> ~ In x T -> ~ In x (keys e) -> exists s, (In s T \/ In s (keys e)) /\ walk (m_graph im) x s.
Proof.
  intros Wg Ac IT E. set (g := m_graph m) in *.
  destruct (barren_ok g (T ++ keys e) Wg Ac) as (b & Eb & Hb).
  destruct (remove_outgoing_ok g (keys e) Wg) as (N1 & W1 & A1). set (g1 := remove_outgoing_edges g (keys e)) in *.
  destruct (remove_nodes_ok g1 b W1) as (W2 & N2 & A2). set (g2 := remove_nodes g1 b) in *.
  assert (Tb : forall v, In v T -> ~ In v b).
  { intros v J J'. apply Hb in J' as [_ J']. apply J'. exists v. split; [apply in_or_app; auto|now left]. }
  assert (T2 : incl T (nodes g2)) by (intros v J; apply N2; rewrite N1; auto).
  destruct (disconnected_ok g2 T W2 T2) as (c & Ec & Nc & Hc).
  set (irr := filter (fun v => negb (mem v T)) (b ++ c)).
  set (g3 := remove_nodes g1 irr). destruct (remove_nodes_ok g1 irr W1) as (W3 & N3 & A3). fold g3 in W3, N3, A3.
  assert (Eg : m_graph im = g3).
  { unfold minimalize, barren_nodes in E. fold g in E. rewrite Eb in E. cbv iota in E. fold g1 in E. fold g2 in E. rewrite Ec in E.
    cbn [bind] in E. fold irr in E. fold g3 in E. apply bind_ok in E as (nf & _ & E). now apply builder_graph in E. }
  rewrite Eg. assert (cT : forall v, In v T -> ~ In v c).
  { intros v J J'. apply Hc in J' as [_ J']. apply J'. exists v. split; auto. constructor. }
  assert (Hirr : forall v, In v irr <-> In v b \/ In v c).
  { intros v. unfold irr. rewrite filter_In, in_app_iff, negb_true_iff, mem_nIn. split; [tauto|]. intros J. split; auto.
    intros JT. destruct J as [J|J]; [exact (Tb v JT J)|exact (cT v JT J)]. }
  assert (Nb : forall x s, In x (nodes g) -> In s (T ++ keys e) -> reach g x s -> ~ In x b).
  { intros x s Jx Js R J. apply Hb in J as [_ J]. apply J. eauto. }
  assert (Main : forall x s, walk g x s -> In s (T ++ keys e) -> In x (nodes g3) -> ~ In x (keys e) ->
    exists s, (In s T \/ In s (keys e)) /\ walk g3 x s).
  { assert (Stp : forall x y, arc g x y -> ~ In y b -> In x (nodes g3) -> ~ In x (keys e) -> In y (nodes g3) /\ arc g3 x y).
    { intros x y A Ny Jx Nx. assert (Jy : In y (nodes g)) by (apply Wg in A; tauto). apply N3 in Jx as [Jx Ix]. rewrite N1 in Jx.
      rewrite Hirr in Ix. assert (Ar2 : arc g2 x y) by (apply A2; split; [now apply A1|tauto]).
      assert (Nyc : ~ In y c).
      { intros J. apply Hc in J as [_ J]. apply Ix. right. apply Hc. split; [apply N2; rewrite N1; tauto|]. intros (t & Jt & L). apply J. exists t.
        split; auto. eapply linked_trans; [exact L|]. eapply linked_fwd; [exact Ar2|constructor]. }
      split; [apply N3; rewrite N1, Hirr; tauto|]. apply A3. split; [now apply A1|]. rewrite !Hirr. tauto. }
    intros x s Wk. induction Wk as [x y A|x y z A Wk IH]; intros Js Jx Nx.
    - exists y. split; [now apply in_app_or|]. constructor. apply (Stp x y); auto. apply (Nb y y); [apply Wg in A; tauto|auto|now left].
    - destruct (Stp x y A) as [Jy A'']; auto. { apply (Nb y z); [apply Wg in A; tauto|auto|now right]. }
      destruct (in_dec eqd y (keys e)) as [Ie|Ie]; [exists y; split; auto; now constructor|].
      destruct (IH Js Jy Ie) as (s' & Js' & Ws). exists s'. split; auto. econstructor 2; eauto. }
  intros x Jx NT Ne. assert (Nx : ~ In x b) by (apply N3 in Jx as [_ J]; rewrite Hirr in J; tauto).
  assert (Jg : In x (nodes g)) by (apply N3 in Jx as [J _]; now rewrite N1 in J).
  assert (Ex : exists s, In s (T ++ keys e) /\ walk g x s).
  { destruct (descendants_ok g x Wg Jg) as (ds & Ed & Hd).
    destruct (existsb (fun s => mem s ds) (T ++ keys e)) eqn:Q.
    - apply existsb_exists in Q as (s & Js & Ms). exists s. split; auto. apply mem_In in Ms. now apply Hd.
    - exfalso. apply Nx. apply Hb. split; auto. intros (s & Js & [<-|R]); [apply in_app_or in Js; tauto|].
      assert (Z : existsb (fun s => mem s ds) (T ++ keys e) = true) by (apply existsb_exists; exists s; split; auto; apply mem_In, Hd; split; auto; intros ->; apply in_app_or in Js; tauto).
      congruence. }
  destruct Ex as (s & Js & Ws). exact (Main x s Ws Js Jx Ne).
Qed.

Lemma network_sizes m D F vt T e im : network m D F vt -> incl T (nodes (m_graph m)) -> incl (keys e) (nodes (m_graph m)) -> (forall v, In v T -> ~ In v (keys e)) -> known D e ->
  minimalize m T e = Ok im ->
  exists sizes, get_varsizes im (nodes (m_graph im)) = Ok sizes /\ sizes_of (pick (nodes (m_graph im)) D) sizes.
Proof.
  intros H IT Ie Dj Ke E. assert (Ie' : incl (keys e) (keys D)) by (intros v J; apply (net_nodes m D F vt H); auto).
  assert (IT' : incl T (keys D)) by (intros v J; apply (net_nodes m D F vt H); auto).
  destruct (minimalize_ok m D F vt H e Ke T IT') as (im' & R & B & C & G & E' & _ & _ & Bi & Wi & _).
  rewrite E in E'. injection E' as <-. destruct Bi as (_ & _ & Kd & _ & Hd).
  destruct (get_varsizes_ok im D (m_graph im) Kd (proj1 Wi) Hd) as (sizes & Es & Hs). exists sizes. split; auto.
  intros v l J. apply filter_In in J as [J M]. cbn in M. apply mem_In in M. destruct (Hs v M) as (l' & J' & ->).
  now rewrite (dom_unique D v l l' (proj1 (net_wd _ _ _ _ H)) J J').
Qed.

Lemma query_sub m D F vt T e im : network m D F vt -> incl T (nodes (m_graph m)) -> incl (keys e) (nodes (m_graph m)) ->
  (forall v, In v T -> ~ In v (keys e)) -> known D e -> ve_compile m T e = Ok im -> minimalize m T e = Ok im /\ exists G, network im (pick (nodes (m_graph im)) D) G vt.
Proof.
  intros H IT Ie Dj Ke E. unfold ve_compile in E. do 3 (destruct (_ : bool); [discriminate|]).
  split; [exact E|].
  destruct (minimal_network m D F vt H e) with (T := T) as (im' & G & E' & Nw & _); auto;
    try (intros v J; apply (net_nodes m D F vt H); auto).
  rewrite E in E'. injection E' as <-. eauto.
Qed.

Lemma query_used m D F vt T e im : network m D F vt -> incl T (nodes (m_graph m)) -> minimalize m T e = Ok im ->
  forall vs, incl vs (nodes (m_graph im)) -> (forall v, In v vs -> ~ In v T /\ ~ In v (keys e)) -> all_used (m_graph im) vs.
Proof.
  intros H IT E vs I N v J. destruct (N v J) as [NT Ne].
  destruct (minimal_used m T e im (net_wg _ _ _ _ H) (net_ac _ _ _ _ H) IT E v (I v J) NT Ne) as (s & Js & W).
  exists s. split; auto. intros K. apply N in K. tauto.
Qed.

Lemma query_tables m D F vt : network m D F vt -> forall T e, incl T (nodes (m_graph m)) -> incl (keys e) (nodes (m_graph m)) ->
  (forall v, In v T -> ~ In v (keys e)) -> known D e -> forall im, ve_compile m T e = Ok im ->
  exists fs sizes, mapM multinomial_of (vals (m_factors im)) = Ok fs /\ get_varsizes im (nodes (m_graph im)) = Ok sizes /\ forall gone v, NoDup (gone ++ [v]) -> incl (gone ++ [v]) (nodes (m_graph im)) -> (forall x, In x (gone ++ [v]) -> ~ In x T /\ ~ In x (keys e)) ->
    exists t, creates fs gone v t /\
      (forall w, In w (mf_vars t) <-> w = v \/ adjacent (m_graph im) gone v w) /\
      cost_is MIN_SIZE (m_graph im) sizes gone v (length (mf_vars t) - 1) /\
      cost_is MIN_WEIGHT (m_graph im) sizes gone v (size (mf_domain t)).
Proof.
  intros H T e IT Ie Dj Ke im Ec. destruct (query_sub m D F vt T e im H IT Ie Dj Ke Ec) as (E & G & Hi).
  destruct (network_sizes m D F vt T e im H IT Ie Dj Ke E) as (sizes & Es & Hs).
  exists (map G (keys (m_factors im))), sizes. split; [exact (net_tables _ _ _ _ Hi)|]. split; [exact Es|]. intros gone v N I Av.
  assert (Al := query_used m D F vt T e im H IT E (gone ++ [v]) I Av).
  destruct (elim_exact im _ G vt Hi gone v N I Al) as (fs & t & Ef & C & Vt & Sz & Wt).
  rewrite (net_tables _ _ _ _ Hi) in Ef. injection Ef as <-. exists t. split; [exact C|]. split; [exact Vt|].
  assert (Wi := net_wg _ _ _ _ Hi). assert (Ai := net_ac _ _ _ _ Hi). assert (ICL : incl gone (nodes (m_graph im))) by (intros x J; apply I, in_or_app; auto).
  assert (Gv : exists u, ginv (m_graph im) gone u).
  { clear - Wi Ai ICL N. apply NoDup_app_l in N. revert N ICL. induction gone as [|x l IH] using rev_ind; intros N I.
    - eexists. apply ginv_start; auto.
    - destruct IH as (u & Gu); [now apply NoDup_app_l in N|intros y J; apply I, in_or_app; auto|].
      destruct (eliminate_ok (m_graph im) l u x Gu) as (u' & _ & Gu').
      + apply Gu. split; [apply I, in_or_app; right; now left|]. apply NoDup_remove_2 in N. now rewrite app_nil_r in N.
      + eauto. }
  destruct Gv as (u & Gu). assert (Jv : In v (u_nodes u)).
  { apply Gu. split; [apply I, in_or_app; right; now left|]. apply NoDup_remove_2 in N. now rewrite app_nil_r in N. }
  assert (Hsz : forall h, h = MIN_WEIGHT -> forall v, In v (nodes (m_graph im)) -> exists n, dget v sizes = Some n).
  { intros h _ w J. apply (net_nodes _ _ _ _ Hi) in J. unfold keys in J. apply in_map_iff in J as ([w' l] & <- & J). exists (length l). now apply Hs. }
  split.
  - destruct (cost_ok (m_graph im) MIN_SIZE sizes (Hsz MIN_SIZE) gone u v Gu Jv) as (c & _ & Hc).
    assert (X := Sz c Hc). cbn [cost_is] in Hc |- *. destruct Hc as (ns & Hn & ->). exists ns. split; auto. lia.
  - destruct (cost_ok (m_graph im) MIN_WEIGHT sizes (Hsz MIN_WEIGHT) gone u v Gu Jv) as (c & _ & Hc).
    rewrite (Wt sizes c Hs Hc). exact Hc.
Qed.

(** how large a table is for a heuristic *)
Lemma cost_unique h g sizes gone v c c' : h <> MIN_FILL -> cost_is h g sizes gone v c -> cost_is h g sizes gone v c' -> c = c'.
Proof.
  intros Nh. destruct h; try (exfalso; now apply Nh); cbn [cost_is].
  all: try (intros (ns & (N & Hn) & ->) (ns' & (N' & Hn') & ->); apply Permutation_length, NoDup_Permutation; auto; intros w; now rewrite Hn, Hn').
  all: try (intros (ns & ks & (N & Hn) & F2 & ->) (ns' & ks' & (N' & Hn') & F2' & ->)).
  all: assert (P : Permutation ns ns') by (apply NoDup_Permutation; auto; intros w; now rewrite Hn, Hn').
  all: assert (X : forall l k, Forall2 (fun w k => dget w sizes = Some k) l k -> k = map (fun w => match dget w sizes with Some k => k | None => 0 end) l)
    by (clear; induction 1 as [|x y l k E _ IH]; cbn; [auto|now rewrite E, <- IH]).
  all: rewrite (X _ _ F2), (X _ _ F2'); cbn [map fold_right]; f_equal.
  all: assert (Y : forall l l' : list nat, Permutation l l' -> fold_right Nat.mul 1 l = fold_right Nat.mul 1 l')
    by (clear; induction 1; cbn; try lia; nia).
  all: apply Y, Permutation_map, P.
Qed.

Lemma query_smallest m D F vt : network m D F vt -> forall T e, incl T (nodes (m_graph m)) -> incl (keys e) (nodes (m_graph m)) ->
  (forall v, In v T -> ~ In v (keys e)) -> known D e -> forall im, ve_compile m T e = Ok im ->
  forall choose vs, chooses choose -> NoDup vs -> incl vs (nodes (m_graph im)) -> (forall x, In x vs -> ~ In x T /\ ~ In x (keys e)) ->
  exists fs sizes, mapM multinomial_of (vals (m_factors im)) = Ok fs /\ get_varsizes im (nodes (m_graph im)) = Ok sizes /\
    forall h, exists order, heuristic_fn h choose (m_graph im) vs sizes = Ok order /\ Permutation order vs /\
    forall gone v later, order = gone ++ v :: later -> exists t, creates fs gone v t /\
      forall w, In w later -> exists t', creates fs gone w t' /\
        (h = MIN_WEIGHT -> size (mf_domain t) <= size (mf_domain t')) /\
        (h = MIN_SIZE -> length (mf_vars t) <= length (mf_vars t')).
Proof.
  intros H T e IT Ie Dj Ke im Ec choose vs Hch N I Av.
  destruct (query_sub m D F vt T e im H IT Ie Dj Ke Ec) as (E & G & Hi).
  destruct (query_tables m D F vt H T e IT Ie Dj Ke im Ec) as (fs & sizes & Ef & Es & Ht).
  destruct (network_sizes m D F vt T e im H IT Ie Dj Ke E) as (sizes' & Es' & Hs). rewrite Es in Es'. injection Es' as <-.
  exists fs, sizes. split; [exact Ef|]. split; [exact Es|]. intros h.
  assert (Hsz : h = MIN_WEIGHT -> forall v, In v (nodes (m_graph im)) -> exists n, dget v sizes = Some n).
  { intros _ w J. apply (net_nodes _ _ _ _ Hi) in J. unfold keys in J. apply in_map_iff in J as ([w' l] & <- & J). exists (length l). now apply Hs. }
  destruct (ordering_ok (m_graph im) (net_wg _ _ _ _ Hi) (net_ac _ _ _ _ Hi) h sizes Hsz choose Hch vs N I) as (order & Eo & Pm & Gr).
  exists order. split; [unfold heuristic_fn; now rewrite Eo|]. split; [exact Pm|]. intros gone v later Eq.
  assert (No : NoDup order) by (eapply Permutation_NoDup; [symmetry; exact Pm|exact N]).
  assert (Sub : forall w, In w (v :: later) -> exists t', creates fs gone w t' /\
      (forall c, cost_is MIN_SIZE (m_graph im) sizes gone w c -> length (mf_vars t') = S c) /\
      (forall c, cost_is MIN_WEIGHT (m_graph im) sizes gone w c -> size (mf_domain t') = c)).
  { intros w J. assert (In' : forall x, In x (gone ++ [w]) -> In x vs).
    { intros x Jx. eapply Permutation_in; [exact Pm|]. rewrite Eq. apply in_app_or in Jx as [Jx|[<-|[]]]; apply in_or_app; auto. }
    assert (Nw : NoDup (gone ++ [w])).
    { rewrite Eq in No. apply NoDup_app_intro; [exact (NoDup_app_l _ _ No)|repeat constructor; easy|].
      intros x Jx [<-|[]]. exact (NoDup_app_disj _ _ _ No Jx J). }
    destruct (Ht gone w Nw) as (t & C & Hv & C1 & C2); [intros x Jx; auto|auto|].
    assert (Jw : In w (mf_vars t)) by (apply Hv; auto).
    exists t. split; [exact C|]. split.
    - intros c Hc. assert (X := cost_unique MIN_SIZE _ _ _ _ _ _ ltac:(discriminate) Hc C1). destruct (mf_vars t); [easy|cbn in *; lia].
    - intros c Hc. exact (cost_unique MIN_WEIGHT _ _ _ _ _ _ ltac:(discriminate) C2 Hc). }
  destruct (Sub v (or_introl eq_refl)) as (t & C & S1 & S2). exists t. split; [exact C|]. intros w Jw.
  destruct (Sub w (or_intror Jw)) as (t' & C' & S1' & S2'). exists t'. split; [exact C'|].
  destruct (Gr gone v later Eq) as (c & Hc & Hmin). destruct (Hmin w Jw) as (c' & Hc' & Le).
  split; intros ->; [rewrite (S2 c Hc), (S2' c' Hc')|rewrite (S1 c Hc), (S1' c' Hc')]; lia.
Qed.
