(** Evidence filtered by d-separation, and Markov blankets. *)

From Coq Require Import String Bool Arith ZArith QArith Qcanon Lia Permutation List.
From Verif Require Import PyBase PyFacts Num DomainModel NdArray StoreModel NumStore FactorModel GraphModel ModelModel InferModel
  Spec DomainFacts StoreSpec FactorSpec FactorFacts FactorFacts3 BigSum GraphSpec GraphFacts GraphFacts2 PropFacts3 ModelSpec
  NetSpec NetSem FactorSem NetFacts VeFacts2 VeFacts4 LearnModel BlanketModel EmSpec EmFacts1 SepSpec SepFacts1 SepFacts2.
From Coq Require Import List.
Import ListNotations.
Local Open Scope nat_scope.
Local Arguments eqd : simpl never.

Lemma separated_independent m D F vt X Y Z : network m D F vt ->
  (forall v, In v (X ++ Y) -> ~ In v Z) -> d_separated (m_graph m) X Y Z = Ok true -> independent_in D F X Y Z.
Proof.
  intros H Dj E. assert (WG := net_wg m D F vt H). assert (AC := net_ac m D F vt H).
  assert (I : incl (X ++ Y ++ Z) (nodes (m_graph m))).
  { intros x J. destruct (in_dec string_dec x (nodes (m_graph m))) as [A|A]; [auto|].
    rewrite (d_separated_unknown _ X Y Z WG AC) in E; [discriminate|eauto]. }
  destruct (d_separated_linked (m_graph m) X Y Z WG AC I) as (b & Eb & Hb). rewrite E in Eb. injection Eb as <-.
  intros tx ty tz Ax Ay Az. eapply (independent m D F vt H X Y Z); eauto.
  - intros x J; apply I, in_or_app; auto.
  - intros x J; apply I, in_or_app; right; apply in_or_app; auto.
  - intros x J; apply I, in_or_app; right; apply in_or_app; auto.
  - intros x J; apply Dj, in_or_app; auto.
  - intros x J; apply Dj, in_or_app; auto.
  - intros x y Jx Jy L. assert (true = false) by (apply Hb; eauto). discriminate.
Qed.

Lemma bears_on_connected g v E w : wf_graph g -> acyclic g -> In v (nodes g) -> incl E (nodes g) -> ~ In v E -> In w E ->
  (bears_on g v E w <-> d_connected g (all_but w E) v w).
Proof.
  intros WG AC Iv IE Nv Jw. destruct (d_separated_ok g v E WG AC Iv IE w Jw) as (b & Eb & Hb).
  destruct (d_separated_trails g [v] [w] (others w E) WG AC) as (b' & Eb' & Hb').
  - intros x [<- | [<- | J]]; auto. apply others_In in J as [J _]. auto.
  - intros x [<- | [<- | []]] J; apply others_In in J as [J N]; auto.
  - rewrite Eb in Eb'. injection Eb' as <-. rewrite <- Hb, Hb'. change (others w E) with (all_but w E). split.
    + intros (x & y & [<- | []] & [<- | []] & C). exact C.
    + intros C. exists v, w. split; [now left|]. split; [now left|auto].
Qed.

(** the evidence that the filter keeps *)
Lemma dsep_filter_keeps m D F vt v d : network m D F vt -> In v (nodes (m_graph m)) ->
  Spec.known D (LearnModel.known d) -> incl (keys (LearnModel.known d)) (nodes (m_graph m)) -> ~ In v (keys (LearnModel.known d)) ->
  exists e1, dsep_filter (m_graph m) v d = Ok e1 /\
    (forall w s, In (w, s) e1 <-> In (w, s) (LearnModel.known d) /\
       d_connected (m_graph m) (all_but w (keys (LearnModel.known d))) v w) /\
    forall t, assigns D [v] t ->
      (mass D F (t ++ LearnModel.known d) * mass D F e1 = mass D F (t ++ e1) * mass D F (LearnModel.known d))%Qc.
Proof.
  intros H Iv Ke Ie Nv. set (e := LearnModel.known d) in *. set (E := keys e) in *.
  assert (WG := net_wg m D F vt H). assert (AC := net_ac m D F vt H). assert (NN := net_nodes m D F vt H).
  destruct (dsep_filter_ok (m_graph m) v E WG AC Iv Ie) as (keep & Hk & Hd). rewrite (Hd d eq_refl). fold e.
  exists (filter (fun vs => keep (fst vs)) e). split; [reflexivity|]. split.
  - intros w s. rewrite filter_In. cbn [fst]. split.
    + intros [J K]. split; [auto|]. assert (Jw : In w E) by (apply (in_map fst _ (w, s)); auto).
      apply bears_on_connected; auto. apply Hk; auto. intros ->; auto.
    + intros [J C]. split; [auto|]. assert (Jw : In w E) by (apply (in_map fst _ (w, s)); auto).
      apply Hk; auto; [intros ->; auto|]. apply bears_on_connected; auto.
  - intros t At. rewrite dfilter_is. apply (filtered_posterior m D F vt H e Ke) with (v := v) (T := [v]); auto.
    + intros x J. apply NN. auto.
    + apply NN; auto.
    + intros w Jw B. apply Hk; auto. intros ->. auto.
    + intros x [<- | []]. auto.
    + intros x [<- | []]. now left.
Qed.

(** ** The blanket with hidden variables *)
Definition observed_nodes (g : digraph) (h : list var) (v : var) : list var := filter (fun x => negb (mem x (h ++ [v]))) (nodes g).
Lemma observed_In g h v x : In x (observed_nodes g h v) <-> In x (nodes g) /\ ~ In x h /\ x <> v.
Proof.
  unfold observed_nodes. rewrite filter_In. split.
  - intros [J K]. apply negb_true_iff in K. split; [auto|]. split; intros C; assert (mem x (h ++ [v]) = true) by (apply mem_In, in_or_app; cbn; auto); congruence.
  - intros (J & A & B). split; [auto|]. apply negb_true_iff. destruct (mem x (h ++ [v])) eqn:E; [|auto]. apply mem_In, in_app_or in E as [E|[E|[]]]; [tauto|]. congruence.
Qed.

Lemma open_arc_same g E E' S S' x y : (forall x, In x E <-> In x E') -> (forall x, In x S <-> In x S') ->
  open_arc g E S x y -> open_arc g E' S' x y.
Proof.
  intros HE HS (A & N & s & J & R). split; [auto|]. split; [now rewrite <- HE|]. exists s. split; [now apply HS|auto].
Qed.
Lemma bears_on_same g v E E' w : (forall x, In x E <-> In x E') -> bears_on g v E w -> bears_on g v E' w.
Proof.
  intros HE (J & c & Hc & L). split; [now apply HE|]. exists c. split; [auto|]. eapply linked_ext; [|exact L].
  intros x y O; (eapply open_arc_same; [| |exact O]); intros z; cbn; rewrite ?HE; tauto.
Qed.

(** a set of observed nodes that contains all those that bear on [v] shields it *)
Lemma shield m D F vt v O l Y Z : network m D F vt -> In v (nodes (m_graph m)) ->
  (forall x, In x O -> In x (nodes (m_graph m)) /\ x <> v) ->
  (forall w, bears_on (m_graph m) v O w -> In w l) ->
  (forall x, In x Y <-> In x O /\ ~ In x l) -> (forall x, In x Z <-> In x O /\ In x l) ->
  independent_in D F [v] Y Z.
Proof.
  intros H Iv IO Hl HY HZ t ty tz At Ay Az. assert (NN := net_nodes m D F vt H).
  assert (Kk : keys (ty ++ tz) = Y ++ Z) by (unfold keys; rewrite map_app; f_equal; [apply Ay|apply Az]).
  assert (YZ : forall x, In x (Y ++ Z) <-> In x O).
  { intros x. rewrite in_app_iff, HY, HZ. destruct (in_dec string_dec x l); tauto. }
  assert (Kz := assigns_known D Z tz Az). assert (Ky := assigns_known D Y ty Ay).
  assert (K : Spec.known D (ty ++ tz)).
  { intros x k s J Q. rewrite dget_app in Q. destruct (dget x ty) eqn:E; [injection Q as <-; eapply Ky; eauto|eapply Kz; eauto]. }
  assert (E1 : dfilter (fun x => mem x l) (ty ++ tz) = tz).
  { unfold dfilter. rewrite filter_app. assert (A : forall (e : obs) b, (forall x, In x (keys e) -> mem x l = b) ->
      filter (fun kv => mem (fst kv) l) e = if b then e else []).
    { induction e as [|[x s] e IH]; intros b Hb; cbn [filter fst]; [now destruct b|]. rewrite (Hb x) by now left.
      rewrite (IH b) by (intros y J; apply Hb; now right). now destruct b. }
    rewrite (A ty false), (A tz true); [reflexivity| |].
    - intros x J. rewrite (proj1 Az) in J. apply mem_In. now apply HZ in J.
    - intros x J. rewrite (proj1 Ay) in J. apply HY in J as [_ J]. destruct (mem x l) eqn:Em; [|auto]. apply mem_In in Em. tauto. }
  rewrite <- E1 at 2 3. apply (filtered_posterior m D F vt H (ty ++ tz) K) with (v := v) (T := [v]); auto.
  - intros x J. rewrite Kk in J. apply NN, IO, YZ, J.
  - now apply NN.
  - intros w _ B. apply mem_In, Hl. rewrite Kk in B. eapply bears_on_same; [|exact B]. exact YZ.
  - intros x [<- | []] J. rewrite Kk in J. apply YZ in J. now apply IO in J.
  - intros x [<- | []]. now left.
Qed.

Lemma hidden_blanket g v h : wf_graph g -> acyclic g -> In v (nodes g) -> h <> [] ->
  exists l, markov_blanket_hidden g v (Some h) = Ok l /\ NoDup l /\
    forall w, In w l <-> In w (nodes g) /\ w <> v /\ d_connected g (all_but w (observed_nodes g h v)) v w.
Proof.
  intros WG AC Iv Nh. unfold markov_blanket_hidden. destruct h as [|a h]; [congruence|].
  change (filter _ (nodes g)) with (observed_nodes g (a :: h) v).
  apply dcon_nodes_ok; auto.
  - intros x J. now apply observed_In in J.
  - intros J. apply observed_In in J. tauto.
Qed.

Lemma hidden_blanket_shields m D F vt v h l Y Z : network m D F vt -> In v (nodes (m_graph m)) -> h <> [] ->
  markov_blanket_hidden (m_graph m) v (Some h) = Ok l ->
  (forall x, In x Y <-> In x (nodes (m_graph m)) /\ x <> v /\ ~ In x h /\ ~ In x l) ->
  (forall x, In x Z <-> In x (nodes (m_graph m)) /\ x <> v /\ ~ In x h /\ In x l) ->
  independent_in D F [v] Y Z.
Proof.
  intros H Iv Nh E HY HZ. assert (WG := net_wg m D F vt H). assert (AC := net_ac m D F vt H).
  destruct (hidden_blanket (m_graph m) v h WG AC Iv Nh) as (l' & E' & _ & Hl). rewrite E in E'. injection E' as <-.
  apply (shield m D F vt v (observed_nodes (m_graph m) h v) l Y Z H Iv).
  - intros x J. apply observed_In in J. tauto.
  - intros w B. assert (J := proj1 B). assert (J' := J). apply observed_In in J' as (A & _ & C). apply Hl. split; [auto|]. split; [auto|].
    apply bears_on_connected; auto.
    + intros x Jx. now apply observed_In in Jx.
    + intros Jx. apply observed_In in Jx. tauto.
  - intros x. rewrite HY, observed_In. tauto.
  - intros x. rewrite HZ, observed_In. tauto.
Qed.

(** ** The usual blanket *)
Lemma blanket_shields m D F vt v l Y Z : network m D F vt -> In v (nodes (m_graph m)) ->
  markov_blanket (m_graph m) v = Ok l ->
  (forall x, In x Y <-> In x (nodes (m_graph m)) /\ x <> v /\ ~ In x l) ->
  (forall x, In x Z <-> In x l) ->
  independent_in D F [v] Y Z.
Proof.
  intros H Iv El HY HZ. assert (WG := net_wg m D F vt H). assert (AC := net_ac m D F vt H).
  destruct (markov_blanket_ok (m_graph m) v WG AC Iv) as (l' & El' & _ & Hl). rewrite El in El'. injection El' as <-.
  apply (shield m D F vt v (all_but v (nodes (m_graph m))) l Y Z H Iv).
  - intros x J. now apply others_In in J.
  - intros w (Jw & c & Hc & L). apply others_In in Jw as [Jw Nw]. apply Hl.
    assert (O : forall x y, open_arc (m_graph m) (all_but v (nodes (m_graph m))) (v :: all_but v (nodes (m_graph m))) x y -> x = v).
    { intros x y (A & N & _). destruct (string_dec x v) as [Q|Q]; [auto|]. destruct N. apply others_In. split; [apply (proj2 (proj2 WG) x y A)|auto]. }
    assert (Lk : c = v \/ arc (m_graph m) v c).
    { assert (Q : forall x y, linked (open_arc (m_graph m) (all_but v (nodes (m_graph m))) (v :: all_but v (nodes (m_graph m)))) x y ->
        (x = v \/ arc (m_graph m) v x) -> y = v \/ arc (m_graph m) v y).
      { intros x y Lx. induction Lx as [x|x y z R _ IH|x y z R _ IH]; intros Hx; [auto| |]; apply IH.
        - right. rewrite <- (O x y R). apply R.
        - left. now apply (O y x). }
      apply (Q v c L). now left. }
    destruct Lk as [-> | A], Hc as [-> | B]; [congruence|auto|auto|right; right; split; [auto|eauto]].
  - intros x. rewrite HY. change (all_but v) with (others v). rewrite others_In. tauto.
  - intros x. rewrite HZ. change (all_but v) with (others v). rewrite others_In. split; [|tauto]. intros J. split; [|auto].
    apply Hl in J as [A|[A|[N (c & _ & A)]]].
    + split; [apply (proj2 (proj2 WG) _ _ A)|]. intros ->. apply (AC v). now constructor.
    + split; [apply (proj2 (proj2 WG) _ _ A)|]. intros ->. apply (AC v). now constructor.
    + split; [apply (proj2 (proj2 WG) _ _ A)|auto].
Qed.

Lemma hidden_blanket_nodes g v h O : wf_graph g -> acyclic g -> In v (nodes g) -> h <> [] ->
  O = all_but v (filter (fun x => negb (mem x h)) (nodes g)) ->
  exists l, markov_blanket_hidden g v (Some h) = Ok l /\ NoDup l /\
    forall w, In w l <-> In w (nodes g) /\ w <> v /\ d_connected g (all_but w O) v w.
Proof.
  intros WG AC Iv Nh ->. replace (all_but v _) with (observed_nodes g h v); [now apply hidden_blanket|].
  unfold observed_nodes, all_but. generalize (nodes g) as l. induction l as [|x l IH]; [reflexivity|]. cbn [filter].
  assert (M : mem x (h ++ [v]) = mem x h || (if eqd x v then true else false)).
  { apply Bool.eq_iff_eq_true. rewrite orb_true_iff, !mem_In, in_app_iff. cbn. destruct (eqd x v) as [-> | N]; [tauto|].
    split; [intros [J|[J|[]]]; auto; congruence|intros [J|J]; [auto|discriminate]]. }
  rewrite M. destruct (mem x h); cbn [orb negb filter]; [apply IH|]. destruct (eqd x v); cbn [negb]; [apply IH|]. now rewrite IH.
Qed.
Lemma no_hidden g v : markov_blanket_hidden g v None = markov_blanket g v /\ markov_blanket_hidden g v (Some []) = markov_blanket g v.
Proof. split; reflexivity. Qed.
Lemma hidden_unknown g v h : wf_graph g -> acyclic g -> nodes g <> [] -> ~ In v (nodes g) -> h <> [] ->
  markov_blanket_hidden g v (Some h) = Raise NodeNotFound.
Proof.
  intros WG AC N Nv Nh. unfold markov_blanket_hidden. destruct h as [|a h]; [congruence|].
  apply (dsep_nodes_raises g v _ WG N); [auto|]. exists v. split; [now left|auto].
Qed.
