(** Filling a model with random tables. *)

From Coq Require Import String Bool Arith ZArith QArith Qcanon Lia Permutation List.
From Verif Require Import PyBase PyFacts Num DomainModel NdArray StoreModel NumStore FactorModel GenModel GenSpec Spec StoreSpec DomainFacts StoreFacts
  NumFacts PropFacts1 FactorSpec FactorFacts FactorFacts2 FactorFacts3 GenFacts GenFacts2 GenFacts3 GraphModel GraphSpec GraphFacts
  ModelModel ModelSpec ModelFacts NetSpec NetSem FactorSem NetFacts VeFacts4 BuildFacts BuildFacts2 InferModel InferChecks CausalModel CausalSpec
  CausalFacts BigSum UaiModel LearnModel AggModel ConvModel ConvSpec ConvFacts.
From Coq Require Import List.
Import ListNotations.
Local Open Scope nat_scope.
Local Arguments eqd : simpl never.

(** ** Tables *)

Lemma nsum_unit {A} (P : A -> num -> Prop) l xs p : NoDup l -> In p l -> Forall2 P l xs ->
  (forall x, P p x -> x = n1) -> (forall p' x, In p' l -> p' <> p -> P p' x -> x = n0) -> nsum xs = n1.
Proof.
  intros N I F H1 H0.
  assert (Z : forall l xs, ~ In p l -> (forall p' x, In p' l -> p' <> p -> P p' x -> x = n0) -> Forall2 P l xs -> xs = map Fin (map (fun _ => 0%Qc) l)).
  { clear. intros l xs N H0 F. induction F as [|a x l xs Pa F IH]; [reflexivity|]. cbn [map]. f_equal.
    - apply (H0 a); [now left|intros ->; apply N; now left|auto].
    - apply IH; [intros J; apply N; now right|]. intros p' y J. apply H0. now right. }
  assert (Zs : forall l : list A, qsum (map (fun _ => 0%Qc) l) = 0%Qc).
  { clear. induction l as [|a l IH]; [reflexivity|]. unfold qsum in *. simpl. rewrite IH. ring. }
  assert (E : exists qs, xs = map Fin qs /\ qsum qs = 1%Qc).
  { induction F as [|a x l xs Pa F IH]; [destruct I|]. apply NoDup_cons_iff in N as [Na N].
    destruct I as [->|I].
    - exists (1%Qc :: map (fun _ => 0%Qc) l). split.
      + cbn [map]. f_equal; [now apply H1|]. apply Z; [auto| |auto]. intros p' y J. apply H0. now right.
      + unfold qsum in *. simpl. rewrite Zs. ring.
    - destruct IH as (qs & E & S); auto. { intros p' y J. apply H0. now right. }
      exists (0%Qc :: qs). split.
      + cbn [map]. f_equal; [|auto]. apply (H0 a); [now left|intros ->; contradiction|auto].
      + unfold qsum in *. simpl. rewrite S. ring. }
  destruct E as (qs & -> & S). rewrite nsum_Fin. unfold n1. now rewrite S.
Qed.

Lemma functional_table f : wf_mf f ->
  (forall o, full (pick (mf_right f) (mf_domain f)) o -> exists p, In p (all_assignments (drop (mf_right f) (mf_domain f))) /\
      mf_get_value f (p ++ o) = Ok n1 /\
      forall p', In p' (all_assignments (drop (mf_right f) (mf_domain f))) -> p' <> p -> mf_get_value f (p' ++ o) = Ok n0) ->
  normalised f /\ zero_one f.
Proof.
  intros Wf H. assert (WD := usable_wf _ (proj1 (proj2 Wf))). set (r := mf_right f) in *. set (dom := mf_domain f) in *.
  assert (Wd : wf_dom (drop r dom)) by (apply (wf_dom_filter (fun v => negb (mem v r)) dom WD)).
  split.
  - intros o Fo. fold r dom in Fo. fold r dom. destruct (H o Fo) as (p & Ip & G1 & G0).
    assert (E : exists xs, Forall2 (fun p x => mf_get_value f (p ++ o) = Ok x) (all_assignments (drop r dom)) xs).
    { assert (Hp : forall p', In p' (all_assignments (drop r dom)) -> exists x, mf_get_value f (p' ++ o) = Ok x).
      { intros p' I'. apply get_full_mf; [auto|]. apply (full_join_within r); auto. }
      clear -Hp. induction (all_assignments (drop r dom)) as [|p ps IH]; [exists []; constructor|].
      destruct IH as (xs & Fx); [intros; apply Hp; now right|]. destruct (Hp p (or_introl eq_refl)) as (x & E). exists (x :: xs). now constructor. }
    destruct E as (xs & Fx). exists xs. split; [auto|]. eapply nsum_unit; [|exact Ip|exact Fx| |].
    + apply all_assignments_NoDup. intros v l J. apply (proj2 Wd v l J).
    + intros x E. cbv beta in E. congruence.
    + intros p' x J N E. specialize (G0 p' J N). cbv beta in E. congruence.
  - intros o Fo. fold dom in Fo. 
    assert (Fr : full (pick r dom) o) by (intros v l J; apply Fo; apply filter_In in J; apply J).
    assert (Fl : full (drop r dom) o) by (intros v l J; apply Fo; apply filter_In in J; apply J).
    destruct (H o Fr) as (p & Ip & G1 & G0). destruct (canonical (drop r dom) o (proj1 Wd) Fl) as [Ic Vc].
    set (p' := obs_of (keys (drop r dom)) (asg_of o)) in *.
    assert (E : mf_get_value f (p' ++ o) = mf_get_value f o).
    { unfold mf_get_value. apply get_value_agree; [apply Wf|exact Fo|]. intros v J. rewrite dget_app.
      destruct (dget v p') as [s|] eqn:Ev; [|auto]. rewrite <- Ev. apply Vc.
      rewrite <- (all_assignments_keys _ _ Ic). apply dget_keys. eauto. }
    rewrite <- E. destruct (eqd p' p) as [->|N]; [auto|]. left. now apply G0.
Qed.

Lemma order_usable D r : usable D -> NoDup r -> incl r (keys D) -> usable (order_dom D r).
Proof.
  intros U N I. assert (W := usable_wf _ U). destruct U as (_ & T & S). split; [now apply order_dom_wf|]. split.
  - intros v l x y J. apply order_dom_In in J as [_ J]; [|apply W|auto]. eauto.
  - intros v s J. rewrite order_dom_keys in J. apply S, I, J.
Qed.

(** A finite choice. *)
Lemma choice_list {B} (b0 : B) (P : var -> B -> Prop) xs : (forall x, In x xs -> exists b, P x b) ->
  exists G, forall x, In x xs -> P x (G x).
Proof.
  induction xs as [|x xs IH]; intros H; [exists (fun _ => b0); intros x []|].
  destruct IH as (G & HG); [intros; apply H; now right|]. destruct (H x (or_introl eq_refl)) as (b & Hb).
  exists (fun y => if eqd y x then b else G y). intros y [<-|I]; [now rewrite eqd_refl|].
  destruct (eqd y x) as [->|N]; auto.
Qed.
Definition no_table : mfactor := MkM (StNumpy [] (mkNd [] [n0])) [].

(** ** Loops that set tables *)

Section Loop.
  Variable D : domain.
  Hypothesis ND : NoDup (keys D).
  Variable g : digraph.
  Variable check : bool.
  Variable k : kind.

  Lemma prepared_partial m : prepared D m -> m_graph m = g -> m_check m = check -> m_kind m = k ->
    exists done, partial D g check k done m.
  Proof.
    intros (Wg & Ac & Kf & Kd & Hv) <- <- <-. exists (fun v => match dget v (m_factors m) with Some o => o | None => None end).
    do 3 (split; [reflexivity|]). split; [auto|]. split; [auto|]. split.
    - intros v Iv. destruct (Hv v Iv) as [[E _]|(f & l & E & _)]; unfold stored in *; now rewrite E.
    - intros v Iv. destruct (Hv v Iv) as [[E E2]|(f & l & E & E2 & I)]; unfold stored, has_domain in *; rewrite E, E2; eauto.
  Qed.

  Lemma partial_prepared done m : wf_graph g -> acyclic g -> partial D g check k done m -> prepared D m.
  Proof.
    intros Wg Ac (Eg & _ & _ & Kf & Kd & Hf & Hd). split; [congruence|]. rewrite Eg. split; [auto|]. split; [auto|]. split; [auto|].
    intros v Iv. specialize (Hf v Iv). destruct (Hd v Iv) as (o & Eo & C). destruct (done v) as [f|].
    - destruct C as (l & -> & J). right. exists f, l. auto.
    - subst o. left. auto.
  Qed.

  Lemma accept_table vt v f : In v (nodes g) -> cpt D vt v (preds g v) f ->
    (forall endo cast, k = KScm endo cast -> In v endo -> zero_one f) -> accepted D g check k v (FM f) (FM f).
  Proof.
    intros Iv C Z. assert (L := cpt_left _ _ _ _ _ C). split; [|split; [auto|]].
    - destruct k as [|endo cast] eqn:Ek; [reflexivity|]. intros m Ec. unfold scm_prepare. destruct (mem v endo) eqn:Me; [|auto]. apply mem_In in Me.
      destruct (is_degenerate_ok f (proj1 C)) as (b & Eb & Hb). rewrite Eb, (proj2 Hb (Z endo cast eq_refl Me)). now destruct (m_check m).
    - exists (mf_domain f), (mf_left f), (mf_right f). split; [repeat split|]. split.
      + assert (I : In v (mf_left f)) by (rewrite L; now left). apply mf_left_In in I as [I _]. exact I.
      + destruct C as (_ & _ & Sl & Sr & Dm & _). split; [exact Dm|]. auto.
  Qed.

  Lemma fill_loop_inv (Q : (var -> option fobj) -> Prop) (body : pgm -> var -> pgm * option err) (G : var -> mfactor) xs :
    (forall done x f, Q done -> Q (fun w => if eqd w x then Some f else done w)) ->
    (forall x, In x xs -> accepted D g check k x (FM (G x)) (FM (G x))) ->
    (forall m done x, In x xs -> Q done -> partial D g check k done m -> body m x = set_computed m x (Ok (G x))) ->
    forall done m, Q done -> partial D g check k done m ->
    exists m', for_each body xs m = (m', None) /\ partial D g check k (put (map (fun x => (x, FM (G x))) xs) done) m'.
  Proof.
    intros HQ. induction xs as [|x xs IH]; intros A B done m Qd P; [exists m; split; [reflexivity|exact P]|].
    cbn [for_each map put]. rewrite (B m done x (or_introl eq_refl) Qd P). cbn [set_computed].
    destruct (put_one D ND g check k done m x (FM (G x)) (FM (G x)) P (A x (or_introl eq_refl))) as (m1 & E1 & P1).
    assert (Es : set_factor m x (FM (G x)) = (m1, None)).
    { unfold set_or_raise in E1. destruct (set_factor m x (FM (G x))) as [m2 [e|]]; [discriminate|]. congruence. }
    rewrite Es. apply IH; auto.
    - intros y I. apply A. now right.
    - intros m2 d2 y I. apply B. now right.
  Qed.
  Lemma fill_loop (body : pgm -> var -> pgm * option err) (G : var -> mfactor) xs :
    (forall x, In x xs -> accepted D g check k x (FM (G x)) (FM (G x))) ->
    (forall m done x, In x xs -> partial D g check k done m -> body m x = set_computed m x (Ok (G x))) ->
    forall done m, partial D g check k done m ->
    exists m', for_each body xs m = (m', None) /\ partial D g check k (put (map (fun x => (x, FM (G x))) xs) done) m'.
  Proof.
    intros A B done m P. apply (fill_loop_inv (fun _ => True)); auto. intros m1 d1 x I _. now apply B.
  Qed.
  (** The first exception is [e]. *)
  Lemma loop_raises (Q : (var -> option fobj) -> Prop) (body : pgm -> var -> pgm * option err) (G : var -> mfactor) (bad : var -> bool) e xs :
    (forall done x f, Q done -> Q (fun w => if eqd w x then Some f else done w)) ->
    (forall x, In x xs -> bad x = false -> accepted D g check k x (FM (G x)) (FM (G x))) ->
    (forall m done x, In x xs -> Q done -> partial D g check k done m -> body m x = set_computed m x (Ok (G x))) ->
    (forall m done x, In x xs -> bad x = true -> partial D g check k done m -> set_factor m x (FM (G x)) = (m, Some e)) ->
    (exists x, In x xs /\ bad x = true) ->
    forall done m, Q done -> partial D g check k done m -> exists m', for_each body xs m = (m', Some e).
  Proof.
    intros HQ. induction xs as [|x xs IH]; intros A B C (y & Iy & By) done m Qd P; [destruct Iy|].
    cbn [for_each]. rewrite (B m done x (or_introl eq_refl) Qd P). cbn [set_computed]. destruct (bad x) eqn:Bx.
    - rewrite (C m done x (or_introl eq_refl) Bx P). eauto.
    - destruct (put_one D ND g check k done m x (FM (G x)) (FM (G x)) P (A x (or_introl eq_refl) Bx)) as (m1 & E1 & P1).
      assert (Es : set_factor m x (FM (G x)) = (m1, None)).
      { unfold set_or_raise in E1. destruct (set_factor m x (FM (G x))) as [m2 [e'|]]; [discriminate|]. congruence. }
      rewrite Es. eapply IH; [| | | | |exact P1].
      + intros z I. apply A. now right.
      + intros m2 d2 z I. apply B. now right.
      + intros m2 d2 z I. apply (C m2 d2). now right.
      + destruct Iy as [<-|Iy]; [congruence|eauto].
      + now apply HQ.
  Qed.

  Lemma loop_put (G : var -> mfactor) xs done w :
    put (map (fun x => (x, FM (G x))) xs) done w = if mem w xs then Some (FM (G w)) else done w.
  Proof.
    rewrite (put_get _ (fun v => FM (G v))).
    - unfold keys. rewrite map_map. cbn [fst]. now rewrite map_id.
    - intros v f I. apply in_map_iff in I as (y & E & _). now injection E as <- <-.
  Qed.
End Loop.

Section FullModel.
  Variables (D : domain) (g : digraph) (check : bool) (k : kind) (done : var -> option fobj) (m : pgm) (F : var -> mfactor) (vt : vtype).
  Hypothesis WD : wf_dom D.
  Hypothesis Wg : wf_graph g.
  Hypothesis Ac : acyclic g.
  Hypothesis SD : incl (nodes g) (keys D).
  Hypothesis P : partial D g check k done m.
  Hypothesis HF : forall v, In v (nodes g) -> cpt D vt v (preds g v) (F v).
  Notation Dn := (pick (nodes g) D).

  Lemma cpt_within v : In v (nodes g) -> cpt Dn vt v (preds g v) (F v).
  Proof.
    intros Iv. destruct (HF v Iv) as (W & T & Sl & Sr & Dm & Fn & Nm). split; [auto|]. split; [auto|]. split; [auto|]. split; [auto|].
    split; [|auto]. intros w l I. unfold pick. apply filter_In. split; [auto|]. cbn [fst]. apply mem_In.
    assert (Iw : In w (mf_vars (F v))) by (apply keys_In; eauto).
    apply (wf_mf_partitioned (F v) W) in Iw. destruct Iw as [Iw|Iw].
    - apply Sl in Iw. destruct Iw as [<-|[]]. auto.
    - apply Sr, in_preds in Iw. apply (proj2 (proj2 Wg) w v), Iw.
  Qed.

  Lemma keys_within : same_set (keys Dn) (nodes g).
  Proof.
    intros v. rewrite keys_pick. split; [tauto|]. intros I. split; auto.
  Qed.

  Lemma full_network : (forall v, In v (nodes g) -> done v = Some (FM (F v))) -> network m Dn F vt.
  Proof.
    intros Hd. destruct P as (Eg & _ & _ & Kf & _ & Hf & _). split; [congruence|]. rewrite Eg. split; [auto|].
    split; [now apply wf_pick|]. split; [apply keys_within|]. rewrite Kf. split; [apply Wg|]. split; [intros y; tauto|].
    intros v Iv. split; [|now apply cpt_within]. unfold stored. now rewrite (Hf v Iv), (Hd v Iv).
  Qed.

  Lemma full_causal endo cast (T : var -> fobj) : k = KScm endo cast -> (forall x v, arc g x v -> In v endo) ->
    (forall v, In v (nodes g) -> done v = Some (T v) /\ tabulates v (T v) (F v) /\
       (In v endo -> zero_one (F v) /\ (cast = true -> T v = FM (F v)))) ->
    causal m Dn F vt endo cast.
  Proof.
    intros -> Ar Hd. destruct P as (Eg & _ & Ek & Kf & _ & Hf & _). split; [auto|]. rewrite Eg. split; [auto|]. split; [auto|].
    split; [now apply wf_pick|]. split; [apply keys_within|]. rewrite Kf. split; [apply Wg|]. split; [intros y; tauto|]. split; [|auto].
    intros v Iv. destruct (Hd v Iv) as (E & T1 & Z). exists (T v). unfold stored. rewrite (Hf v Iv), E.
    split; [auto|]. split; [auto|]. split; [now apply cpt_within|auto].
  Qed.
End FullModel.

(** ** The tables drawn *)

Section Drawn.
  Variable dflt : vtype.
  Variable D : domain.
  Hypothesis U : usable D.
  Variable g : digraph.
  Hypothesis Wg : wf_graph g.
  Hypothesis Ac : acyclic g.
  Hypothesis SD : incl (nodes g) (keys D).

  Notation family x := (order_dom D (preds g x ++ [x])).

  Lemma family_NoDup x : In x (nodes g) -> NoDup (preds g x ++ [x]).
  Proof.
    intros I. apply NoDup_app_intro.
    - apply preds_NoDup, Wg.
    - repeat constructor. intros [].
    - intros v J [<-|[]]. apply in_preds in J. apply (Ac x). now apply walk_one.
  Qed.
  Lemma family_incl x : In x (nodes g) -> incl (preds g x ++ [x]) (keys D).
  Proof.
    intros I v J. apply SD. apply in_app_or in J as [J|[<-|[]]]; [|auto]. apply in_preds in J. apply (proj2 (proj2 Wg) v x), J.
  Qed.
  Lemma family_usable x : In x (nodes g) -> usable (family x).
  Proof. intros I. apply order_usable; [auto|now apply family_NoDup|now apply family_incl]. Qed.
  Lemma family_ok dom x : NoDup (keys dom) -> In x (nodes g) -> (forall v l, In v (nodes g) -> In (v, l) D -> In (v, l) dom) ->
    var_parents_domain dom g x = Ok (family x).
  Proof.
    intros Nd I Sub. unfold var_parents_domain, relevat_vars, predecessors. assert (M := I). apply mem_In in M. rewrite M. cbn [bind].
    assert (E : mapM (fun w => let* x0 := dlook w dom in Ok (w, x0)) (preds g x ++ [x]) = Ok (family x)).
    { assert (Hn : forall v, In v (preds g x ++ [x]) -> In v (nodes g)).
      { intros v J. apply in_app_or in J as [J|[<-|[]]]; [|auto]. apply in_preds in J. apply (proj2 (proj2 Wg) v x), J. }
      clear - Hn Nd Sub SD U. unfold order_dom. induction (preds g x ++ [x]) as [|v vs IH]; [reflexivity|]. cbn [mapM map].
      assert (Iv : In v (nodes g)) by (apply Hn; now left). assert (Kv := SD v Iv). apply dget_keys in Kv as (l & El).
      rewrite El. unfold dlook at 1. rewrite (In_dget v l dom Nd (Sub v l Iv (dget_In _ _ _ El))). cbn [bind].
      rewrite IH by (intros w J; apply Hn; now right). reflexivity. }
    rewrite E. cbn [bind]. rewrite dict_of_id; [reflexivity|]. rewrite order_dom_keys. now apply family_NoDup.
  Qed.
  Lemma others_family x : In x (nodes g) -> others x (family x) = preds g x.
  Proof.
    intros I. unfold others. rewrite order_dom_keys, filter_app. cbn [filter]. rewrite eqd_refl, app_nil_r.
    assert (Nx : ~ In x (preds g x)) by (intros J; apply in_preds in J; apply (Ac x); now apply walk_one).
    induction (preds g x) as [|y l IH]; [reflexivity|]. cbn [filter]. rewrite eqd_neq by (intros ->; apply Nx; now left).
    f_equal. apply IH. intros J. apply Nx. now right.
  Qed.
  Lemma family_In x v l : In x (nodes g) -> In (v, l) (family x) -> In (v, l) D.
  Proof. intros I J. apply order_dom_In in J as [_ J]; [auto|apply U|now apply family_incl]. Qed.

  Lemma family_left x f : In x (nodes g) -> same_set (mf_vars f) (preds g x ++ [x]) -> mf_right f = preds g x -> same_set (mf_left f) [x].
  Proof.
    intros I Kv R y. rewrite mf_left_In, R, (Kv y), in_app_iff. split.
    - intros [[J|J] N]; [contradiction|auto].
    - intros [<-|[]]. split; [right; now left|]. intros J; apply in_preds in J; apply (Ac x); now apply walk_one.
  Qed.

  Lemma drawn_function x choose : In x (nodes g) -> (forall j v l, In (v, l) D -> choose j v < length l) ->
    exists f, random_deterministic (family x) (Some (preds g x)) dflt choose = Ok f /\ cpt D dflt x (preds g x) f /\ zero_one f.
  Proof.
    intros I Hc. destruct (random_deterministic_ok (family x) (preds g x) dflt choose) as (f & Ef & W & Dm & R & T & Hf).
    - now apply family_usable.
    - intros E. assert (K := order_dom_keys D (preds g x ++ [x])). rewrite E in K. destruct (preds g x); discriminate.
    - apply preds_NoDup, Wg.
    - intros v J. rewrite order_dom_keys. apply in_or_app. now left.
    - intros j v l J. apply Hc. eapply family_In; eauto.
    - assert (NZ : normalised f /\ zero_one f) by (apply functional_table; [auto|]; now rewrite R, Dm).
      destruct NZ as [Nm Z]. exists f. split; [auto|]. split; [|auto]. split; [auto|]. split; [auto|]. split.
      + apply family_left; [auto| |auto]. unfold mf_vars. rewrite Dm, order_dom_keys. intros y; tauto.
      + split; [rewrite R; intros y; tauto|]. split; [|split; [|auto]].
        * rewrite Dm. intros v l. now apply family_In.
        * intros o Fo. destruct (Z o Fo) as [E|E]; rewrite E; [now exists 0%Qc|now exists 1%Qc].
  Qed.

  Lemma drawn_table dom r x az xs : In x (nodes g) -> usable dom -> NoDup r ->
    same_set r (preds g x) -> same_set (keys dom) (preds g x ++ [x]) -> (forall v l, In (v, l) dom -> In (v, l) D) ->
    drawn_for dom r az xs ->
    exists f, random_multinomial dom r dflt az xs = Ok f /\ cpt D dflt x (preds g x) f /\
      (az = false -> forall o, full (mf_domain f) o -> exists q, mf_get_value f o = Ok (Fin q) /\ (0 < q)%Qc) /\
      mf_domain f = dom /\ forall o q, full (mf_domain f) o -> mf_get_value f o = Ok (Fin q) -> (0 <= q)%Qc.
  Proof.
    intros I Ud Nr Sr Sk Sub (L & Q & Pz).
    destruct (random_multinomial_ok dom r dflt az xs Ud Nr) as (f & Ef & W & Dm & R & T & Nm & Hf); auto.
    { intros v J. apply Sk. apply in_or_app. left. now apply Sr. }
    exists f. split; [auto|]. split; [|split].
    - split; [auto|]. split; [auto|]. split; [|split; [now rewrite R|split; [now rewrite Dm|split; [|auto]]]].
      + intros y. rewrite mf_left_In, R. unfold mf_vars. rewrite Dm, (Sk y), in_app_iff. rewrite (Sr y). split.
        * intros [[J|J] N]; [contradiction|auto].
        * intros [<-|[]]. split; [right; now left|]. intros J; apply in_preds in J; apply (Ac x); now apply walk_one.
      + intros o Fo. rewrite Dm in Fo. destruct (Hf o Fo) as (q & E & _). eauto.
    - intros ->. intros o Fo. rewrite Dm in Fo. destruct (Hf o Fo) as (q & E & _ & Pq). eauto.
    - split; [auto|]. intros o q Fo E. rewrite Dm in Fo. destruct (Hf o Fo) as (q' & E' & P' & _). rewrite E in E'. injection E' as ->. auto.
  Qed.

  Lemma one_dom u l : In (u, l) D -> subdomain D [u] = Ok [(u, l)] /\ usable [(u, l)].
  Proof.
    intros I. split.
    - rewrite subdomain_order; [|apply U|repeat constructor; intros []|].
      + unfold order_dom. cbn [map]. now rewrite (In_dget u l D (proj1 (usable_wf _ U)) I).
      + intros v [<-|[]]. apply keys_In. eauto.
    - eapply usable_one; eauto.
  Qed.
End Drawn.

(** ** fill_random_equations, fill_random_marginals, fill_random_factors *)

Section FillModel.
  Variable dflt : vtype.
  Variable choose : var -> nat -> var -> nat.
  Variable draw : var -> list num.
  Variable D : domain.
  Variable m : pgm.
  Variables (endo : list var) (cast : bool).
  Hypothesis U : usable D.
  Hypothesis Pr : prepared D m.
  Hypothesis SD : incl (nodes (m_graph m)) (keys D).
  Hypothesis Ek : m_kind m = KScm endo cast.
  Hypothesis Ie : incl endo (nodes (m_graph m)).
  Hypothesis Hc : forall x j v l, In x endo -> In (v, l) D -> choose x j v < length l.
  Notation g := (m_graph m).
  Notation P := (partial D g (m_check m) (KScm endo cast)).

  Let WD : wf_dom D := usable_wf _ U.
  Let Wg : wf_graph g := proj1 Pr.
  Let Ac : acyclic g := proj1 (proj2 Pr).

  Lemma equations_ok : exists G, (forall x, In x endo -> cpt D dflt x (preds g x) (G x) /\ zero_one (G x)) /\
    forall done m0, P done m0 -> exists m', fill_random_equations dflt choose D m0 = (m', None) /\
      P (fun w => if mem w endo then Some (FM (G w)) else done w) m'.
  Proof.
    destruct (choice_list no_table (fun x f => random_deterministic (order_dom D (preds g x ++ [x])) (Some (preds g x)) dflt (choose x) = Ok f /\
                cpt D dflt x (preds g x) f /\ zero_one f) endo) as (G & HG).
    { intros x I. apply drawn_function; eauto. }
    exists G. split; [intros x I; apply HG, I|]. intros done m0 P0.
    assert (E0 : scm_endogenous m0 = endo) by (unfold scm_endogenous; now rewrite (proj1 (proj2 (proj2 P0)))).
    unfold fill_random_equations. rewrite E0.
    destruct (fill_loop D (proj1 WD) g (m_check m) (KScm endo cast)
        (fun m x => set_computed m x (let* dom := var_parents_domain D (m_graph m) x in random_deterministic dom (Some (others x dom)) dflt (choose x)))
        G endo) with (done := done) (m := m0) as (m' & Em & P'); auto.
    - intros x I. destruct (HG x I) as (_ & C & Z). eapply accept_table; eauto.
    - intros m1 d1 x I P1. f_equal. rewrite (proj1 P1). rewrite (family_ok D g Wg Ac SD D x) by (auto; apply WD).
      cbn [bind]. rewrite (others_family D g Ac x) by auto. apply HG, I.
    - exists m'. split; [exact Em|]. destruct P' as (p1 & p2 & p3 & p4 & p5 & p6 & p7). repeat (split; [assumption|]). split.
      + intros v Iv. rewrite (p6 v Iv). f_equal. apply loop_put.
      + intros v Iv. specialize (p7 v Iv). now rewrite loop_put in p7.
  Qed.

  Hypothesis Hr : forall x v, arc g x v -> In v endo.
  Hypothesis Hd : forall u l, In u (nodes g) -> ~ In u endo -> In (u, l) D -> drawn_for [(u, l)] [] true (draw u).

  Lemma marginals_ok : exists G, (forall u, In u (nodes g) -> ~ In u endo -> cpt D dflt u (preds g u) (G u)) /\
    forall done m0, P done m0 -> exists m', fill_random_marginals dflt draw D m0 = (m', None) /\
      P (fun w => if mem w (filter (fun v => negb (mem v endo)) (nodes g)) then Some (FM (G w)) else done w) m'.
  Proof.
    set (exo := filter (fun v => negb (mem v endo)) (nodes g)).
    assert (He : forall u, In u exo <-> In u (nodes g) /\ ~ In u endo).
    { intros u. unfold exo. rewrite filter_In, negb_true_iff. rewrite mem_nIn. tauto. }
    destruct (choice_list no_table (fun u f => (let* dom := subdomain D [u] in random_multinomial dom [] dflt true (draw u)) = Ok f /\
                cpt D dflt u (preds g u) f) exo) as (G & HG).
    { intros u I. apply He in I as [I N]. assert (K := SD u I). apply dget_keys in K as (l & El). apply dget_In in El.
      destruct (one_dom D U u l El) as [Es Us]. rewrite Es. cbn [bind].
      assert (Ep : preds g u = []).
      { destruct (preds g u) as [|p r] eqn:E; [reflexivity|]. exfalso. apply N. apply (Hr p). apply in_preds. rewrite E. now left. }
      destruct (drawn_table dflt D g Ac [(u, l)] [] u true (draw u) I Us) as (f & Ef & C & _).
      - constructor.
      - rewrite Ep. intros y; tauto.
      - rewrite Ep. intros y; tauto.
      - intros v l' [E|[]]. injection E as <- <-. auto.
      - apply Hd; auto.
      - exists f. auto. }
    exists G. split; [intros u I N; apply HG, He; auto|]. intros done m0 P0.
    assert (E0 : scm_exogenous m0 = exo).
    { unfold scm_exogenous, scm_endogenous. rewrite (proj1 (proj2 (proj2 P0))), (proj1 P0). reflexivity. }
    unfold fill_random_marginals. rewrite E0.
    destruct (fill_loop D (proj1 WD) g (m_check m) (KScm endo cast)
        (fun m u => set_computed m u (let* dom := subdomain D [u] in random_multinomial dom [] dflt true (draw u)))
        G exo) with (done := done) (m := m0) as (m' & Em & P'); auto.
    - intros x I. destruct (HG x I) as (_ & C). apply He in I as [I N]. eapply accept_table; eauto.
      intros e c E J. injection E as <- <-. contradiction.
    - intros m1 d1 x I P1. f_equal. apply HG, I.
    - exists m'. split; [exact Em|]. destruct P' as (p1 & p2 & p3 & p4 & p5 & p6 & p7). repeat (split; [assumption|]). split.
      + intros v Iv. rewrite (p6 v Iv). f_equal. apply loop_put.
      + intros v Iv. specialize (p7 v Iv). now rewrite loop_put in p7.
  Qed.

  Lemma fill_ok : exists m' F, fill_random_factors dflt choose draw D m = (m', None) /\
    causal m' (pick (nodes g) D) F dflt endo cast /\ m_graph m' = g /\
    (forall v, In v (nodes g) -> stored m' v (FM (F v))) /\ prepared D m'.
  Proof.
    destruct equations_ok as (G1 & H1 & E1). destruct marginals_ok as (G2 & H2 & E2).
    destruct (prepared_partial D g (m_check m) (KScm endo cast) m Pr eq_refl eq_refl Ek) as (done & P0).
    destruct (E1 done m P0) as (m1 & Em1 & P1). destruct (E2 _ m1 P1) as (m2 & Em2 & P2).
    exists m2, (fun v => if mem v endo then G1 v else G2 v).
    unfold fill_random_factors. rewrite Em1. split; [exact Em2|].
    assert (Hv : forall v, In v (nodes g) ->
       (if mem v (filter (fun v => negb (mem v endo)) (nodes g)) then Some (FM (G2 v)) else if mem v endo then Some (FM (G1 v)) else done v) =
       Some (FM (if mem v endo then G1 v else G2 v))).
    { intros v Iv. destruct (mem v endo) eqn:M.
      - destruct (mem v (filter _ _)) eqn:M2; [|auto]. apply mem_In, filter_In in M2 as [_ M2]. rewrite M in M2. discriminate.
      - assert (M2 : mem v (filter (fun v => negb (mem v endo)) (nodes g)) = true) by (apply mem_In, filter_In; rewrite M; auto).
        now rewrite M2. }
    split; [|split; [apply P2|split; [|eapply partial_prepared; eauto]]].
    - eapply full_causal with (T := fun v => FM (if mem v endo then G1 v else G2 v)); [exact WD|exact Wg|exact Ac|exact SD|exact P2| |reflexivity|exact Hr|].
      + intros v Iv. destruct (mem v endo) eqn:M; [apply H1; now apply mem_In|apply H2; [auto|now apply mem_nIn]].
      + intros v Iv. split; [now apply Hv|]. split; [reflexivity|]. intros J. assert (M := J). apply mem_In in M. rewrite M.
        split; [now apply H1|auto].
    - intros v Iv. destruct P2 as (_ & _ & _ & _ & _ & p6 & _). unfold stored. rewrite (p6 v Iv). f_equal. now apply Hv.
  Qed.
End FillModel.
