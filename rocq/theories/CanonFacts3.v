(** Canonical equations as tables: multiplied with a table of the exogenous
    variable, which is then summed out, they give every conditional table. *)

From Coq Require Import String Bool Arith ZArith QArith Qcanon Lia Permutation List.
From Verif Require Import PyBase Num DomainModel NdArray StoreModel NumStore FactorModel GenModel GraphModel ModelModel Spec StoreSpec FactorSpec GraphSpec ModelSpec GenSpec NetSpec CanonSpec
  NumFacts PyFacts BigSum StoreFacts FactorFacts FactorFacts2 FactorFacts3 PropFacts1 NetSem FactorSem EmMath GenFacts2 GenFacts3 NetFacts VeFacts4 CanonFacts1 CanonFacts2.
From Coq Require Import List.
Import ListNotations.
Local Open Scope nat_scope.
Local Open Scope list_scope.

Lemma all_assignments_one v (l : list state) : all_assignments [(v, l)] = map (fun s => [(v, s)]) l.
Proof. cbn. induction l as [|s l IH]; [reflexivity|]. cbn. now rewrite IH. Qed.

Lemma entry_fv D vt f a o : wf_dom D -> good D vt f -> valid D a -> agrees o a (mf_vars f) -> entry f o = fv f a.
Proof. intros W G V A. unfold entry. now rewrite (fv_get D vt f a o). Qed.

Lemma one_element {A} (l : list A) x : NoDup l -> same_set l [x] -> l = [x].
Proof.
  intros N S. destruct l as [|y l]; [exfalso; apply (proj2 (S x)); now left|].
  assert (E : y = x) by (destruct (proj1 (S y) (or_introl eq_refl)) as [E | []]; congruence). subst y.
  destruct l as [|z l]; [reflexivity|]. exfalso. inversion N as [|? ? Ny _]; subst. apply Ny.
  destruct (proj1 (S z)) as [-> | []]; [right; now left|]. now left.
Qed.
Lemma same_states (D : domain) v k k' : NoDup (keys D) -> In (v, k) D -> In (v, k') D -> k = k'.
Proof. intros N I J. assert (E := In_dget _ _ _ N I). rewrite (In_dget _ _ _ N J) in E. now injection E. Qed.

(** *** the table of a root *)
Lemma root_table D vt u lu (q : state -> Qc) : usable D -> In (u, lu) D -> total (map q lu) = 1%Qc ->
  exists g, mf_init [(u, lu)] (flist (map (fun s => Fin (q s)) lu)) None None vt = Ok g /\ cpt D vt u [] g /\ mf_domain g = [(u, lu)] /\
    (forall o s, dget u o = Some s -> In s lu -> mf_get_value g o = Ok (Fin (q s))) /\
    forall a, valid D a -> fv g a = q (a u).
Proof.
  intros Us I T. assert (U1 : usable [(u, lu)]) by (apply (usable_one u lu D); auto).
  destruct (mf_init_ok [(u, lu)] (flist (map (fun s => Fin (q s)) lu)) (map (fun s => Fin (q s)) lu) None None [] vt U1) as (g & E & W & Dg & Vg & Rg & Gg & _).
  { rewrite map_length. cbn. lia. } { now left. } { reflexivity. }
  assert (NL : NoDup lu /\ lu <> []) by (apply (proj2 (usable_wf _ Us) u lu I)).
  assert (Get : forall o s, dget u o = Some s -> In s lu -> mf_get_value g o = Ok (Fin (q s))).
  { intros o s Eo Is. destruct (Gg o) as (z & Ez & Nz).
    { intros v l [[= <- <-] | []]. exists s. auto. }
    cbn [rowpos] in Nz. rewrite Eo in Nz. rewrite Ez. f_equal. cbn [size] in Nz. rewrite Nat.mul_1_r, Nat.add_0_r in Nz.
    apply In_nth_error in Is as (k & Ek). rewrite (index_of_nth lu k s) in Nz by (assumption || apply NL).
    cbn in Nz. rewrite nth_error_map, Ek in Nz. cbn in Nz. now injection Nz. }
  assert (Wg : wf_mf g).
  { split; [assumption|]. unfold mf_domain in *. rewrite Dg, Rg. split; [assumption|]. split; [constructor|intros ? []]. }
  exists g. split; [assumption|].
  assert (C : cpt D vt u [] g).
  { split; [assumption|]. split; [assumption|]. split; [|split; [|split; [|split]]].
    - unfold mf_left, mf_vars. rewrite Dg, Rg. intros v. reflexivity.
    - rewrite Rg. intros v. reflexivity.
    - rewrite Dg. intros w l [[= <- <-] | []]. assumption.
    - rewrite Dg. intros o F. destruct (F u lu (or_introl eq_refl)) as (s & Eo & Is). exists (q s). now apply Get.
    - intros o _. rewrite Rg, Dg. change (drop [] [(u, lu)]) with [(u, lu)]. rewrite all_assignments_one.
      exists (map (fun s => Fin (q s)) lu). split.
      + clear - Get. assert (H : incl lu lu) by apply incl_refl. revert H. generalize lu at 1 3 4 as m. induction m as [|s m IH]; intros H; cbn; constructor.
        * apply Get; [cbn; now rewrite eqd_refl|]. apply H. now left.
        * apply IH. intros x J. apply H. now right.
      + rewrite <- (map_map q Fin), nsum_Fin, <- total_qsum, T. reflexivity. }
  split; [assumption|]. split; [assumption|]. split; [assumption|].
  intros a Va. assert (G := cpt_good D vt u [] g C).
  assert (Q := get_obs_D D vt g a G Va). rewrite (Get _ (a u)) in Q.
  - now injection Q.
  - apply (obs_agrees D a). apply keys_In. eauto.
  - apply (Va u lu I).
Qed.

Section Table.
  Variables (dom : domain) (x exo : var) (endo : list var) (l lu : list state) (vt : vtype).
  Hypothesis Us : usable dom.
  Hypothesis CV : canon_vars dom x exo endo l lu.
  Hypothesis NP : vt = VNumpy -> length endo = 1.
  Hypothesis Card : length lu = length l ^ size (order_dom dom endo).
  Let pdom := order_dom dom endo.
  Let A := all_assignments pdom.
  Let WD : wf_dom dom := usable_wf dom Us.

  Lemma In_A a : valid dom a -> In (obs_of endo a) A.
  Proof.
    intros V. apply all_assignments_In_full; [apply (cv_pdom _ _ _ _ _ _ CV)|]. unfold pdom. rewrite order_dom_keys. split.
    - unfold obs_of, keys. rewrite map_map. cbn. apply map_id.
    - destruct CV as (W & _ & _ & _ & Ie & _). intros v k J. apply (order_dom_In dom endo v k (proj1 W) Ie) in J as (J1 & J2).
      exists (a v). split; [now apply agrees_obs_of|]. now apply V.
  Qed.

  Lemma canon_full a : valid dom a -> full ((x, l) :: (exo, lu) :: pdom) (obs_of (keys dom) a).
  Proof.
    intros V. destruct CV as (W & Ix & Iu & _ & Ie & _). intros v k J.
    assert (K : In (v, k) dom).
    { destruct J as [[= <- <-] | [[= <- <-] | J]]; auto. apply (order_dom_In dom endo v k (proj1 W) Ie) in J. apply J. }
    exists (a v). split; [|now apply V]. apply agrees_obs_of. apply keys_In. eauto.
  Qed.

  Lemma canon_table : exists f c (val : state -> obs -> state), canonical_deterministic dom exo endo vt = Ok f /\
    (forall u p, In u lu -> In p A -> get_value (df_store f) ((exo, u) :: p) = Ok (val u p)) /\
    canonical_multinomial dom exo endo vt = Ok c /\ good dom vt c /\ mf_left c = [x] /\ mf_right c = exo :: endo /\
    mf_domain c = (x, l) :: (exo, lu) :: pdom /\
    forall a, valid dom a -> fv c a = if eqd (val (a exo) (obs_of endo a)) (a x) then 1%Qc else 0%Qc.
  Proof.
    destruct (canonical_ok dom x exo endo l lu vt CV NP Card) as (f & E & Wf & Df & Tf & Rf & _).
    destruct (val_exists dom x exo endo l lu vt CV NP Card f E) as (val & V). exists f.
    assert (Ud : usable (df_domain f)).
    { rewrite Df. destruct (canonical_unfold dom x exo endo l lu vt CV) as (Wd & _). split; [exact Wd|].
      assert (Sub : forall v k, In (v, k) ((x, l) :: (exo, lu) :: order_dom dom endo) -> In (v, k) dom).
      { destruct CV as (W & Ix & Iu & _ & Ie & _). intros v k [[= <- <-] | [[= <- <-] | J]]; auto.
        apply (order_dom_In dom endo v k (proj1 W) Ie) in J. apply J. }
      split.
      - intros v k s s' J. apply (proj1 (proj2 Us) v k). now apply Sub.
      - intros v s J. apply (proj2 (proj2 Us)). apply keys_In in J as (k & J). apply keys_In. exists k. now apply Sub. }
    destruct (df_to_multinomial_ok f x l Wf Ud) as (c & Ec & Wc & Dc & Rc & Lc & Tc & Gc).
    exists c, val. split; [assumption|]. split; [assumption|].
    split; [unfold canonical_multinomial; rewrite E; exact Ec|].
    assert (Dc' : mf_domain c = (x, l) :: (exo, lu) :: pdom) by (rewrite Dc, Df; reflexivity).
    assert (Gd : good dom vt c).
    { split; [assumption|]. split; [congruence|]. split.
      - rewrite Dc'. destruct CV as (W & Ix & Iu & _ & Ie & _). intros v k [[= <- <-] | [[= <- <-] | J]]; auto.
        apply (order_dom_In dom endo v k (proj1 W) Ie) in J. apply J.
      - rewrite Dc. intros o Fo. destruct (Gc o Fo) as (y & z & _ & _ & ->). destruct (eqd y z); eexists; reflexivity. }
    split; [assumption|]. split; [assumption|]. split; [now rewrite Rc, Rf|]. split; [assumption|].
    intros a Va. assert (Q := get_obs_D dom vt c a Gd Va).
    destruct (Gc (obs_of (keys dom) a)) as (y & z & Ey & Ez & Eg); [rewrite Df; now apply canon_full|].
    rewrite Q in Eg. injection Eg as Eg. rewrite (agrees_obs_of (keys dom) a x) in Ez by (destruct CV as (_ & I & _); apply keys_In; eauto).
    injection Ez as <-.
    assert (Iu : In (a exo) lu) by (destruct CV as (_ & _ & I & _); apply (Va exo lu I)).
    assert (Vy := V (a exo) (obs_of endo a) Iu (In_A a Va)).
    assert (Ay : get_value (df_store f) (obs_of (keys dom) a) = get_value (df_store f) ((exo, a exo) :: obs_of endo a)).
    { destruct Wf as (Wdf & _ & _ & _ & _ & Ws & Ds). rewrite Df in Wdf, Ds. rewrite drop_canon in Ds by assumption.
      assert (Ag : forall v, In v (keys (st_domain (df_store f))) -> dget v ((exo, a exo) :: obs_of endo a) = Some (a v) /\ In v (keys dom)).
      { rewrite Ds. intros v J. cbn [keys map fst] in J. destruct CV as (W & _ & Iu' & _ & Ie & _). cbn [dget].
        destruct (eqd v exo) as [-> | Nv]; [split; [reflexivity|apply keys_In; eauto]|].
        destruct J as [<- | J]; [congruence|]. change (map fst (order_dom dom endo)) with (keys (order_dom dom endo)) in J.
        rewrite order_dom_keys in J. split; [now apply agrees_obs_of|now apply Ie]. }
      apply get_value_agree; [assumption| |].
      - intros v k J. assert (Jk : In v (keys (st_domain (df_store f)))) by (apply keys_In; eauto).
        exists (a v). split; [apply (proj1 (Ag v Jk))|].
        rewrite Ds in J. assert (Fl := canon_full a Va v k (or_intror J)). destruct Fl as (s & Es & Is).
        rewrite (agrees_obs_of (keys dom) a v (proj2 (Ag v Jk))) in Es. now injection Es as ->.
      - intros v J. rewrite (proj1 (Ag v J)). apply agrees_obs_of, Ag, J. }
    rewrite Ay, Vy in Ey. injection Ey as ->. destruct (eqd y (a x)); injection Eg as ->; reflexivity.
  Qed.
  (** a table of the exogenous variable, multiplied with the equation, and the
      exogenous variable summed out *)
  Lemma mixture f c (val : state -> obs -> state) g q : canonical_deterministic dom exo endo vt = Ok f ->
    (forall u p, In u lu -> In p A -> get_value (df_store f) ((exo, u) :: p) = Ok (val u p)) ->
    good dom vt c -> mf_left c = [x] -> mf_right c = exo :: endo -> mf_domain c = (x, l) :: (exo, lu) :: pdom ->
    (forall a, valid dom a -> fv c a = if eqd (val (a exo) (obs_of endo a)) (a x) then 1%Qc else 0%Qc) ->
    cpt dom vt exo [] g -> (forall a, valid dom a -> fv g a = q (a exo)) ->
    exists prod h, mf_multiply g (OFac c) = Ok prod /\ mf_marginalize prod [exo] = Ok h /\ good dom vt h /\
      mf_left h = [x] /\ (forall v, In v (mf_vars h) <-> v = x \/ In v endo) /\
      forall a, valid dom a -> fv h a = qsum (map (fun u => if eqd (val u (obs_of endo a)) (a x) then q u else 0%Qc) lu).
  Proof.
    intros E V Gc Lc Rc Dc Fc Cg Fg. assert (Gg := cpt_good dom vt exo [] g Cg).
    assert (Xu : x <> exo /\ ~ In x endo) by (destruct CV as (_ & _ & _ & _ & _ & N & N2 & _); now split).
    assert (Nue : ~ In exo endo) by (destruct CV as (_ & _ & _ & N & _); now inversion N).
    assert (Iu : In (exo, lu) dom) by apply CV.
    destruct (good_mul dom WD vt g c Gg Gc) as (prod & Ep & Gp & Vp & Lp & Fp).
    assert (Vg : forall v, In v (mf_vars g) <-> v = exo) by (intros v; rewrite (cpt_vars dom vt exo [] g v Cg); cbn; intuition).
    assert (Vc : forall v, In v (mf_vars c) <-> v = x \/ v = exo \/ In v endo).
    { intros v. unfold mf_vars. rewrite Dc. cbn. change (map fst pdom) with (keys pdom). unfold pdom. rewrite order_dom_keys. intuition congruence. }
    destruct (good_marg dom WD vt prod [exo] Gp) as (h & Eh & Gh & Dh & Vh & Lh & Fh).
    { repeat constructor. intros []. } { intros v [<- | []]. apply Vp. left. now apply Vg. }
    exists prod, h. split; [assumption|]. split; [assumption|]. split; [assumption|].
    assert (Lg : forall v, In v (mf_left g) <-> v = exo) by (destruct Cg as (_ & _ & L & _); intros v; rewrite (L v); cbn; intuition).
    assert (Vh' : forall v, In v (mf_vars h) <-> v = x \/ In v endo).
    { intros v. rewrite (Vh v), (Vp v), (Vg v), (Vc v). cbn. split.
      - intros ([-> | [H | [-> | H]]] & N); auto; exfalso; apply N; now left.
      - intros [-> | H]; split; auto; intros [<- | []]; [now apply (proj1 Xu)|contradiction]. }
    split; [|split; [assumption|]].
    - apply one_element.
      + apply (wf_mf_partitioned h), Gh.
      + intros v. rewrite (Lh v), (Lp v), (Lg v), Lc. cbn. split.
        * intros ([-> | [-> | []]] & N); [exfalso; apply N; now left|now left].
        * intros [<- | []]. split; [right; now left|]. intros [<- | []]. now apply (proj1 Xu).
    - intros a Va. rewrite (Fh a Va), (sm_one dom WD exo lu); [|apply (dep_ext (mf_vars prod)), (fv_dep dom vt), Gp|assumption].
      apply (f_equal qsum), map_ext_in. intros u Ju.
      assert (Vu : valid dom (upd a exo u)).
      { intros v k J. unfold upd. destruct (eqd v exo) as [-> | _]; [|now apply Va].
        rewrite (same_states dom exo k lu (proj1 WD) J Iu). assumption. }
      rewrite (Fp _ Vu), (Fg _ Vu), (Fc _ Vu). rewrite upd_same, (upd_other a exo u x) by (apply Xu).
      assert (Eo : obs_of endo (upd a exo u) = obs_of endo a).
      { unfold obs_of. apply map_ext_in. intros v J. f_equal. apply upd_other. intros ->. contradiction. }
      rewrite Eo. destruct (eqd (val u (obs_of endo a)) (a x)); ring.
  Qed.
End Table.
