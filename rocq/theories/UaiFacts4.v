(** Round trip of structural causal models. *)

From Coq Require Import String Ascii Bool Arith ZArith QArith Qcanon Permutation Lia List.
From Verif Require Import PyBase Num NumFacts DomainModel NdArray StoreModel NumStore FactorModel GraphModel ModelModel CausalModel
  UaiModel PyFacts Spec StoreSpec DomainFacts StoreFacts FactorSpec FactorFacts FactorFacts2 FactorFacts3 GraphSpec GraphFacts ModelSpec
  ModelFacts NetSpec CausalSpec BuildFacts BuildFacts2 UaiSpec UaiFacts UaiFacts2 UaiFacts3 PropFacts1.
Import ListNotations.
Local Open Scope nat_scope.
Local Open Scope string_scope.
Local Open Scope list_scope.
Local Arguments eqd : simpl never.

(** ** Zero/one lists that sum to one *)

Lemma Fin_inj a b : Fin a = Fin b -> a = b.
Proof. congruence. Qed.
Definition zo (x : num) : Prop := x = n0 \/ x = n1.
Lemma zo_sum xs : Forall zo xs -> exists q, nsum xs = Fin q /\ (0 <= q)%Qc.
Proof.
  induction 1 as [|x xs [-> | ->] F (q & E & L)].
  - exists 0%Qc. split; [reflexivity|]. apply Qcle_refl.
  - exists q. rewrite nsum_cons, E. split; [|assumption]. unfold n0, nadd. apply (f_equal Fin), Qcplus_0_l.
  - exists (1 + q)%Qc. rewrite nsum_cons, E. split; [reflexivity|].
    replace 0%Qc with (0 + 0)%Qc by apply Qcplus_0_l. apply Qcplus_le_compat; [discriminate|assumption].
Qed.
Lemma zo_zero xs : Forall zo xs -> nsum xs = n0 -> Forall (eq n0) xs.
Proof.
  induction 1 as [|x xs Z F IH]; intros E; [constructor|]. rewrite nsum_cons in E.
  destruct (zo_sum xs F) as (q & Eq & L). destruct Z as [-> | ->].
  - constructor; [reflexivity|]. apply IH. rewrite Eq in E |- *. unfold n0, nadd in E. rewrite Qcplus_0_l in E. exact E.
  - exfalso. rewrite Eq in E. unfold n0, n1, nadd in E. apply Fin_inj in E. assert (L1 : (0 + 1 <= q + 1)%Qc) by (apply Qcplus_le_compat; [assumption|apply Qcle_refl]).
    replace (q + 1)%Qc with (1 + q)%Qc in L1 by ring. rewrite E in L1. apply L1. reflexivity.
Qed.
Lemma zo_point {A} `{EqD A} (l : list A) (P : A -> num -> Prop) xs : NoDup l -> Forall2 P l xs -> Forall zo xs -> nsum xs = n1 ->
  exists y, In y l /\ xs = map (fun s => if eqd y s then n1 else n0) l.
Proof.
  intros N F. induction F as [|s x l xs Ps F IH]; intros Z E.
  - discriminate.
  - inversion Z as [|? ? Zx Zs]; subst. inversion N as [|? ? Ns Nl]; subst. rewrite nsum_cons in E. destruct Zx as [-> | ->].
    + assert (E' : nsum xs = n1).
      { destruct (zo_sum xs Zs) as (q & Eq & _). rewrite Eq in E |- *. unfold n0, nadd in E. rewrite Qcplus_0_l in E. exact E. }
      destruct (IH Nl Zs E') as (y & Iy & ->). exists y. split; [now right|]. cbn [map]. rewrite eqd_neq by (intros ->; contradiction). reflexivity.
    + assert (E' : nsum xs = n0).
      { destruct (zo_sum xs Zs) as (q & Eq & _). rewrite Eq in E |- *. unfold n1, nadd in E. apply Fin_inj in E. unfold n0. apply (f_equal Fin).
        assert (E1 : (1 + q - 1 = 1 - 1)%Qc) by now rewrite E. transitivity (1 + q - 1)%Qc; [ring|rewrite E1; ring]. }
      exists s. split; [now left|]. cbn [map]. rewrite eqd_refl. f_equal. apply zo_zero in E'; [|assumption].
      clear - E' F Ns. revert Ns. induction F as [|s' x l xs _ F IH]; intros Ns; [reflexivity|]. inversion E'; subst. cbn [map].
      rewrite eqd_neq by (intros ->; apply Ns; now left). f_equal. apply IH; [assumption|]. intros X. apply Ns. now right.
Qed.

(** A normalised 0/1 table is a function. *)
Lemma table_function v l f : wf_mf f -> mf_left f = [v] -> In (v, l) (mf_domain f) -> zero_one f -> normalised f ->
  forall o, full (drop [v] (mf_domain f)) o ->
  exists y, In y l /\ forall s, In s l -> mf_get_value f ((v, s) :: o) = Ok (if eqd y s then n1 else n0).
Proof.
  intros Wf L I Z Nm o Fo.
  assert (WD := usable_wf _ (proj1 (proj2 Wf))).
  assert (Rt : forall w, In w (mf_vars f) -> (In w (mf_right f) <-> w <> v)).
  { intros w Iw. assert (H := mf_left_In f w). rewrite L in H. destruct (in_dec string_dec w (mf_right f)) as [R | R].
    - split; [|auto]. intros _ ->. assert (H' : In v [v]) by now left. apply H in H'. tauto.
    - split; [tauto|]. intros NE. exfalso. assert (H' : In w [v]) by (apply H; tauto). destruct H' as [-> | []]. congruence. }
  assert (E1 : drop (mf_right f) (mf_domain f) = [(v, l)]).
  { rewrite <- (pick_one v l (mf_domain f) (proj1 WD) I). unfold drop, pick. apply filter_ext_in_.
    intros (w, k) Iw. cbn [fst]. assert (Kw : In w (mf_vars f)) by (apply keys_In; now exists k).
    destruct (string_dec w v) as [-> | NE].
    - assert (M : mem v (mf_right f) = false) by (apply mem_nIn; intros X; now apply (Rt v Kw) in X).
      rewrite M. symmetry. apply mem_In. now left.
    - assert (M : mem w (mf_right f) = true) by (apply mem_In; now apply Rt). rewrite M. symmetry. apply mem_nIn. intros [-> | []]; congruence. }
  assert (E2 : pick (mf_right f) (mf_domain f) = drop [v] (mf_domain f)).
  { unfold drop, pick. apply filter_ext_in_. intros (w, k) Iw. cbn [fst]. assert (Kw : In w (mf_vars f)) by (apply keys_In; now exists k).
    destruct (mem w (mf_right f)) eqn:M.
    - apply mem_In, Rt in M; [|assumption]. symmetry. apply negb_true_iff, mem_nIn. intros [-> | []]; congruence.
    - symmetry. apply negb_false_iff, mem_In. apply mem_nIn in M. destruct (string_dec w v) as [-> | NE]; [now left|].
      exfalso. apply M. now apply Rt. }
  destruct (Nm o) as (xs & FX & Sx); [now rewrite E2|]. rewrite E1, all_one in FX.
  assert (FX' : Forall2 (fun s x => mf_get_value f ((v, s) :: o) = Ok x) l xs).
  { clear - FX. revert xs FX. induction l as [|s l IH]; cbn [map]; intros xs FX; inversion FX; subst; constructor; auto. }
  destruct (zo_point l _ xs (proj1 (proj2 WD v l I)) FX') as (y & Iy & Ey); auto.
  - apply Forall_forall. intros x Ix. apply In_nth_error in Ix. destruct Ix as (i & Ei).
    assert (L' : i < length l) by (rewrite (Forall2_length _ _ _ FX'); apply nth_error_Some; congruence).
    apply nth_error_Some in L'. destruct (nth_error l i) as [s|] eqn:Es; [|congruence].
    assert (Gs : mf_get_value f ((v, s) :: o) = Ok x).
    { clear - FX' Es Ei. revert i Es Ei. induction FX' as [|a b l xs H F IH]; intros [|i] Es Ei; cbn in *; try discriminate; [|eauto].
      injection Es as ->. injection Ei as ->. exact H. }
    assert (Fs : full (mf_domain f) ((v, s) :: o)).
    { intros w k Iw. cbn [dget]. destruct (eqd w v) as [-> | NE].
      - exists s. split; [reflexivity|].
        assert (k = l) by (assert (A := In_dget _ _ _ (proj1 WD) Iw); rewrite (In_dget _ _ _ (proj1 WD) I) in A; congruence).
        subst k. eapply nth_error_In; eauto.
      - apply Fo. unfold drop. apply filter_In. split; [assumption|]. cbn [fst]. apply negb_true_iff, mem_nIn. intros [-> | []]; congruence. }
    destruct (Z _ Fs) as [G | G]; rewrite G in Gs; injection Gs as <-; [now left|now right].
  - exists y. split; [assumption|]. intros s Is. rewrite Ey in FX'. clear - FX' Is.
    induction l as [|a l IH]; [destruct Is|]. cbn [map] in FX'. inversion FX'; subst. destruct Is as [-> | Is]; [assumption|]. now apply IH.
Qed.

(** ** Integers as text *)

Definition nat_num (k : nat) : num := Fin (Q2Qc (inject_Z (Z.of_nat k))).
Lemma float_state_nat k : float_state (nat_num k) = Ok (SInt (Z.of_nat k)).
Proof.
  unfold float_state, nat_num. cbn [this Q2Qc]. rewrite Qred_identity; [reflexivity|]. cbn. apply Z.gcd_1_r.
Qed.
Lemma z_str_nat k : z_str (Z.of_nat k) = decimal k.
Proof.
  unfold z_str. replace (Z.of_nat k <? 0)%Z with false by (symmetry; apply Z.ltb_ge; lia). now rewrite Nat2Z.id.
Qed.
Lemma reads_as_int s k : reads_as s k -> uval_int (UState s) = Ok (Z.of_nat k).
Proof.
  intros [-> | [-> | [(-> & ->) | (-> & ->)]]]; try reflexivity. cbn. apply int_decimal.
Qed.

Lemma df_init_right dom a v r vt : set_variables (keys dom) (Some [v]) None = Ok r ->
  df_init dom a None (Some r) vt = df_init dom a (Some [v]) None vt.
Proof. intros E. unfold df_init. now rewrite E. Qed.

Section Scm.
  Variable fstr : num -> string.
  Variable fparse : string -> res num.
  Variable dflt : vtype.
  Variables (m : pgm) (order : list var) (D : domain) (F : var -> mfactor) (vt : vtype) (endo : list var) (cast : bool).
  Notation g := (m_graph m).
  Hypothesis C : causal m D F vt endo cast.
  Hypothesis R : records m D.
  Variable arg : option (list var).
  Hypothesis O : is_order m (endo ++ scm_exogenous m) arg order.
  Hypothesis EI : incl endo (nodes g).
  Hypothesis EP : forall v, In v endo -> exists p, arc g p v.
  Hypothesis PR : plain_roots m.
  Hypothesis IS : forall v d l i s, stored m v (FD d) -> In (v, l) D -> nth_error l i = Some s -> reads_as s i.
  Hypothesis WR : forall v, In v (nodes g) -> ~ In v endo -> writable fstr fparse (F v).
  Hypothesis PI : forall k, fparse (decimal k) = Ok (nat_num k).

  Let KC : m_kind m = KScm endo cast. Proof. apply C. Qed.
  Let W : wf_graph g. Proof. apply C. Qed.
  Let AC : acyclic g. Proof. apply C. Qed.
  Let WD : wf_dom D. Proof. apply C. Qed.
  Let N : NoDup order. Proof. apply O. Qed.
  Let SN : same_set order (nodes g). Proof. apply O. Qed.
  Let SD : same_set (keys D) (nodes g). Proof. apply C. Qed.
  Let CV : forall v, In v (nodes g) -> exists f, stored m v f /\ tabulates v f (F v) /\
     cpt D vt v (preds (m_graph m) v) (F v) /\ (In v endo -> zero_one (F v) /\ (cast = true -> f = FM (F v))).
  Proof. apply C. Qed.
  Let EA : forall x v, arc g x v -> In v endo. Proof. apply C. Qed.

  Notation fam := (fam m).

  Lemma fam_vars_c v : In v (nodes g) -> same_set (fam v) (mf_vars (F v)).
  Proof.
    intros I. destruct (CV v I) as (f & _ & _ & Cv & _). destruct Cv as (Wf & _ & L & Rr & _). intros w. unfold UaiFacts3.fam. rewrite in_app_iff. rewrite par_In.
    destruct (wf_mf_partitioned _ Wf) as (_ & _ & _ & P & _). rewrite P. rewrite (L w), (Rr w), in_preds. tauto.
  Qed.

  Lemma left_eq v : In v (nodes g) -> mf_left (F v) = [v].
  Proof.
    intros I. destruct (CV v I) as (f & _ & _ & Cv & _). destruct Cv as (Wf & _ & L & _).
    assert (ND : NoDup (mf_left (F v))) by (apply NoDup_filter; apply usable_wf, Wf).
    destruct (mf_left (F v)) as [|a [|b l]].
    - assert (X : In v []) by (apply L; now left). destruct X.
    - assert (X : In a [v]) by (apply L; now left). destruct X as [-> | []]. reflexivity.
    - exfalso. inversion ND as [|? ? NA _]; subst. assert (X : In a [v]) by (apply L; now left).
      assert (Y : In b [v]) by (apply L; right; now left). destruct X as [-> | []], Y as [-> | []]. apply NA. now left.
  Qed.

  Lemma own_states v l : In v (nodes g) -> In (v, l) D -> In (v, l) (mf_domain (F v)).
  Proof.
    intros I Il. assert (Kv : In v (mf_vars (F v))).
    { apply fam_vars_c; [assumption|]. unfold UaiFacts3.fam. apply in_or_app. right. now left. }
    apply keys_In in Kv. destruct Kv as (l' & Il'). destruct (CV v I) as (f & _ & _ & Cv & _).
    destruct Cv as (_ & _ & _ & _ & S & _). apply S in Il' as Il2.
    assert (E := In_dget _ _ _ (proj1 WD) Il). rewrite (In_dget _ _ _ (proj1 WD) Il2) in E. injection E as ->. assumption.
  Qed.

  (** the equation of an endogenous variable: the object that is written *)
  Lemma equation_ok v l : In v endo -> In (v, l) D ->
    exists d, (forall h, stored m v h -> match h with
                   | FD d => Ok (FD d)
                   | FM f => let* d := mf_to_deterministic dflt f in Ok (FD d)
                   | _ => Raise AttributeError
                   end = Ok (FD d)) /\
      wf_df d v l /\ df_domain d = mf_domain (F v) /\
      forall o, full (drop [v] (mf_domain (F v))) o -> exists s k y,
        get_value (df_store d) o = Ok s /\ uval_int (UState s) = Ok (Z.of_nat k) /\ nth_error l k = Some y /\
        forall s', In s' l -> mf_get_value (F v) ((v, s') :: o) = Ok (if eqd y s' then n1 else n0).
  Proof.
    intros Ie Il. assert (I := EI v Ie). destruct (CV v I) as (f & St & Tb & Cv & Hz). destruct (Hz Ie) as (Zv & _).
    destruct Cv as (Wf & _ & _ & _ & S & _ & Nm). assert (L := left_eq v I). assert (Il' := own_states v l I Il).
    assert (NDl : NoDup l) by (apply WD in Il; apply Il).
    assert (TF := table_function v l (F v) Wf L Il' Zv Nm).
    destruct f as [f|d|]; [| |destruct Tb].
    - cbn in Tb. subst f. destruct (mf_to_deterministic_ok (F v) v l dflt Wf L Il') as (d & Ed & Wd & Dd & _ & G).
      exists d. split; [|split; [assumption|split; [assumption|]]].
      + intros h Sh. unfold stored in *. rewrite St in Sh. injection Sh as <-. now rewrite Ed.
      + intros o Fo. destruct (G o Fo) as (xs & y0 & FX & Ea & Gy). destruct (TF o Fo) as (y & Iy & Gs).
        assert (Ex : xs = map (fun s => if eqd y s then n1 else n0) l).
        { clear - FX Gs. induction FX as [|s x l xs H FX IH]; [reflexivity|]. cbn [map]. rewrite (Gs s) in H by now left. injection H as <-.
          f_equal. apply IH. intros s' Is'. apply Gs. now right. }
        rewrite Ex, argmax_point in Ea by assumption. injection Ea as <-.
        exists (SInt (Z.of_nat (pos y l))), (pos y l), y. split; [assumption|]. split; [reflexivity|]. split; [|assumption].
        clear - Iy. unfold pos. destruct (index_of_In y l Iy) as (i & E). rewrite E. now apply index_of_Some.
    - destruct Tb as (_ & Ud & Dd & Rd & Vd & Gd). cbn in Rd.
      assert (Wd : wf_df d v l).
      { destruct (CV v I) as (f' & St' & Tb' & _). unfold stored in *. rewrite St in St'. injection St' as <-.
        destruct Tb' as ((l' & Wd) & _). replace l with l'; [assumption|].
        destruct Wd as (W1 & _ & I1 & _). rewrite <- Dd in I1. apply S in I1.
        assert (E := In_dget _ _ _ (proj1 WD) Il). rewrite (In_dget _ _ _ (proj1 WD) I1) in E. now injection E. }
      exists d. split; [|split; [assumption|split; [now symmetry|]]].
      + intros h Sh. unfold stored in *. rewrite St in Sh. injection Sh as <-. reflexivity.
      + intros o Fo. destruct (TF o Fo) as (y & Iy & Gs).
        assert (Fy : full (df_domain d) ((v, y) :: o)).
        { intros w k Iw. cbn [dget]. destruct (eqd w v) as [-> | NE].
          - exists y. split; [reflexivity|]. rewrite <- Dd in Iw.
            assert (k = l); [|now subst k]. apply S in Iw.
            assert (E := In_dget _ _ _ (proj1 WD) Il). rewrite (In_dget _ _ _ (proj1 WD) Iw) in E. now injection E.
          - apply Fo. unfold drop. apply filter_In. rewrite Dd. split; [assumption|]. cbn [fst]. apply negb_true_iff, mem_nIn.
            intros [-> | []]; congruence. }
        destruct (Gd _ Fy) as (y0 & z & Gy & Ez & Gm). cbn [dget] in Ez. rewrite eqd_refl in Ez. injection Ez as <-.
        rewrite (Gs y Iy), eqd_refl in Gm. assert (y0 = y).
        { destruct (eqd y0 y); [assumption|]. injection Gm as Gm. discriminate. }
        subst y0. apply In_nth_error in Iy. destruct Iy as (k & Ek).
        exists y, k, y. split; [|split; [apply reads_as_int; now apply (IS v d l k y)|split; [assumption|assumption]]].
        rewrite <- Gy. apply get_value_agree; [apply Wd| |].
        * destruct Wd as (_ & _ & _ & _ & _ & _ & Sd). rewrite Sd. intros w k' Iw. apply (full_drop [v]) in Fy. now apply Fy.
        * destruct Wd as (_ & _ & _ & _ & _ & _ & Sd). rewrite Sd. intros w Iw. apply In_keys_drop in Iw. cbn [dget].
          rewrite eqd_neq; [reflexivity|]. intros ->. apply (proj2 Iw). now left.
  Qed.

  Definition no_df : dfactor := MkD [] [] (StList [] []).
  Definition eqn (v : var) : dfactor :=
    match dget v (m_factors m) with
    | Some (Some (FD d)) => d
    | Some (Some (FM f)) => match mf_to_deterministic dflt f with Ok d => d | Raise _ => no_df end
    | _ => no_df
    end.
  Definition eq_ints (v : var) : list nat :=
    match df_values_array (eqn v) (par g v) with
    | Ok a => map (fun s => match uval_int (UState s) with Ok z => Z.to_nat z | Raise _ => 0 end) (flat a)
    | Raise _ => []
    end.

  Lemma par_nonempty v : In v endo -> par g v <> [].
  Proof. intros I. destruct (EP v I) as (p & A). apply par_In in A. intros E. rewrite E in A. destruct A. Qed.
  Lemma par_root v : ~ In v endo -> par g v = [].
  Proof.
    intros NI. destruct (par g v) as [|p l] eqn:E; [reflexivity|]. exfalso. apply NI. apply (EA p). apply par_In. rewrite E. now left.
  Qed.
  Lemma not_own_parent v : ~ In v (par g v).
  Proof. intros I. apply par_In in I. apply (AC v). now constructor. Qed.
  Lemma par_order_c v : incl (par g v) order.
  Proof. intros p I. now apply (par_order g order W SN) in I. Qed.

  Lemma eq_table v l : In v endo -> In (v, l) D ->
    exists a, df_values_array (eqn v) (par g v) = Ok a /\
      (forall h, stored m v h -> match h with
                   | FD d => Ok (FD d)
                   | FM f => let* d := mf_to_deterministic dflt f in Ok (FD d)
                   | _ => Raise AttributeError
                   end = Ok (FD (eqn v))) /\
      mapM (fun p => let* z := uval_int p in Ok (UInt z)) (map UState (flat a)) = Ok (map (fun k => UInt (Z.of_nat k)) (eq_ints v)) /\
      length (eq_ints v) = size (recoded order D (par g v)) /\
      forall o o', full (drop [v] (mf_domain (F v))) o -> corresponds order D o o' ->
        full (recoded order D (par g v)) o' /\ exists k y, nth_error (eq_ints v) (rowpos (recoded order D (par g v)) o') = Some k /\
          nth_error l k = Some y /\
          forall s', In s' l -> mf_get_value (F v) ((v, s') :: o) = Ok (if eqd y s' then n1 else n0).
  Proof.
    intros Ie Il. assert (I := EI v Ie). destruct (equation_ok v l Ie Il) as (d & Sd & Wd & Dd & G).
    destruct (CV v I) as (f & St & Tb & Cv & _). destruct Cv as (Wf & _ & L & Rr & S & _).
    assert (Ed : eqn v = d).
    { specialize (Sd f St). unfold eqn, stored in *. rewrite St. destruct f as [f|d'|]; [| |destruct Tb].
      - destruct (mf_to_deterministic dflt f) as [d'|]; cbn in Sd; [now injection Sd|discriminate].
      - now injection Sd. }
    rewrite Ed. assert (Wd' := Wd). destruct Wd' as (WDd & Ld & Id & _ & _ & Ws & Ds).
    assert (Sv : same_set (par g v) (keys (st_domain (df_store d)))).
    { intros w. rewrite Ds, In_keys_drop, Dd. assert (FV := fam_vars_c v I w). unfold UaiFacts3.fam in FV. rewrite in_app_iff in FV.
      unfold mf_vars in FV. rewrite <- FV. split.
      - intros Iw. split; [now left|]. intros [-> | []]. now apply not_own_parent in Iw.
      - intros ([Iw | [-> | []]] & H); [assumption|]. exfalso. apply H. now left. }
    assert (NE := par_nonempty v Ie).
    destruct (array_table g order D WD SN SD (df_domain d) (df_store d) (par g v)) as (a & Ea & La & Va & Ga); auto.
    { intros w k Iw. rewrite Ds in Iw. unfold drop in Iw. now apply filter_In in Iw. }
    { rewrite Dd. assumption. } { now apply par_NoDup. } { apply par_order_c. }
    assert (Edv : df_values_array d (par g v) = Ok a).
    { unfold df_values_array. destruct (par g v); [congruence|exact Ea]. }
    exists a. split; [assumption|]. split; [assumption|].
    assert (VI : forall x, In x (flat a) -> exists k, uval_int (UState x) = Ok (Z.of_nat k)).
    { intros x Ix. destruct (Va x Ix) as (o & Fo & Go). rewrite Ds, Dd in Fo. destruct (G o Fo) as (s & k & y & Gs & Us & _).
      rewrite Go in Gs. injection Gs as ->. now exists k. }
    assert (EE : eq_ints v = map (fun s => match uval_int (UState s) with Ok z => Z.to_nat z | Raise _ => 0 end) (flat a)).
    { unfold eq_ints. rewrite Ed, Edv. reflexivity. }
    split; [|split].
    - rewrite mapM_map, EE, map_map. apply mapM_map_ok. intros x Ix. destruct (VI x Ix) as (k & ->). cbn [bind]. now rewrite Nat2Z.id.
    - rewrite EE, map_length. assumption.
    - intros o o' Fo Co. destruct (Ga o o') as (Fo' & x & Gx & Nx); auto. { rewrite Ds, Dd. assumption. }
      split; [assumption|]. destruct (G o Fo) as (s & k & y & Gs & Us & Ny & Gm). rewrite Gx in Gs. injection Gs as ->.
      exists k, y. split; [|auto]. rewrite EE, nth_error_map, Nx. cbn [option_map]. now rewrite Us, Nat2Z.id.
  Qed.

  Definition root_values (v : var) : list num := tab_values m F v.
  Lemma root_table v : In v (nodes g) -> ~ In v endo ->
    stored m v (FM (F v)) /\
    exists a, mf_values_array (F v) (fam v) = Ok a /\ root_values v = flat a /\
      length (root_values v) = size (recoded order D (fam v)) /\
      (forall x, In x (root_values v) -> plain_text (fstr x) /\ fparse (fstr x) = Ok x) /\
      forall o o', full (mf_domain (F v)) o -> corresponds order D o o' ->
        full (recoded order D (fam v)) o' /\
        exists x, mf_get_value (F v) o = Ok x /\ nth_error (root_values v) (rowpos (recoded order D (fam v)) o') = Some x.
  Proof.
    intros I NI. destruct (CV v I) as (f & St & Tb & Cv & _). destruct Cv as (Wf & _ & L & Rr & S & _).
    assert (Sf : stored m v (FM (F v))).
    { destruct (PR v f St) as (f' & ->); [|cbn in Tb; now subst f']. intros x A. now apply NI, (EA x). }
    split; [assumption|].
    destruct (array_table g order D WD SN SD (mf_domain (F v)) (mf_store (F v)) (fam v)) as (a & Ea & La & Va & G).
    - apply Wf. - apply usable_wf, Wf. - unfold UaiFacts3.fam. now destruct (par g v). - auto. - assumption.
    - now apply family_NoDup. - apply family_order; [assumption|assumption|now apply SN]. - now apply fam_vars_c.
    - exists a. unfold root_values, tab_values. assert (E : mf_values_array (F v) (fam v) = Ok a) by exact Ea. rewrite E.
      do 3 (split; [auto|]). split.
      + intros x Ix. destruct (Va x Ix) as (o & Fo & Go). apply (WR v I NI o x); assumption.
      + exact G.
  Qed.

  Definition value_tokens (v : var) : list string :=
    if mem v endo then decimal (length (eq_ints v)) :: map decimal (eq_ints v)
    else decimal (length (root_values v)) :: map fstr (root_values v).

  Lemma value_line v : In v (nodes g) -> exists line,
    values_line fstr dflt m true endo v (fam v) = Ok line /\ forall sc, scanner sc -> emits sc line (value_tokens v).
  Proof.
    intros I. unfold values_line, value_tokens, scm_endogenous. rewrite KC. destruct (mem v endo) eqn:M.
    - apply mem_In in M. assert (Kv := I). apply SD, keys_In in Kv. destruct Kv as (l & Il).
      destruct (eq_table v l M Il) as (a & Ea & Sd & Em & La & _). destruct (CV v I) as (f & St & Tb & _). specialize (Sd f St).
      unfold dlook. rewrite St. cbn [bind andb].
      assert (Ef : match Some f with
                   | Some (FD d) => Ok (FD d)
                   | Some (FM f) => let* d := mf_to_deterministic dflt f in Ok (FD d)
                   | _ => Raise AttributeError
                   end = Ok (FD (eqn v))) by (destruct f; exact Sd).
      rewrite Ef. cbn [bind].
      assert (Fp : filter (fun x => if eqd x v then false else true) (fam v) = par g v).
      { unfold UaiFacts3.fam. rewrite filter_app. cbn [filter]. rewrite eqd_refl, app_nil_r. apply filter_all.
        intros x Ix. apply eqd_neq. intros ->. now apply not_own_parent in Ix. }
      rewrite Fp. cbn [fo_flat]. rewrite Ea. cbn [bind]. rewrite Em. cbn [bind]. rewrite map_map.
      eexists. split; [reflexivity|]. intros sc SC.
      change (tab ++ ?x)%string with (String (ascii_of_nat 9) x). rewrite map_length.
      apply emits_tok_app; [assumption|apply decimal_plain|apply blank_tab|].
      assert (Eq : map (fun k => uval_str fstr (UInt (Z.of_nat k))) (eq_ints v) = map decimal (eq_ints v)).
      { apply map_ext. intros k. cbn. apply z_str_nat. }
      rewrite Eq. apply emits_line; [assumption|]. apply Forall_forall. intros t It. apply in_map_iff in It. destruct It as (n & <- & _). apply decimal_plain.
    - apply mem_nIn in M. destruct (root_table v I M) as (St & a & Ea & Et & _ & P & _).
      unfold dlook. rewrite St. cbn [bind andb]. cbn [fo_flat]. rewrite Ea. cbn [bind].
      rewrite <- Et. rewrite map_map. cbn [uval_str]. eexists. split; [reflexivity|]. intros sc SC.
      change (tab ++ ?x)%string with (String (ascii_of_nat 9) x). rewrite map_length.
      apply emits_tok_app; [assumption|apply decimal_plain|apply blank_tab|]. apply emits_line; [assumption|].
      apply Forall_forall. intros t It. apply in_map_iff in It. destruct It as (x & <- & Ix). now apply P.
  Qed.

  Lemma scm_text : exists text, save_uai fstr dflt m arg = Ok text /\
    numbers match_exp text = structure_tokens g order D ++ concat (map value_tokens order) /\ first_line text = "CAUSAL".
  Proof.
    unfold save_uai. rewrite KC.
    destruct (write_ok match_exp exp_scanner fstr dflt m order D W WD N SN (proj1 (proj2 (proj2 (proj2 (proj2 (proj2 C))))))
               (proj1 (proj2 (proj2 (proj2 (proj2 (proj2 (proj2 C))))))) R true endo (endo ++ scm_exogenous m) arg
               (fun v => match values_line fstr dflt m true endo v (fam v) with Ok l => l | Raise _ => "" end) value_tokens) as (text & H).
    - unfold label_variables. now rewrite KC.
    - exact O.
    - intros x. rewrite in_app_iff. unfold scm_exogenous, scm_endogenous. rewrite KC, filter_In, negb_true_iff, mem_nIn. split.
      + intros [Ix | [Ix _]]; [now apply EI|assumption].
      + intros Ix. destruct (in_dec string_dec x endo); tauto.
    - intros v I. apply SN in I. destruct (value_line v I) as (line & E & EM). fold (fam v). rewrite E. split; [reflexivity|].
      apply EM, exp_scanner.
    - exists text. exact H.
  Qed.

  (** ** Reading *)

  Notation new_right := (new_right m order D).
  Definition int_values (v : var) : list state := map (fun k => SInt (Z.of_nat k)) (eq_ints v).
  Definition read_d (v : var) : dfactor :=
    match df_init (recoded order D (fam v)) (mkNd [length (int_values v)] (int_values v)) None (Some (new_right v)) dflt with
    | Ok d => d | Raise _ => no_df end.
  Definition read_m (v : var) : mfactor :=
    match mf_init (recoded order D (fam v)) (flist (root_values v)) None (Some (new_right v)) dflt with
    | Ok f => f | Raise _ => F v end.
  Definition read_f (v : var) : fobj := if mem v endo then FD (read_d v) else FM (read_m v).
  Definition cast_f (v : var) : mfactor :=
    if mem v endo then match df_to_multinomial (read_d v) with Ok h => h | Raise _ => F v end else read_m v.

  Lemma fam_usable_c v : In v (nodes g) -> usable (recoded order D (fam v)).
  Proof.
    intros I. apply (recoded_usable g order D WD SN SD); [now apply family_NoDup|].
    apply family_order; [assumption|assumption|now apply SN].
  Qed.

  Lemma drop_fam v : In v (nodes g) -> drop [rho order v] (recoded order D (fam v)) = recoded order D (par g v).
  Proof.
    intros I. unfold drop, UaiFacts3.fam, recoded. rewrite map_app, filter_app. cbn [map filter fst].
    assert (M : mem (rho order v) [rho order v] = true) by (apply mem_In; now left). rewrite M. cbn [negb]. rewrite app_nil_r.
    apply filter_all. intros (n, l) In'. apply in_map_iff in In'. destruct In' as (w & E & Iw). apply pair_equal_spec in E. destruct E as [<- _].
    cbn [fst]. apply negb_true_iff, mem_nIn. intros [E | []]. apply rho_inj in E; [subst; now apply not_own_parent in Iw|now apply SN|now apply par_order_c in Iw].
  Qed.

  Definition clear_of (v : var) : Prop := forall p, arc g p v -> substr_of (rho order p) (rho order v) = false.

  Lemma right_clear v : In v (nodes g) -> clear_of v ->
    set_variables (keys (recoded order D (fam v))) (Some [rho order v]) None = Ok (new_right v).
  Proof.
    intros I NC. unfold set_variables. apply (f_equal Ok). unfold UaiFacts3.new_right, right_of_name. apply filter_ext_in_.
    intros n In'. rewrite recoded_keys in In'. apply in_map_iff in In'. destruct In' as (w & <- & Iw). apply (f_equal negb).
    unfold UaiFacts3.fam in Iw. apply in_app_or in Iw. destruct Iw as [Iw | [<- | []]].
    - assert (A := Iw). apply par_In in A. rewrite (NC w A). apply mem_nIn. intros [E | []].
      apply rho_inj in E; [subst; now apply not_own_parent in Iw|now apply SN|now apply par_order_c in Iw].
    - transitivity true; [apply mem_In; now left|]. symmetry. apply substr_of_spec. exists "", "". cbn [append]. now rewrite str_app_nil.
  Qed.

  Lemma own_domain v l : In (v, l) D -> In v (nodes g) -> In (rho order v, ints (length l)) (recoded order D (fam v)).
  Proof.
    intros Il I. apply recoded_In. exists v. split; [unfold UaiFacts3.fam; apply in_or_app; right; now left|]. split; [reflexivity|].
    unfold sz. now rewrite (In_dget _ _ _ (proj1 WD) Il).
  Qed.

  Lemma read_d_ok v l : In v endo -> In (v, l) D -> clear_of v ->
    df_init (recoded order D (fam v)) (mkNd [length (int_values v)] (int_values v)) None (Some (new_right v)) dflt = Ok (read_d v) /\
    wf_df (read_d v) (rho order v) (ints (length l)) /\ df_domain (read_d v) = recoded order D (fam v) /\
    df_vtype (read_d v) = dflt /\ df_right (read_d v) = map (rho order) (par g v) /\
    forall o, full (recoded order D (par g v)) o ->
      exists k, get_value (df_store (read_d v)) o = Ok (SInt (Z.of_nat k)) /\ nth_error (eq_ints v) (rowpos (recoded order D (par g v)) o) = Some k.
  Proof.
    intros Ie Il NC. assert (I := EI v Ie). destruct (eq_table v l Ie Il) as (_ & _ & _ & _ & La & _).
    assert (DF := drop_fam v I).
    destruct (df_init_ok (recoded order D (fam v)) (rho order v) (ints (length l)) (int_values v) dflt) as (d & Ed & Wd & Dd & Vd & Rd & Gd).
    - apply usable_wf. now apply fam_usable_c.
    - now apply own_domain.
    - rewrite DF. unfold int_values. now rewrite map_length.
    - assert (E := Ed). rewrite <- (df_init_right _ _ _ (new_right v) _ (right_clear v I NC)) in E.
      unfold read_d. rewrite E. rewrite DF in *. do 4 (split; [auto|]). split; [rewrite Rd; apply recoded_keys|].
      intros o Fo. destruct (Gd o Fo) as (x & Gx & Nx). unfold int_values in Nx. rewrite nth_error_map in Nx.
      destruct (nth_error (eq_ints v) _) as [k|]; [|discriminate]. injection Nx as <-. now exists k.
  Qed.

  Lemma clash_d v p : In v endo -> arc g p v -> substr_of (rho order p) (rho order v) = true ->
    df_init (recoded order D (fam v)) (mkNd [length (int_values v)] (int_values v)) None (Some (new_right v)) dflt = Raise ValueError.
  Proof.
    intros Ie A Es. assert (I := EI v Ie). unfold df_init, set_variables. cbn [bind].
    assert (L : length (filter (fun v0 => negb (mem v0 (new_right v))) (keys (recoded order D (fam v)))) <> 1).
    { set (l := filter _ _).
      assert (H : forall w, In w (fam v) -> substr_of (rho order w) (rho order v) = true -> In (rho order w) l).
      { intros w Iw Ew. unfold l. apply filter_In. split; [rewrite recoded_keys; now apply in_map|]. apply negb_true_iff, mem_nIn.
        intros X. apply new_right_In in X. destruct X as (q & Aq & Eq & Eq'). 
        apply rho_inj in Eq; [subst q; congruence| |apply (arc_order g order W SN) in Aq; tauto].
        apply (family_order g order W SN v); [now apply SN|assumption]. }
      assert (H1 : In (rho order p) l) by (apply H; [unfold UaiFacts3.fam; apply in_or_app; left; now apply par_In|assumption]).
      assert (H2 : In (rho order v) l).
      { apply H; [unfold UaiFacts3.fam; apply in_or_app; right; now left|]. apply substr_of_spec. exists "", "". cbn [append]. now rewrite str_app_nil. }
      destruct l as [|a [|b l]]; cbn; try discriminate. intros _. destruct H1 as [H1 | []], H2 as [H2 | []].
      rewrite H1 in H2. apply rho_inj in H2; [subst; apply (AC v); now constructor| |now apply SN]. apply (arc_order g order W SN) in A. tauto. }
    apply Nat.eqb_neq in L. rewrite L. reflexivity.
  Qed.

  Lemma read_m_ok v : In v (nodes g) -> ~ In v endo ->
    mf_init (recoded order D (fam v)) (flist (root_values v)) None (Some (new_right v)) dflt = Ok (read_m v) /\
    wf_mf (read_m v) /\ mf_domain (read_m v) = recoded order D (fam v) /\ mf_right (read_m v) = [] /\ mf_vtype (read_m v) = dflt /\
    forall o, full (recoded order D (fam v)) o ->
      exists x, mf_get_value (read_m v) o = Ok x /\ nth_error (root_values v) (rowpos (recoded order D (fam v)) o) = Some x.
  Proof.
    intros I NI. destruct (root_table v I NI) as (_ & a & _ & _ & L & _). assert (U := fam_usable_c v I).
    assert (ER : new_right v = []).
    { destruct (new_right v) as [|n l] eqn:E; [reflexivity|]. exfalso. assert (X : In n (new_right v)) by (rewrite E; now left).
      apply new_right_In in X. destruct X as (p & A & _). now apply NI, (EA p). }
    destruct (mf_init_ok (recoded order D (fam v)) (flist (root_values v)) (root_values v) None (Some (new_right v)) (new_right v) dflt)
      as (f & E & Wf & Df & Vf & Rf & Gf & _); auto.
    { now left. }
    assert (Wm : wf_mf f).
    { split; [assumption|]. rewrite Df, Rf, ER. split; [assumption|]. split; [constructor|intros x []]. }
    unfold read_m. rewrite E. rewrite ER in Rf. do 5 (split; [auto|]). exact Gf.
  Qed.

  Lemma read_floats v ts : In v (nodes g) -> mem v endo = false ->
    nexts (next_float fparse) (length (root_values v)) (map fstr (root_values v) ++ ts) = Ok (root_values v, ts).
  Proof.
    intros I M. apply mem_nIn in M. destruct (root_table v I M) as (_ & _ & _ & _ & _ & P & _).
    rewrite (nexts_map (next_float fparse) fstr (fun x => x)).
    - now rewrite map_id.
    - intros x ts' Ix. unfold next_float. cbn [next bind]. rewrite (proj2 (P x Ix)). reflexivity.
  Qed.
  Lemma read_ints v ts :
    nexts (next_float fparse) (length (eq_ints v)) (map decimal (eq_ints v) ++ ts) = Ok (map nat_num (eq_ints v), ts).
  Proof.
    apply nexts_map. intros k ts' _. unfold next_float. cbn [next bind]. now rewrite PI.
  Qed.
  Lemma states_ints v : mapM float_state (map nat_num (eq_ints v)) = Ok (int_values v).
  Proof. rewrite mapM_map. apply mapM_map_ok. intros k _. apply float_state_nat. Qed.

  Lemma read_equation_ok v ts : In v (nodes g) -> In (rho order v) (nodes (new_graph g order)) -> clear_of v ->
    read_equation fparse dflt (recoded order D order) (new_graph g order) (rho order v) (value_tokens v ++ ts) =
    Ok ((rho order v, read_f v), ts).
  Proof.
    intros I In' NC. unfold read_equation, value_tokens, read_f. destruct (mem v endo) eqn:M.
    - apply mem_In in M. cbn [app]. rewrite next_int_decimal. cbn [bind]. rewrite Nat2Z.id, read_ints. cbn [bind].
      unfold predecessors. rewrite (proj2 (mem_In _ _) In'). cbn [bind]. rewrite new_graph_preds by (auto; now apply SN).
      rewrite var_parents_domain_ok; auto. 2: now apply SN. cbn [bind]. fold (fam v). fold (new_right v).
      destruct (par g v) as [|p r] eqn:Ep; [now apply par_nonempty in M|]. cbn [map]. rewrite states_ints. cbn [bind].
      assert (Kv := I). apply SD, keys_In in Kv. destruct Kv as (l & Il).
      rewrite (proj1 (read_d_ok v l M Il NC)). reflexivity.
    - cbn [app]. rewrite next_int_decimal. cbn [bind]. rewrite Nat2Z.id, read_floats by assumption. cbn [bind]. apply mem_nIn in M.
      unfold predecessors. rewrite (proj2 (mem_In _ _) In'). cbn [bind]. rewrite new_graph_preds by (auto; now apply SN).
      rewrite var_parents_domain_ok; auto. 2: now apply SN. cbn [bind]. fold (fam v). fold (new_right v).
      rewrite (par_root v M). cbn [map]. rewrite (proj1 (read_m_ok v I M)). reflexivity.
  Qed.
  Lemma read_equation_unknown v ts : In v (nodes g) -> ~ In (rho order v) (nodes (new_graph g order)) ->
    read_equation fparse dflt (recoded order D order) (new_graph g order) (rho order v) (value_tokens v ++ ts) = Raise NetworkXError.
  Proof.
    intros I NI. unfold read_equation, value_tokens. destruct (mem v endo) eqn:M; cbn [app]; rewrite next_int_decimal; cbn [bind]; rewrite Nat2Z.id.
    - rewrite read_ints. cbn [bind]. unfold predecessors. now rewrite (proj2 (mem_nIn _ _) NI).
    - rewrite read_floats by assumption. cbn [bind]. unfold predecessors. now rewrite (proj2 (mem_nIn _ _) NI).
  Qed.
  Lemma read_equation_clash v p ts : In (rho order v) (nodes (new_graph g order)) -> arc g p v ->
    substr_of (rho order p) (rho order v) = true ->
    read_equation fparse dflt (recoded order D order) (new_graph g order) (rho order v) (value_tokens v ++ ts) = Raise ValueError.
  Proof.
    intros In' A Es. assert (Ie := EA p v A). assert (I := EI v Ie). unfold read_equation, value_tokens.
    rewrite (proj2 (mem_In v endo) Ie). cbn [app]. rewrite next_int_decimal. cbn [bind]. rewrite Nat2Z.id, read_ints. cbn [bind].
    unfold predecessors. rewrite (proj2 (mem_In _ _) In'). cbn [bind]. rewrite new_graph_preds by (auto; now apply SN).
    rewrite var_parents_domain_ok; auto. 2: now apply SN. cbn [bind]. fold (fam v). fold (new_right v).
    destruct (par g v) as [|q r] eqn:Ep; [now apply par_nonempty in Ie|]. cbn [map]. rewrite states_ints. cbn [bind].
    rewrite (clash_d v p) by assumption. reflexivity.
  Qed.

  Lemma clear_dec v : clear_of v \/ exists p, arc g p v /\ substr_of (rho order p) (rho order v) = true.
  Proof.
    destruct (existsb (fun q => substr_of (rho order q) (rho order v)) (preds g v)) eqn:X.
    - right. apply existsb_exists in X. destruct X as (q & Aq & Eq). apply in_preds in Aq. now exists q.
    - left. intros q Aq. apply in_preds in Aq. destruct (substr_of (rho order q) (rho order v)) eqn:Y; [|reflexivity].
      assert (Z : existsb (fun q => substr_of (rho order q) (rho order v)) (preds g v) = true) by (apply existsb_exists; now exists q).
      congruence.
  Qed.

  Lemma scm_read_unfold text : numbers match_exp text = structure_tokens g order D ++ concat (map value_tokens order) ->
    first_line text = "CAUSAL" ->
    scm_read_uai fparse dflt text =
    (let* (factors, _) := for_vars (read_equation fparse dflt (recoded order D order) (new_graph g order)) (map (rho order) order)
                                   (concat (map value_tokens order) ++ []) in
     scm_init (GDag (new_graph g order)) (Some (FsDict (dict_of factors))) None true true).
  Proof.
    intros E FL. unfold scm_read_uai, scm_from_uai. rewrite FL. change (negb (substr_of "CAUSAL" "CAUSAL")) with false.
    cbn iota. rewrite E. rewrite read_structure_ok by assumption. cbn [bind]. now rewrite app_nil_r.
  Qed.

  Lemma unclashed_c v : no_clash g order -> clear_of v.
  Proof.
    intros NC p A. destruct (substr_of (rho order p) (rho order v)) eqn:E; [|reflexivity]. exfalso.
    destruct (arc_order g order W SN _ _ A) as (P & V). apply name_in_name in E. destruct E as (t & E).
    apply (NC p v (idx order p) (idx order v) t); auto; now apply idx_nth.
  Qed.

  Lemma scm_isolated : (exists v, In v (nodes g) /\ forall w, ~ (arc g v w \/ arc g w v)) -> no_clash g order ->
    exists text, save_uai fstr dflt m arg = Ok text /\ scm_read_uai fparse dflt text = Raise NetworkXError.
  Proof.
    intros (v & I & NI) NC. destruct scm_text as (text & E & Et & FL). exists text. split; [assumption|].
    rewrite scm_read_unfold by assumption.
    rewrite (for_vars_raise _ (rho order) value_tokens NetworkXError); [reflexivity| |].
    - intros u ts Iu. apply SN in Iu. destruct (in_dec string_dec (rho order u) (nodes (new_graph g order))) as [H | H].
      + left. eexists. apply read_equation_ok; auto. now apply unclashed_c.
      + right. now apply read_equation_unknown.
    - exists v. split; [now apply SN|]. intros ts. apply read_equation_unknown; [assumption|].
      rewrite new_graph_node_rho; auto. 2: now apply SN. intros (w & A). now apply (NI w).
  Qed.

  Lemma new_node v : no_isolated g -> In v order -> In (rho order v) (nodes (new_graph g order)).
  Proof. intros NI I. apply new_graph_node_rho; auto. apply NI. now apply SN. Qed.

  Lemma scm_clash p v : no_isolated g -> arc g p v -> substr_of (rho order p) (rho order v) = true ->
    exists text, save_uai fstr dflt m arg = Ok text /\ scm_read_uai fparse dflt text = Raise ValueError.
  Proof.
    intros NI A Es. destruct scm_text as (text & E & Et & FL). exists text. split; [assumption|].
    rewrite scm_read_unfold by assumption.
    rewrite (for_vars_raise _ (rho order) value_tokens ValueError); [reflexivity| |].
    - intros u ts Iu. assert (Nu := new_node u NI Iu). apply SN in Iu. destruct (clear_dec u) as [H | (q & Aq & Eq)].
      + left. eexists. now apply read_equation_ok.
      + right. now apply read_equation_clash with q.
    - assert (Iv : In v order) by (apply (arc_order g order W SN) in A; tauto).
      exists v. split; [assumption|]. intros ts. apply read_equation_clash with p; auto. now apply new_node.
  Qed.

  (** ** The model that is read *)

  Lemma fam_full v o o' : In v (nodes g) -> full (mf_domain (F v)) o -> corresponds order D o o' -> full (recoded order D (fam v)) o'.
  Proof.
    intros I Fo Co. destruct (CV v I) as (f & St & Tb & Cv & _). destruct Cv as (Wf & _ & L & Rr & S & _).
    destruct (array_table g order D WD SN SD (mf_domain (F v)) (mf_store (F v)) (fam v)) as (a & Ea & La & Va & G).
    - apply Wf. - apply usable_wf, Wf. - unfold UaiFacts3.fam. now destruct (par g v). - auto. - assumption.
    - now apply family_NoDup. - apply family_order; [assumption|assumption|now apply SN]. - now apply fam_vars_c.
    - destruct (G o o'); auto.
  Qed.

  Lemma cast_f_ok v : In v (nodes g) -> clear_of v ->
    wf_mf (cast_f v) /\ mf_domain (cast_f v) = recoded order D (fam v) /\ mf_right (cast_f v) = map (rho order) (par g v) /\
    mf_left (cast_f v) = [rho order v] /\ mf_vtype (cast_f v) = dflt /\
    (In v endo -> df_to_multinomial (read_d v) = Ok (cast_f v)) /\
    forall o o', full (mf_domain (F v)) o -> corresponds order D o o' ->
      exists x, mf_get_value (F v) o = Ok x /\ mf_get_value (cast_f v) o' = Ok x.
  Proof.
    intros I NC. unfold cast_f. destruct (mem v endo) eqn:M.
    - apply mem_In in M. assert (Kv := I). apply SD, keys_In in Kv. destruct Kv as (l & Il).
      destruct (read_d_ok v l M Il NC) as (_ & Wd & Dd & Vd & Rd & Gd). assert (U := fam_usable_c v I).
      destruct (df_to_multinomial_ok (read_d v) _ _ Wd) as (h & Eh & Wh & Dh & Rh & Lh & Vh & Gh); [now rewrite Dd|].
      rewrite Eh. rewrite Dh, Rh, Lh, Vh, Dd, Vd, Rd. do 6 (split; [auto|]).
      intros o o' Fo Co. destruct (eq_table v l M Il) as (_ & _ & _ & _ & _ & G).
      assert (Fo' := fam_full v o o' I Fo Co). rewrite Dd in Gh. destruct (Gh o' Fo') as (y' & z & Gy & Gz & Gv).
      destruct (G o o') as (Fp & k & y & Nk & Ny & GF); [|assumption|].
      { intros w lw Iw. unfold drop in Iw. apply filter_In in Iw. now apply Fo. }
      destruct (Gd o' Fp) as (k' & Gk & Nk'). rewrite Nk in Nk'. injection Nk' as <-. rewrite Gk in Gy. injection Gy as <-.
      destruct (CV v I) as (f & St & Tb & Cv & _). assert (Cv' := Cv). destruct Cv' as (Wf & _).
      assert (Iv : In (v, l) (mf_domain (F v))) by now apply (own_states v l).
      destruct (Fo v l Iv) as (s & Es & Is). destruct (In_nth_error _ _ Is) as (j & Nj).
      assert (Io := proj2 (SN v) I).
      assert (Ez : z = SInt (Z.of_nat j)).
      { assert (H := Co (idx order v) v l j s (idx_nth order v Io) Il Es Nj). 
        assert (H2 : dget (rho order v) o' = Some z) by exact Gz. unfold rho in H2. rewrite H2 in H. now injection H as ->. }
      subst z. exists (if eqd y s then n1 else n0). split.
      + rewrite <- (GF s Is). symmetry. unfold mf_get_value. apply get_value_agree; [apply Wf|exact Fo|].
        intros w Iw. cbn [dget]. destruct (eqd w v) as [-> | _]; [now rewrite Es|reflexivity].
      + rewrite Gv. assert (NDl : NoDup l) by (apply (proj2 WD v l Il)).
        destruct (eqd y s) as [-> | Ny'], (eqd (SInt (Z.of_nat k)) (SInt (Z.of_nat j))) as [E | Nk']; try reflexivity; exfalso.
        * apply Nk'. f_equal. f_equal. apply (proj1 (NoDup_nth_error l) NDl); [|congruence]. apply nth_error_Some. congruence.
        * injection E as E. apply Nat2Z.inj in E. subst j. congruence.
    - apply mem_nIn in M. destruct (read_m_ok v I M) as (_ & Wm & Dm & Rm & Vm & Gm).
      split; [assumption|]. split; [assumption|]. rewrite (par_root v M). split; [assumption|]. split; [|split; [assumption|split; [tauto|]]].
      + unfold mf_left. rewrite Rm. unfold mf_vars. rewrite Dm. unfold UaiFacts3.fam. rewrite (par_root v M). reflexivity.
      + intros o o' Fo Co. destruct (root_table v I M) as (_ & _ & _ & _ & _ & _ & G). destruct (G o o' Fo Co) as (Fo' & x & Gx & Nx).
        exists x. split; [assumption|]. destruct (Gm o' Fo') as (x' & Gx' & Nx'). congruence.
  Qed.

  Definition scm_by_name (n : var) : fobj :=
    match find (fun v => if eqd n (rho order v) then true else false) order with Some v => FM (cast_f v) | None => FObj end.
  Lemma scm_by_name_rho v : In v order -> scm_by_name (rho order v) = FM (cast_f v).
  Proof.
    intros I. unfold scm_by_name. destruct (find _ order) as [u|] eqn:E.
    - apply find_some in E. destruct E as (Iu & E). destruct (eqd (rho order v) (rho order u)) as [E2 | ]; [|discriminate]. apply rho_inj in E2; auto. now subst.
    - apply (find_none _ _ E) in I. rewrite eqd_refl in I. discriminate.
  Qed.

  Notation endo' := (scm_endo (new_graph g order) None).
  Lemma endo'_In n : In n endo' <-> exists v, In v endo /\ renamed order v n.
  Proof.
    unfold scm_endo. rewrite filter_In. split.
    - intros (_ & L). destruct (preds (new_graph g order) n) as [|p r] eqn:E; [discriminate|].
      assert (A : arc (new_graph g order) p n) by (apply in_preds; rewrite E; now left).
      rewrite new_graph_arc in A by assumption. destruct A as (x & y & A & -> & ->). exists y. split; [now apply (EA x)|].
      apply renamed_iff; [assumption|]. split; [|reflexivity]. apply (arc_order g order W SN) in A. tauto.
    - intros (v & Ie & Rn). apply renamed_iff in Rn; [|assumption]. destruct Rn as (Io & ->). destruct (EP v Ie) as (p & A). split.
      + apply new_graph_node_rho; auto. exists p. now right.
      + rewrite new_graph_preds by auto. rewrite map_length. apply Nat.ltb_lt. destruct (par g v) eqn:E; [|cbn; lia].
        now apply par_nonempty in E.
  Qed.

  Lemma accepted_c v : no_isolated g -> clear_of v -> In v (nodes g) ->
    accepted (recoded order D order) (new_graph g order) true (KScm endo' true) (rho order v) (read_f v) (FM (cast_f v)).
  Proof.
    intros NI NC I. destruct (cast_f_ok v I NC) as (Wf & Df & Rf & Lf & _ & Ed & _). assert (Io := proj2 (SN v) I).
    split; [|split].
    - intros m0 Ec. unfold scm_prepare, read_f. destruct (mem (rho order v) endo') eqn:M.
      + apply mem_In, endo'_In in M. destruct M as (u & Iu & Rn). apply renamed_iff in Rn; [|assumption]. destruct Rn as (Ou & E).
        apply rho_inj in E; auto. subst u. rewrite (proj2 (mem_In v endo) Iu), Ec. cbn [bind negb]. rewrite (Ed Iu). reflexivity.
      + destruct (mem v endo) eqn:M'; [|unfold cast_f; now rewrite M'].
        exfalso. apply mem_nIn in M. apply M, endo'_In. exists v. apply mem_In in M'. split; [assumption|]. apply renamed_iff; auto.
    - now apply new_node.
    - exists (recoded order D (fam v)), [rho order v], (map (rho order) (par g v)). split; [|split; [|split]].
      + unfold is_factor. cbn [fo_domain fo_left fo_right]. rewrite Df, Lf, Rf. auto.
      + rewrite recoded_keys. apply in_map. unfold UaiFacts3.fam. apply in_or_app. right. now left.
      + intros w s Iw. apply recoded_In in Iw. destruct Iw as (u & Iu & -> & ->). apply recoded_In. exists u. split; [|auto].
        now apply (family_order g order W SN v).
      + intros _. split; [intros x; tauto|]. rewrite new_graph_preds by auto. intros x; tauto.
  Qed.

  Lemma for_vars_read : no_isolated g -> no_clash g order ->
    for_vars (read_equation fparse dflt (recoded order D order) (new_graph g order)) (map (rho order) order) (concat (map value_tokens order) ++ []) =
    Ok (map (fun v => (rho order v, read_f v)) order, []).
  Proof.
    intros NI NC. rewrite (for_vars_map' _ (rho order) value_tokens (fun v => (rho order v, read_f v))); [reflexivity|].
    intros v ts Iv. apply read_equation_ok; [now apply SN|now apply new_node|now apply unclashed_c].
  Qed.

  Lemma scm_roundtrip : no_isolated g -> no_clash g order ->
    exists text m' en, save_uai fstr dflt m arg = Ok text /\ scm_read_uai fparse dflt text = Ok m' /\
      m_kind m' = KScm en true /\ (forall n, In n en <-> exists v, In v endo /\ renamed order v n) /\
      same_structure order g (m_graph m') /\
      forall v n, In v (nodes g) -> renamed order v n ->
        exists f', stored m' n (FM f') /\ same_table order D (F v) f' /\ mf_vtype f' = dflt.
  Proof.
    intros NI NC. destruct scm_text as (text & E & Et & FL). exists text.
    rewrite scm_read_unfold, (for_vars_read NI NC) by assumption. cbn [bind].
    assert (DO : dict_of (map (fun v => (rho order v, read_f v)) order) = map (fun v => (rho order v, read_f v)) order).
    { apply dict_of_id. unfold keys. rewrite map_map. cbn [fst]. now apply names_NoDup. }
    rewrite DO.
    destruct (scm_complete (recoded order D order) (new_graph g order) true true None (map (fun v => (rho order v, read_f v)) order)
                (map (fun v => (rho order v, FM (cast_f v))) order) scm_by_name) as (m' & Em & (Gm & _ & _ & St & _) & _ & K).
    - rewrite recoded_keys. now apply names_NoDup.
    - apply new_graph_wf.
    - now apply new_graph_acyclic.
    - apply Forall2_map2. intros v Iv. cbn [fst snd]. split; [reflexivity|]. apply accepted_c; [assumption|now apply unclashed_c|now apply SN].
    - intros n f I. apply in_map_iff in I. destruct I as (v & Ev & Iv). apply pair_equal_spec in Ev. destruct Ev as [<- <-].
      now rewrite scm_by_name_rho.
    - intros n I. apply (new_graph_node g order W SN) in I. destruct I as (v & w & A & ->). unfold keys. rewrite map_map. cbn [fst].
      apply in_map. destruct A as [A | A]; apply (arc_order g order W SN) in A; tauto.
    - exists m', endo'. split; [assumption|]. split; [assumption|]. split; [assumption|]. split; [apply endo'_In|]. rewrite Gm. split.
      + split; [apply new_graph_wf|]. split.
        * intros n. rewrite (new_graph_node g order W SN). split.
          -- intros (v & w & A & ->). assert (Iv : In v order) by (destruct A as [A | A]; apply (arc_order g order W SN) in A; tauto).
             exists v. split; [now apply SN|]. apply renamed_iff; auto.
          -- intros (v & I & Rn). apply renamed_iff in Rn; [|assumption]. destruct Rn as (Io & ->). destruct (NI v I) as (w & A). now exists v, w.
        * intros a b. rewrite new_graph_arc by assumption. split.
          -- intros (x & y & A & -> & ->). exists x, y. split; [assumption|]. rewrite !renamed_iff by assumption.
             destruct (arc_order g order W SN _ _ A). auto.
          -- intros (x & y & A & X & Y). apply renamed_iff in X, Y; [|assumption|assumption]. exists x, y. tauto.
      + intros v n I Rn. apply renamed_iff in Rn; [|assumption]. destruct Rn as (Io & ->). exists (cast_f v).
        split; [rewrite <- scm_by_name_rho by assumption; apply St; now apply new_node|].
        destruct (cast_f_ok v I (unclashed_c v NC)) as (Wf & Df & Rf & Lf & Vt & _ & Gf). split; [|assumption].
        destruct (CV v I) as (f & _ & _ & Cv & _). destruct Cv as (WfF & _ & LF & RF & SFD & _).
        split; [assumption|]. split; [|split; [|split]].
        * intros k ks. rewrite Df, recoded_In. split.
          -- intros (w & Iw & -> & ->). assert (Kw := Iw). apply (fam_vars_c v I) in Kw. apply keys_In in Kw. destruct Kw as (l & Il).
             exists w, l. split; [assumption|]. split.
             ++ apply renamed_iff; [assumption|]. split; [|reflexivity]. now apply (family_order g order W SN v Io).
             ++ unfold sz. rewrite (In_dget _ _ _ (proj1 WD) (SFD w l Il)). reflexivity.
          -- intros (w & l & Il & Rn & ->). apply renamed_iff in Rn; [|assumption]. destruct Rn as (Iw & ->).
             exists w. split; [apply (fam_vars_c v I), keys_In; now exists l|]. split; [reflexivity|].
             unfold sz. rewrite (In_dget _ _ _ (proj1 WD) (SFD w l Il)). reflexivity.
        * intros k. rewrite Lf. split.
          -- intros [<- | []]. exists v. split; [apply LF; now left|]. apply renamed_iff; auto.
          -- intros (w & Iw & Rn). apply LF in Iw. destruct Iw as [<- | []]. apply renamed_iff in Rn; [|assumption]. destruct Rn as (_ & ->). now left.
        * intros k. rewrite Rf, in_map_iff. split.
          -- intros (p & <- & A). apply par_In in A. exists p. split; [apply RF; now apply in_preds|]. apply renamed_iff; [assumption|].
             apply (arc_order g order W SN) in A. tauto.
          -- intros (p & Ip & Rn). apply RF, in_preds in Ip. apply renamed_iff in Rn; [|assumption]. exists p. split; [now destruct Rn|now apply par_In].
        * exact Gf.
  Qed.
End Scm.
