(** Tables read from files. *)

From Coq Require Import String Bool Arith ZArith Lia Permutation List.
From Verif Require Import PyBase Num DomainModel NdArray StoreModel NumStore FactorModel GraphModel ModelModel PgmpyModel FileModel
  PyFacts Spec DomainFacts StoreSpec StoreFacts StoreOps PropFacts1 GraphSpec FactorSpec ModelSpec FactorFacts FactorFacts2 FactorFacts3
  DataFacts PgmpySpec PgmpyFacts FileSpec.
Import ListNotations.
Local Open Scope nat_scope.
Local Arguments eqd : simpl never.

(** What a table of pgmpy becomes. *)
Section Read.
  Variables (idx : list state -> state -> res nat) (t : tabcpd) (v : var) (r : list var) (vt : vtype).
  Let S0 := tb_states t.
  Let A := arrange (v :: r) S0.
  Hypothesis Ev : tb_variable t = v.
  Hypothesis Er : tb_variables t = v :: r.
  Hypothesis Nd : NoDup (v :: r).
  Hypothesis Sk : same_set (keys S0) (v :: r).
  Hypothesis Us : usable S0.
  Hypothesis Sh : shape (tb_values t) = card A.
  Hypothesis Fi : forall w k, In (w, k) S0 -> finds idx k.

  Lemma A_keys : keys A = v :: r.
  Proof. apply arrange_keys. intros w J. now apply Sk. Qed.
  Lemma A_In w k : In (w, k) A -> In (w, k) S0.
  Proof. intros J. apply arrange_In in J. now apply dget_In. Qed.

  Lemma tab_get_ok o : In o (assignment_space S0) -> length (flat (tb_values t)) = size A ->
    exists y, tab_get idx t o = Ok y /\ nth_error (flat (tb_values t)) (rowpos A o) = Some y.
  Proof.
    intros Io Ln. assert (WD := usable_wf _ Us). apply (proj1 (proj2 (enumeration_ok S0 (proj1 WD)))) in Io. destruct Io as (Ko & Fo).
    unfold tab_get. rewrite Er.
    assert (Q : forallb (fun w => mem w (v :: r)) (keys o) = true).
    { apply forallb_forall. intros w J. apply mem_In. rewrite Ko in J. now apply Sk. }
    rewrite Q. cbn [negb]. set (h := fun w : var => _).
    assert (H : forall w k, In (w, k) S0 -> exists s i, dget w o = Some s /\ nth_error k i = Some s /\ h w = Ok i).
    { intros w k J. destruct (Fo w k J) as (s & Es & Is). apply In_nth_error in Is. destruct Is as (i & Ei).
      exists s, i. split; [assumption|]. split; [assumption|]. unfold h. rewrite Es. unfold dlook.
      fold S0. rewrite (In_dget _ _ _ (proj1 WD) J). cbn [bind]. now apply (Fi w k J). }
    assert (HR : exists js, mapM h (v :: r) = Ok js /\
                Forall2 (fun vl i => exists s, dget (fst vl) o = Some s /\ nth_error (snd vl) i = Some s) A js).
    { rewrite <- A_keys. assert (IR := A_In). clearbody A. clear -H IR. induction A as [|[w k] R' IH]; [exists []; split; [reflexivity|constructor]|].
      destruct IH as (js & Ej & Fj); [intros x y J; apply IR; now right|].
      destruct (H w k (IR w k (or_introl eq_refl))) as (s & i & Es & Ei & Eh).
      exists (i :: js). cbn [keys map fst mapM]. rewrite Eh. cbn [bind]. unfold keys in Ej. rewrite Ej. split; [reflexivity|].
      constructor; [exists s; auto|assumption]. }
    destruct HR as (js & Ej & Fj). rewrite Ej. cbn [bind].
    assert (FR : full A o) by (intros w k J; now apply Fo, A_In).
    destruct (rowpos_ravel_idx A o js FR (fun w k J => proj1 (proj2 WD w k (A_In w k J))) Fj) as (B & Q2).
    destruct (nth_error (flat (tb_values t)) (rowpos A o)) as [y|] eqn:Ny.
    - exists y. split; [|reflexivity]. apply nd_get_flat; rewrite Sh; [exact B|]. now rewrite Q2.
    - exfalso. apply nth_error_None in Ny. rewrite Ln in Ny. assert (L := rowpos_lt A o).
      assert (WA : wf_dom A). { split; [rewrite A_keys; exact Nd|]. intros w k J. apply (proj2 WD w k), A_In, J. }
      specialize (L WA FR). lia.
  Qed.

  Lemma table_read : length (flat (tb_values t)) = size A ->
    exists f, to_multinomial_factor idx t vt = Ok f /\ wf_mf f /\ mf_vtype f = vt /\ mf_domain f = S0 /\ mf_right f = r /\
      forall o, full S0 o -> exists x, mf_get_value f o = Ok x /\ nth_error (flat (tb_values t)) (rowpos A o) = Some x.
  Proof.
    intros Ln. assert (WD := usable_wf _ Us).
    destruct (mapM_all (tab_get idx t) _ (assignment_space S0) (fun o I => tab_get_ok o I Ln)) as (xs & Ex & Fx).
    assert (Lx : length xs = size S0).
    { rewrite <- (Forall2_length _ _ _ Fx). apply (enumeration_ok S0 (proj1 WD)). }
    assert (Gv : given_values S0 (FArr (mkNd (card S0) xs)) xs) by (right; left; reflexivity).
    destruct (mf_init_ok S0 (FArr (mkNd (card S0) xs)) xs None (Some r) r vt) as (f' & Ef & Wf' & Df & Vf & Rf & Gf & _);
      [exact Us|assumption|assumption|reflexivity|].
    exists f'. split.
    { unfold to_multinomial_factor. fold S0. rewrite Ev, Er, Ex. cbn [bind]. unfold np_reshape. cbn [flat].
      rewrite <- size_prodl, Lx, Nat.eqb_refl. cbn [bind filter]. rewrite eqd_refl.
      replace (filter _ r) with r; [exact Ef|]. symmetry. assert (NV : ~ In v r) by (now inversion Nd).
      clear -NV. induction r as [|w r' IH]; [reflexivity|]. cbn [filter].
      rewrite eqd_neq by (intros ->; apply NV; now left). f_equal. apply IH. intros J. apply NV. now right. }
    split.
    { eapply mf_init_wf; [exact Us|exact Lx|exact Gv| | |exact Ef].
      - intros r' E. injection E as <-. now inversion Nd.
      - intros r' _ E. injection E as <-. intros w J. apply Sk. now right. }
    split; [assumption|]. split; [assumption|]. split; [assumption|].
    intros o Fo. destruct (Gf o Fo) as (x & Gx & Nx).
    set (o1 := obs_of (keys S0) (asg_of o)).
    assert (O1 : forall w, In w (keys S0) -> dget w o1 = dget w o).
    { intros w J. unfold o1. rewrite obs_of_get by assumption. apply keys_In in J. destruct J as (k & J).
      destruct (Fo w k J) as (s & E & _). rewrite E. unfold asg_of, over. now rewrite E. }
    assert (F1 : full S0 o1).
    { intros w k J. rewrite O1 by (apply keys_In; eauto). apply (Fo w k J). }
    assert (RP : forall d : domain, incl (keys d) (keys S0) -> rowpos d o1 = rowpos d o).
    { induction d as [|[w k] d IH]; intros I; [reflexivity|]. cbn [rowpos]. rewrite O1 by (apply I; now left). rewrite IH; [reflexivity|]. intros y J. apply I. now right. }
    assert (K1 : keys o1 = keys S0) by (unfold o1, obs_of, keys; rewrite map_map; apply map_id).
    assert (N1 := proj1 (proj2 (proj2 (proj2 (enumeration_ok S0 (proj1 WD))))) o1 K1 F1).
    rewrite RP in N1 by apply incl_refl.
    destruct (Forall2_at _ _ _ Fx _ _ N1) as (y & Ny & Go'). rewrite Nx in Ny. injection Ny as <-.
    exists x. split; [assumption|]. rewrite <- Go'. f_equal. symmetry. apply RP. rewrite A_keys. intros w J. now apply Sk.
  Qed.
End Read.

(** ** Names of states *)

Section Names.
  Variable label : state -> string.
  Notation lab := (fun s : state => SStr (label s)).

  Lemma relabel_keys d : keys (relabel label d) = keys d.
  Proof. unfold relabel, keys. rewrite map_map. reflexivity. Qed.
  Lemma relabel_In w k d : In (w, k) (relabel label d) <-> exists l, In (w, l) d /\ k = map lab l.
  Proof.
    unfold relabel. rewrite in_map_iff. split.
    - intros ([w' l] & E & J). cbn [fst snd] in E. injection E as <- <-. eauto.
    - intros (l & J & ->). exists (w, l). auto.
  Qed.
  Lemma relabel_get w d : dget w (relabel label d) = option_map (map lab) (dget w d).
  Proof. induction d as [|[x l] d IH]; [reflexivity|]. cbn [relabel map dget fst snd]. destruct (eqd w x); [reflexivity|exact IH]. Qed.
  Lemma relabel_obs_get w o : dget w (relabel_obs label o) = option_map lab (dget w o).
  Proof. induction o as [|[x l] d IH]; [reflexivity|]. cbn [relabel_obs map dget fst snd]. destruct (eqd w x); [reflexivity|exact IH]. Qed.
  Lemma relabel_arrange vs d : arrange vs (relabel label d) = relabel label (arrange vs d).
  Proof.
    induction vs as [|w vs IH]; [reflexivity|]. unfold arrange in *. cbn [flat_map]. rewrite relabel_get, IH. destruct (dget w d); reflexivity.
  Qed.
  Lemma relabel_card d : card (relabel label d) = card d.
  Proof. induction d as [|[w l] d IH]; [reflexivity|]. cbn. rewrite map_length. f_equal. exact IH. Qed.
  Lemma relabel_size d : size (relabel label d) = size d.
  Proof. induction d as [|[w l] d IH]; [reflexivity|]. cbn [relabel map size fst snd]. rewrite map_length. f_equal. exact IH. Qed.
  Lemma index_lab l s : NoDup (map lab l) -> In s l -> index_of (lab s) (map lab l) = index_of s l.
  Proof.
    intros N J. apply In_nth_error in J as (i & Ei). transitivity (Some i).
    - apply index_of_nth; [exact N|]. rewrite nth_error_map, Ei. reflexivity.
    - symmetry. apply index_of_nth; [|exact Ei]. apply (NoDup_map_inv _ _ N).
  Qed.
  Lemma relabel_rowpos d o : (forall w l, In (w, l) d -> NoDup (map lab l)) -> full d o -> rowpos (relabel label d) (relabel_obs label o) = rowpos d o.
  Proof.
    induction d as [|[w l] d IH]; intros N Fo; [reflexivity|]. cbn [relabel map rowpos fst snd]. rewrite relabel_obs_get.
    destruct (Fo w l (or_introl eq_refl)) as (s & Es & Is). rewrite Es. cbn [option_map].
    rewrite index_lab; [|apply (N w l); now left|exact Is]. fold (relabel label d). rewrite relabel_size, IH; [reflexivity| |].
    - intros x y J. apply (N x y). now right.
    - intros x y J. apply Fo. now right.
  Qed.
  Lemma relabel_full d o : full d o -> full (relabel label d) (relabel_obs label o).
  Proof.
    intros Fo w k J. apply relabel_In in J as (l & J & ->). destruct (Fo w l J) as (s & Es & Is). rewrite relabel_obs_get, Es. cbn [option_map].
    exists (SStr (label s)). split; [reflexivity|]. exact (in_map lab l s Is).
  Qed.
  Lemma relabel_usable d : usable d -> (forall w l, In (w, l) d -> NoDup (map lab l)) -> usable (relabel label d).
  Proof.
    intros (Wd & Ty & Nm) N. split; [|split].
    - split; [rewrite relabel_keys; apply Wd|]. intros w k J. apply relabel_In in J as (l & J & ->). split; [now apply (N w)|].
      intros E. apply map_eq_nil in E. now apply (proj2 (proj2 Wd w l J)).
    - intros w k x y J Ix Iy. apply relabel_In in J as (l & J & ->). apply in_map_iff in Ix as (a & <- & _). apply in_map_iff in Iy as (b & <- & _). reflexivity.
    - rewrite relabel_keys. exact Nm.
  Qed.
  Lemma relabel_wf d : wf_dom d -> (forall w l, In (w, l) d -> NoDup (map lab l)) -> wf_dom (relabel label d).
  Proof.
    intros Wd N. split; [rewrite relabel_keys; apply Wd|]. intros w k J. apply relabel_In in J as (l & J & ->). split; [now apply (N w)|].
    intros E. apply map_eq_nil in E. now apply (proj2 (proj2 Wd w l J)).
  Qed.
  Lemma finds_NoDup idx l : finds idx l -> NoDup l.
  Proof.
    intros H. apply NoDup_nth_error. intros i j Li E. destruct (nth_error l i) as [s|] eqn:Ei; [|apply nth_error_None in Ei; lia].
    symmetry in E. assert (Q := H _ _ Ei). rewrite (H _ _ E) in Q. now injection Q.
  Qed.
End Names.

Lemma usable_perm (d d' : domain) : Permutation d d' -> usable d -> usable d'.
Proof.
  intros P (Wd & Ty & Nm). assert (Pk := Permutation_map fst P). split; [split|split].
  - apply (Permutation_NoDup Pk), Wd.
  - intros w k J. apply (proj2 Wd w k). now apply (Permutation_in _ (Permutation_sym P)).
  - intros w k x y J. apply (Ty w k). now apply (Permutation_in _ (Permutation_sym P)).
  - intros w s J. apply Nm. apply (Permutation_in _ (Permutation_sym Pk)). exact J.
Qed.
Lemma arrange_perm vs (d d' : domain) : Permutation d d' -> NoDup (keys d) -> arrange vs d = arrange vs d'.
Proof.
  intros P N. unfold arrange. apply flat_map_ext. intros w. f_equal. assert (N' : NoDup (keys d')) by (apply (Permutation_NoDup (Permutation_map fst P)), N).
  destruct (dget w d) as [l|] eqn:E.
  - apply dget_In in E. apply (Permutation_in _ P) in E. apply (In_dget _ _ _ N') in E. now rewrite E.
  - destruct (dget w d') as [l|] eqn:E'; [|reflexivity]. apply dget_In in E'. apply (Permutation_in _ (Permutation_sym P)) in E'.
    apply (In_dget _ _ _ N) in E'. congruence.
Qed.
