(** Renaming the variables of deterministic factors (C16, C72). *)

From Coq Require Import String Ascii Bool Arith ZArith QArith Qcanon Lia Permutation List.
From Verif Require Import PyBase PyFacts Num DomainModel NdArray StoreModel NumStore FactorModel Spec StoreSpec DomainFacts StoreFacts
  PropFacts1 FactorSpec FactorFacts FactorFacts2 FactorFacts3.
From Coq Require Import List.
Import ListNotations.
Local Open Scope nat_scope.

(** A domain with its variables renamed. *)
Notation renamed_dom r d := (map (fun vl : var * list state => (rename1 r (fst vl), snd vl)) d).

Lemma rowpos_renamed r (d : domain) (o o' : obs) :
  (forall w, In w (keys d) -> dget (rename1 r w) o' = dget w o) ->
  rowpos (renamed_dom r d) o' = rowpos d o.
Proof.
  induction d as [|[v l] d IH]; intros E; [reflexivity|]. cbn [map rowpos fst snd].
  rewrite size_rename, IH by (intros w I; apply E; now right). rewrite (E v) by now left. reflexivity.
Qed.

Lemma drop_renamed r v (d : domain) :
  (forall x y, In x (v :: keys d) -> In y (v :: keys d) -> rename1 r x = rename1 r y -> x = y) ->
  drop [rename1 r v] (renamed_dom r d) = renamed_dom r (drop [v] d).
Proof.
  induction d as [|[w l] d IH]; intros Inj; [reflexivity|].
  change (drop [v] ((w, l) :: d)) with (if negb (mem w [v]) then (w, l) :: drop [v] d else drop [v] d).
  change (drop [rename1 r v] (renamed_dom r ((w, l) :: d)))
    with (if negb (mem (rename1 r w) [rename1 r v]) then (rename1 r w, l) :: drop [rename1 r v] (renamed_dom r d)
          else drop [rename1 r v] (renamed_dom r d)).
  rewrite IH by (intros x y Ix Iy; apply Inj; cbn in *; tauto).
  destruct (mem w [v]) eqn:M.
  - apply mem_In in M as [<-|[]]. rewrite (proj2 (mem_In (rename1 r v) [rename1 r v])) by now left. reflexivity.
  - apply mem_nIn in M. rewrite (proj2 (mem_nIn (rename1 r w) [rename1 r v])); [reflexivity|].
    intros [E|[]]. apply M. left. apply Inj; cbn; auto.
Qed.

Lemma full_renamed r (d : domain) (o o' : obs) : full d o ->
  (forall w, In w (keys d) -> dget (rename1 r w) o' = dget w o) -> full (renamed_dom r d) o'.
Proof.
  intros F E x l I. apply in_map_iff in I as ([w k] & Ew & I). cbn in Ew. injection Ew as <- <-.
  rewrite E by (apply keys_In; eauto). now apply F.
Qed.

Lemma df_rename_ok f v l (r : dict var var) : wf_df f v l ->
  (forall x y, In x (df_vars f) -> In y (df_vars f) -> rename1 r x = rename1 r y -> x = y) ->
  exists f', df_rename f r = Ok f' /\ wf_df f' (rename1 r v) l /\ df_vtype f' = df_vtype f /\
    df_domain f' = renamed_dom r (df_domain f) /\ df_right f' = map (rename1 r) (df_right f) /\
    forall o o', full (drop [v] (df_domain f)) o -> (forall w, In w (df_right f) -> dget (rename1 r w) o' = dget w o) ->
      get_value (df_store f') o' = get_value (df_store f) o.
Proof.
  intros Wf Inj. assert (Rest := wf_df_rest f v l Wf). destruct Wf as (W & L & I & N & Ir & Ws & Ds).
  unfold df_rename. destruct (values_list_ok (df_store f) Ws) as (xs & Ex & Lx & Hx). rewrite Ex. cbn [bind df_builder].
  set (nd := renamed_dom r (df_domain f)).
  assert (Knd : keys nd = map (rename1 r) (df_vars f)). { unfold nd, keys, df_vars, keys. rewrite !map_map. reflexivity. }
  assert (Nnd : NoDup (keys nd)). { rewrite Knd. apply NoDup_map_inj; auto. apply W. }
  assert (Ed : rename_domain r (df_domain f) = nd) by (apply dict_of_id; auto). rewrite Ed.
  assert (Iv : In v (df_vars f)) by (apply keys_In; eauto).
  assert (Wnd : wf_dom nd).
  { split; [auto|]. intros w k J. apply in_map_iff in J as ([w' k'] & E & J). injection E as <- <-. apply (proj2 W w' k' J). }
  assert (Ind : In (rename1 r v, l) nd). { apply in_map_iff. exists (v, l). auto. }
  assert (Dn : drop [rename1 r v] nd = renamed_dom r (drop [v] (df_domain f))).
  { apply drop_renamed. intros x y Ix Iy. apply Inj; [destruct Ix as [<-|Ix]; auto|destruct Iy as [<-|Iy]; auto]. }
  unfold df_init. rewrite L. cbn [map].
  assert (Sv : set_variables (keys nd) (Some [rename1 r v]) (Some (map (rename1 r) (df_right f))) = Ok (map (rename1 r) (df_right f))).
  { assert (R : exists rv, set_variables (keys nd) (Some [rename1 r v]) (Some (map (rename1 r) (df_right f))) = Ok rv).
    { apply set_variables_both. rewrite Knd. split.
      - intros x. rewrite !in_map_iff. split.
        + intros (w & <- & J). destruct (eqd w v) as [->|Nw]; [left; now left|]. right. exists w. split; [auto|]. apply Rest. auto.
        + intros [[<-|[]]|(w & <- & J)]; [exists v; auto|]. exists w. split; [auto|]. apply Rest, J.
      - intros x [[<-|[]] B]. apply in_map_iff in B as (w & Ew & B). apply Rest in B as [B Nw]. apply Nw. apply Inj; auto. }
    destruct R as (rv & R). rewrite R. f_equal. cbn [set_variables] in R. destruct (_ && _) in R; congruence. }
  rewrite Sv. cbn [bind]. set (rv := map (rename1 r) (df_right f)).
  assert (Rv : forall w, In w (keys nd) -> (In w rv <-> w <> rename1 r v)).
  { intros x J. rewrite Knd in J. apply in_map_iff in J as (w & <- & J). unfold rv. rewrite in_map_iff. split.
    - intros (u & E & K). apply Rest in K as [K Nu]. apply Inj in E; auto. subst u. intros E. apply Nu. now apply Inj.
    - intros Nw. exists w. split; [auto|]. apply Rest. split; [auto|]. congruence. }
  assert (RD := right_domain_drop nd (rename1 r v) rv Rv).
  assert (Lf : filter (fun w => negb (mem w rv)) (keys nd) = [rename1 r v]).
  { assert (E := left_one (keys nd) (rename1 r v) Nnd (proj2 (keys_In _ _) (ex_intro _ l Ind))). refine (eq_trans _ E). clear E.
    apply filter_ext_in. intros w J. f_equal. destruct (mem w rv) eqn:M.
    - apply mem_In in M. apply (Rv w J) in M. symmetry. apply mem_In, filter_In. split; [auto|].
      apply negb_true_iff, mem_nIn. intros [E'|[]]. congruence.
    - apply mem_nIn in M. symmetry. apply mem_nIn. intros K. apply filter_In in K as [_ K].
      apply negb_true_iff, mem_nIn in K. apply M, Rv; [auto|]. intros ->. apply K. now left. }
  rewrite Lf. cbn [length Nat.eqb negb shape]. rewrite RD, Dn.
  assert (Sz : length xs = size (renamed_dom r (drop [v] (df_domain f)))). { rewrite size_rename, <- Ds, size_prodl. exact Lx. }
  assert (Rs : np_reshape (mkNd [length xs] xs) (card (renamed_dom r (drop [v] (df_domain f)))) =
    Ok (mkNd (card (renamed_dom r (drop [v] (df_domain f)))) xs)).
  { unfold np_reshape. cbn [flat]. rewrite Sz, size_prodl, Nat.eqb_refl. reflexivity. }
  rewrite Rs. cbn [bind].
  destruct (init_store (df_vtype f) (renamed_dom r (drop [v] (df_domain f))) xs) as (s & Es & Ws' & Ds' & Ts & Hs & _).
  { rewrite <- Dn. apply wf_drop; auto. }
  { exact Sz. }
  rewrite Es. cbn [bind]. eexists. split; [reflexivity|]. cbn [df_store df_domain df_right].
  split.
  { split; [exact Wnd|]. split; [exact Lf|]. split; [exact Ind|]. cbn [df_right df_vars df_domain df_store]. split.
    - apply NoDup_map_inj; [|auto]. intros x y Ix Iy. apply Inj; apply Rest; auto.
    - split; [|split; [exact Ws'|now rewrite Dn]]. unfold df_vars. cbn [df_domain]. rewrite Knd.
      intros x J. apply in_map_iff in J as (w & <- & J). apply in_map. auto. }
  split; [exact Ts|]. split; [reflexivity|]. split; [reflexivity|].
  intros o o' F E.
  assert (E' : forall w, In w (keys (drop [v] (df_domain f))) -> dget (rename1 r w) o' = dget w o).
  { intros w J. apply E, Rest. apply In_keys_drop in J as [J K]. split; [exact J|]. intros ->. apply K. now left. }
  destruct (Hs o' (full_renamed r _ o o' F E')) as (x & G & Nx). rewrite G.
  rewrite (rowpos_renamed r _ o o' E') in Nx. rewrite <- Ds in F, Nx. destruct (get_full (df_store f) o Ws F) as (y & Lk & Gy).
  rewrite Gy. rewrite rowpos_ravel in Nx by auto. rewrite Hx in Nx by (apply full_valid; auto). congruence.
Qed.
