(** Facts about deterministic factors. *)

From Coq Require Import String Ascii Bool Arith ZArith QArith Qcanon Lia Permutation List.
From Verif Require Import PyBase Num DomainModel NdArray StoreModel NumStore FactorModel PyFacts Spec DomainFacts
  StoreSpec TreeFacts StoreFacts NumFacts StoreOps BigSum StoreMarg StoreMarg2 PropFacts1 StoreExpr PropFacts2
  FactorSpec FactorFacts FactorFacts2.
Import ListNotations.
Local Open Scope nat_scope.

Lemma full_drop vs d o : full d o -> full (drop vs d) o.
Proof. intros F v l I. apply filter_In in I as [I _]. apply F; auto. Qed.

Lemma pick_one v l d : NoDup (keys d) -> In (v, l) d -> pick [v] d = [(v, l)].
Proof.
  intros N I. unfold pick, dfilter. induction d as [|[w m] d IH]; [destruct I|].
  cbn [filter fst]. simpl in N. inversion N as [|? ? N1 N2]; subst.
  destruct I as [E|I].
  - injection E as -> ->. rewrite (proj2 (mem_In v [v])) by (left; auto). f_equal.
    assert (P := pick_none [v] d). unfold pick, dfilter in P. apply P. intros x [<-|[]]. auto.
  - assert (mem w [v] = false) as ->.
    { apply mem_nIn. intros [E|[]]. subst w. apply N1. apply keys_In. eauto. }
    apply IH; auto.
Qed.

Lemma all_one v l : all_assignments [(v, l)] = map (fun s => [(v, s)]) l.
Proof.
  unfold all_assignments. induction l as [|s l IH]; [reflexivity|]. cbn [flat_map map] in *. simpl. f_equal; auto.
Qed.

Lemma right_domain_drop dom v r :
  (forall w, In w (keys dom) -> (In w r <-> w <> v)) ->
  dfilter (fun w => mem w r) dom = drop [v] dom.
Proof.
  intros H. unfold drop, dfilter. apply filter_ext_in. intros [w m] I. cbn [fst].
  assert (K : In w (keys dom)) by (apply keys_In; eauto). specialize (H w K).
  destruct (mem w r) eqn:M.
  - apply mem_In in M. symmetry. apply negb_true_iff, mem_nIn. intros [E|[]]. apply H in M. congruence.
  - symmetry. apply negb_false_iff, mem_In. left. apply mem_nIn in M.
    destruct (eqd v w) as [|n]; auto. exfalso. apply M, H. auto.
Qed.

Lemma left_one (vars : list var) v : NoDup vars -> In v vars ->
  filter (fun w => negb (mem w (filter (fun w => negb (mem w [v])) vars))) vars = [v].
Proof.
  intros N I.
  rewrite (filter_ext_in _ (fun w => mem w [v])).
  - induction N as [|w vars Nw N IH]; [destruct I|]. cbn [filter]. destruct I as [->|I].
    + rewrite (proj2 (mem_In v [v])) by (left; auto). f_equal.
      clear IH N. induction vars as [|u vars IH]; [reflexivity|]. cbn [filter].
      assert (mem u [v] = false) as -> by (apply mem_nIn; intros [E|[]]; apply Nw; left; auto).
      apply IH; intros J; apply Nw; right; auto.
    + assert (mem w [v] = false) as -> by (apply mem_nIn; intros [E|[]]; congruence). auto.
  - intros w Iw. destruct (mem w [v]) eqn:M.
    + apply negb_true_iff, mem_nIn. intros J. apply filter_In in J as [_ J]. rewrite M in J. discriminate.
    + apply negb_false_iff, mem_In, filter_In. rewrite M. auto.
Qed.

Lemma df_init_arr dom v l a vt : wf_dom dom -> In (v, l) dom ->
  nd_wf a -> shape a = card (drop [v] dom) ->
  exists f, df_init dom a (Some [v]) None vt = Ok f /\ wf_df f v l /\ df_domain f = dom /\ df_vtype f = vt /\
    df_right f = keys (drop [v] dom) /\
    (forall o, full (drop [v] dom) o ->
       exists x, get_value (df_store f) o = Ok x /\ nth_error (flat a) (rowpos (drop [v] dom) o) = Some x).
Proof.
  intros W I Wa Sh. unfold df_init. cbn [set_variables bind].
  set (rv := filter (fun w => negb (mem w [v])) (keys dom)).
  assert (K : In v (keys dom)) by (apply keys_In; eauto).
  assert (L := left_one (keys dom) v (proj1 W) K). fold rv in L. rewrite L. cbn [length Nat.eqb negb].
  assert (RD : dfilter (fun w => mem w rv) dom = drop [v] dom).
  { apply right_domain_drop. intros w Iw. unfold rv. rewrite filter_In, negb_true_iff, mem_nIn. split.
    - intros [_ H] ->. apply H. left; auto.
    - intros H. split; auto. intros [->|[]]. congruence. }
  rewrite RD.
  assert (Wl : length (flat a) = prodl (card (drop [v] dom))) by (rewrite <- Sh; exact Wa).
  assert (E : (match shape a with [_] => np_reshape a (card (drop [v] dom)) | _ => Ok a end) = Ok (mkNd (card (drop [v] dom)) (flat a))).
  { assert (a = mkNd (card (drop [v] dom)) (flat a)) as Ea by (rewrite <- Sh; destruct a; reflexivity).
    destruct (shape a) as [|? [|? ?]]; try (f_equal; exact Ea).
    unfold np_reshape. rewrite Wl, Nat.eqb_refl. reflexivity. }
  rewrite E. cbn [bind].
  assert (Wd : wf_dom (drop [v] dom)) by (apply wf_drop; auto).
  destruct (init_store vt (drop [v] dom) (flat a) Wd) as (s & Es & Ws & Ds & Ts & Hs & _).
  { rewrite size_prodl, <- Sh. exact Wa. }
  rewrite Es. cbn [bind]. eexists. split; [reflexivity|].
  assert (Rk : rv = keys (drop [v] dom)).
  { rewrite <- RD, keys_dfilter. unfold rv. symmetry. apply filter_mem_filter. }
  split.
  { split; [auto|]. split; [exact L|]. split; [auto|]. cbn [df_right df_vars df_domain df_store].
    split; [apply NoDup_filter, W|]. split; [intros w Iw; apply filter_In in Iw; apply Iw|]. auto. }
  split; [auto|]. split; [auto|]. split; [exact Rk|]. exact Hs.
Qed.

Lemma df_init_ok dom v l (xs : list state) vt : wf_dom dom -> In (v, l) dom ->
  length xs = size (drop [v] dom) ->
  exists f, df_init dom (mkNd [length xs] xs) (Some [v]) None vt = Ok f /\ wf_df f v l /\ df_domain f = dom /\
    df_vtype f = vt /\ df_right f = keys (drop [v] dom) /\
    (forall o, full (drop [v] dom) o ->
       exists x, get_value (df_store f) o = Ok x /\ nth_error xs (rowpos (drop [v] dom) o) = Some x).
Proof.
  intros W I L.
  destruct (df_init_arr dom v l (mkNd (card (drop [v] dom)) xs) vt W I) as (f & E & R); [|reflexivity|].
  { unfold nd_wf. cbn [flat shape]. rewrite <- size_prodl. auto. }
  exists f. split; [|exact R]. rewrite <- E. unfold df_init. cbn [set_variables bind].
  set (rv := filter (fun w => negb (mem w [v])) (keys dom)).
  destruct (negb (length (filter _ _) =? 1)); [reflexivity|].
  assert (RD : dfilter (fun w => mem w rv) dom = drop [v] dom).
  { apply right_domain_drop. intros w Iw. unfold rv. rewrite filter_In, negb_true_iff, mem_nIn. split.
    - intros [_ H] ->. apply H. left; auto.
    - intros H. split; auto. intros [->|[]]. congruence. }
  rewrite RD. cbn [shape].
  assert (P : np_reshape (mkNd [length xs] xs) (card (drop [v] dom)) = Ok (mkNd (card (drop [v] dom)) xs)).
  { unfold np_reshape. cbn [flat]. rewrite L, size_prodl, Nat.eqb_refl. reflexivity. }
  rewrite P. cbn [bind]. destruct (card (drop [v] dom)) as [|? [|? ?]] eqn:C; try reflexivity.
  unfold np_reshape. cbn [flat]. rewrite L, size_prodl, C, Nat.eqb_refl. reflexivity.
Qed.

Lemma wf_df_rest f v l : wf_df f v l -> forall w, In w (df_right f) <-> In w (df_vars f) /\ w <> v.
Proof.
  intros (W & L & I & N & In' & _) w. split.
  - intros J. split; auto. intros ->. assert (K : In v (df_left f)) by (rewrite L; left; auto).
    apply filter_In in K as [_ K]. apply negb_true_iff, mem_nIn in K. auto.
  - intros [J Nv]. destruct (mem w (df_right f)) eqn:M; [apply mem_In; auto|]. exfalso. apply Nv.
    assert (K : In w (df_left f)) by (apply filter_In; rewrite M; auto). rewrite L in K. destruct K as [->|[]]. auto.
Qed.

Lemma df_eval_ok f v l o : wf_df f v l -> full (df_domain f) o ->
  exists y z, get_value (df_store f) o = Ok y /\ dget v o = Some z /\ In z l /\
    df_eval f o = Ok (if eqd y z then true else false).
Proof.
  intros Wf F. assert (R := wf_df_rest f v l Wf). destruct Wf as (W & L & I & N & In' & Ws & Ds).
  unfold df_eval. set (g := fun w => (w, match dget w o with Some x => x | None => SInt 0 end)).
  assert (Hr : forall w, In w (df_right f) -> dget w o = Some (snd (g w))).
  { intros w J. apply R in J as [J _]. apply keys_In in J as (m & J). destruct (F w m J) as (s & G & _).
    unfold g. rewrite G. auto. }
  rewrite (mapM_map_ok _ g).
  2:{ intros w J. unfold dlook. rewrite (Hr w J). reflexivity. }
  cbn [bind].
  assert (Kg : keys (map g (df_right f)) = df_right f) by (unfold keys; rewrite map_map; apply map_id).
  rewrite dict_of_id by (rewrite Kg; auto).
  assert (Fs : full (st_domain (df_store f)) o).
  { rewrite Ds. apply full_drop; auto. }
  destruct (get_full (df_store f) o Ws Fs) as (y & _ & Gy).
  assert (Gy' : get_value (df_store f) (map g (df_right f)) = Ok y).
  { rewrite <- Gy. apply get_value_agree; auto. intros w J. rewrite Ds in J. apply In_keys_drop in J as [J Nv].
    assert (Jr : In w (df_right f)) by (apply R; split; auto; intros ->; apply Nv; left; auto).
    rewrite (Hr w Jr). apply In_dget; [rewrite Kg; auto|]. apply in_map_iff. exists w. split; auto. }
  rewrite Gy'. cbn [bind]. rewrite L. cbn [py_nth nth_error bind]. unfold py_nth. cbn [nth_error bind].
  destruct (F v l I) as (z & Gz & Iz). unfold dlook. rewrite Gz. cbn [bind]. exists y, z. auto.
Qed.

Lemma df_to_multinomial_ok f v l : wf_df f v l -> usable (df_domain f) ->
  exists h, df_to_multinomial f = Ok h /\ wf_mf h /\ mf_domain h = df_domain f /\ mf_right h = df_right f /\
    mf_left h = [v] /\ mf_vtype h = df_vtype f /\
    forall o, full (df_domain f) o -> exists y z,
      get_value (df_store f) o = Ok y /\ dget v o = Some z /\
      mf_get_value h o = Ok (if eqd y z then n1 else n0).
Proof.
  intros Wf U. assert (Wf' := Wf). destruct Wf as (W & L & I & N & In' & Ws & Ds).
  unfold df_to_multinomial.
  destruct (mapM_total (fun o => let* b := df_eval f o in Ok (if b : bool then n1 else n0)) (assignment_space (df_domain f))) as (xs & Ex).
  { intros o J. rewrite assignment_space_all in J. apply all_assignments_In_full in J as [_ F]; [|apply W].
    destruct (df_eval_ok f v l o Wf' F) as (y & z & _ & _ & _ & ->). cbn [bind]. eauto. }
  rewrite Ex. cbn [bind]. assert (Lx := mapM_length _ _ _ Ex).
  destruct (enumeration_ok (df_domain f) (proj1 W)) as (Ls & _ & _ & Hn & _). 
  assert (Lx' : length xs = size (df_domain f)) by (rewrite <- Ls; exact Lx).
  destruct (mf_init_ok (df_domain f) (flist xs) xs None (Some (df_right f)) (df_right f) (df_vtype f)) as (h & E & Wh & D & T & R & H & _); auto.
  { left; auto. }
  exists h. split; [exact E|]. split.
  { split; [auto|]. rewrite D. split; [auto|]. rewrite R. split; [auto|]. unfold mf_vars. rewrite D. auto. }
  split; [auto|]. split; [auto|]. split.
  { unfold mf_left, mf_vars. rewrite D, R. exact L. }
  split; [auto|]. intros o F.
  set (o' := obs_of (keys (df_domain f)) (asg_of o)).
  assert (Go : forall w, In w (keys (df_domain f)) -> dget w o' = dget w o).
  { intros w J. unfold o'. rewrite obs_of_get by auto. apply keys_In in J as (m & J). destruct (F w m J) as (s & G & _).
    unfold asg_of, over. rewrite G. auto. }
  assert (F' : full (df_domain f) o').
  { intros w m J. rewrite Go; [apply F; auto|]. apply keys_In. eauto. }
  assert (Ko : keys o' = keys (df_domain f)) by (unfold o', obs_of, keys; rewrite map_map; apply map_id).
  destruct (df_eval_ok f v l o' Wf' F') as (y & z & Gy & Gz & _ & Ev).
  destruct (H o' F') as (x & Gx & Nx).
  destruct (mapM_nth _ _ _ _ _ Ex (Hn o' Ko F')) as (x' & Nx' & Ex'). rewrite Ev in Ex'. cbn [bind] in Ex'.
  assert (Gv : dget v o = Some z).
  { rewrite <- Go; auto. apply keys_In. eauto. }
  exists y, z. split; [|split; [exact Gv|]].
  - rewrite <- Gy. apply get_value_agree; auto.
    + rewrite Ds. apply full_drop; auto.
    + intros w J. symmetry. apply Go. rewrite Ds in J. apply In_keys_drop in J. apply J.
  - unfold mf_get_value in *. rewrite <- (get_value_agree (mf_store h) o o'); auto.
    + rewrite Gx. f_equal. assert (x = x') by congruence. subst x'.
      destruct (eqd y z); congruence.
    + change (full (mf_domain h) o). rewrite D. auto.
    + change (forall w, In w (keys (mf_domain h)) -> dget w o' = dget w o). rewrite D. auto.
Qed.

(** ** Normalisation *)

Lemma nsum_point (l : list state) y : NoDup l -> In y l ->
  nsum (map (fun s => if eqd y s then n1 else n0) l) = n1.
Proof.
  intros N I. set (f := fun s => if eqd y s then n1 else n0). set (g := fun s => if eqd y s then 1%Qc else 0%Qc).
  assert (E : map f l = map Fin (map g l)).
  { rewrite map_map. apply map_ext. intros s. unfold f, g. destruct (eqd y s); reflexivity. }
  rewrite E, nsum_Fin. unfold n1. f_equal. clear E.
  assert (Z : forall m, ~ In y m -> qsum (map g m) = 0%Qc).
  { induction m as [|s m IH]; intros M; [reflexivity|]. cbn [map qsum]. unfold qsum in *. simpl.
    unfold g at 1. rewrite eqd_neq by (intros ->; apply M; left; auto).
    rewrite IH by (intros J; apply M; right; auto). ring. }
  induction N as [|s l Ns N IH]; [destruct I|]. unfold qsum in *. simpl. unfold g at 1. destruct I as [->|I].
  - rewrite eqd_refl, Z by auto. ring.
  - rewrite eqd_neq by congruence. rewrite IH by auto. ring.
Qed.

Lemma df_to_multinomial_sum f v l h : wf_df f v l -> usable (df_domain f) ->
  (forall o, full (drop [v] (df_domain f)) o -> exists y, get_value (df_store f) o = Ok y /\ In y l) ->
  df_to_multinomial f = Ok h ->
  exists g, mf_marginalize h [v] = Ok g /\ mf_domain g = drop [v] (df_domain f) /\
    forall o, full (drop [v] (df_domain f)) o -> mf_get_value g o = Ok n1.
Proof.
  intros Wf U St E. destruct (df_to_multinomial_ok f v l Wf U) as (h' & E' & Wh & D & R & L & T & H).
  assert (h' = h) by congruence. subst h'. destruct Wf as (W & Lf & I & N & In' & Ws & Ds).
  assert (Kv : In v (mf_vars h)) by (unfold mf_vars; rewrite D; apply keys_In; eauto).
  destruct (mf_marginalize_ok h [v]) as (g & Eg & _ & _ & Dg & _ & _ & Hg); auto.
  { repeat constructor. intros []. } { intros w [<-|[]]; auto. }
  exists g. split; [auto|]. rewrite D in Dg, Hg. split; [auto|]. intros o F.
  destruct (Hg o F) as (xs & Fx & G). rewrite G. f_equal. destruct (St o F) as (y & Gy & Iy).
  rewrite (pick_one v l) in Fx by (auto; apply W). rewrite all_one in Fx.
  assert (Exs : xs = map (fun s => if eqd y s then n1 else n0) l).
  { assert (Hs : forall s x, In s l -> mf_get_value h ([(v, s)] ++ o) = Ok x -> x = if eqd y s then n1 else n0).
    { intros s x Is Gx. destruct (H ([(v, s)] ++ o)) as (y' & z & Gy' & Gz & Gh).
      - apply (full_app_within [v]); auto. rewrite (pick_one v l) by (auto; apply W). rewrite all_one.
        apply in_map_iff. eauto.
      - rewrite Gh in Gx. injection Gx as <-. simpl dget in Gz. rewrite eqd_refl in Gz. injection Gz as <-.
        assert (y' = y).
        { assert (get_value (df_store f) ([(v, s)] ++ o) = get_value (df_store f) o).
          - apply get_value_agree; auto; [rewrite Ds; auto|]. intros w J. rewrite Ds in J. apply In_keys_drop in J as [_ J].
            simpl. rewrite eqd_neq; auto. intros ->. apply J. left; auto.
          - congruence. }
        subst y'. reflexivity. }
    clear -Fx Hs. revert xs Fx. induction l as [|s l IH]; intros xs Fx; inversion Fx as [|? x ? xs' P Q]; subst; [reflexivity|].
    cbn [map]. f_equal; [apply Hs; auto; left; auto|]. apply IH; auto. intros; apply Hs; auto. right; auto. }
  rewrite Exs. apply nsum_point; auto. apply (proj2 W v l I).
Qed.

(** ** to_deterministic *)

Lemma shape_card (d d' : domain) sh :
  Forall2 (fun v n => exists l, dget v d' = Some l /\ n = length l) (keys d) sh ->
  (forall v l, In (v, l) d -> dget v d' = Some l) -> sh = card d.
Proof.
  revert sh. induction d as [|[v l] d IH]; intros sh Sh G; inversion Sh as [|? n ? sh' (m & P & ->) Q]; subst; [reflexivity|].
  rewrite card_cons. f_equal.
  - specialize (G v l (or_introl eq_refl)). cbn [fst] in P. congruence.
  - apply IH; auto. intros w k J. apply G. right; auto.
Qed.

Lemma coords_index (d d' : domain) (o : obs) b :
  (forall v l, In (v, l) d -> dget v d' = Some l /\ dget v o = Some (b v) /\ In (b v) l) ->
  Forall2 (fun v i => exists l x, dget v d' = Some l /\ dget v o = Some x /\ nth_error l i = Some x) (keys d) (coords d b).
Proof.
  induction d as [|[v l] d IH]; intros G; [constructor|]. constructor.
  - destruct (G v l (or_introl eq_refl)) as (P & Q & R). exists l, (b v). cbn [fst snd]. split; [auto|]. split; auto.
    apply pos_nth; auto.
  - apply IH. intros w k J. apply G. right; auto.
Qed.

Lemma mf_array_store f : wf_mf f ->
  exists a, mf_values_array f [] = Ok a /\ wf_store (StNumpy (mf_domain f) a) /\
    forall b, valid (mf_domain f) b -> look (StNumpy (mf_domain f) a) b = look (mf_store f) b.
Proof.
  intros Wf. rewrite mf_values_array_default.
  destruct (mf_values_array_ok f (mf_vars f) Wf (Permutation_refl _)) as (a & E & Wa & Sh & H).
  assert (W := usable_wf _ (proj1 (proj2 Wf))).
  assert (S : shape a = card (mf_domain f)).
  { eapply shape_card; [exact Sh|]. intros; apply In_dget; auto; apply W. }
  exists a. split; [auto|]. split.
  { split; [exact W|]. split; [auto|]. unfold nd_wf in Wa. rewrite <- S. auto. }
  intros b V. cbn [look]. 
  set (o := obs_of (mf_vars f) b).
  assert (Ag : agrees o b (mf_vars f)) by apply agrees_obs_of.
  assert (F : full (mf_domain f) o) by (eapply valid_full; eauto).
  destruct (H o (coords (mf_domain f) b) F) as (x & Gx & Nx).
  { apply coords_index. intros v l J. split; [apply In_dget; auto; apply W|].
    split; [apply obs_of_get, keys_In; eauto|]. apply V; auto. }
  apply nd_get_flat in Nx; [|rewrite S; apply coords_bounds; auto]. rewrite Nx.
  apply (get_look (mf_store f)) in Gx; [|apply Wf|exact F]. rewrite <- Gx. symmetry.
  apply look_ext; [apply Wf|]. intros v J. unfold asg_of, over, o. rewrite obs_of_get; auto.
Qed.

Lemma np_argmax_total (xs : list num) : xs <> [] -> exists y, np_argmax xs = Ok y.
Proof. destruct xs; [congruence|]. cbn. eauto. Qed.

Lemma mf_to_deterministic_ok f v l dflt : wf_mf f -> mf_left f = [v] -> In (v, l) (mf_domain f) ->
  exists g, mf_to_deterministic dflt f = Ok g /\ wf_df g v l /\ df_domain g = mf_domain f /\ df_vtype g = dflt /\
    forall o, full (drop [v] (mf_domain f)) o -> exists xs y,
      Forall2 (fun s x => mf_get_value f ((v, s) :: o) = Ok x) l xs /\
      np_argmax xs = Ok y /\ get_value (df_store g) o = Ok y.
Proof.
  intros Wf L I. unfold mf_to_deterministic. rewrite L. cbn [length Nat.eqb negb]. unfold py_nth. cbn [nth_error bind].
  destruct (mf_array_store f Wf) as (a & Ea & Wa & Ha). rewrite Ea. cbn [bind].
  assert (W := usable_wf _ (proj1 (proj2 Wf))).
  assert (K : In v (keys (mf_domain f))) by (apply keys_In; eauto).
  assert (Ei : get_var_index (mf_domain f) v = Ok (pos v (keys (mf_domain f)))).
  { unfold get_var_index, pos. destruct (index_of_In v _ K) as (i & ->). reflexivity. }
  rewrite Ei. cbn [bind].
  destruct (np_reduce_ok np_argmax (mf_domain f) a [v] np_argmax_total Wa) as (b & Eb & Sb & Wb & Hb).
  { repeat constructor. intros []. } { intros w [<-|[]]; auto. }
  cbn [map] in Eb. rewrite Eb. cbn [bind].
  destruct (df_init_arr (mf_domain f) v l b dflt W I Wb Sb) as (g & Eg & Wg & Dg & Tg & _ & Hg).
  exists g. split; [auto|]. split; [auto|]. split; [auto|]. split; [auto|]. intros o F.
  destruct (Hg o F) as (y & Gy & Ny).
  assert (Wi : pick [v] (mf_domain f) = [(v, l)]) by (apply pick_one; auto; apply W).
  assert (Wi' : dom_within (mf_domain f) [v] = [(v, l)]) by exact Wi.
  assert (Hx : forall s, In s l -> exists x, mf_get_value f ((v, s) :: o) = Ok x /\
                look (StNumpy (mf_domain f) a) (over [(v, s)] (asg_of o)) = Some x).
  { intros s Is. assert (F' : full (mf_domain f) ([(v, s)] ++ o)).
    { apply (full_app_within [v]); auto. rewrite Wi, all_one. apply in_map_iff; eauto. }
    destruct (get_full (mf_store f) ([(v, s)] ++ o) (proj1 Wf) F') as (x & Lx & Gx). exists x. split; [exact Gx|].
    rewrite <- Lx. rewrite <- Ha by (apply full_valid; auto). apply look_ext; auto. intros w _. symmetry. apply asg_of_app. }
  assert (Ex : exists xs, Forall2 (fun s x => mf_get_value f ((v, s) :: o) = Ok x /\
                look (StNumpy (mf_domain f) a) (over [(v, s)] (asg_of o)) = Some x) l xs).
  { clear -Hx. induction l as [|s l IH]; [exists []; constructor|].
    destruct IH as (xs & IH); [intros; apply Hx; right; auto|].
    destruct (Hx s (or_introl eq_refl)) as (x & P). exists (x :: xs). constructor; auto. }
  destruct Ex as (xs & Ex).
  destruct (Hb (asg_of o) xs) as (z & Ez & Nz).
  { apply full_valid. exact F. }
  { rewrite Wi', all_one. clear -Ex. induction Ex; cbn [map]; constructor; auto. tauto. }
  exists xs, z. split; [|split; auto].
  - clear -Ex. induction Ex; constructor; auto. tauto.
  - rewrite Gy. f_equal. rewrite rowpos_ravel in Ny by auto.
    change (dom_without (mf_domain f) [v]) with (drop [v] (mf_domain f)) in Nz. congruence.
Qed.

Lemma argmax_01 r i p : argmax_from (n1 :: r) i n0 p = argmax_from r (S i) n1 i.
Proof. reflexivity. Qed.
Lemma argmax_10 r i p : argmax_from (n0 :: r) i n1 p = argmax_from r (S i) n1 p.
Proof. reflexivity. Qed.
Lemma argmax_00 r i p : argmax_from (n0 :: r) i n0 p = argmax_from r (S i) n0 p.
Proof. reflexivity. Qed.

Lemma argmax_after (l : list state) y i : ~ In y l ->
  forall p, argmax_from (map (fun s => if eqd y s then n1 else n0) l) i n1 p = p.
Proof.
  revert i. induction l as [|s l IH]; intros i N p; [reflexivity|]. cbn [map].
  rewrite eqd_neq by (intros ->; apply N; left; auto).
  rewrite argmax_10. apply IH. intros J; apply N; right; auto.
Qed.

Lemma argmax_zero (l : list state) y i : NoDup l -> In y l ->
  forall p, argmax_from (map (fun s => if eqd y s then n1 else n0) l) i n0 p = i + pos y l.
Proof.
  revert i. induction l as [|s l IH]; intros i N I p; [destruct I|]. cbn [map].
  inversion N as [|? ? N1 N2]; subst. unfold pos. cbn [index_of].
  destruct (eqd y s) as [->|n].
  - rewrite argmax_01, argmax_after by auto. lia.
  - destruct I as [->|I]; [congruence|]. rewrite argmax_00.
    rewrite IH by auto. unfold pos. destruct (index_of_In y l I) as (j & ->). lia.
Qed.

Lemma argmax_point (l : list state) y : NoDup l -> In y l ->
  np_argmax (map (fun s => if eqd y s then n1 else n0) l) = Ok (SInt (Z.of_nat (pos y l))).
Proof.
  intros N I. destruct l as [|s l]; [destruct I|]. cbn [map np_argmax]. do 3 f_equal.
  inversion N as [|? ? N1 N2]; subst. unfold pos. cbn [index_of]. destruct (eqd y s) as [->|n].
  - apply argmax_after; auto.
  - destruct I as [->|I]; [congruence|]. rewrite argmax_zero by auto.
    unfold pos. destruct (index_of_In y l I) as (j & ->). lia.
Qed.

Lemma deterministic_roundtrip f v l h dflt : wf_df f v l -> usable (df_domain f) ->
  (forall o, full (drop [v] (df_domain f)) o -> exists y, get_value (df_store f) o = Ok y /\ In y l) ->
  df_to_multinomial f = Ok h ->
  exists g, mf_to_deterministic dflt h = Ok g /\ wf_df g v l /\ df_domain g = df_domain f /\
    forall o, full (drop [v] (df_domain f)) o -> exists y i,
      get_value (df_store f) o = Ok y /\ nth_error l i = Some y /\
      get_value (df_store g) o = Ok (SInt (Z.of_nat i)).
Proof.
  intros Wf U St E. destruct (df_to_multinomial_ok f v l Wf U) as (h' & E' & Wh & D & R & L & T & H).
  assert (h' = h) by congruence. subst h'. destruct Wf as (W & Lf & I & N & In' & Ws & Ds).
  rewrite <- D in I. destruct (mf_to_deterministic_ok h v l dflt Wh L I) as (g & Eg & Wg & Dg & _ & Hg).
  exists g. split; [auto|]. split; [auto|]. rewrite D in Dg, Hg, I. split; [auto|]. intros o F.
  destruct (Hg o F) as (xs & z & Fx & Az & Gz). destruct (St o F) as (y & Gy & Iy).
  assert (Exs : xs = map (fun s => if eqd y s then n1 else n0) l).
  { assert (Hs : forall s x, In s l -> mf_get_value h ([(v, s)] ++ o) = Ok x -> x = if eqd y s then n1 else n0).
    { intros s x Is Gx. destruct (H ([(v, s)] ++ o)) as (y' & z' & Gy' & Gz' & Gh).
      - apply (full_app_within [v]); auto. rewrite (pick_one v l) by (auto; apply W). rewrite all_one.
        apply in_map_iff. eauto.
      - rewrite Gh in Gx. injection Gx as <-. simpl dget in Gz'. rewrite eqd_refl in Gz'. injection Gz' as <-.
        assert (y' = y).
        { assert (get_value (df_store f) ([(v, s)] ++ o) = get_value (df_store f) o).
          - apply get_value_agree; auto; [rewrite Ds; auto|]. intros w J. rewrite Ds in J. apply In_keys_drop in J as [_ J].
            simpl. rewrite eqd_neq; auto. intros ->. apply J. left; auto.
          - congruence. }
        subst y'. reflexivity. }
    clear -Fx Hs. revert xs Fx. induction l as [|s l IH]; intros xs Fx; inversion Fx as [|? x ? xs' P Q]; subst; [reflexivity|].
    cbn [map]. f_equal; [apply Hs; auto; left; auto|]. apply IH; auto. intros; apply Hs; auto. right; auto. }
  rewrite Exs, argmax_point in Az by (auto; apply (proj2 W v l I)).
  exists y, (pos y l). split; [auto|]. split; [apply pos_nth; auto|]. congruence.
Qed.

Lemma df_left_domain_one f v l : wf_df f v l -> df_left_domain f = [(v, l)].
Proof.
  intros (W & L & I & _). unfold df_left_domain. rewrite L. apply pick_one; auto. apply W.
Qed.

Lemma df_constant_ok f v l x : wf_df f v l -> In x l ->
  exists g, df_constant f x = Ok g /\ wf_df g v l /\ df_domain g = [(v, l)] /\ df_right g = [] /\
    df_vtype g = df_vtype f /\ forall o, get_value (df_store g) o = Ok x.
Proof.
  intros Wf Ix. unfold df_constant. rewrite (df_left_domain_one f v l Wf). destruct Wf as (W & L & I & _).
  cbn [length Nat.eqb negb]. rewrite L. unfold py_nth. cbn [nth_error bind]. unfold dlook. cbn [dget].
  rewrite eqd_refl. cbn [bind]. rewrite (proj2 (mem_In x l) Ix). cbn [negb df_builder]. rewrite L.
  assert (W1 : wf_dom [(v, l)]).
  { split; [repeat constructor; intros []|]. intros w m [E|[]]. injection E as <- <-. apply (proj2 W v l I). }
  destruct (df_init_ok [(v, l)] v l [x] (df_vtype f)) as (g & E & Wg & D & T & R & H); auto.
  { left; auto. } { unfold drop, dfilter. cbn [filter fst]. simpl. rewrite eqd_refl. reflexivity. }
  exists g. split; [exact E|]. split; [auto|]. split; [auto|].
  assert (Dr : drop [v] [(v, l)] = []) by (unfold drop, dfilter; simpl; rewrite eqd_refl; reflexivity).
  split; [rewrite R, Dr; reflexivity|]. split; [auto|]. intros o. destruct (H o) as (y & G & Ny).
  { rewrite Dr. intros w m []. }
  rewrite Dr in Ny. cbn in Ny. congruence.
Qed.

Lemma df_constant_bad f v l x : wf_df f v l -> ~ In x l -> df_constant f x = Raise ValueError.
Proof.
  intros Wf Ix. unfold df_constant. rewrite (df_left_domain_one f v l Wf). destruct Wf as (W & L & I & _).
  cbn [length Nat.eqb negb]. rewrite L. unfold py_nth. cbn [nth_error bind]. unfold dlook. cbn [dget].
  rewrite eqd_refl. cbn [bind]. apply mem_nIn in Ix. rewrite Ix. reflexivity.
Qed.
