(** Facts about canonical_deterministic and IntervalProbFactor. *)

From Coq Require Import String Ascii Bool Arith ZArith QArith Qcanon Lia Permutation List.
From Verif Require Import PyBase Num DomainModel NdArray StoreModel NumStore FactorModel GenModel PyFacts Spec DomainFacts
  StoreSpec TreeFacts TreeFacts2 StoreFacts NumFacts StoreOps BigSum StoreMarg StoreMarg2 PropFacts1 StoreExpr PropFacts2
  GenSpec FactorSpec FactorFacts FactorFacts2 FactorFacts3 GenFacts GenFacts2.
Import ListNotations.
Local Open Scope nat_scope.

Lemma subdomain_order dom vs : NoDup (keys dom) -> NoDup vs -> incl vs (keys dom) ->
  subdomain dom vs = Ok (order_dom dom vs).
Proof.
  intros N Nv I. unfold subdomain.
  assert (E : mapM (fun v => let* d := dlook v dom in Ok (v, d)) vs = Ok (order_dom dom vs)).
  { apply mapM_map_ok. intros v J. apply I, dget_keys in J as (l & E). unfold dlook. rewrite E. reflexivity. }
  rewrite E. cbn [bind]. rewrite dict_of_id; [reflexivity|]. rewrite order_dom_keys. auto.
Qed.

Lemma product_repeat_In {A} (l : list A) m row :
  In row (product (repeat l m)) <-> length row = m /\ forall x, In x row -> In x l.
Proof.
  rewrite product_In. revert row. induction m as [|m IH]; intros row; cbn [repeat].
  - split; [intros H; inversion H; subst; split; [auto|intros ? []]|]. intros [L _]. destruct row; [constructor|discriminate].
  - split.
    + intros H. inversion H as [|? x ? row' A1 B]; subst. apply IH in B as [L B]. split; [simpl; congruence|].
      intros y [<-|J]; auto.
    + intros [L H]. destruct row as [|x row]; [discriminate|]. constructor; [apply H; left; auto|]. apply IH.
      split; [simpl in L; congruence|]. intros y J. apply H. right; auto.
Qed.

Lemma prodl_repeat n m : prodl (repeat n m) = n ^ m.
Proof. induction m as [|m IH]; [reflexivity|]. cbn [repeat Nat.pow]. rewrite prodl_cons, IH. reflexivity. Qed.

Lemma map_repeat' {A B} (f : A -> B) x n : map f (repeat x n) = repeat (f x) n.
Proof. induction n as [|n IH]; [reflexivity|]. cbn [repeat map]. congruence. Qed.

Lemma rows_length {A} (l : list A) m : length (product (repeat l m)) = length l ^ m.
Proof. rewrite product_length, map_repeat', prodl_repeat. reflexivity. Qed.

Lemma flat_map_id_concat {A} (rows : list (list A)) : flat_map (fun r => r) rows = concat rows.
Proof. induction rows as [|r rows IH]; [reflexivity|]. cbn [flat_map concat]. congruence. Qed.

Lemma concat_nth {A} (rows : list (list A)) m i row j : (forall r, In r rows -> length r = m) ->
  nth_error rows i = Some row -> j < m -> nth_error (concat rows) (i * m + j) = nth_error row j.
Proof. intros H E L. rewrite <- flat_map_id_concat. apply (nth_flat_map_uniform (fun r => r) rows m); auto. Qed.

Lemma concat_length_uniform {A} (rows : list (list A)) m : (forall r, In r rows -> length r = m) ->
  length (concat rows) = length rows * m.
Proof. intros H. rewrite <- flat_map_id_concat. apply (length_flat_map_uniform (fun r => r)). auto. Qed.

Lemma filter_single {A} (p : A -> bool) l x : NoDup l -> In x l -> p x = true -> (forall y, In y l -> p y = true -> y = x) ->
  filter p l = [x].
Proof.
  induction l as [|y l IH]; intros N I Px H; [destruct I|]. inversion N as [|? ? Ny Nl]; subst. cbn [filter].
  destruct (p y) eqn:Py.
  - assert (y = x) by (apply H; [left; auto|auto]). subst y. f_equal.
    destruct (filter p l) as [|z r] eqn:E; [reflexivity|]. exfalso. assert (J : In z (filter p l)) by (rewrite E; left; auto).
    apply filter_In in J as [J Pz]. assert (z = x) by (apply H; [right; auto|auto]). subst. auto.
  - destruct I as [->|I]; [congruence|]. apply IH; auto. intros z J. apply H. right; auto.
Qed.

Lemma canonical_unfold dom x exo endo l lu vt : canon_vars dom x exo endo l lu ->
  let pdom := order_dom dom endo in let m := size pdom in let rows := product (repeat l m) in
  wf_dom ((x, l) :: (exo, lu) :: pdom) /\
  canonical_deterministic dom exo endo vt =
  df_init ((x, l) :: (exo, lu) :: pdom) (mkNd [length rows; m] (concat rows)) (Some [x]) None vt.
Proof.
  intros (W & Ix & Iu & Nu & Ie & Nx & Nxe & Hk) pdom m rows. inversion Nu as [|? ? Nue Ne]; subst.
  assert (Wp : wf_dom pdom) by (apply order_dom_wf; auto).
  assert (Ku : ~ In exo (keys pdom)) by (unfold pdom; rewrite order_dom_keys; auto).
  assert (Kx : ~ In x (keys pdom)) by (unfold pdom; rewrite order_dom_keys; auto).
  split.
  { apply wf_dom_cons. split; [intros [E|J]; simpl in *; [congruence|auto]|]. split; [apply (proj2 W x l Ix)|].
    split; [apply (proj2 W x l Ix)|]. apply wf_dom_cons. split; [auto|]. split; [apply (proj2 W exo lu Iu)|].
    split; [apply (proj2 W exo lu Iu)|auto]. }
  unfold canonical_deterministic.
  assert (E : filter (fun y => negb (mem y endo) && negb (if eqd y exo then true else false)) (keys dom) = [x]).
  { apply filter_single; [apply W|apply keys_In; eauto| |].
    - apply andb_true_iff. split; [apply negb_true_iff, mem_nIn; auto|]. destruct (eqd x exo); [contradiction|reflexivity].
    - intros y J P. apply andb_true_iff in P as [P1 P2]. apply negb_true_iff, mem_nIn in P1.
      destruct (eqd y exo) as [->|Ny]; [discriminate|]. destruct (Hk y J) as [->|[->|J']]; auto; contradiction. }
  rewrite E. rewrite subdomain_order by (auto; apply W). cbn [bind]. fold pdom.
  unfold dlook. rewrite (In_dget x l dom) by (auto; apply W). cbn [bind].
  assert (S1 : forall v ll, In (v, ll) dom -> subdomain dom [v] = Ok [(v, ll)]).
  { intros v ll J. rewrite subdomain_order.
    - unfold order_dom. cbn [map]. rewrite (In_dget v ll dom) by (auto; apply W). reflexivity.
    - apply W.
    - constructor; [intros []|constructor].
    - intros w [<-|[]]. apply keys_In; eauto. }
  rewrite (S1 x l Ix). cbn [bind]. rewrite (S1 exo lu Iu). cbn [bind].
  assert (Em : length (assignment_space pdom) = m).
  { rewrite assignment_space_all, all_assignments_length, <- size_prodl. reflexivity. }
  rewrite Em. fold rows.
  rewrite (dmerge_disjoint [(x, l)] [(exo, lu)]); [|constructor; [intros []|constructor]|intros k [<-|[]] [K|[]]; simpl in K; congruence].
  cbn [app]. rewrite dmerge_disjoint; [reflexivity|apply Wp|].
  intros k J [K|[K|[]]]; simpl in K; subst; contradiction.
Qed.

Lemma in_filter_not (v w : var) vars : In w (filter (fun u => negb (mem u [v])) vars) <-> In w vars /\ w <> v.
Proof.
  rewrite filter_In. split; intros [A B]; split; auto.
  - apply negb_true_iff, mem_nIn in B. intros ->. apply B. left; auto.
  - apply negb_true_iff, mem_nIn. intros [->|[]]. auto.
Qed.

Lemma df_init_flat dom v l a vt : wf_dom dom -> In (v, l) dom -> drop [v] dom <> [] ->
  (vt = VNumpy -> shape a = card (drop [v] dom)) -> shape a <> [] -> length (flat a) = prodl (card (drop [v] dom)) ->
  exists f, df_init dom a (Some [v]) None vt = Ok f /\ wf_df f v l /\ df_domain f = dom /\ df_vtype f = vt /\
    df_right f = keys (drop [v] dom) /\
    (forall o, full (drop [v] dom) o ->
       exists x, get_value (df_store f) o = Ok x /\ nth_error (flat a) (rowpos (drop [v] dom) o) = Some x).
Proof.
  intros W I Nd Hs Na L.
  destruct (df_init_arr dom v l (mkNd (card (drop [v] dom)) (flat a)) vt W I L eq_refl) as (f & E & R).
  exists f. split; [|exact R]. rewrite <- E. unfold df_init.
  destruct (set_variables (keys dom) (Some [v]) None) as [rv|e] eqn:Esv; [|reflexivity]. cbn [bind].
  destruct (negb (length (filter (fun v0 => negb (mem v0 rv)) (keys dom)) =? 1)); [reflexivity|].
  assert (Erd : dfilter (fun w => mem w rv) dom = drop [v] dom).
  { apply right_domain_drop. intros w J.
    assert (rv = filter (fun u => negb (mem u [v])) (keys dom)) as -> by (unfold set_variables in Esv; congruence).
    rewrite in_filter_not. tauto. }
  rewrite Erd. destruct a as [sh xs]. cbn [shape flat] in *.
  assert (Er : np_reshape (mkNd sh xs) (card (drop [v] dom)) = Ok (mkNd (card (drop [v] dom)) xs)).
  { unfold np_reshape. cbn [flat]. rewrite L, Nat.eqb_refl. reflexivity. }
  assert (Es : forall sh', sh' <> [] -> (vt = VNumpy -> sh' = card (drop [v] dom)) ->
             st_init vt (drop [v] dom) (DArr (mkNd sh' xs)) = st_init vt (drop [v] dom) (DArr (mkNd (card (drop [v] dom)) xs))).
  { intros sh' N' H'. destruct vt; try reflexivity.
    - rewrite (H' eq_refl). reflexivity.
    - cbn [st_init shape flat]. destruct (drop [v] dom) as [|[w m] r]; [congruence|].
      unfold build_default_tree. cbn [shape flat]. destruct sh'; [congruence|]. rewrite card_cons. reflexivity. }
  assert (Nc : card (drop [v] dom) <> []) by (destruct (drop [v] dom) as [|[? ?] ?]; [congruence|rewrite card_cons; discriminate]).
  assert (M : forall sh', sh' <> [] -> (vt = VNumpy -> sh' = card (drop [v] dom)) -> np_reshape (mkNd sh' xs) (card (drop [v] dom)) = Ok (mkNd (card (drop [v] dom)) xs) ->
      (let* v0 := match sh' with [_] => np_reshape (mkNd sh' xs) (card (drop [v] dom)) | _ => Ok (mkNd sh' xs) end in
       let* s := st_init vt (drop [v] dom) (DArr v0) in Ok (MkD dom rv s)) =
      (let* s := st_init vt (drop [v] dom) (DArr (mkNd (card (drop [v] dom)) xs)) in Ok (MkD dom rv s))).
  { intros sh' N' H' Er'. destruct sh' as [|n [|n' sh']]; [congruence| |]; [rewrite Er'; reflexivity|].
    cbn [bind]. rewrite (Es _ N' H'). reflexivity. }
  rewrite (M sh Na Hs Er), (M _ Nc (fun _ => eq_refl)); [reflexivity|]. exact Er.
Qed.

Lemma drop_canon x l exo lu pdom : wf_dom ((x, l) :: (exo, lu) :: pdom) ->
  drop [x] ((x, l) :: (exo, lu) :: pdom) = (exo, lu) :: pdom.
Proof.
  intros W. apply wf_dom_cons in W as (N & _ & _ & _). rewrite drop_cons.
  assert (mem x [x] = true) as -> by (apply mem_In; left; auto). apply drop_none. intros v [<-|[]]. auto.
Qed.

Lemma rows_uniform {A} (l : list A) m : forall r, In r (product (repeat l m)) -> length r = m.
Proof. intros r J. apply product_repeat_In in J. apply J. Qed.

(** the values of the function of the state [u] of the exogenous variable *)
Lemma canonical_rows dom x exo endo l lu vt : canon_vars dom x exo endo l lu ->
  (vt = VNumpy -> length endo = 1) ->
  length lu = length l ^ size (order_dom dom endo) ->
  exists f, canonical_deterministic dom exo endo vt = Ok f /\ wf_df f x l /\
    df_domain f = (x, l) :: (exo, lu) :: order_dom dom endo /\ df_vtype f = vt /\ df_right f = exo :: endo /\
    forall u p, In u lu -> In p (all_assignments (order_dom dom endo)) -> exists row,
      nth_error (product (repeat l (size (order_dom dom endo)))) (pos u lu) = Some row /\ get_value (df_store f) ((exo, u) :: p) =
      match nth_error row (rowpos (order_dom dom endo) p) with Some y => Ok y | None => Raise IndexError end /\
      rowpos (order_dom dom endo) p < size (order_dom dom endo).
Proof.
  intros Hc Hn Hl. destruct (canonical_unfold dom x exo endo l lu vt Hc) as (Wd & E).
  set (pdom := order_dom dom endo) in *. set (m := size pdom) in *. set (rows := product (repeat l m)) in *.
  assert (Wd' := Wd). apply wf_dom_cons in Wd' as (_ & Nl & _ & Wu). assert (Wu' := Wu).
  apply wf_dom_cons in Wu' as (Nue & Nlu & _ & Wp).
  assert (Ed := drop_canon _ _ _ _ _ Wd).
  assert (Lr : length rows = length l ^ m) by apply rows_length.
  assert (Lc : length (concat rows) = length rows * m) by (apply concat_length_uniform, rows_uniform).
  destruct (df_init_flat ((x, l) :: (exo, lu) :: pdom) x l (mkNd [length rows; m] (concat rows)) vt) as (f & Ef & Wf & Df & Tf & Rf & Hg); auto.
  { left; auto. } { rewrite Ed. discriminate. }
  { intros Ev. rewrite Ed, card_cons. cbn [shape]. rewrite Lr, <- Hl. f_equal. apply Hn in Ev.
    unfold m, pdom. destruct endo as [|w [|w' r]]; try discriminate Ev. unfold order_dom. cbn [map size card vals snd]. rewrite Nat.mul_1_r. reflexivity. }
  { discriminate. }
  { rewrite Ed, card_cons, prodl_cons. cbn [flat]. rewrite Lc, Lr, <- Hl. unfold m. rewrite size_prodl. reflexivity. }
  rewrite Ed in Rf, Hg. cbn [flat] in Hg.
  assert (Hval : forall u p, In u lu -> In p (all_assignments pdom) -> exists row,
            nth_error rows (pos u lu) = Some row /\ get_value (df_store f) ((exo, u) :: p) = 
            match nth_error row (rowpos pdom p) with Some y => Ok y | None => Raise IndexError end /\ rowpos pdom p < m).
  { intros u p Iu Ip. apply all_assignments_In_full in Ip as [Kp Fp]; [|apply Wp].
    assert (F : full ((exo, lu) :: pdom) ((exo, u) :: p)).
    { intros v ll [J|J].
      - injection J as -> ->. exists u. cbn [dget]. rewrite eqd_refl. auto.
      - cbn [dget]. rewrite eqd_neq; [apply (Fp v ll J)|]. intros ->. apply Nue. apply keys_In. eauto. }
    destruct (Hg _ F) as (y & Gy & Ny). assert (P := pos_lt _ _ Iu).
    destruct (nth_error rows (pos u lu)) as [row|] eqn:Er; [|apply nth_error_None in Er; lia].
    exists row. split; [auto|].
    assert (Rp : rowpos ((exo, lu) :: pdom) ((exo, u) :: p) = pos u lu * m + rowpos pdom p).
    { cbn [rowpos dget]. rewrite eqd_refl. unfold m, pos. f_equal.
      rewrite !rowpos_ravel; auto.
      - f_equal. apply coords_ext. intros v J. unfold asg_of, over. cbn [dget]. rewrite eqd_neq; auto. intros ->. auto.
      - intros v ll J. cbn [dget]. rewrite eqd_neq; [apply (Fp v ll J)|]. intros ->. apply Nue. apply keys_In. eauto. }
    assert (B : rowpos pdom p < m).
    { unfold m. rewrite size_prodl, rowpos_ravel by auto. apply ravel_lt, coords_bounds, full_valid; auto. }
    split; [|auto]. rewrite Rp in Ny. rewrite (concat_nth rows m (pos u lu) row) in Ny; auto.
    - rewrite Ny. exact Gy.
    - apply rows_uniform. }
  exists f. split; [congruence|]. split; [auto|]. split; [auto|]. split; [auto|]. split.
  { rewrite Rf. unfold keys. cbn [map fst]. f_equal. apply order_dom_keys. }
  exact Hval.
Qed.

Lemma canonical_ok dom x exo endo l lu vt : canon_vars dom x exo endo l lu ->
  (vt = VNumpy -> length endo = 1) ->
  length lu = length l ^ size (order_dom dom endo) ->
  exists f, canonical_deterministic dom exo endo vt = Ok f /\ wf_df f x l /\
    df_domain f = (x, l) :: (exo, lu) :: order_dom dom endo /\ df_vtype f = vt /\ df_right f = exo :: endo /\
    (forall u p, In u lu -> In p (all_assignments (order_dom dom endo)) ->
       exists y, get_value (df_store f) ((exo, u) :: p) = Ok y /\ In y l) /\
    (forall h : obs -> state, (forall p, In p (all_assignments (order_dom dom endo)) -> In (h p) l) ->
       exists u, In u lu /\
         (forall p, In p (all_assignments (order_dom dom endo)) -> get_value (df_store f) ((exo, u) :: p) = Ok (h p)) /\
         (forall u', In u' lu ->
            (forall p, In p (all_assignments (order_dom dom endo)) -> get_value (df_store f) ((exo, u') :: p) = Ok (h p)) ->
            u' = u)).
Proof.
  intros Hc Hn Hl. destruct (canonical_unfold dom x exo endo l lu vt Hc) as (Wd & E).
  set (pdom := order_dom dom endo) in *. set (m := size pdom) in *. set (rows := product (repeat l m)) in *.
  assert (Wd' := Wd). apply wf_dom_cons in Wd' as (_ & Nl & _ & Wu). assert (Wu' := Wu).
  apply wf_dom_cons in Wu' as (Nue & Nlu & _ & Wp).
  assert (Ed := drop_canon _ _ _ _ _ Wd).
  assert (Lr : length rows = length l ^ m) by apply rows_length.
  assert (Lc : length (concat rows) = length rows * m) by (apply concat_length_uniform, rows_uniform).
  destruct (canonical_rows dom x exo endo l lu vt Hc Hn Hl) as (f & Ef & Wf & Df & Tf & Rf & Hval).
  fold pdom m rows in Hval.
  exists f. split; [exact Ef|]. split; [auto|]. split; [auto|]. split; [auto|]. split; [exact Rf|].
  split.
  - intros u p Iu Ip. destruct (Hval u p Iu Ip) as (row & Er & Eg & B). apply nth_error_In, product_repeat_In in Er as [L H].
    destruct (nth_error row (rowpos pdom p)) as [y|] eqn:Ey; [|apply nth_error_None in Ey; lia].
    exists y. split; [auto|]. apply H. eapply nth_error_In; eauto.
  - intros h Hh. set (rh := map h (all_assignments pdom)).
    assert (Ir : In rh rows).
    { apply product_repeat_In. split.
      - unfold rh. rewrite map_length, all_assignments_length, <- size_prodl. reflexivity.
      - intros y J. apply in_map_iff in J as (p & <- & J). auto. }
    assert (Hp : forall p, In p (all_assignments pdom) -> nth_error rh (rowpos pdom p) = Some (h p)).
    { intros p Ip. apply map_nth_error. destruct (enumeration_ok pdom) as (_ & _ & _ & En & _); [apply Wp|].
      rewrite assignment_space_all in En. apply all_assignments_In_full in Ip as [Kp Fp]; [|apply Wp]. auto. }
    apply In_nth_error in Ir as (i & Ei).
    assert (Li : i < length lu). { rewrite Hl, <- Lr. apply nth_error_Some. congruence. }
    destruct (nth_error lu i) as [u|] eqn:Eu; [|apply nth_error_None in Eu; lia].
    assert (Pu : pos u lu = i) by (unfold pos; rewrite (index_of_nth lu i u); auto).
    exists u. split; [eapply nth_error_In; eauto|]. split.
    + intros p Ip. destruct (Hval u p) as (row & Er & Eg & _); [eapply nth_error_In; eauto|auto|].
      rewrite Pu, Ei in Er. injection Er as <-. rewrite Eg, (Hp p Ip). reflexivity.
    + intros u' Iu' H'.
      destruct (nth_error rows (pos u' lu)) as [row'|] eqn:Er'.
      2:{ apply nth_error_None in Er'. assert (P := pos_lt _ _ Iu'). lia. }
      assert (row' = rh).
      { assert (Ir' := nth_error_In _ _ Er'). apply rows_uniform in Ir'. apply list_nth_eq. intros j.
        destruct (Nat.lt_ge_cases j m) as [Lj|Lj].
        - assert (Lj' : j < length (all_assignments pdom)) by (rewrite all_assignments_length, <- size_prodl; exact Lj).
          destruct (nth_error (all_assignments pdom) j) as [p|] eqn:Ep; [|apply nth_error_None in Ep; lia].
          assert (Ip := nth_error_In _ _ Ep).
          assert (Rj : rowpos pdom p = j).
          { assert (Q : nth_error (all_assignments pdom) (rowpos pdom p) = Some p).
            { destruct (enumeration_ok pdom) as (_ & _ & _ & En & _); [apply Wp|].
              rewrite assignment_space_all in En. apply all_assignments_In_full in Ip as [Kp Fp]; [|apply Wp]. auto. }
            assert (ND : NoDup (all_assignments pdom)) by (apply all_assignments_NoDup; intros v ll J; apply (proj2 Wp v ll J)).
            rewrite NoDup_nth_error in ND. symmetry. apply ND; [auto|congruence]. }
          destruct (Hval u' p Iu' Ip) as (row & Er & Eg & B). assert (row = row') by congruence. subst row.
          rewrite (H' p Ip), Rj in Eg. rewrite <- Rj at 2. rewrite (Hp p Ip).
          destruct (nth_error row' j); [congruence|discriminate].
        - assert (nth_error row' j = None) as -> by (apply nth_error_None; lia). symmetry. apply nth_error_None.
          unfold rh. rewrite map_length, all_assignments_length, <- size_prodl. exact Lj. }
      subst row'. assert (ND : NoDup rows).
      { apply product_NoDup. intros ll J. apply repeat_spec in J. subst. auto. }
      rewrite NoDup_nth_error in ND. apply (pos_inj _ _ lu); [auto|eapply nth_error_In; eauto|]. rewrite Pu. apply ND.
      * assert (P := pos_lt _ _ Iu'). lia.
      * congruence.
Qed.

Lemma size_pos d : wf_dom d -> 0 < size d.
Proof. intros W. rewrite size_prodl. apply card_pos; auto. Qed.

(** The rejected inputs. *)
Lemma canonical_length dom x exo endo l lu vt : canon_vars dom x exo endo l lu -> vt <> VTree ->
  length lu <> length l ^ size (order_dom dom endo) -> canonical_deterministic dom exo endo vt = Raise ValueError.
Proof.
  intros Hc Nt Hl. destruct (canonical_unfold dom x exo endo l lu vt Hc) as (Wd & E).
  set (pdom := order_dom dom endo) in *. set (m := size pdom) in *. set (rows := product (repeat l m)) in *.
  assert (Ed := drop_canon _ _ _ _ _ Wd).
  assert (Lr : length rows = length l ^ m) by apply rows_length.
  assert (Lc : length (concat rows) = length rows * m) by (apply concat_length_uniform, rows_uniform).
  assert (Pm : 0 < m). { apply size_pos. apply wf_dom_cons in Wd as (_ & _ & _ & Wd). apply wf_dom_cons in Wd. apply Wd. }
  rewrite E. unfold df_init. cbn [set_variables bind].
  set (rv := filter (fun v => negb (mem v [x])) (keys ((x, l) :: (exo, lu) :: pdom))).
  destruct (negb (length (filter (fun v => negb (mem v rv)) (keys ((x, l) :: (exo, lu) :: pdom))) =? 1)); [reflexivity|].
  assert (Erd : dfilter (fun w => mem w rv) ((x, l) :: (exo, lu) :: pdom) = (exo, lu) :: pdom).
  { transitivity (drop [x] ((x, l) :: (exo, lu) :: pdom)); [|exact Ed]. apply right_domain_drop. intros w J. unfold rv. rewrite in_filter_not. tauto. }
  rewrite Erd. cbn [bind shape].
  assert (Q : prodl (card ((exo, lu) :: pdom)) = length lu * m) by (rewrite card_cons, prodl_cons; unfold m; rewrite size_prodl; reflexivity).
  assert (Ne : length (concat rows) <> length lu * m).
  { rewrite Lc, Lr. intros Z. apply Nat.mul_cancel_r in Z; lia. }
  destruct vt; try congruence; cbn [st_init flat shape].
  - rewrite card_cons. destruct (eqd [length rows; m] (length lu :: card pdom)) as [Z|Z].
    + exfalso. injection Z as Z _. congruence.
    + rewrite andb_false_r. reflexivity.
  - rewrite Q. destruct (Nat.eqb_spec (length (concat rows)) (length lu * m)); [contradiction|reflexivity].
  - rewrite Q. destruct (Nat.eqb_spec (length (concat rows)) (length lu * m)); [contradiction|reflexivity].
Qed.

Lemma canonical_numpy dom x exo endo l lu : canon_vars dom x exo endo l lu -> length endo <> 1 ->
  canonical_deterministic dom exo endo VNumpy = Raise ValueError.
Proof.
  intros Hc Nt. destruct (canonical_unfold dom x exo endo l lu VNumpy Hc) as (Wd & E).
  set (pdom := order_dom dom endo) in *. set (m := size pdom) in *. set (rows := product (repeat l m)) in *.
  assert (Ed := drop_canon _ _ _ _ _ Wd).
  rewrite E. unfold df_init. cbn [set_variables bind].
  set (rv := filter (fun v => negb (mem v [x])) (keys ((x, l) :: (exo, lu) :: pdom))).
  destruct (negb (length (filter (fun v => negb (mem v rv)) (keys ((x, l) :: (exo, lu) :: pdom))) =? 1)); [reflexivity|].
  assert (Erd : dfilter (fun w => mem w rv) ((x, l) :: (exo, lu) :: pdom) = (exo, lu) :: pdom).
  { transitivity (drop [x] ((x, l) :: (exo, lu) :: pdom)); [|exact Ed]. apply right_domain_drop. intros w J. unfold rv. rewrite in_filter_not. tauto. }
  rewrite Erd. cbn [bind shape st_init length].
  assert (L : length pdom = length endo) by (unfold pdom, order_dom; apply map_length).
  destruct (Nat.eqb_spec 2 (S (length pdom))); [lia|reflexivity].
Qed.

Lemma canonical_not_one dom exo endo vt :
  length (filter (fun v => negb (mem v endo) && negb (if eqd v exo then true else false)) (keys dom)) <> 1 ->
  canonical_deterministic dom exo endo vt = Raise ValueError.
Proof.
  intros H. unfold canonical_deterministic.
  destruct (filter (fun v => negb (mem v endo) && negb (if eqd v exo then true else false)) (keys dom)) as [|a [|b r]]; try reflexivity.
  simpl in H. congruence.
Qed.

(** ** Interval factors *)

Lemma bound_not_in dom : usable dom -> ~ In bound_var (keys dom).
Proof. intros (_ & _ & H) J. apply (H _ "bound"%string J). reflexivity. Qed.

Lemma visible_usable dom : usable dom -> visible dom = dom.
Proof.
  intros (_ & _ & H). apply dfilter_true. intros v J. apply negb_true_iff. destruct (underscored v) eqn:E; auto.
  apply underscored_spec in E as (s & ->). exfalso. apply (H _ s J). reflexivity.
Qed.

Lemma visible_bound dom : usable dom -> visible ((bound_var, [low; up]) :: dom) = dom.
Proof. intros U. transitivity (visible dom); [reflexivity|]. apply visible_usable; auto. Qed.

Lemma wf_bound dom : usable dom -> wf_dom ((bound_var, [low; up]) :: dom).
Proof.
  intros U. apply wf_dom_cons. split; [apply bound_not_in; auto|]. split.
  - constructor; [intros [H|[]]; discriminate|]. constructor; [intros []|constructor].
  - split; [discriminate|]. apply usable_wf; auto.
Qed.

Lemma full_bound dom o b : usable dom -> full dom o -> In b [low; up] -> full ((bound_var, [low; up]) :: dom) ((bound_var, b) :: o).
Proof.
  intros U F I v l [J|J].
  - injection J as <- <-. exists b. cbn [dget]. rewrite eqd_refl. auto.
  - cbn [dget]. rewrite eqd_neq; [apply (F v l J)|]. intros ->. apply (bound_not_in dom U). apply keys_In; eauto.
Qed.

Lemma rowpos_bound dom o : usable dom -> full dom o ->
  rowpos ((bound_var, [low; up]) :: dom) ((bound_var, low) :: o) = rowpos dom o /\
  rowpos ((bound_var, [low; up]) :: dom) ((bound_var, up) :: o) = size dom + rowpos dom o.
Proof.
  intros U F.
  assert (E : forall b, rowpos dom ((bound_var, b) :: o) = rowpos dom o).
  { intros b. assert (F' : full dom ((bound_var, b) :: o)).
    { intros v l J. cbn [dget]. rewrite eqd_neq; [apply (F v l J)|]. intros ->. apply (bound_not_in dom U). apply keys_In; eauto. }
    rewrite !rowpos_ravel by auto. f_equal. apply coords_ext. intros v J. unfold asg_of, over. cbn [dget].
    rewrite eqd_neq; auto. intros ->. apply (bound_not_in dom U J). }
  cbn [rowpos dget]. rewrite !E. split; [reflexivity|].
  change (1 * size dom + rowpos dom o = size dom + rowpos dom o). lia.
Qed.

Lemma if_init_ok dom vl vu xs ys lv vt : usable dom -> length xs = size dom -> length ys = size dom ->
  process_array dom vl = Ok (mkNd (card dom) xs) -> process_array dom vu = Ok (mkNd (card dom) ys) ->
  exists g, if_init dom vl vu (Some lv) None vt = Ok g /\ wf_store (if_store g) /\
    st_domain (if_store g) = (bound_var, [low; up]) :: dom /\ st_type (if_store g) = vt /\
    if_right g = filter (fun v => negb (mem v lv)) (bound_var :: keys dom) /\
    (forall o, full dom o -> exists x, get_value (if_store g) ((bound_var, low) :: o) = Ok x /\ nth_error xs (rowpos dom o) = Some x) /\
    (forall o, full dom o -> exists x, get_value (if_store g) ((bound_var, up) :: o) = Ok x /\ nth_error ys (rowpos dom o) = Some x).
Proof.
  intros U Lx Ly Px Py. unfold if_init. rewrite (usable_check _ U). cbn [bind]. rewrite Px. cbn [bind]. rewrite Py. cbn [bind shape flat].
  rewrite eqd_refl.
  assert (Ed : dmerge [(bound_var, [low; up])] dom = (bound_var, [low; up]) :: dom).
  { apply (dmerge_disjoint [(bound_var, [low; up])] dom); [apply (usable_wf _ U)|].
    intros k J [E|[]]. simpl in E. subst k. apply (bound_not_in dom U J). }
  rewrite Ed.
  destruct (init_store vt ((bound_var, [low; up]) :: dom) (xs ++ ys) (wf_bound dom U)) as (s & Es & Ws & Ds & Ts & Hs & _).
  { rewrite app_length, Lx, Ly. cbn [size length]. lia. }
  rewrite card_cons in Es. cbn [length] in Es. rewrite Es. cbn [bind set_variables].
  exists (MkI s (filter (fun v => negb (mem v lv)) (keys ((bound_var, [low; up]) :: dom)))).
  split; [reflexivity|]. cbn [if_store if_right]. repeat (split; [now auto|]). split.
  - intros o F. destruct (Hs _ (full_bound dom o low U F (or_introl eq_refl))) as (x & G & N). exists x. split; [auto|].
    rewrite (proj1 (rowpos_bound dom o U F)) in N. rewrite nth_error_app1 in N; auto.
    rewrite Lx, size_prodl, rowpos_ravel by auto. apply ravel_lt, coords_bounds, full_valid; auto.
  - intros o F. destruct (Hs _ (full_bound dom o up U F (or_intror (or_introl eq_refl)))) as (x & G & N). exists x. split; [auto|].
    rewrite (proj2 (rowpos_bound dom o U F)) in N. rewrite nth_error_app2 in N by lia. rewrite Lx in N.
    replace (size dom + rowpos dom o - size dom) with (rowpos dom o) in N by lia. auto.
Qed.

Lemma process_flist dom xs : length xs = size dom -> process_array dom (flist xs) = Ok (mkNd (card dom) xs).
Proof.
  intros L. unfold process_array. rewrite (process_given dom (flist xs) xs); [reflexivity|auto|left; auto].
Qed.

(** The bounds of an interval factor read off its store. *)
Lemma interval_store g dom o lo hi : usable dom -> wf_store (if_store g) ->
  st_domain (if_store g) = (bound_var, [low; up]) :: dom -> full dom o ->
  (interval g o lo hi <-> get_value (if_store g) ((bound_var, low) :: o) = Ok (Fin lo) /\
                          get_value (if_store g) ((bound_var, up) :: o) = Ok (Fin hi)).
Proof.
  intros U W D F.
  assert (Hb : forall b, In b [low; up] -> exists s, st_restrict (if_store g) [(bound_var, b)] = Ok s /\
            forall o, full dom o -> exists x, get_value s o = Ok x /\ get_value (if_store g) ((bound_var, b) :: o) = Ok x).
  { intros b I. destruct (restrict_obs (if_store g) [(bound_var, b)] W) as (s & Es & _ & _ & _ & Hs).
    - intros v l x J E. cbn [dget] in E. destruct (eqd v bound_var) as [->|]; [|discriminate]. injection E as <-.
      rewrite D in J. destruct J as [J|J]; [injection J as <-; auto|]. exfalso. apply (bound_not_in dom U). apply keys_In; eauto.
    - exists s. split; [auto|]. intros o' F'. apply Hs. rewrite D. intros v l J. apply (F' v l).
      apply filter_In in J as [[J|J] Jn]; [|auto]. injection J as <- <-. discriminate Jn. }
  destruct (Hb low (or_introl eq_refl)) as (sl & El & Hl). destruct (Hb up (or_intror (or_introl eq_refl))) as (su & Eu & Hu).
  destruct (Hl o F) as (x & Gx & Sx). destruct (Hu o F) as (y & Gy & Sy).
  unfold interval, store_low, store_up. split.
  - intros (sl' & su' & A & B & C & E). assert (sl' = sl) by congruence. assert (su' = su) by congruence. subst. split; congruence.
  - intros [A B]. exists sl, su. repeat (split; [congruence|]). congruence.
Qed.

Lemma np_min2_fin p q : exists r, np_min2 (Fin p) (Fin q) = Fin r /\ (r = p \/ r = q) /\ (r <= p)%Qc /\ (r <= q)%Qc.
Proof.
  unfold np_min2. cbn [nltb]. destruct (Qclt_le_dec q p) as [L|L].
  - exists q. split; [reflexivity|]. split; [auto|]. split; [apply Qclt_le_weak; auto|apply Qcle_refl].
  - exists p. split; [reflexivity|]. split; [auto|]. split; [apply Qcle_refl|auto].
Qed.

Lemma fold_min_fin qs : forall q0, exists r, fold_left np_min2 (map Fin qs) (Fin q0) = Fin r /\
    (r = q0 \/ In r qs) /\ (r <= q0)%Qc /\ forall q, In q qs -> (r <= q)%Qc.
Proof.
  induction qs as [|q qs IH]; intros q0; cbn [map fold_left].
  - exists q0. split; [reflexivity|]. split; [auto|]. split; [apply Qcle_refl|intros ? []].
  - destruct (np_min2_fin q0 q) as (r1 & -> & H1 & L1 & L2). destruct (IH r1) as (r & -> & H2 & L3 & L4).
    exists r. split; [reflexivity|]. split.
    + destruct H2 as [->|H2]; [|simpl; auto]. destruct H1 as [-> | ->]; simpl; auto.
    + split; [qclra|]. intros q' [<-|J]; [qclra|]. auto.
Qed.

Lemma mapM_fin {A} (f : A -> res num) l : (forall x, In x l -> exists q, f x = Ok (Fin q)) ->
  exists qs, mapM f l = Ok (map Fin qs) /\ Forall2 (fun x q => f x = Ok (Fin q)) l qs.
Proof.
  induction l as [|x l IH]; intros H; [exists []; split; [reflexivity|constructor]|].
  destruct (H x (or_introl eq_refl)) as (q & E). destruct IH as (qs & E' & F); [intros y J; apply H; right; auto|].
  exists (q :: qs). split; [|constructor; auto]. cbn [mapM map]. rewrite E. cbn [bind]. rewrite E'. reflexivity.
Qed.

Lemma Forall2_In_l {A B} (P : A -> B -> Prop) l m x : Forall2 P l m -> In x l -> exists y, In y m /\ P x y.
Proof.
  induction 1 as [|a b l m Hab F IH]; [intros []|]. intros [<-|J]; [exists b; simpl; auto|].
  destruct (IH J) as (y & I & Q). exists y; simpl; auto.
Qed.
Lemma Forall2_In_r {A B} (P : A -> B -> Prop) l m y : Forall2 P l m -> In y m -> exists x, In x l /\ P x y.
Proof.
  induction 1 as [|a b l m Hab F IH]; [intros []|]. intros [<-|J]; [exists a; simpl; auto|].
  destruct (IH J) as (x & I & Q). exists x; simpl; auto.
Qed.

Lemma from_precise_ok dflt fs f0 : In f0 fs ->
  (forall f, In f fs -> wf_mf f /\ mf_domain f = mf_domain f0 /\ all_finite f) ->
  exists g, from_precise dflt fs = Ok g /\ wf_store (if_store g) /\
    st_domain (if_store g) = (bound_var, [low; up]) :: mf_domain f0 /\ st_type (if_store g) = dflt /\ if_domain g = mf_domain f0 /\
    (exists f1, hd_error fs = Some f1 /\ forall v, In v (if_left g) <-> In v (mf_left f1)) /\
    forall o, full (mf_domain f0) o -> exists lo hi, interval g o lo hi /\
      (exists f, In f fs /\ mf_get_value f o = Ok (Fin lo)) /\
      (exists f, In f fs /\ mf_get_value f o = Ok (Fin hi)) /\
      (forall f q, In f fs -> mf_get_value f o = Ok (Fin q) -> (lo <= q)%Qc /\ (q <= hi)%Qc).
Proof.
  intros I0 H. destruct fs as [|f1 fs]; [destruct I0|]. unfold from_precise.
  destruct (H f0 I0) as (Wf0 & _ & _). set (dom := mf_domain f0) in *.
  assert (D1 : mf_domain f1 = dom) by (apply H; left; auto). rewrite D1.
  assert (U : usable dom) by apply Wf0. assert (W := usable_wf _ U).
  assert (Ea : forallb (fun f => if eqd dom (mf_domain f) then true else false) (f1 :: fs) = true).
  { apply forallb_forall. intros f J. destruct (H f J) as (_ & -> & _). destruct (eqd dom dom); congruence. }
  rewrite Ea. rewrite assignment_space_all.
  set (L := all_assignments dom).
  assert (FL : forall o, In o L -> full dom o) by (intros o J; apply all_assignments_In_full in J; [apply J|apply W]).
  assert (Hrow : forall o, In o L -> exists q0 qs, mapM (fun f => mf_get_value f o) (f1 :: fs) = Ok (map Fin (q0 :: qs)) /\
            Forall2 (fun f q => mf_get_value f o = Ok (Fin q)) (f1 :: fs) (q0 :: qs)).
  { intros o J. destruct (mapM_fin (fun f => mf_get_value f o) (f1 :: fs)) as (qs & E & F).
    - intros f Jf. destruct (H f Jf) as (_ & Df & Af). apply Af. rewrite Df. auto.
    - destruct qs as [|q0 qs]; [inversion F|]. eauto. }
  assert (Hall : exists rows los his, mapM (fun o => mapM (fun f => mf_get_value f o) (f1 :: fs)) L = Ok rows /\
            mapM red_npmin rows = Ok los /\ mapM red_npmax rows = Ok his /\ length los = length L /\ length his = length L /\
            forall i o, nth_error L i = Some o -> exists lo hi, nth_error los i = Some (Fin lo) /\ nth_error his i = Some (Fin hi) /\
              (exists f, In f (f1 :: fs) /\ mf_get_value f o = Ok (Fin lo)) /\
              (exists f, In f (f1 :: fs) /\ mf_get_value f o = Ok (Fin hi)) /\
              (forall f q, In f (f1 :: fs) -> mf_get_value f o = Ok (Fin q) -> (lo <= q)%Qc /\ (q <= hi)%Qc)).
  { clear -Hrow. induction L as [|o L IH].
    - exists [], [], []. repeat (split; [reflexivity|]). intros [|i] o E; discriminate E.
    - destruct IH as (rows & los & his & E1 & E2 & E3 & L1 & L2 & HI); [intros o' J; apply Hrow; right; auto|].
      destruct (Hrow o (or_introl eq_refl)) as (q0 & qs & Er & Fr).
      destruct (fold_min_fin qs q0) as (lo & Emin & Hm & M1 & M2).
      destruct (fold_max_fin np_max np_max_fin qs q0) as (hi & Emax & Hx & X1 & X2).
      exists (map Fin (q0 :: qs) :: rows), (Fin lo :: los), (Fin hi :: his).
      split; [|split; [|split; [|split; [|split]]]].
      + change (mapM (fun o => mapM (fun f => mf_get_value f o) (f1 :: fs)) (o :: L)) with
          (let* y := mapM (fun f => mf_get_value f o) (f1 :: fs) in
           let* r := mapM (fun o => mapM (fun f => mf_get_value f o) (f1 :: fs)) L in Ok (y :: r)).
        rewrite Er. cbn [bind]. rewrite E1. reflexivity.
      + change (mapM red_npmin (map Fin (q0 :: qs) :: rows)) with
          (let* y := Ok (fold_left np_min2 (map Fin qs) (Fin q0)) in let* r := mapM red_npmin rows in Ok (y :: r)).
        rewrite Emin, E2. reflexivity.
      + change (mapM red_npmax (map Fin (q0 :: qs) :: rows)) with
          (let* y := Ok (fold_left np_max (map Fin qs) (Fin q0)) in let* r := mapM red_npmax rows in Ok (y :: r)).
        rewrite Emax, E3. reflexivity.
      + simpl. congruence.
      + simpl. congruence.
      + intros [|i] o' E; [|apply (HI i o' E)]. injection E as <-. exists lo, hi. split; [reflexivity|]. split; [reflexivity|].
        split; [|split].
        * apply (Forall2_In_r _ _ _ lo Fr). destruct Hm as [->|Hm]; simpl; auto.
        * apply (Forall2_In_r _ _ _ hi Fr). destruct Hx as [->|Hx]; simpl; auto.
        * intros f q Jf Gq. destruct (Forall2_In_l _ _ _ f Fr Jf) as (q' & Jq & Gq'). assert (q' = q) by congruence. subst q'.
          destruct Jq as [<-|Jq]; auto. }
  destruct Hall as (rows & los & his & E1 & E2 & E3 & L1 & L2 & HI).
  rewrite E1. cbn [bind]. rewrite E2. cbn [bind]. rewrite E3. cbn [bind].
  assert (LL : length L = size dom) by (unfold L; rewrite all_assignments_length, size_prodl; reflexivity).
  destruct (if_init_ok dom (flist los) (flist his) los his (mf_left f1) dflt U) as (g & Eg & Wg & Dg & Tg & Rg & Hlo & Hhi);
    [congruence|congruence|apply process_flist; congruence|apply process_flist; congruence|].
  exists g. split; [exact Eg|]. split; [auto|]. split; [auto|]. split; [auto|].
  assert (Did : if_domain g = dom) by (unfold if_domain; rewrite Dg; apply visible_bound; auto).
  split; [auto|]. split.
  { exists f1. split; [reflexivity|]. intros v. unfold if_left, if_vars. rewrite Did, Rg. rewrite filter_In, negb_true_iff. rewrite mf_left_In.
    unfold mf_vars. rewrite D1. split.
    - intros [J M]. split; [auto|]. intros R. apply mem_nIn in M. apply M. apply filter_In. split; [right; auto|].
      apply negb_true_iff, mem_nIn. rewrite mf_left_In. tauto.
    - intros [J M]. split; [auto|]. apply mem_nIn. intros J2. apply filter_In in J2 as [_ J2]. apply negb_true_iff, mem_nIn in J2.
      apply J2, mf_left_In. unfold mf_vars. rewrite D1. auto. }
  intros o F.
  assert (Eo : exists o', nth_error L (rowpos dom o) = Some o' /\ forall f, wf_mf f -> mf_domain f = dom -> mf_get_value f o' = mf_get_value f o).
  { exists (obs_of (keys dom) (asg_of o)). split.
    - rewrite rowpos_ravel by auto. apply all_assignments_nth, full_valid; auto.
    - intros f Wf Df. apply get_value_agree; [apply Wf|unfold mf_domain in Df; rewrite Df; auto|].
      unfold mf_domain in Df. rewrite Df. intros v J. rewrite obs_of_get by auto. symmetry. apply full_agrees with (d := dom); auto. }
  destruct Eo as (o' & No & Ho'). destruct (HI _ _ No) as (lo & hi & Nl & Nh & (fl & Jl & Gl) & (fh & Jh & Gh) & Hb).
  exists lo, hi. split.
  - apply (interval_store g dom); auto. destruct (Hlo o F) as (x & Gx & Nx). destruct (Hhi o F) as (y & Gy & Ny). split; congruence.
  - assert (Hf : forall f, In f (f1 :: fs) -> mf_get_value f o' = mf_get_value f o).
    { intros f J. destruct (H f J) as (A & B & _). apply Ho'; auto. }
    split; [exists fl; rewrite <- Hf; auto|]. split; [exists fh; rewrite <- Hf; auto|].
    intros f q Jf Gq. rewrite <- Hf in Gq by auto. eauto.
Qed.

Lemma from_precise_empty dflt : from_precise dflt [] = Raise IndexError.
Proof. reflexivity. Qed.

Lemma from_precise_domains dflt f0 fs f : In f fs -> mf_domain f <> mf_domain f0 -> from_precise dflt (f0 :: fs) = Raise ValueError.
Proof.
  intros J N. unfold from_precise.
  assert (forallb (fun f => if eqd (mf_domain f0) (mf_domain f) then true else false) (f0 :: fs) = false) as ->; [|reflexivity].
  destruct (forallb (fun f => if eqd (mf_domain f0) (mf_domain f) then true else false) (f0 :: fs)) eqn:E; auto. exfalso.
  rewrite forallb_forall in E. assert (Q := E f (or_intror J)). cbn beta in Q. destruct (eqd (mf_domain f0) (mf_domain f)); congruence.
Qed.

Lemma process_given0 d (l : list num) : length l = prodl (card d) -> process_values d (flist l) = Ok (DArr (mkNd (card d) l)).
Proof. intros L. apply process_given; [rewrite size_prodl; auto|left; auto]. Qed.

Lemma process_st_array (s : store num) : wf_store s -> st_type s <> VTree ->
  exists xs, process_array (st_domain s) (st_data s) = Ok (mkNd (card (st_domain s)) xs) /\ length xs = size (st_domain s) /\
    forall o, full (st_domain s) o -> exists x, get_value s o = Ok x /\ nth_error xs (rowpos (st_domain s) o) = Some x.
Proof.
  intros W T. assert (P := process_st_data s W). unfold process_array.
  assert (X : exists xs, process_values (st_domain s) (st_data s) = Ok (DArr (mkNd (card (st_domain s)) xs)) /\ length xs = size (st_domain s)).
  { rewrite size_prodl. destruct s as [d [sh xs]|d l|d l|d t]; cbn [st_data st_domain st_type] in *; try congruence.
    - destruct W as (_ & Sa & La). cbn [shape flat] in *. subst sh.
      exists xs. split; [|exact La]. cbn [st_domain process_values shape flat].
      destruct d as [|[v1 l1] [|[v2 l2] d]]; rewrite ?card_cons.
      + destruct xs as [|x [|y r]]; try discriminate La. reflexivity.
      + cbn [card vals map]. unfold np_reshape. cbn [flat]. rewrite card_cons in La. rewrite La. unfold card, vals. cbn [map]. rewrite Nat.eqb_refl. reflexivity.
      + reflexivity.
    - exists l. destruct W as (_ & L). split; [|exact L]. apply (process_given0 d l). exact L.
    - exists l. destruct W as (_ & L). split; [|exact L]. apply (process_given0 d l). exact L. }
  destruct X as (xs & E & L). rewrite E in *. cbn [bind] in *. exists xs. split; [reflexivity|]. split; [auto|].
  destruct (init_store (st_type s) (st_domain s) xs) as (s' & Es & _ & _ & _ & H & _); [apply W|auto|].
  assert (s' = s) by congruence. subst s'. exact H.
Qed.

Lemma if_restrict_ok g dom o : wf_store (if_store g) -> usable dom ->
  st_domain (if_store g) = (bound_var, [low; up]) :: dom -> if_vtype g <> VTree ->
  (forall v l x, In (v, l) dom -> dget v o = Some x -> In x l) -> ~ In bound_var (keys o) ->
  (forall o, full dom o -> exists lo hi, interval g o lo hi) ->
  exists g', if_restrict g o = Ok g' /\ wf_store (if_store g') /\ st_domain (if_store g') = (bound_var, [low; up]) :: drop (keys o) dom /\
    if_domain g' = drop (keys o) dom /\ if_vtype g' = if_vtype g /\
    (forall v, In v (if_left g') <-> In v (if_left g) /\ ~ In v (keys o)) /\
    forall o', full (drop (keys o) dom) o' -> forall lo hi, interval g' o' lo hi <-> interval g (o ++ o') lo hi.
Proof.
  intros W U D T K Nb Fin_. unfold if_restrict.
  assert (Did : if_domain g = dom) by (unfold if_domain; rewrite D; apply visible_bound; auto).
  destruct (existsb (fun v => mem v (keys (st_domain (if_store g)))) (keys o)) eqn:E; cbn [negb].
  2:{ assert (Hk : forall v, In v (keys o) -> ~ In v (keys dom)).
      { intros v J J2. assert (X := existsb_mem_false _ _ E v J). apply X. rewrite D. right; auto. }
      assert (Ed : drop (keys o) dom = dom) by (apply drop_none; auto).
      exists g. split; [reflexivity|]. rewrite Ed. split; [auto|]. split; [auto|]. split; [auto|]. split; [auto|]. split.
      - intros v. split; [|tauto]. intros J. split; [auto|]. intros J2. apply (Hk v J2).
        unfold if_left, if_vars in J. apply filter_In in J as [J _]. rewrite Did in J. auto.
      - intros o' F lo hi.
        assert (F2 : full dom (o ++ o')).
        { intros v l J. rewrite dget_app. assert (dget v o = None) as ->; [|apply (F v l J)].
          apply dget_None. intros J2. apply (Hk v J2). apply keys_In; eauto. }
        rewrite (interval_store g dom o' lo hi U W D F), (interval_store g dom (o ++ o') lo hi U W D F2).
        assert (G : forall b, In b [low; up] -> get_value (if_store g) ((bound_var, b) :: o ++ o') = get_value (if_store g) ((bound_var, b) :: o')).
        { intros b Ib. apply get_value_agree; [auto|rewrite D; apply full_bound; auto|]. rewrite D. intros v J. cbn [dget].
          destruct (eqd v bound_var) as [->|Nv]; [reflexivity|]. rewrite dget_app. assert (dget v o = None) as ->; [|reflexivity].
          apply dget_None. intros J2. destruct J as [J|J]; [simpl in J; congruence|]. apply (Hk v J2 J). }
        rewrite !G; simpl; tauto. }
  destruct (restrict_obs (if_store g) o W) as (s & Es & Ws & Ts & Ds & Hs).
  { rewrite D. intros v l x [J|J] Ex; [injection J as <- <-; exfalso; apply Nb; apply dget_In in Ex; apply keys_In; eauto|]. eapply K; eauto. }
  rewrite Es. cbn [bind].
  assert (Ud : usable (drop (keys o) dom)) by (apply usable_drop; auto).
  assert (Ds' : st_domain s = (bound_var, [low; up]) :: drop (keys o) dom).
  { rewrite Ds, D, drop_cons. assert (mem bound_var (keys o) = false) as -> by (apply mem_nIn; auto). reflexivity. }
  assert (Hb : forall b, In b [low; up] -> exists sb, st_restrict s [(bound_var, b)] = Ok sb /\ wf_store sb /\ st_type sb = st_type s /\
            st_domain sb = drop (keys o) dom /\
            forall o', full (drop (keys o) dom) o' -> exists x, get_value sb o' = Ok x /\ get_value s ((bound_var, b) :: o') = Ok x).
  { intros b I. destruct (restrict_obs s [(bound_var, b)] Ws) as (sb & Eb & Wb & Tb & Db & Hsb).
    - intros v l x J Ex. cbn [dget] in Ex. destruct (eqd v bound_var) as [->|]; [|discriminate]. injection Ex as <-.
      rewrite Ds' in J. destruct J as [J|J]; [injection J as <-; auto|]. exfalso. apply (bound_not_in _ Ud). apply keys_In; eauto.
    - assert (Db' : st_domain sb = drop (keys o) dom).
      { rewrite Db, Ds', drop_cons. assert (mem bound_var (keys [(bound_var, b)]) = true) as -> by (apply mem_In; left; auto).
        apply drop_none. intros v [<-|[]]. apply (bound_not_in _ Ud). }
      exists sb. repeat (split; [now auto|]). rewrite <- Db in Hsb. rewrite Db' in Hsb. exact Hsb. }
  destruct (Hb low (or_introl eq_refl)) as (sl & El & Wl & Tl & Dl & Hl). rewrite El. cbn [bind].
  destruct (Hb up (or_intror (or_introl eq_refl))) as (su & Eu & Wu & Tu & Du & Hu). rewrite Eu. cbn [bind].
  assert (Ts' : st_type s = if_vtype g) by exact Ts.
  destruct (process_st_array sl Wl) as (xs & Px & Lx & Hx); [congruence|].
  destruct (process_st_array su Wu) as (ys & Py & Ly & Hy); [congruence|].
  rewrite Dl in Px, Lx, Hx. rewrite Du in Py, Ly, Hy.
  assert (Ev : visible (st_domain s) = drop (keys o) dom) by (rewrite Ds'; apply visible_bound; auto).
  rewrite Ev.
  set (nl := filter (fun v => mem v (if_left g)) (st_variables s)).
  destruct (if_init_ok (drop (keys o) dom) (st_data sl) (st_data su) xs ys nl (if_vtype g) Ud Lx Ly Px Py) as (g' & Eg & Wg & Dg & Tg & Rg & Glo & Ghi).
  exists g'. split; [exact Eg|]. split; [exact Wg|]. split; [exact Dg|].
  assert (Did' : if_domain g' = drop (keys o) dom) by (unfold if_domain; rewrite Dg; apply visible_bound; auto).
  split; [auto|]. split; [exact Tg|].
  assert (Hnl : forall v, In v nl <-> In v (if_left g) /\ ~ In v (keys o)).
  { intros v. unfold nl, st_variables. rewrite filter_In, mem_In, Ds'. split.
    - intros [J L]. split; [auto|]. destruct J as [J|J].
      + simpl in J. subst v. exfalso. unfold if_left, if_vars in L. apply filter_In in L as [L _]. rewrite Did in L. apply (bound_not_in _ U L).
      + apply In_keys_drop in J. tauto.
    - intros [L N]. split; [|auto]. right. apply In_keys_drop. split; [|auto].
      unfold if_left, if_vars in L. apply filter_In in L as [L _]. rewrite Did in L. auto. }
  split.
  { intros v. rewrite <- Hnl. unfold if_left at 1, if_vars. rewrite Did', Rg, filter_In, negb_true_iff. split.
    - intros [J M]. apply mem_nIn in M. destruct (in_dec string_dec v nl) as [|Z]; auto. exfalso. apply M. apply filter_In.
      split; [right; auto|]. apply negb_true_iff, mem_nIn. auto.
    - intros J. split.
      + apply Hnl in J as [L N]. apply In_keys_drop. split; [|auto].
        unfold if_left, if_vars in L. apply filter_In in L as [L _]. rewrite Did in L. auto.
      + apply mem_nIn. intros J2. apply filter_In in J2 as [_ J2]. apply negb_true_iff, mem_nIn in J2. auto. }
  intros o' F lo hi.
  assert (F2 : full dom (o ++ o')).
  { intros v l J. rewrite dget_app. destruct (dget v o) as [x|] eqn:Ex.
    - exists x. split; [auto|]. eapply K; eauto.
    - apply (F v l). apply filter_In. split; [auto|]. apply negb_true_iff, mem_nIn. cbn [fst]. apply dget_None. auto. }
  rewrite (interval_store g' (drop (keys o) dom) o' lo hi Ud Wg Dg F), (interval_store g dom (o ++ o') lo hi U W D F2).
  assert (G : forall b, In b [low; up] -> forall x, get_value s ((bound_var, b) :: o') = Ok x -> get_value (if_store g) ((bound_var, b) :: o ++ o') = Ok x).
  { intros b Ib x Gx. destruct (Hs ((bound_var, b) :: o')) as (x' & G1 & G2).
    - rewrite <- Ds, Ds'. apply full_bound; auto.
    - assert (x' = x) by congruence. subst x'. rewrite <- G2. apply get_value_agree; [auto| |].
      + rewrite D. intros v l J. rewrite dget_app. cbn [dget]. destruct J as [J|J].
        * injection J as <- <-. assert (dget bound_var o = None) as -> by (apply dget_None; auto). rewrite eqd_refl. eauto.
        * destruct (dget v o) as [z|] eqn:Ez; [exists z; split; [auto|eapply K; eauto]|].
          rewrite eqd_neq; [|intros ->; apply (bound_not_in _ U); apply keys_In; eauto].
          apply (F v l). apply filter_In. split; [auto|]. apply negb_true_iff, mem_nIn. cbn [fst]. apply dget_None. auto.
      + intros v J. rewrite D in J. cbn [dget]. rewrite !dget_app. cbn [dget]. destruct (eqd v bound_var) as [->|Nv]; [|reflexivity].
        assert (dget bound_var o = None) as -> by (apply dget_None; auto). reflexivity. }
  destruct (Glo o' F) as (x1 & A1 & A2). destruct (Hx o' F) as (x2 & A3 & A4). destruct (Hl o' F) as (x3 & A5 & A6).
  destruct (Ghi o' F) as (y1 & B1 & B2). destruct (Hy o' F) as (y2 & B3 & B4). destruct (Hu o' F) as (y3 & B5 & B6).
  apply (G low (or_introl eq_refl)) in A6. apply (G up (or_intror (or_introl eq_refl))) in B6.
  assert (x1 = x3) by congruence. assert (y1 = y3) by congruence. subst. rewrite A1, B1, A6, B6. tauto.
Qed.

(** Restricting commutes with taking the envelope. *)
Lemma envelope_restrict dflt fs f0 o g : In f0 fs -> dflt <> VTree ->
  (forall f, In f fs -> wf_mf f /\ mf_domain f = mf_domain f0 /\ all_finite f) ->
  (forall v l x, In (v, l) (mf_domain f0) -> dget v o = Some x -> In x l) -> ~ In bound_var (keys o) ->
  from_precise dflt fs = Ok g ->
  exists fs' g1 g2, mapM (fun f => mf_restrict f o) fs = Ok fs' /\ from_precise dflt fs' = Ok g1 /\ if_restrict g o = Ok g2 /\
    if_domain g1 = drop (keys o) (mf_domain f0) /\ if_domain g2 = drop (keys o) (mf_domain f0) /\
    (forall v, In v (if_left g1) <-> In v (if_left g2)) /\
    forall o', full (drop (keys o) (mf_domain f0)) o' -> exists lo hi, interval g1 o' lo hi /\ interval g2 o' lo hi.
Proof.
  intros I0 Nt H K Nb E. destruct (H f0 I0) as (Wf0 & _ & _). set (dom := mf_domain f0) in *.
  assert (U : usable dom) by apply Wf0.
  destruct (from_precise_ok dflt fs f0 I0 H) as (g' & E' & Wg & Dg & Tg & Idg & (f1 & Hf1 & Lg) & Hg). assert (g' = g) by congruence. subst g'. clear E'.
  assert (Hr : forall f, In f fs -> exists f', mf_restrict f o = Ok f' /\ wf_mf f' /\ mf_domain f' = drop (keys o) dom /\
            (forall v, In v (mf_left f') <-> In v (mf_left f) /\ ~ In v (keys o)) /\
            forall o', full (drop (keys o) dom) o' -> exists x, mf_get_value f' o' = Ok x /\ mf_get_value f (o ++ o') = Ok x).
  { intros f J. destruct (H f J) as (Wf & Df & _). destruct (mf_restrict_ok f o Wf) as (f' & Ef & Wf' & _ & Df' & _ & Lf' & Hf').
    - rewrite Df. exact K.
    - rewrite Df in Df', Hf'. eauto 10. }
  destruct (mapM_total (fun f => mf_restrict f o) fs) as (fs' & Efs). { intros f J. destruct (Hr f J) as (f' & Ef & _). eauto. }
  assert (F2 := proj1 (mapM_ok _ _ _) Efs).
  assert (Fo : forall o', full (drop (keys o) dom) o' -> full dom (o ++ o')).
  { intros o' F v l J. rewrite dget_app. destruct (dget v o) as [x|] eqn:Ex.
    - exists x. split; [auto|]. eapply K; eauto.
    - apply (F v l). apply filter_In. split; [auto|]. apply negb_true_iff, mem_nIn. cbn [fst]. apply dget_None. auto. }
  destruct (Forall2_In_l _ _ _ f0 F2 I0) as (f0' & I0' & Ef0').
  assert (Hall : forall f', In f' fs' -> wf_mf f' /\ mf_domain f' = drop (keys o) dom /\ all_finite f').
  { intros f' J'. destruct (Forall2_In_r _ _ _ f' F2 J') as (f & J & Ef). destruct (Hr f J) as (f'' & Ef'' & Wf' & Df' & _ & Hf').
    assert (f'' = f') by congruence. subst f''. split; [auto|]. split; [auto|]. intros o' F. rewrite Df' in F.
    destruct (Hf' o' F) as (x & Gx & Gx'). destruct (H f J) as (_ & Df & Af). destruct (Af (o ++ o')) as (q & Gq); [rewrite Df; auto|].
    exists q. congruence. }
  assert (D0' : mf_domain f0' = drop (keys o) dom) by (apply Hall; auto).
  destruct (from_precise_ok dflt fs' f0' I0') as (g1 & E1 & Wg1 & Dg1 & Tg1 & Idg1 & (f1' & Hf1' & Lg1) & Hg1).
  { rewrite D0'. exact Hall. }
  rewrite D0' in *.
  destruct (if_restrict_ok g dom o Wg U Dg) as (g2 & E2 & _ & _ & Idg2 & _ & Lg2 & Hg2); auto.
  { unfold if_vtype. congruence. } { intros o' F. destruct (Hg o' F) as (lo & hi & J & _). eauto. }
  exists fs', g1, g2. repeat (split; [now auto|]). split.
  { intros v. rewrite Lg1, Lg2, Lg. destruct fs as [|a fs]; [destruct I0|]. destruct fs' as [|a' fs']; [destruct I0'|].
    cbn in Hf1, Hf1'. injection Hf1 as <-. injection Hf1' as <-. inversion F2 as [|? ? ? ? Ea]; subst.
    destruct (Hr a (or_introl eq_refl)) as (a'' & Ea' & _ & _ & La & _). assert (a'' = a') by congruence. subst. apply La. }
  intros o' F. destruct (Hg1 o' F) as (lo & hi & J & (fl & Jl & Gl) & (fh & Jh & Gh) & Hb). exists lo, hi. split; [auto|].
  apply Hg2; auto. destruct (Hg (o ++ o') (Fo o' F)) as (lo2 & hi2 & J2 & (fl2 & Jl2 & Gl2) & (fh2 & Jh2 & Gh2) & Hb2).
  assert (Up : forall f', In f' fs' -> forall q, mf_get_value f' o' = Ok (Fin q) -> exists f, In f fs /\ mf_get_value f (o ++ o') = Ok (Fin q)).
  { intros f' J' q Gq. destruct (Forall2_In_r _ _ _ f' F2 J') as (f & Jf & Ef). destruct (Hr f Jf) as (f'' & Ef'' & _ & _ & _ & Hf').
    assert (f'' = f') by congruence. subst f''. destruct (Hf' o' F) as (x & Gx & Gx'). exists f. split; [auto|congruence]. }
  assert (Dn : forall f, In f fs -> forall q, mf_get_value f (o ++ o') = Ok (Fin q) -> exists f', In f' fs' /\ mf_get_value f' o' = Ok (Fin q)).
  { intros f Jf q Gq. destruct (Hr f Jf) as (f' & Ef & _ & _ & _ & Hf'). destruct (Forall2_In_l _ _ _ f F2 Jf) as (f'' & J'' & Ef'').
    assert (f'' = f') by congruence. subst f''. destruct (Hf' o' F) as (x & Gx & Gx'). exists f'. split; [auto|congruence]. }
  assert (lo = lo2).
  { destruct (Up fl Jl lo Gl) as (f & Jf & Gf). destruct (Dn fl2 Jl2 lo2 Gl2) as (f' & Jf' & Gf').
    apply Qcle_antisym; [apply (Hb f' lo2 Jf' Gf')|apply (Hb2 f lo Jf Gf)]. }
  assert (hi = hi2).
  { destruct (Up fh Jh hi Gh) as (f & Jf & Gf). destruct (Dn fh2 Jh2 hi2 Gh2) as (f' & Jf' & Gf').
    apply Qcle_antisym; [apply (Hb2 f hi Jf Gf)|apply (Hb f' hi2 Jf' Gf')]. }
  subst. exact J2.
Qed.
