(** The order of the functions of canonical equations, and their tables. *)

From Coq Require Import String Bool Arith ZArith QArith Qcanon Lia List.
From Verif Require Import PyBase Num DomainModel NdArray StoreModel NumStore FactorModel GenModel Spec StoreSpec FactorSpec GenSpec
  PyFacts DomainFacts StoreFacts FactorFacts FactorFacts2 FactorFacts3 PropFacts1 GenFacts2 GenFacts3.
From Coq Require Import List.
Import ListNotations.
Local Open Scope nat_scope.
Local Open Scope list_scope.
Local Arguments eqd : simpl never.

Lemma flat_map_nth {A B} (f : A -> list B) (n : nat) : n <> 0 -> forall l i, (forall x, In x l -> length (f x) = n) ->
  nth_error (flat_map f l) i = match nth_error l (i / n) with Some x => nth_error (f x) (i mod n) | None => None end.
Proof.
  intros N. induction l as [|x l IH]; intros i L.
  - cbn. destruct (i / n); cbn; destruct i; reflexivity.
  - cbn [flat_map]. assert (Lx : length (f x) = n) by (apply L; now left). destruct (Nat.lt_ge_cases i n) as [Q | Q].
    + rewrite nth_error_app1 by lia. rewrite Nat.div_small, Nat.mod_small by assumption. reflexivity.
    + rewrite nth_error_app2 by lia. rewrite Lx, IH by (intros y J; apply L; now right).
      assert (E : i = (i - n) + 1 * n) by lia.
      assert (E1 : i / n = S ((i - n) / n)) by (rewrite E at 1; rewrite Nat.div_add by assumption; lia).
      assert (E2 : i mod n = (i - n) mod n) by (rewrite E at 1; now rewrite Nat.mod_add).
      rewrite E1, E2. reflexivity.
Qed.

(** the digits of [i] *)
Lemma rows_digit {A} (l : list A) (m : nat) : forall i j row, nth_error (product (repeat l m)) i = Some row -> j < m ->
  nth_error row j = nth_error l ((i / length l ^ (m - 1 - j)) mod length l).
Proof.
  induction m as [|m IH]; intros i j row E L; [lia|].
  destruct l as [|y0 l'] eqn:El; [cbn in E; destruct i; discriminate E|]. rewrite <- El in *.
  assert (K : length l <> 0) by (rewrite El; discriminate). clear El y0 l'.
  assert (N : length l ^ m <> 0) by (now apply Nat.pow_nonzero).
  cbn [repeat product] in E. rewrite (flat_map_nth _ (length l ^ m) N) in E by (intros x _; rewrite map_length; apply rows_length).
  destruct (nth_error l (i / length l ^ m)) as [x|] eqn:Ex; [|discriminate E]. rewrite nth_error_map in E.
  destruct (nth_error (product (repeat l m)) (i mod length l ^ m)) as [r|] eqn:Er; [|discriminate E]. cbn [option_map] in E. injection E as <-.
  destruct j as [|j].
  - cbn [nth_error]. replace (S m - 1 - 0) with m by lia. rewrite Nat.mod_small; [congruence|]. apply nth_error_Some. congruence.
  - cbn [nth_error]. rewrite (IH _ j r Er) by lia. f_equal. replace (S m - 1 - S j) with (m - 1 - j) by lia.
    set (B := length l ^ (m - 1 - j)). assert (NB : B <> 0) by (now apply Nat.pow_nonzero).
    assert (Em : length l ^ m = B * length l ^ S j) by (unfold B; rewrite <- Nat.pow_add_r; f_equal; lia).
    rewrite Em. rewrite Nat.mod_mul_r by (try assumption; now apply Nat.pow_nonzero).
    rewrite Nat.mul_comm, Nat.div_add by assumption. rewrite (Nat.div_small (i mod B) B) by (now apply Nat.mod_upper_bound). rewrite Nat.add_0_l.
    cbn [Nat.pow]. rewrite Nat.mod_mul_r by (try assumption; now apply Nat.pow_nonzero).
    rewrite (Nat.mul_comm (length l)), Nat.mod_add, Nat.mod_mod by assumption. reflexivity.
Qed.

Lemma canonical_order dom x exo endo l lu vt : canon_vars dom x exo endo l lu -> (vt = VNumpy -> length endo = 1) ->
  length lu = length l ^ size (order_dom dom endo) ->
  exists f, canonical_deterministic dom exo endo vt = Ok f /\
    forall i j u p, nth_error lu i = Some u -> nth_error (all_assignments (order_dom dom endo)) j = Some p ->
      exists y, get_value (df_store f) ((exo, u) :: p) = Ok y /\
        nth_error l ((i / length l ^ (size (order_dom dom endo) - 1 - j)) mod length l) = Some y.
Proof.
  intros Hc Hn Hl. destruct (canonical_rows dom x exo endo l lu vt Hc Hn Hl) as (f & E & Wf & Df & Tf & Rf & Hv). exists f. split; [assumption|].
  intros i j u p Ei Ej. assert (Iu := nth_error_In _ _ Ei). assert (Ip := nth_error_In _ _ Ej).
  destruct (Hv u p Iu Ip) as (row & Er & Eg & B).
  assert (Wu : NoDup lu) by (destruct Hc as (W & _ & I & _); apply (proj2 W exo lu I)).
  assert (Pu : pos u lu = i) by (unfold pos; rewrite (index_of_nth lu i u); auto).
  assert (Wp : wf_dom (order_dom dom endo)) by (destruct Hc as (W & _ & _ & N & I & _); apply order_dom_wf; auto; now inversion N).
  assert (Pj : rowpos (order_dom dom endo) p = j).
  { destruct (enumeration_ok (order_dom dom endo) (proj1 Wp)) as (_ & _ & _ & En & _). rewrite assignment_space_all in En.
    assert (NA : NoDup (all_assignments (order_dom dom endo))) by (apply all_assignments_NoDup; intros v ll J; apply (proj2 Wp v ll J)).
    assert (Ip' := Ip). apply all_assignments_In_full in Ip' as [Kp Fp]; [|apply Wp].
    assert (Q := En p Kp Fp). assert (Lj : j < length (all_assignments (order_dom dom endo))) by (apply nth_error_Some; congruence).
    symmetry. apply (proj1 (NoDup_nth_error _) NA j _ Lj). exact (eq_trans Ej (eq_sym Q)). }
  rewrite Pu in Er. rewrite Pj in *. rewrite (rows_digit l _ i j row Er B) in Eg.
  destruct (nth_error l _) as [y|] eqn:Ey; [eauto|]. exfalso. apply nth_error_None in Ey.
  assert (length l <> 0) by (destruct Hc as (W & I & _); destruct l; [exfalso; now apply (proj2 W x [] I)|discriminate]).
  assert (Q := Nat.mod_upper_bound (i / length l ^ (size (order_dom dom endo) - 1 - j)) (length l) ltac:(assumption)). lia.
Qed.

Lemma canonical_table dom x exo endo l lu vt : usable dom -> canon_vars dom x exo endo l lu -> (vt = VNumpy -> length endo = 1) ->
  length lu = length l ^ size (order_dom dom endo) ->
  exists f c, canonical_deterministic dom exo endo vt = Ok f /\ canonical_multinomial dom exo endo vt = Ok c /\ wf_mf c /\
    mf_domain c = (x, l) :: (exo, lu) :: order_dom dom endo /\ mf_left c = [x] /\ mf_right c = exo :: endo /\ mf_vtype c = vt /\
    forall o, full (mf_domain c) o -> exists y z, get_value (df_store f) o = Ok y /\ dget x o = Some z /\
      mf_get_value c o = Ok (if eqd y z then n1 else n0).
Proof.
  intros Us CV Hn Hl. destruct (canonical_ok dom x exo endo l lu vt CV Hn Hl) as (f & E & Wf & Df & Tf & Rf & _).
  assert (Ud : usable (df_domain f)).
  { rewrite Df. destruct (canonical_unfold dom x exo endo l lu vt CV) as (Wd & _). split; [exact Wd|].
    assert (Sub : forall v k, In (v, k) ((x, l) :: (exo, lu) :: order_dom dom endo) -> In (v, k) dom).
    { destruct CV as (W & Ix & Iu & _ & Ie & _). intros v k [[= <- <-] | [[= <- <-] | J]]; auto.
      apply (order_dom_In dom endo v k (proj1 W) Ie) in J. apply J. }
    split.
    - intros v k s s' J. apply (proj1 (proj2 Us) v k). now apply Sub.
    - intros v s J. apply (proj2 (proj2 Us)). apply keys_In in J as (k & J). apply keys_In. exists k. now apply Sub. }
  destruct (df_to_multinomial_ok f x l Wf Ud) as (c & Ec & Wc & Dc & Rc & Lc & Tc & Gc).
  exists f, c. split; [assumption|]. split; [unfold canonical_multinomial; now rewrite E|]. split; [assumption|]. split; [congruence|].
  split; [assumption|]. split; [congruence|]. split; [congruence|]. rewrite Dc. exact Gc.
Qed.
