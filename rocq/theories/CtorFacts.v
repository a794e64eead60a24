(** What the factor constructors check and what they do not (C03, C12, C14). *)

From Coq Require Import String Ascii Bool Arith ZArith QArith Qcanon Lia List.
From Verif Require Import PyBase PyFacts Num DomainModel NdArray StoreModel NumStore FactorModel Spec StoreSpec
  FactorSpec DomainFacts StoreFacts PropFacts1 FactorFacts FactorFacts3 Checks FactorChecks.
Import ListNotations.
Local Open Scope nat_scope.

Lemma check_domain_bad d : NoDup (keys d) ->
  (exists v l, In (v, l) d /\ (l = [] \/ exists x y, In x l /\ In y l /\ type_of x <> type_of y)) \/
  (exists s, In (String "_"%char s) (keys d)) ->
  check_domain d = Raise ValueError.
Proof.
  intros ND H. pose proof (check_domain_spec d ND) as S.
  assert (C : check_domain d = Ok tt \/ check_domain d = Raise ValueError).
  { unfold check_domain. destruct (negb (forallb _ _)); [auto|]. destruct (existsb _ _); auto. }
  destruct C as [C | C]; [exfalso | exact C]. apply S in C as [A B].
  destruct H as [(v & l & I & [-> | (x & y & X & Y & N)]) | (s & I)].
  - destruct (A v [] I) as [N _]. auto.
  - destruct (A v l I) as [_ T]. exact (N (T x y X Y)).
  - exact (B (String "_"%char s) s I eq_refl).
Qed.

Lemma mf_init_bad_domain (dom : domain) (v : fvals num) l r (vt : vtype) : NoDup (keys dom) ->
  (exists v l, In (v, l) dom /\ (l = [] \/ exists x y, In x l /\ In y l /\ type_of x <> type_of y)) \/
  (exists s, In (String "_"%char s) (keys dom)) ->
  mf_init dom v l r vt = Raise ValueError.
Proof. intros ND H. unfold mf_init. rewrite (check_domain_bad dom ND H). reflexivity. Qed.

(** The only error of the check of the domain. *)
Lemma check_domain_raise d e : check_domain d = Raise e -> e = ValueError.
Proof.
  unfold check_domain. destruct (negb (forallb _ _)); [congruence|]. destruct (existsb _ _); congruence.
Qed.

Lemma mf_init_array_numpy (dom : domain) (a : nd num) l r :
  2 <= length (shape a) -> shape a <> card dom -> mf_init dom (FArr a) l r VNumpy = Raise ValueError.
Proof.
  intros L N. unfold mf_init. destruct (check_domain dom) as [u | e] eqn:C.
  2: { apply check_domain_raise in C. subst. reflexivity. }
  cbn [bind]. unfold process_values. destruct (shape a) as [| n [| k s]] eqn:S; cbn [length] in L; try lia.
  cbn [bind st_init]. rewrite S. destruct (eqd (n :: k :: s) (card dom)) as [E | _]; [contradiction|].
  rewrite andb_false_r. reflexivity.
Qed.

Lemma mf_init_array_size (dom : domain) (a : nd num) l r (vt : vtype) :
  2 <= length (shape a) -> length (flat a) <> size dom -> vt = VList \/ vt = VNumpy1D ->
  mf_init dom (FArr a) l r vt = Raise ValueError.
Proof.
  intros L N V. rewrite size_prodl in N. apply Nat.eqb_neq in N. unfold mf_init.
  destruct (check_domain dom) as [u | e] eqn:C.
  2: { apply check_domain_raise in C. subst. reflexivity. }
  cbn [bind]. unfold process_values. destruct (shape a) as [| n [| k s]] eqn:S; cbn [length] in L; try lia.
  destruct V as [-> | ->]; cbn [bind st_init]; rewrite N; reflexivity.
Qed.

Lemma mf_init_array_flat (dom : domain) (a : nd num) l r (vt : vtype) :
  dom <> [] -> 2 <= length (shape a) -> length (flat a) = size dom -> vt <> VNumpy ->
  mf_init dom (FArr a) l r vt = mf_init dom (flist (flat a)) l r vt.
Proof.
  intros D L N V. rewrite size_prodl in N. unfold mf_init.
  destruct (check_domain dom) as [u | e]; [|reflexivity]. cbn [bind].
  unfold process_values at 1. destruct (shape a) as [| n [| k s]] eqn:S; cbn [length] in L; try lia.
  unfold flist, process_values. cbn [shape flat bind]. unfold np_reshape. cbn [flat].
  rewrite (proj2 (Nat.eqb_eq _ _) N). cbn [bind].
  destruct vt; [contradiction| | |]; cbn [st_init flat]; [reflexivity..|].
  destruct dom as [| [v d] dom]; [contradiction|]. unfold build_default_tree. rewrite S.
  cbn [shape flat card map]. destruct dom as [| [w d'] dom]; reflexivity.
Qed.

(** A transposed array is taken in its own row-major order. *)
Definition transposed_array : nd num := mkNd [3; 2] (map q [1; 2; 3; 4; 5; 6]%Q).

Lemma transposed_accepted : exists (dom : domain) (a : nd num),
  usable dom /\ shape a = rev (card dom) /\ shape a <> card dom /\ 
  forall vt, vt <> VNumpy -> exists f, mf_init dom (FArr a) None None vt = Ok f /\ mf_values f = Ok (flat a).
Proof.
  exists dAB, transposed_array. split; [apply usableb_sound; reflexivity|]. split; [reflexivity|].
  split; [discriminate|]. intros vt N. destruct vt; [contradiction| | |];
    (eexists; split; [vm_compute; reflexivity|vm_compute; reflexivity]).
Qed.

(** The store over trees checks nothing: an array of too few entries. *)
Lemma tree_size_accepted : exists (dom : domain) (a : nd num) (f : mfactor) (o : obs),
  usable dom /\ length (flat a) <> size dom /\ full dom o /\
  mf_init dom (FArr a) None None VTree = Ok f /\ mf_get_value f o = Raise KeyError.
Proof.
  exists dAB, (mkNd [2; 2] (map q [1; 2; 3; 4]%Q)).
  eexists. exists [("A", SStr "a1"); ("B", SInt 2)]%string.
  split; [apply usableb_sound; reflexivity|]. split; [discriminate|]. split.
  - intros v l [[= <- <-] | [[= <- <-] | []]]; eexists; (split; [reflexivity | cbn; auto]).
  - split; [vm_compute; reflexivity|vm_compute; reflexivity].
Qed.

(** Equal states in one state list: the array-like stores read the first
    value, the tree reads the last. *)
Lemma repeated_states_accepted : exists (dom : domain) (xs : list num) (o : obs) (x y : num),
  NoDup (keys dom) /\ length xs = size dom /\ full dom o /\ x <> y /\
  forall vt, exists f, mf_init dom (flist xs) None None vt = Ok f /\
    mf_get_value f o = Ok (match vt with VTree => y | _ => x end).
Proof.
  exists [("A", [SStr "a"; SStr "a"])]%string, (map q [1; 2]%Q), [("A", SStr "a")]%string, (q 1), (q 2).
  split; [repeat constructor; auto|]. split; [reflexivity|]. split.
  - intros v l [[= <- <-] | []]; eexists; (split; [reflexivity | cbn; auto]).
  - split; [discriminate|]. intros vt. destruct vt; (eexists; split; [vm_compute; reflexivity|vm_compute; reflexivity]).
Qed.

(** [right_vars] alone is taken as it is. *)
Lemma right_alone (dom : domain) (xs : list num) (r : list var) (vt : vtype) :
  usable dom -> length xs = size dom ->
  exists f, mf_init dom (flist xs) None (Some r) vt = Ok f /\ mf_right f = r /\
    mf_left f = filter (fun v => negb (mem v r)) (keys dom).
Proof.
  intros U L. destruct (mf_init_ok dom (flist xs) xs None (Some r) r vt U L (or_introl eq_refl) eq_refl)
    as (f & E & _ & D & _ & R & _).
  exists f. split; [exact E|]. split; [exact R|]. unfold mf_left, mf_vars, mf_domain in *. rewrite R.
  rewrite D. reflexivity.
Qed.

(** A deterministic factor over a name that [MultinomialFactor] rejects. *)
Lemma df_unchecked (dom : domain) (v : var) (l : list state) (xs : list state) (vt : vtype) :
  wf_dom dom -> In (v, l) dom -> length xs = size (drop [v] dom) ->
  exists f, df_init dom (mkNd [length xs] xs) (Some [v]) None vt = Ok f /\ df_domain f = dom /\
    ((exists s, In (String "_"%char s) (keys dom)) -> df_to_multinomial f = Raise ValueError).
Proof.
  intros W I L. destruct (df_init_ok dom v l xs vt W I L) as (f & E & Wf & D & _).
  exists f. split; [exact E|]. split; [exact D|]. intros U. rewrite <- D in U.
  unfold df_to_multinomial.
  destruct (mapM_total (fun o => let* b := df_eval f o in Ok (if b : bool then n1 else n0)) (assignment_space (df_domain f))) as (ys & Ey).
  { intros o J. rewrite assignment_space_all in J.
    apply all_assignments_In_full in J as [_ F]; [|rewrite D; apply W].
    destruct (df_eval_ok f v l o Wf F) as (y & z & _ & _ & _ & ->). cbn [bind]. eauto. }
  rewrite Ey. cbn [bind]. apply mf_init_bad_domain; [rewrite D; apply W | right; exact U].
Qed.

(** ** to_deterministic *)
(** the first of the largest *)
Lemma argmax_first (l : list Qc) i b p : p < i ->
  let k := argmax_from (map Fin l) i (Fin b) p in
  (k = p /\ forall x, In x l -> (x <= b)%Qc) \/
  (exists j, k = i + j /\ exists x, nth_error l j = Some x /\ (b < x)%Qc /\
     forall j' y, nth_error l j' = Some y -> (y <= x)%Qc /\ (j' < j -> (y < x)%Qc)).
Proof.
  revert i b p. induction l as [|x l IH]; intros i b p L; cbn [map argmax_from nltb]; [left; split; [reflexivity|intros x []]|].
  destruct (Qclt_le_dec b x) as [C|C].
  - right. destruct (IH (S i) x i ltac:(lia)) as [[E A]|(j & E & y & Ny & By & A)].
    + exists 0. split; [rewrite E; lia|]. exists x. split; [reflexivity|]. split; [auto|]. intros [|j'] y Ey; cbn in Ey.
      * injection Ey as <-. split; [apply Qcle_refl|lia].
      * split; [apply A; eapply nth_error_In; eauto|lia].
    + exists (S j). split; [rewrite E; lia|]. exists y. split; [exact Ny|]. split; [eapply Qclt_trans; eauto|]. intros [|j'] z Ez; cbn in Ez.
      * injection Ez as <-. split; [now apply Qclt_le_weak|auto].
      * destruct (A j' z Ez) as [A1 A2]. split; [auto|]. intros Lj. apply A2. lia.
  - destruct (IH (S i) b p ltac:(lia)) as [[E A]|(j & E & y & Ny & By & A)].
    + left. split; [exact E|]. intros z [<-|J]; auto.
    + right. exists (S j). split; [rewrite E; lia|]. exists y. split; [exact Ny|]. split; [auto|]. intros [|j'] z Ez; cbn in Ez.
      * injection Ez as <-. assert (x < y)%Qc by (eapply Qcle_lt_trans; eauto). split; [now apply Qclt_le_weak|auto].
      * destruct (A j' z Ez) as [A1 A2]. split; [auto|]. intros Lj. apply A2. lia.
Qed.
Lemma np_argmax_first (l : list Qc) : l <> [] -> exists i x, np_argmax (map Fin l) = Ok (SInt (Z.of_nat i)) /\ nth_error l i = Some x /\
  forall j y, nth_error l j = Some y -> (y <= x)%Qc /\ (j < i -> (y < x)%Qc).
Proof.
  destruct l as [|b l]; [congruence|]. intros _. cbn [map np_argmax]. destruct (argmax_first l 1 b 0 ltac:(lia)) as [[E A]|(j & E & x & Nx & Bx & A)]; rewrite E.
  - exists 0, b. split; [reflexivity|]. split; [reflexivity|]. intros [|j] y Ey; cbn in Ey.
    + injection Ey as <-. split; [apply Qcle_refl|lia].
    + split; [apply A; eapply nth_error_In; eauto|lia].
  - exists (S j), x. split; [reflexivity|]. split; [exact Nx|]. intros [|j'] y Ey; cbn in Ey.
    + injection Ey as <-. split; [now apply Qclt_le_weak|auto].
    + destruct (A j' y Ey) as [A1 A2]. split; [auto|]. intros Lj. apply A2. lia.
Qed.
Lemma to_deterministic_first f v l dflt : wf_mf f -> mf_left f = [v] -> In (v, l) (mf_domain f) ->
  (forall o, full (mf_domain f) o -> exists x, mf_get_value f o = Ok (Fin x)) ->
  exists g, mf_to_deterministic dflt f = Ok g /\ wf_df g v l /\ df_domain g = mf_domain f /\ df_vtype g = dflt /\
    forall o, full (drop [v] (mf_domain f)) o -> exists i s x,
      get_value (df_store g) o = Ok (SInt (Z.of_nat i)) /\ nth_error l i = Some s /\ mf_get_value f ((v, s) :: o) = Ok (Fin x) /\
      forall j s' y, nth_error l j = Some s' -> mf_get_value f ((v, s') :: o) = Ok (Fin y) -> (y <= x)%Qc /\ (j < i -> (y < x)%Qc).
Proof.
  intros Wf L I Fin_. destruct (mf_to_deterministic_ok f v l dflt Wf L I) as (g & Eg & Wg & Dg & Tg & G).
  exists g. repeat (split; [assumption|]). intros o Fo. destruct (G o Fo) as (xs & y & Fx & Ay & Gy).
  assert (W := usable_wf _ (proj1 (proj2 Wf))).
  assert (Q : exists qs, xs = map Fin qs).
  { assert (Hs : forall s x, In s l -> mf_get_value f ((v, s) :: o) = Ok x -> exists q, x = Fin q).
    { intros s x Is Gx. destruct (Fin_ ((v, s) :: o)) as (q & Eq); [|exists q; congruence].
      change ((v, s) :: o) with ([(v, s)] ++ o). apply (full_app_within [v]); auto. rewrite (pick_one v l) by (auto; apply W). rewrite all_one. apply in_map_iff. eauto. }
    clear -Fx Hs. revert Hs. induction Fx as [|s x l xs P Q IH]; intros Hs; [now exists []|].
    destruct (Hs s x (or_introl eq_refl) P) as (q & ->). destruct IH as (qs & ->); [intros s0 x0 J0 E0; apply (Hs s0 x0); [now right|exact E0]|]. now exists (q :: qs). }
  destruct Q as (qs & ->). assert (Lq : length qs = length l) by (apply Forall2_length in Fx; rewrite map_length in Fx; auto).
  destruct (np_argmax_first qs) as (i & x & E & Nx & A).
  { intros ->. destruct l; [|discriminate]. destruct (proj2 W v [] I) as [_ N]. now apply N. }
  assert (Sel : forall j s q, nth_error l j = Some s -> nth_error qs j = Some q -> mf_get_value f ((v, s) :: o) = Ok (Fin q)).
  { clear -Fx. revert l Fx. induction qs as [|b qs IH]; intros l Fx [|j] s q Es Eq; inversion Fx; subst; try discriminate; cbn in *.
    - congruence.
    - eapply IH; eauto. }
  assert (Li : i < length l). { rewrite <- Lq. apply nth_error_Some. congruence. }
  destruct (nth_error l i) as [s|] eqn:Es; [|apply nth_error_None in Es; lia].
  exists i, s, x. split; [congruence|]. split; [auto|]. split; [now apply (Sel i)|].
  intros j s' y' Es' Gy'. assert (Lj : j < length qs). { rewrite Lq. apply nth_error_Some. congruence. }
  destruct (nth_error qs j) as [q|] eqn:Eq; [|apply nth_error_None in Eq; lia]. rewrite (Sel j s' q Es' Eq) in Gy'. injection Gy' as <-. now apply A.
Qed.
Lemma to_deterministic_left f dflt : length (mf_left f) <> 1 -> mf_to_deterministic dflt f = Raise ValueError.
Proof. intros N. unfold mf_to_deterministic. apply Nat.eqb_neq in N. now rewrite N. Qed.
