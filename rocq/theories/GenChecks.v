(** Checkers and witnesses for the statements about generated tables. *)

From Coq Require Import String Ascii Bool Arith ZArith QArith Qcanon Lia List.
From Verif Require Import PyBase Num DomainModel NdArray StoreModel NumStore FactorModel GenModel PyFacts Spec DomainFacts
  StoreSpec StoreFacts NumFacts PropFacts1 FactorSpec GenSpec FactorFacts FactorFacts3 GenFacts2 GenFacts3 Checks FactorChecks.
Import ListNotations.
Local Open Scope nat_scope.

Lemma random_deterministic_none dom vt choose : dom <> [] -> random_deterministic dom None vt choose = Raise AttributeError.
Proof. destruct dom; [congruence|reflexivity]. Qed.

Lemma zero_column : exists (dom : domain) (r : list var) (draw : list num) f,
  usable dom /\ NoDup r /\ incl r (keys dom) /\ length draw = size dom /\
  (forall x, In x draw -> exists q, x = Fin q /\ (0 <= q)%Qc) /\
  random_multinomial dom r VNumpy true draw = Ok f /\ ~ normalised f.
Proof.
  exists dA, [], [n0; n0]. 
  assert (E : exists f, random_multinomial dA [] VNumpy true [n0; n0] = Ok f /\ mf_domain f = dA /\ mf_right f = [] /\
                mf_get_value f [("A", SStr "a0")]%string = Ok NaN /\ mf_get_value f [("A", SStr "a1")]%string = Ok NaN).
  { eexists. split; [reflexivity|]. repeat split; vm_compute; reflexivity. }
  destruct E as (f & E & D & R & G0 & G1). exists f.
  split; [apply usableb_sound; reflexivity|]. split; [constructor|]. split; [intros ? []|]. split; [reflexivity|].
  split; [intros x [<-|[<-|[]]]; eexists; split; try reflexivity; apply Qcle_refl|]. split; [exact E|].
  intros N. destruct (N []) as (xs & F & S); [rewrite D, R; intros v l []|]. rewrite D, R in F.
  change (all_assignments (drop [] dA)) with [[("A", SStr "a0")]; [("A", SStr "a1")]]%string in F.
  inversion F as [|? x0 ? xs0 H0 F0]; subst. inversion F0 as [|? x1 ? xs1 H1 F1]; subst. inversion F1; subst.
  cbn [app] in H0, H1.
  assert (E0 : Ok x0 = Ok NaN) by (rewrite <- G0; symmetry; exact H0).
  assert (E1 : Ok x1 = Ok NaN) by (rewrite <- G1; symmetry; exact H1).
  injection E0 as ->. injection E1 as ->. discriminate S.
Qed.

Definition dXUY : domain :=
  [("X", [SInt 0; SInt 1]%Z); ("U", [SInt 0; SInt 1; SInt 2; SInt 3]%Z); ("Y", [SInt 0; SInt 1]%Z)]%string.

Lemma dXUY_canon :
  canon_vars dXUY "X"%string "U"%string ["Y"%string] [SInt 0; SInt 1]%Z [SInt 0; SInt 1; SInt 2; SInt 3]%Z.
Proof.
  split; [apply wf_domb_sound; reflexivity|]. split; [simpl; auto|]. split; [simpl; auto|].
  split; [apply nodupb_sound; reflexivity|]. split; [apply inclb_sound; reflexivity|].
  split; [discriminate|]. split; [intros [H|[]]; discriminate|].
  intros v [<-|[<-|[<-|[]]]]; simpl; auto.
Qed.

(** A parentless child: the exogenous variable has |X| states. *)
Lemma canonical_numpy_case : exists (dom : domain) (x exo : var) (endo : list var) (l lu : list state),
  canon_vars dom x exo endo l lu /\ length lu = length l ^ size (order_dom dom endo) /\
  canonical_deterministic dom exo endo VNumpy = Raise ValueError.
Proof.
  exists [("X", [SInt 0; SInt 1]%Z); ("U", [SInt 0; SInt 1]%Z)]%string, "X"%string, "U"%string, [], [SInt 0; SInt 1]%Z, [SInt 0; SInt 1]%Z.
  split.
  - split; [apply wf_domb_sound; reflexivity|]. split; [simpl; auto|]. split; [simpl; auto|].
    split; [apply nodupb_sound; reflexivity|]. split; [apply inclb_sound; reflexivity|].
    split; [discriminate|]. split; [intros []|]. intros v [<-|[<-|[]]]; simpl; auto.
  - split; reflexivity.
Qed.

(** Five exogenous states where the four functions need four. *)
Lemma canonical_tree_case : exists (dom : domain) (x exo : var) (endo : list var) (l lu : list state) f,
  canon_vars dom x exo endo l lu /\ length lu <> length l ^ size (order_dom dom endo) /\
  canonical_deterministic dom exo endo VTree = Ok f.
Proof.
  exists [("X", [SInt 0; SInt 1]%Z); ("U", [SInt 0; SInt 1; SInt 2]%Z); ("Y", [SInt 0; SInt 1]%Z)]%string,
    "X"%string, "U"%string, ["Y"%string], [SInt 0; SInt 1]%Z, [SInt 0; SInt 1; SInt 2]%Z. eexists.
  split.
  - split; [apply wf_domb_sound; reflexivity|]. split; [simpl; auto|]. split; [simpl; auto|].
    split; [apply nodupb_sound; reflexivity|]. split; [apply inclb_sound; reflexivity|].
    split; [discriminate|]. split; [intros [H|[]]; discriminate|]. intros v [<-|[<-|[<-|[]]]]; simpl; auto.
  - split; [discriminate|]. reflexivity.
Qed.

Definition all_finiteb (f : mfactor) : bool :=
  forallb (fun o => match mf_get_value f o with Ok (Fin _) => true | _ => false end) (all_assignments (mf_domain f)).
Lemma all_finiteb_sound f : wf_mf f -> all_finiteb f = true -> all_finite f.
Proof.
  intros W B o F. unfold all_finiteb in B. rewrite forallb_forall in B.
  assert (E : mf_get_value f (obs_of (keys (mf_domain f)) (asg_of o)) = mf_get_value f o).
  { apply get_value_agree; [apply W|exact F|]. intros v J. rewrite obs_of_get by exact J.
    symmetry. apply (full_agrees (mf_domain f)); auto. }
  specialize (B (obs_of (keys (mf_domain f)) (asg_of o))). rewrite E in B.
  assert (I : In (obs_of (keys (mf_domain f)) (asg_of o)) (all_assignments (mf_domain f))).
  { eapply nth_error_In, all_assignments_nth, full_valid; eauto. }
  specialize (B I). destruct (mf_get_value f o) as [[z| | |]|]; try discriminate B. eauto.
Qed.

(** Lower and upper values in row-major order. *)
Definition bounds_of (r : res ifactor) : res (list num * list num) :=
  let* g := r in let* sl := store_low g in let* su := store_up g in
  let* l := values_list sl in let* u := values_list su in Ok (l, u).
Definition bounds_eqb (r : res ifactor) (l u : list num) : bool :=
  match bounds_of r with Ok (l', u') => nums_eqb l' l && nums_eqb u' u | Raise _ => false end.
Lemma bounds_eqb_sound r l u : bounds_eqb r l u = true -> bounds_of r = Ok (l, u).
Proof.
  unfold bounds_eqb. destruct (bounds_of r) as [[l' u']|]; [|discriminate]. rewrite andb_true_iff. intros [A B].
  apply nums_eqb_sound in A, B. congruence.
Qed.

Lemma envelope_case : forall vt,
  let fs := [fac vt dAB [1; 2; 3; 4; 5; 6]%Q []; fac vt dAB [6; 5; 4; 3; 2; 1]%Q []; fac vt dAB [3; 3; 3; 3; 3; 3]%Q []] in
  (forall f, In f fs -> wf_mf f /\ mf_domain f = dAB /\ all_finite f) /\
  bounds_of (from_precise vt fs) = Ok (map q [1; 2; 3; 3; 2; 1]%Q, map q [6; 5; 4; 4; 5; 6]%Q) /\
  (vt <> VTree -> bounds_of (let* g := from_precise vt fs in if_restrict g [("A"%string, SStr "a1"%string)])
                  = Ok (map q [3; 2; 1]%Q, map q [4; 5; 6]%Q)).
Proof.
  intros vt fs. split; [|split].
  - assert (H : forall l, (length l =? 6) = true -> all_finiteb (fac vt dAB l []) = true ->
                  wf_mf (fac vt dAB l []) /\ mf_domain (fac vt dAB l []) = dAB /\ all_finite (fac vt dAB l [])).
    { intros l L B. destruct (fac_wf vt dAB l []) as (W & D & T).
      - change (size dAB) with 6. rewrite L. reflexivity.
      - split; [auto|]. split; [auto|]. apply all_finiteb_sound; auto. }
    intros f [<-|[<-|[<-|[]]]]; apply H; destruct vt; reflexivity.
  - apply bounds_eqb_sound. destruct vt; vm_compute; reflexivity.
  - intros N. apply bounds_eqb_sound. destruct vt; try congruence; vm_compute; reflexivity.
Qed.
