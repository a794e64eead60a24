(** Derivations of stores. *)

From Coq Require Import String Bool Arith Lia List.
From Verif Require Import PyBase Num DomainModel NdArray StoreModel NumStore PyFacts Spec DomainFacts StoreSpec
  TreeFacts TreeFacts2 StoreFacts StoreOps StoreMarg StoreMarg2 HeapModel HeapSpec HeapFacts HeapFacts2 HeapFacts3 HeapFacts4.
Import ListNotations.
Local Arguments eqd : simpl never.

(** ** The class of a result *)

Lemma st_init_type {V} vt d (x : darg V) p : st_init vt d x = Ok p -> st_type p = vt.
Proof.
  unfold st_init. destruct vt, x; try discriminate.
  - destruct (_ && _)%bool; [|discriminate]. intros E. injection E as <-. reflexivity.
  - destruct (Nat.eqb _ _); [|discriminate]. intros E. injection E as <-. reflexivity.
  - destruct (Nat.eqb _ _); [|discriminate]. intros E. injection E as <-. reflexivity.
  - destruct d.
    + destruct (shape a); [|discriminate]. destruct (flat a) as [|y [|]]; try discriminate.
      intros E. injection E as <-. reflexivity.
    + destruct (build_default_tree _ _); [|discriminate]. intros E. injection E as <-. reflexivity.
  - intros E. injection E as <-. reflexivity.
Qed.

Lemma st_set_value_type {V} (p : store V) x o p' : st_set_value p x o = Ok p' -> st_type p' = st_type p.
Proof.
  destruct p as [d a | d l | d l | d t]; cbn [st_set_value].
  - destruct (mapM _ d); [|discriminate]. cbn [bind]. destruct (in_bounds _ _); [|discriminate].
    destruct (list_set _ _ _); [|discriminate]. intros E. injection E as <-. reflexivity.
  - destruct (index_list d o); [|discriminate]. cbn [bind]. destruct (py_nth _ _); [|discriminate]. cbn [bind].
    destruct (list_set _ _ _); [|discriminate]. intros E. injection E as <-. reflexivity.
  - destruct (index_list d o); [|discriminate]. cbn [bind]. destruct (py_nth _ _); [|discriminate]. cbn [bind].
    destruct (list_set _ _ _); [|discriminate]. intros E. injection E as <-. reflexivity.
  - destruct (tset _ _ _); [|discriminate]. intros E. injection E as <-. reflexivity.
Qed.

Lemma foldM_inv {A B} (P : A -> Prop) (f : A -> B -> res A) l : (forall a b a', P a -> f a b = Ok a' -> P a') ->
  forall a a', P a -> foldM f l a = Ok a' -> P a'.
Proof.
  intros H. induction l as [|b l IH]; intros a a' Pa E; [injection E as <-; exact Pa|].
  cbn [foldM] in E. destruct (f a b) as [a1|] eqn:F; [|discriminate]. cbn [bind] in E. eauto.
Qed.

Lemma generic_combine_type (z : num) op p q r : generic_combine z op p q = Ok r -> st_type r = st_type p.
Proof.
  unfold generic_combine. destruct (eqd (st_type p) (st_type q)); [|discriminate].
  destruct (st_default z (st_type p) _) as [r0|] eqn:D; [|discriminate]. cbn [bind].
  apply (foldM_inv (fun r => st_type r = st_type p)).
  - intros a o a' Pa E. destruct (get_value p o); [|discriminate]. cbn [bind] in E.
    destruct (get_value q o); [|discriminate]. cbn [bind] in E. apply st_set_value_type in E. congruence.
  - unfold st_default in D. destruct (st_type p).
    + apply st_init_type in D. exact D.
    + apply st_init_type in D. exact D.
    + apply st_init_type in D. exact D.
    + destruct (dmerge _ _); [discriminate | apply st_init_type in D; exact D].
Qed.

Lemma st_restrict_ext_type (p : store num) o r : st_restrict_ext p o = Ok r -> st_type r = st_type p.
Proof.
  destruct p as [d a | d l | d l | d t]; cbn [st_restrict_ext].
  - unfold np_restrict. destruct (mapM _ d); [|discriminate]. cbn [bind].
    destruct (np_index _ _); [|discriminate]. cbn [bind]. apply st_init_type.
  - unfold flat_restrict. destruct (has_list o); [discriminate|]. destruct (index_list _ _); [|discriminate]. cbn [bind].
    destruct (mapM _ _); [|discriminate]. cbn [bind]. apply st_init_type.
  - unfold flat_restrict. destruct (has_list o); [discriminate|]. destruct (index_list _ _); [|discriminate]. cbn [bind].
    destruct (mapM _ _); [|discriminate]. cbn [bind]. apply st_init_type.
  - unfold tree_restrict. destruct (has_list o); [discriminate|]. destruct (trestrict _ _); [|discriminate]. cbn [bind].
    apply st_init_type.
Qed.

Lemma mapM_Forall {A B} (P : B -> Prop) (f : A -> res B) l : (forall a b, In a l -> f a = Ok b -> P b) ->
  forall l', mapM f l = Ok l' -> Forall P l'.
Proof.
  induction l as [|a l IH]; intros H l' E; [injection E as <-; constructor|].
  cbn [mapM] in E. destruct (f a) as [b|] eqn:F; [|discriminate]. cbn [bind] in E.
  destruct (mapM f l) as [l1|]; [|discriminate]. injection E as <-. constructor.
  - eapply H; [now left | exact F].
  - apply IH; [|reflexivity]. intros a' b' I. apply H. now right.
Qed.

Lemma generic_marg_type (p : store num) vs r : generic_marg n0 nadd p vs = Ok r -> st_type r = st_type p.
Proof.
  unfold generic_marg. destruct (mapM (st_restrict p) _) as [rs|] eqn:M; [|discriminate]. cbn [bind].
  assert (A : Forall (fun r => st_type r = st_type p) rs).
  { eapply mapM_Forall; [|exact M]. intros o b _ E. apply st_restrict_ext_type in E. exact E. }
  destruct rs as [|r0 rs]; [discriminate|]. cbn [reduceM]. inversion A; subst.
  apply (foldM_inv (fun r => st_type r = st_type p)); [|assumption].
  intros a b a' Pa E. apply generic_combine_type in E. congruence.
Qed.

Lemma st_marginalize_type p vs r : st_marginalize p vs = Ok r -> st_type r = st_type p.
Proof.
  destruct p as [d a | d l | d l | d t]; cbn [st_marginalize].
  - unfold np_marg. destruct (mapM _ vs); [|discriminate]. cbn [bind]. destruct (np_reduce _ _ _); [|discriminate].
    cbn [bind]. apply st_init_type.
  - apply generic_marg_type.
  - unfold list_marg. destruct (mapM _ _); [|discriminate]. cbn [bind]. destruct (mapM _ _); [|discriminate].
    cbn [bind]. apply st_init_type.
  - unfold tree_marg. destruct (foldM _ _ _); [|discriminate]. cbn [bind]. apply st_init_type.
Qed.

Lemma st_maxmarginalize_type p vs r : st_maxmarginalize p vs = Ok r -> st_type r = st_type p.
Proof.
  destruct p as [d a | d l | d l | d t]; cbn [st_maxmarginalize].
  - unfold np_marg. destruct (mapM _ vs); [|discriminate]. cbn [bind]. destruct (np_reduce _ _ _); [|discriminate].
    cbn [bind]. apply st_init_type.
  - discriminate.
  - unfold list_marg. destruct (mapM _ _); [|discriminate]. cbn [bind]. destruct (mapM _ _); [|discriminate].
    cbn [bind]. apply st_init_type.
  - unfold tree_marg. destruct (foldM _ _ _); [|discriminate]. cbn [bind]. apply st_init_type.
Qed.

Lemma st_combine_type (op : num -> num -> num) p q r : st_combine n0 op p q = Ok r -> st_type r = st_type p.
Proof.
  destruct p as [d a | d l | d l | d t], q as [d' a' | d' l' | d' l' | d' t']; cbn [st_combine]; try discriminate.
  - unfold np_combine.
    repeat match goal with
    | |- bind ?m _ = Ok _ -> _ => let u := fresh "u" in destruct m as [u|]; [cbn [bind]|discriminate]
    | |- (let (_, _) := ?u in _) = Ok _ -> _ => destruct u
    end.
    apply st_init_type.
  - apply generic_combine_type.
  - unfold list_combine. destruct (mapM _ _); [|discriminate]. cbn [bind]. apply st_init_type.
  - unfold tree_combine. destruct (tcombine _ _ _); [|discriminate]. cbn [bind]. apply st_init_type.
Qed.

(** ** Folding marginalisation over the variables *)

Section MargFold.
  Variable (hf : hval -> var -> action hval) (tf : tree num -> var -> res (tree num)) (n : nat).
  Hypothesis step : forall t v x h F kp r h', reads h v t F -> kp = true \/ branches x t ->
    hf v x h = (r, h') ->
    outcome (forall d, NoDup (keys d) -> tcomp d t -> n <= 2 * length d) h h' (keep kp F) r (tf t x).
  Hypothesis comp : forall d t x t', wf_dom d -> tcomp d t -> In x (keys d) -> tf t x = Ok t' -> tcomp (dremove x d) t'.

  Lemma marg_fold : forall vs t v h F r h', reads h v t F ->
    hfoldM hf vs v h = (r, h') ->
    grows h h' /\
    match r with
    | Ok v' => exists t' F', foldM tf vs t = Ok t' /\ reads h' v' t' F' /\ kept h h' F F' /\
        (forall d x, wf_dom d -> tcomp d t -> NoDup vs -> incl vs (keys d) -> In x vs -> several d x -> kept h h' [] F')
    | Raise e => foldM tf vs t = Raise e \/
        e = RecursionError /\
        (forall d, wf_dom d -> tcomp d t -> NoDup vs -> incl vs (keys d) -> n <= 2 * length d)
    end.
  Proof.
    induction vs as [|y vs IH]; intros t v h F r h' R E.
    - injection E as <- <-. split; [apply grows_refl|]. exists t, F. split; [reflexivity|]. split; [exact R|].
      split; [apply kept_self; apply (proj1 (reads_bound h) _ _ _ R)|]. intros d x _ _ _ _ [].
    - cbn [hfoldM] in E. unfold hbind in E. destruct (hf v y h) as [r1 h1] eqn:E1.
      pose proof (step t v y h F true r1 h1 R (or_introl eq_refl) E1) as (X1 & O1).
      cbn [foldM]. destruct r1 as [v1|e].
      + destruct O1 as (t1 & F1 & T1 & R1 & K1). rewrite T1. cbn [bind].
        pose proof (IH t1 v1 h1 F1 r h' R1 E) as (X2 & O2).
        assert (B : forall b, In b F -> b < length h) by apply (proj1 (reads_bound h) _ _ _ R).
        assert (NEXT : forall d, wf_dom d -> tcomp d t -> NoDup (y :: vs) -> incl (y :: vs) (keys d) ->
                  wf_dom (dremove y d) /\ tcomp (dremove y d) t1 /\ NoDup vs /\ incl vs (keys (dremove y d))).
        { intros d W T ND I. split; [now apply wf_dremove|]. inversion ND as [|z l NI ND']; subst.
          split; [eapply comp; [exact W | exact T | apply I; now left | exact T1]|]. split; [exact ND'|].
          intros z Z. apply keys_dremove. split; [apply I; now right|]. intros ->. contradiction. }
        split; [eapply grows_trans; eassumption|]. destruct r as [v'|e].
        * destruct O2 as (t' & F' & Q1 & Q2 & Q3 & Q4). exists t', F'. split; [exact Q1|]. split; [exact Q2|].
          destruct K1 as (P1 & D1). destruct Q3 as (P3 & D3).
          pose proof (grows_length _ _ X1) as L1. pose proof (grows_length _ _ X2) as L2. split.
          -- split; [|auto]. intros b Bb. destruct (P3 b Bb) as ([J | J] & L); (split; [|lia]).
             ++ destruct (P1 b J) as ([M | M] & _); auto.
             ++ right. lia.
          -- intros d x W T ND I Hx SV. destruct (NEXT d W T ND I) as (W' & T' & ND' & I').
             destruct Hx as [-> | Hx].
             ++ (* the first removed variable has several states *)
                assert (BR : branches x t).
                { destruct SV as (l & G & L). assert (NL : NoDup l).
                  { destruct W as (_ & W). apply (W x). apply dget_In. exact G. }
                  assert (NK : NoDup (keys d)) by apply W.
                  clear - T G L NL NK. induction T as [z | d w l' ch I N Q C IH]; [exact Logic.I|].
                  apply branches_node. destruct (eqd w x) as [-> | NE].
                  - assert (l' = l). { pose proof (In_dget _ _ _ NK I). congruence. } subst l'.
                    assert (length (map fst ch) = length l); [|rewrite map_length in *; lia].
                    apply Nat.le_antisymm; apply NoDup_incl_length; try assumption; intros s S; now apply Q.
                  - intros s c A. eapply IH; [exact A| |now apply NoDup_dremove].
                    rewrite dget_dremove. rewrite eqd_neq by congruence. exact G. }
                pose proof (step t v x h F false (Ok v1) h1 R (or_intror BR) E1) as (_ & t1' & F1' & T1' & R1' & (PF & DF)).
                assert (t1' = t1) as -> by congruence.
                destruct (proj1 (reads_unique h1) _ _ _ R1 _ _ R1') as (_ & ->).
                split; [|intros _; apply D3, DF; constructor].
                intros b Bb. destruct (P3 b Bb) as ([J | J] & L); (split; [|lia]); right; [|lia].
                destruct (PF b J) as ([[] | M] & _). exact M.
             ++ assert (SV' : several (dremove y d) x).
                { destruct SV as (l & G & L). exists l. split; [|exact L]. rewrite dget_dremove.
                  inversion ND as [|z l0 NI _]; subst. rewrite eqd_neq; [exact G|]. intros ->. contradiction. }
                eapply kept_weaken; [exact X1 | intros b [] | eapply Q4; eassumption].
        * destruct O2 as [O2 | (-> & O2)]; [now left|]. right. split; [reflexivity|].
          intros d W T ND I. destruct (NEXT d W T ND I) as (W' & T' & ND' & I').
          specialize (O2 _ W' T' ND' I').
          assert (length (dremove y d) < length d) by (apply length_dremove, I; now left). lia.
      + injection E as <- <-. split; [exact X1|]. destruct O1 as [-> | (-> & O1)]; [now left|].
        right. split; [reflexivity|]. intros d W T _ _. apply O1; [apply W | exact T].
  Qed.
End MargFold.
