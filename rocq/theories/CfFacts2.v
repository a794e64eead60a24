(** The names of the worlds, and renaming conditional tables. *)

From Coq Require Import String Ascii Bool Arith ZArith QArith Qcanon DecimalString DecimalNat Lia Permutation List.
From Verif Require Import PyBase PyFacts Num DomainModel NdArray StoreModel NumStore FactorModel Spec StoreSpec DomainFacts StoreFacts
  NumFacts PropFacts1 BigSum FactorSpec FactorFacts FactorFacts2 FactorFacts3 GraphModel GraphSpec GraphFacts ModelModel ModelSpec ModelFacts
  NetSpec NetSem FactorSem NetFacts VeFacts4 PropFacts4 BuildFacts BuildFacts2 InferModel CausalModel CausalSpec CausalFacts CausalFacts2 CfFacts.
From Coq Require Import List.
Import ListNotations.
Local Open Scope nat_scope.
Local Arguments eqd : simpl never.

(** ** Names *)

Fixpoint has_char (c : ascii) (s : string) : bool :=
  match s with EmptyString => false | String d r => (c =? d)%char || has_char c r end.
Lemma has_char_app c s t : has_char c (s ++ t)%string = has_char c s || has_char c t.
Proof. induction s as [|d s IH]; [reflexivity|]. cbn. now rewrite IH, orb_assoc. Qed.
Lemma digits_plain d : has_char "_"%char (NilEmpty.string_of_uint d) = false.
Proof. induction d; cbn; auto. Qed.
Lemma nat_str_inj i j : nat_str i = nat_str j -> i = j.
Proof.
  unfold nat_str. intros E. apply (f_equal NilEmpty.uint_of_string) in E. rewrite !NilEmpty.usu in E. injection E as E.
  now apply Unsigned.to_uint_inj.
Qed.
Lemma split_last s1 s2 t1 t2 : has_char "_"%char t1 = false -> has_char "_"%char t2 = false ->
  (s1 ++ String "_"%char t1 = s2 ++ String "_"%char t2)%string -> s1 = s2 /\ t1 = t2.
Proof.
  revert s2. induction s1 as [|c s1 IH]; intros [|d s2] H1 H2 E; cbn in E.
  - injection E as ->. auto.
  - injection E as <- E. rewrite E, has_char_app in H1. cbn in H1. rewrite orb_true_r in H1. discriminate.
  - injection E as -> E. rewrite <- E, has_char_app in H2. cbn in H2. rewrite orb_true_r in H2. discriminate.
  - injection E as -> E. destruct (IH s2 H1 H2 E) as [-> ->]. auto.
Qed.
Lemma world_name_inj v w i j : world_name v i = world_name w j -> v = w /\ i = j.
Proof.
  unfold world_name. intros E. apply split_last in E as [-> E]; [|apply digits_plain|apply digits_plain].
  split; [auto|now apply nat_str_inj].
Qed.
Lemma world_name_start v i s : v <> ""%string -> (forall t, v <> String "_"%char t) -> world_name v i <> String "_"%char s.
Proof. destruct v as [|c v]; [congruence|]. intros _ U E. cbn in E. injection E as -> _. eapply U. reflexivity. Qed.

(** ** Renaming tables *)

Lemma drop_one f v : wf_mf f -> mf_left f = [v] -> exists l, drop (mf_right f) (mf_domain f) = [(v, l)] /\ In (v, l) (mf_domain f).
Proof.
  intros W L. unfold mf_left, mf_vars in L.
  assert (K : keys (drop (mf_right f) (mf_domain f)) = [v]).
  { rewrite keys_drop'. exact L. }
  destruct (drop (mf_right f) (mf_domain f)) as [|[w l] [|q r]] eqn:E; try discriminate K. cbn in K. injection K as ->.
  exists l. split; [auto|]. assert (I : In (v, l) (drop (mf_right f) (mf_domain f))) by (rewrite E; now left).
  apply filter_In in I. apply I.
Qed.

Section Rename.
  Variables (D Dt : domain) (vt : vtype) (r : dict var var).

  Lemma rename_cpt v ps f : cpt D vt v ps f ->
    (forall x y, In x (mf_vars f) -> In y (mf_vars f) -> rename1 r x = rename1 r y -> x = y) ->
    (forall w s, In w (mf_vars f) -> rename1 r w <> String "_"%char s) ->
    (forall w l, In (w, l) (mf_domain f) -> In (rename1 r w, l) Dt) ->
    exists f', mf_rename f r = Ok f' /\ cpt Dt vt (rename1 r v) (map (rename1 r) ps) f' /\ (zero_one f -> zero_one f') /\
      mf_vars f' = map (rename1 r) (mf_vars f) /\
      (forall o o', full (mf_domain f) o -> (forall w, In w (mf_vars f) -> dget (rename1 r w) o' = dget w o) ->
         mf_get_value f' o' = mf_get_value f o).
  Proof.
    intros C Inj Und HD. assert (C0 := C). destruct C0 as (W & T & L & R & Sub & Fin' & Nm).
    assert (Lv := cpt_left _ _ _ _ _ C).
    destruct (mf_rename_ok f r W Inj Und) as (f' & E & W' & T' & Dm & R' & L' & Val). exists f'. split; [auto|].
    assert (Kv : mf_vars f' = map (rename1 r) (mf_vars f)). { unfold mf_vars, keys. rewrite Dm, !map_map. reflexivity. }
    assert (Vals : forall o o', full (mf_domain f) o -> (forall w, In w (mf_vars f) -> dget (rename1 r w) o' = dget w o) ->
         mf_get_value f' o' = mf_get_value f o).
    { intros o o' Fo Eo. set (oc := obs_of (mf_vars f) (asg_of o)).
      assert (Ac : agrees oc (asg_of o) (mf_vars f)) by apply agrees_obs_of.
      assert (Foc : full (mf_domain f) oc).
      { intros w l I. exists (asg_of o w). split; [apply Ac; unfold mf_vars, keys; apply (in_map fst) in I; exact I|].
        now apply (full_valid' _ _ Fo). }
      assert (Koc : keys oc = mf_vars f) by apply keys_obs_of.
      destruct (Val oc Foc) as (x & E1 & E2). { rewrite Koc. apply incl_refl. }
      unfold mf_get_value in *. rewrite <- (get_value_agree (mf_store f) o oc (proj1 W)).
      - rewrite E1, <- E2. symmetry. apply get_value_agree; [apply W'| |].
        + fold (mf_domain f'). rewrite Dm. intros w l I. apply in_map_iff in I as ([w0 l0] & Ew & I). cbn in Ew. injection Ew as <- <-.
          rewrite Eo by (unfold mf_vars, keys; apply (in_map fst) in I; exact I). apply Fo. auto.
        + fold (mf_domain f'). fold (mf_vars f'). rewrite Kv. intros w I. apply in_map_iff in I as (w0 & <- & I).
          rewrite Eo by auto. unfold rename_obs. rewrite dget_rename.
          * rewrite (Ac w0 I). symmetry. now apply (full_asg (mf_domain f)).
          * intros x' y' Ix Iy. rewrite Koc in Ix, Iy. apply Inj; [destruct Ix as [<-|]; auto|destruct Iy as [<-|]; auto].
      - exact Fo.
      - intros w I. rewrite (Ac w I). symmetry. now apply (full_asg (mf_domain f)). }
    assert (Back : forall o', full (mf_domain f') o' -> exists o, full (mf_domain f) o /\ mf_get_value f' o' = mf_get_value f o).
    { intros o' Fo'. exists (obs_of (mf_vars f) (fun w => asg_of o' (rename1 r w))).
      assert (Fo : full (mf_domain f) (obs_of (mf_vars f) (fun w => asg_of o' (rename1 r w)))).
      { intros w l I. assert (Ib : In w (mf_vars f)) by (unfold mf_vars, keys; apply (in_map fst) in I; exact I).
        assert (A := agrees_obs_of (mf_vars f) (fun w => asg_of o' (rename1 r w)) w Ib). cbv beta in A. rewrite A. eexists. split; [reflexivity|].
        apply (full_valid' _ _ Fo'). rewrite Dm. apply in_map_iff. exists (w, l). auto. }
      split; [auto|]. apply Vals; [auto|]. intros w I.
      assert (A := agrees_obs_of (mf_vars f) (fun w => asg_of o' (rename1 r w)) w I). cbv beta in A. rewrite A.
      apply (full_asg (mf_domain f')); [auto|]. fold (mf_vars f'). rewrite Kv. now apply in_map. }
    split; [|split; [|split; [auto|auto]]].
    - split; [auto|]. split; [congruence|]. split; [rewrite L', Lv; intros y; tauto|]. split.
      { rewrite R'. intros y. rewrite !in_map_iff. split; intros (z & Ez & I); exists z; split; auto; now apply R. }
      split; [|split].
      + rewrite Dm. intros w l I. apply in_map_iff in I as ([w0 l0] & Ew & I). cbn in Ew. injection Ew as <- <-. auto.
      + intros o' Fo'. destruct (Back o' Fo') as (o & Fo & ->). auto.
      + intros o' Fo'. destruct (drop_one f v W Lv) as (l & Ed & Il).
        destruct (drop_one f' (rename1 r v) W') as (l' & Ed' & Il'). { rewrite L', Lv. reflexivity. }
        assert (l' = l).
        { assert (Nk : NoDup (keys (mf_domain f'))) by apply W'. eapply dom_unique; [exact Nk|exact Il'|].
          rewrite Dm. apply in_map_iff. exists (v, l). auto. }
        subst l'. rewrite Ed'. rewrite all_one'.
        assert (VR : ~ In v (mf_right f)). { assert (J : In v (mf_left f)) by (rewrite Lv; now left). apply mf_left_In in J. tauto. }
        assert (Vv : In v (mf_vars f)) by (unfold mf_vars, keys; apply (in_map fst) in Il; exact Il).
        assert (IR : incl (mf_right f) (mf_vars f)) by apply W.
        set (o := obs_of (mf_right f) (fun w => asg_of o' (rename1 r w))).
        assert (Ao : forall w, In w (mf_right f) -> dget w o = dget (rename1 r w) o').
        { intros w I. assert (A := agrees_obs_of (mf_right f) (fun w => asg_of o' (rename1 r w)) w I). cbv beta in A. unfold o. rewrite A.
          symmetry. apply (full_asg (pick (mf_right f') (mf_domain f'))); [auto|]. rewrite keys_pick'. apply filter_In.
          split; [change (In (rename1 r w) (mf_vars f')); rewrite Kv; now apply in_map, IR|apply mem_In; rewrite R'; now apply in_map]. }
        assert (Fo : full (pick (mf_right f) (mf_domain f)) o).
        { intros w lw I. apply filter_In in I as [I M]. cbn in M. rewrite Ao by (now apply mem_In). apply Fo'. apply filter_In. split.
          - rewrite Dm. apply in_map_iff. exists (w, lw). auto.
          - cbn. apply mem_In. rewrite R'. apply in_map. now apply mem_In. }
        destruct (Nm o Fo) as (xs & F2 & Sx). exists xs. split; [|auto]. rewrite Ed, all_one' in F2.
        assert (Hl : forall s, In s l -> In s l) by auto. clear Sx Ed Ed' Il'. revert xs F2 Hl. generalize l at 1 2 4.
        induction l0 as [|s l0 IH]; intros xs F2 Hl; cbn [map] in *; inversion F2 as [|? x ? xs' E1 E2]; subst; constructor.
        * rewrite <- E1. apply Vals.
          -- intros w lw I. cbn [app dget]. destruct (eqd w v) as [->|Nw].
             ++ exists s. split; [auto|]. assert (lw = l) as ->; [|apply Hl; now left]. eapply dom_unique; [apply W|exact I|exact Il].
             ++ apply Fo. apply filter_In. split; [auto|]. cbn. apply mem_In.
                destruct (in_dec eqd w (mf_right f)) as [J|J]; [auto|]. exfalso. apply Nw.
                assert (Jl : In w (mf_left f)). { apply mf_left_In. split; [|auto]. unfold mf_vars, keys. apply (in_map fst) in I. exact I. }
                rewrite Lv in Jl. destruct Jl as [Jl|[]]. auto.
          -- intros w I. cbn [app dget]. destruct (eqd (rename1 r w) (rename1 r v)) as [Ew|Nw].
             ++ apply Inj in Ew; auto. subst w. now rewrite eqd_refl.
             ++ destruct (eqd w v) as [->|Nv]; [contradiction|]. symmetry. apply Ao.
                destruct (in_dec eqd w (mf_right f)) as [J|J]; [auto|]. exfalso. apply Nv.
                assert (Jl : In w (mf_left f)) by (apply mf_left_In; auto). rewrite Lv in Jl. destruct Jl as [Jl|[]]. auto.
        * apply IH; [auto|]. intros s' I. apply Hl. now right.
    - intros Z o' Fo'. destruct (Back o' Fo') as (o & Fo & ->). auto.
  Qed.
End Rename.
