(** The numbers answered by multi-model inference: ranges over the models. *)

From Coq Require Import String Ascii Bool Arith Lia ZArith QArith Qcanon Permutation List.
From Verif Require Import PyBase Num DomainModel NdArray StoreModel NumStore FactorModel GenModel GraphModel ModelModel InferModel
  CausalModel MultiModel PyFacts Spec StoreSpec DomainFacts StoreFacts NumFacts FactorSpec FactorFacts FactorFacts2 GenSpec GenFacts GenFacts2 GenFacts3
  GraphSpec ModelSpec NetSpec NetFacts VeFacts4 CausalSpec CausalFacts CausalFacts2 CfFacts CfFacts2 CfFacts3 PropFacts1 PropFacts4 PropFacts5
  MultiSpec MultiFacts.
Import ListNotations.
Local Open Scope nat_scope.
Local Arguments eqd : simpl never.

Lemma py_min2 lo hi : (lo <= hi)%Qc -> MultiModel.py_min [Fin lo; Fin hi] = Ok (Fin lo).
Proof.
  intros L. cbn. destruct (Qclt_le_dec hi lo) as [Q|Q]; [|reflexivity]. exfalso. exact (Qle_not_lt _ _ L Q).
Qed.
Lemma py_max2 lo hi : (lo <= hi)%Qc -> MultiModel.py_max [Fin lo; Fin hi] = Ok (Fin hi).
Proof.
  intros L. cbn. destruct (Qclt_le_dec lo hi) as [Q|Q]; [reflexivity|]. now rewrite (Qcle_antisym _ _ L Q).
Qed.

Lemma drop_full (dom : domain) (o : obs) : full dom o -> drop (keys o) dom = [].
Proof.
  intros Fu. unfold drop. apply filter_none. intros (v, l) I. cbn [fst]. destruct (Fu v l I) as (s & E & _).
  apply negb_false_iff, mem_In. eapply dget_keys; eauto.
Qed.

Lemma range_unique l lo hi lo' hi' : range l lo hi -> range l lo' hi' -> lo = lo' /\ hi = hi'.
Proof.
  intros (A & B & C) (A' & B' & C'). split; apply Qcle_antisym.
  - apply (C lo' A'). - apply (C' lo A). - apply (C' hi B). - apply (C hi' B').
Qed.

Lemma bounds_values g lo hi : wf_store (if_store g) -> st_domain (if_store g) = [(bound_var, [low; up])] -> interval g [] lo hi ->
  if_values g = Ok [Fin lo; Fin hi].
Proof.
  intros W Ed Iv. assert (U : usable []). { split; [split; [constructor|intros v l []]|]. split; [intros v l x y []|intros v s []]. }
  apply (interval_store g [] [] lo hi U W Ed) in Iv as [A B]; [|intros v l []].
  unfold if_values, values_list. rewrite Ed.
  rewrite assignment_space_all. 
  replace (all_assignments [(bound_var, [low; up])]) with [[(bound_var, low)]; [(bound_var, up)]] by reflexivity.
  cbn [mapM bind]. rewrite A, B. reflexivity.
Qed.

Section Range.
  Variable dflt : vtype.
  Hypothesis Hd : dflt <> VTree.
  Lemma range_at fs f0 (at_ : obs) : In f0 fs ->
    (forall f, In f fs -> wf_mf f /\ mf_domain f = mf_domain f0 /\ all_finite f) ->
    full (mf_domain f0) at_ -> incl (keys at_) (mf_vars f0) ->
    exists xs lo hi, Forall2 (fun f x => mf_get_value f at_ = Ok (Fin x)) fs xs /\ range xs lo hi /\
      process_output dflt false (AFactors fs) (Some at_) = Ok (ANums (map Fin xs)) /\
      (let* g := from_precise dflt fs in process_output dflt true (AInterval g) (Some at_)) = Ok (ANums [Fin lo; Fin hi]).
  Proof.
    intros I0 All Fu Inc.
    destruct (mapM_fin (fun f => mf_get_value f at_) fs) as (xs & Ex & Fx).
    { intros f I. destruct (All f I) as (_ & Ed & Fi). apply Fi. now rewrite Ed. }
    destruct (from_precise_ok dflt fs f0 I0 All) as (g & Eg & Wg & Sg & Tg & Dg & _ & Iv).
    destruct (Iv at_ Fu) as (lo & hi & Ig & (fl & Il & El) & (fh & Ih & Eh) & Bd).
    assert (Ra : range xs lo hi).
    { destruct (Forall2_In_l _ _ _ _ Fx Il) as (x & Jx & Vx). assert (x = lo) as -> by congruence.
      destruct (Forall2_In_l _ _ _ _ Fx Ih) as (y & Jy & Vy). assert (y = hi) as -> by congruence.
      split; [auto|]. split; [auto|]. intros z Jz. destruct (Forall2_In_r _ _ _ _ Fx Jz) as (f & If & Vf). eapply Bd; eauto. }
    exists xs, lo, hi. split; [auto|]. split; [auto|]. split.
    - unfold process_output. rewrite Ex. reflexivity.
    - rewrite Eg. cbn [bind]. destruct (All f0 I0) as (Wf & _ & _).
      assert (U : usable (mf_domain f0)) by apply Wf.
      destruct (if_restrict_ok g (mf_domain f0) at_) as (g' & Er & Wr & Sr & Dr & _ & _ & Ir); auto.
      + unfold if_vtype. rewrite Tg. auto.
      + intros v l x J E. destruct (Fu v l J) as (s & E' & Js). congruence.
      + intros J. apply (bound_not_in _ U). now apply Inc.
      + intros o Fo. destruct (Iv o Fo) as (a & b & J & _). eauto.
      + unfold process_output. rewrite Er. cbn [bind]. rewrite (drop_full _ _ Fu) in Sr, Ir.
        assert (J : interval g' [] lo hi). { apply Ir; [intros v l []|]. now rewrite app_nil_r. }
        rewrite (bounds_values g' lo hi Wr Sr J). cbn [bind].
        assert (L : (lo <= hi)%Qc) by (apply Ra; apply Ra).
        rewrite py_min2, py_max2; auto.
  Qed.
End Range.

(** ** Probabilities of causation, for any kind of inference *)
Section Prob.
  Context {I : Type}.
  Variable make : pgm -> res I.
  Variable ask : I -> request -> res mfactor.
  Variable dflt : vtype.
  Hypothesis Hd : dflt <> VTree.

  Lemma settled_ok w h i o v given t f : inv make w h -> nth_error (w_objects w) i = Some o -> settled w h i v given t f ->
    true_false_of o v given = Ok (t, f).
  Proof.
    intros R E S. unfold settled in S. unfold true_false_of. destruct given as [p|]; [congruence|].
    destruct S as ((o' & E' & C) & m & l & Hm & Dm & Id). assert (o' = o) as -> by congruence.
    destruct (R i o E) as (_ & _ & _ & _ & K). destruct (K C) as (m' & ms & infs & Ef & -> & _).
    rewrite Ef in Hm. injection Hm as ->. unfold true_false, dlook. unfold has_domain in Dm. rewrite Dm. exact Id.
  Qed.

  Lemma prob_ok ss w h i p cause effect tfc tfe tc fc te fe fs f0 :
    reaches make ask dflt ss w h -> i < length (w_objects w) ->
    settled w h i cause tfc tc fc -> settled w h i effect tfe te fe ->
    let rq := fst (prob_request p cause effect tc fc te fe) in
    let at_ := snd (prob_request p cause effect tc fc te fe) in
    Forall2 (precise make ask rq) (fst (h i)) fs -> In f0 fs ->
    (forall f, In f fs -> wf_mf f /\ (snd (h i) = true -> mf_domain f = mf_domain f0) /\ all_finite f /\ full (mf_domain f) at_ /\ incl (keys at_) (mf_vars f)) ->
    exists xs lo hi, Forall2 (fun f x => mf_get_value f at_ = Ok (Fin x)) fs xs /\ range xs lo hi /\
      prob_answer make ask dflt w i p cause effect tfc tfe = Ok (ANums (if snd (h i) then [Fin lo; Fin hi] else map Fin xs)).
  Proof.
    intros R L Sc Se rq at_ Fs I0 All. apply reaches_inv in R. unfold prob_answer. cbn [exec]. unfold on.
    destruct (nth_error (w_objects w) i) as [o|] eqn:E; [|apply nth_error_None in E; lia].
    unfold prob. rewrite (settled_ok w h i o _ _ _ _ R E Sc), (settled_ok w h i o _ _ _ _ R E Se). cbn [bind].
    rewrite (surjective_pairing (prob_request p cause effect tc fc te fe)). fold rq at_.
    assert (K := query_ok make ask dflt w h i o rq R E). destruct (query make ask dflt w i o rq) as [w' r]. cbn [snd].
    destruct K as (_ & _ & K2 & _). destruct (mapM_precise make ask rq _ _ Fs) as (infs & E1 & E2).
    assert (Nm : fst (h i) <> []) by (intros X; rewrite X in Fs; inversion Fs; subst; destruct I0).
    rewrite (K2 infs Nm E1), E2. destruct (R i o E) as (_ & _ & -> & _). cbn [bind].
    assert (Fi : exists xs, Forall2 (fun f x => mf_get_value f at_ = Ok (Fin x)) fs xs /\ mapM (fun f => mf_get_value f at_) fs = Ok (map Fin xs)).
    { destruct (mapM_fin (fun f => mf_get_value f at_) fs) as (xs & Ex & Fx); [|eauto].
      intros f J. destruct (All f J) as (_ & _ & Fi & Fu & _). now apply Fi. }
    destruct (snd (h i)) eqn:Int.
    - destruct (All f0 I0) as (_ & _ & _ & Fu & Inc).
      destruct (range_at dflt Hd fs f0 at_ I0) as (xs & lo & hi & Fx & Ra & _ & Ei); auto.
      { intros f J. destruct (All f J) as (W & Ed & Fi' & _). auto. }
      exists xs, lo, hi. split; [auto|]. split; [auto|]. 
      destruct fs as [|f1 fs']; [destruct I0|]. cbn [bind] in *.
      change (process_output dflt true (AFactors (f1 :: fs')) None) with (let* f := from_precise dflt (f1 :: fs') in Ok (AInterval f)). destruct (from_precise dflt (f1 :: fs')) as [g|e]; [exact Ei|discriminate Ei].
    - destruct Fi as (xs & Fx & Ex).
      assert (exists lo hi, range xs lo hi) as (lo & hi & Ra).
      { assert (N : xs <> []) by (intros ->; inversion Fx; subst; destruct I0). clear - N.
        induction xs as [|x xs IH]; [congruence|]. destruct xs as [|y xs].
        - exists x, x. split; [now left|]. split; [now left|]. intros z [->|[]]. split; apply Qcle_refl.
        - destruct IH as (lo & hi & A & B & C); [discriminate|].
          exists (if Qclt_le_dec x lo then x else lo), (if Qclt_le_dec hi x then x else hi).
          destruct (Qclt_le_dec x lo) as [P|P], (Qclt_le_dec hi x) as [Q|Q]; (split; [first [now left | now right]|split; [first [now left | now right]|]]);
            (intros z [->|J]; [split; auto using Qcle_refl, Qclt_le_weak|destruct (C z J) as [C1 C2]; split; eauto using Qcle_trans, Qclt_le_weak]). }
      exists xs, lo, hi. split; [auto|]. split; [auto|]. unfold process_output. cbn [bind]. rewrite Ex. reflexivity.
  Qed.
End Prob.

(** ** Answers of counterfactual queries *)
Lemma Forall2_nth_map {A B} (P : A -> B -> Prop) (g : A -> B) l : (forall x, In x l -> P x (g x)) -> Forall2 P l (map g l).
Proof. induction l as [|x l IH]; intros J; cbn; constructor; [apply J; now left|apply IH; intros y K; apply J; now right]. Qed.
Lemma dget_combine_map {A} (f : A -> var) (g : A -> state) l x : NoDup (map f l) -> In x l -> dget (f x) (combine (map f l) (map g l)) = Some (g x).
Proof.
  induction l as [|y l IH]; intros N J; [destruct J|]. inversion N as [|? ? Ny Nl]; subst. cbn [map combine dget].
  destruct J as [->|J]; [now rewrite eqd_refl|]. rewrite eqd_neq; [auto|]. intros E. apply Ny. rewrite <- E. now apply in_map.
Qed.

Section Answers.
  Variables (D : domain) (ti : list (var * nat)) (val : list state -> Qc).
  Hypothesis WD : NoDup (keys D).
  Hypothesis Nn : NoDup (copy_names ti).
  (** what is known of the answer to a query for the copies [ti] *)
  Definition answers (r : mfactor) : Prop :=
    wf_mf r /\ same_set (mf_vars r) (copy_names ti) /\
    (forall v i l, In (v, i) ti -> In (copy_name v i, l) (mf_domain r) -> In (v, l) D) /\
    (forall xs, states_of D ti xs -> mf_get_value r (combine (copy_names ti) xs) = Ok (Fin (val xs))).

  Lemma answers_finite r : answers r -> all_finite r.
  Proof.
    intros (W & Sv & Dm & Val) o Fo.
    set (gx := fun vi : var * nat => match dget (copy_name (fst vi) (snd vi)) o with Some s => s | None => SInt 0 end).
    assert (St : states_of D ti (map gx ti)).
    { unfold states_of. apply Forall2_nth_map. intros [v i] J. cbn [fst snd].
      assert (Iv : In (copy_name v i) (mf_vars r)). { apply Sv. unfold copy_names. apply in_map_iff. exists (v, i). auto. }
      unfold mf_vars, keys in Iv. apply in_map_iff in Iv as ((n & l) & En & Jl). cbn [fst] in En. subst n.
      exists l. split; [now apply (Dm v i)|]. unfold gx. cbn [fst snd]. destruct (Fo _ _ Jl) as (s & -> & Is). exact Is. }
    exists (val (map gx ti)). rewrite <- (Val _ St). symmetry. apply get_value_agree; [apply W|exact Fo|].
    intros n J. apply Sv in J. unfold copy_names in *. apply in_map_iff in J as (vi & <- & J).
    rewrite (dget_combine_map (fun vi => copy_name (fst vi) (snd vi)) gx ti vi Nn J). unfold gx.
    assert (Iv : In (copy_name (fst vi) (snd vi)) (mf_vars r)) by (apply Sv; now apply in_map with (f := fun vi => copy_name (fst vi) (snd vi))).
    unfold mf_vars, keys in Iv. apply in_map_iff in Iv as ((n & l) & En & Jl). cbn [fst] in En. subst n.
    destruct (Fo _ _ Jl) as (s & -> & _). reflexivity.
  Qed.
  Lemma answers_full r xs : answers r -> states_of D ti xs -> full (mf_domain r) (combine (copy_names ti) xs).
  Proof.
    intros (W & Sv & Dm & Val) St n l J.
    assert (In n (copy_names ti)) as Jn by (apply Sv; unfold mf_vars, keys; apply in_map_iff; now exists (n, l)).
    clear Val Sv. revert xs St n l J Jn Dm. unfold copy_names, states_of in *. clear - WD Nn.
    induction ti as [|[v i] t IH]; intros xs St n l J Jn Dm; [destruct Jn|]. inversion St as [|? x ? xs' Hx Hr]; subst. cbn [map combine dget fst snd].
    destruct (eqd n (copy_name v i)) as [-> | N].
    - exists x. split; [auto|]. destruct Hx as (l' & I1 & I2). cbn [fst] in I1.
      assert (l = l') as -> by (eapply dom_unique; [exact WD| |exact I1]; eapply (Dm v i); [now left|exact J]). exact I2.
    - destruct Jn as [E|Jn]; [exfalso; apply N; symmetry; exact E|]. inversion Nn; subst. apply (IH ltac:(assumption) xs' Hr n l J Jn).
      intros v' i' l' A B. apply (Dm v' i' l'); auto. now right.
  Qed.
End Answers.

Lemma answers_domain D ti v1 v2 r r' : NoDup (keys D) -> answers D ti v1 r -> answers D ti v2 r' -> mf_vars r = mf_vars r' -> mf_domain r = mf_domain r'.
Proof.
  intros WD (_ & S1 & D1 & _) (_ & S2 & D2 & _) Ev. unfold mf_vars in *.
  assert (A1 : forall n l, In (n, l) (mf_domain r) -> exists v i, n = copy_name v i /\ In (v, i) ti /\ In (v, l) D).
  { intros n l J. assert (Jn : In n (copy_names ti)) by (apply S1; apply in_map_iff; now exists (n, l)).
    unfold copy_names in Jn. apply in_map_iff in Jn as ((v & i) & <- & Jt). exists v, i. split; [reflexivity|]. split; [auto|]. eapply D1; eauto. }
  assert (A2 : forall v i l, In (v, i) ti -> In (copy_name v i, l) (mf_domain r') -> In (v, l) D) by exact D2.
  clear S1 S2 D1 D2. revert Ev A1 A2. generalize (mf_domain r) (mf_domain r').
  induction d as [|(n & l) d IH]; intros [|(n' & l') d'] Ev A1 A2; try discriminate; auto.
  cbn [keys map fst] in Ev. injection Ev as <- Ev. destruct (A1 n l (or_introl eq_refl)) as (v & i & -> & Jt & Jl).
  assert (Jl' : In (v, l') D) by (apply (A2 v i); [auto|now left]).
  assert (l = l') as -> by (eapply dom_unique; eauto). f_equal. apply IH; auto.
  - intros n0 l0 J. apply A1. now right.
  - intros v0 i0 l0 J J'. apply (A2 v0 i0); auto. now right.
Qed.

(** ** Probabilities of causation by variable elimination *)
Section VeProb.
  Variables (heur : digraph -> list var -> dict var nat -> res (list var)) (so : list (list var) -> list var).
  Hypothesis Hh : is_heuristic heur.
  Hypothesis Hs : is_set_order so.
  Notation ve_precise := (precise ve_make (ve_ask heur so)).

  Definition prob_targets (p : probability) (effect : var) : list (var * nat) :=
    match p with PNS => [(effect, 1); (effect, 2)] | _ => [(effect, 1)] end.
  Definition prob_states (p : probability) (te fe : state) : list state :=
    match p with PNS => [fe; te] | PN => [fe] | PS => [te] end.

  Lemma prob_names p effect : NoDup (copy_names (prob_targets p effect)).
  Proof.
    assert (One : forall n : var, NoDup [n]) by (intros n; constructor; [intros []|constructor]).
    destruct p; [|apply One..]. constructor; [|apply One]. intros [E|[]].
    change (world_name effect 2 = world_name effect 1) in E. apply world_name_inj in E as [_ E]. discriminate.
  Qed.
  Lemma prob_at p cause effect tc fc te fe :
    snd (prob_request p cause effect tc fc te fe) = combine (copy_names (prob_targets p effect)) (prob_states p te fe).
  Proof.
    destruct p; cbn [prob_request snd]; try reflexivity. rewrite dict_of_id; [reflexivity|]. apply (prob_names PNS effect).
  Qed.

  Lemma prob_precise p D cause effect tc fc te fe m x :
    truth_states D cause (Some (tc, fc)) tc fc -> truth_states D effect (Some (te, fe)) te fe -> cause <> effect ->
    has_probability p D cause effect tc fc te fe m x ->
    exists r val, ve_precise (fst (prob_request p cause effect tc fc te fe)) m r /\ answers D (prob_targets p effect) val r /\
      val (prob_states p te fe) = x.
  Proof.
    intros Hc He Ne (F & vt & endo & cast & X & H & PR & HX & Nc & Nf & Ch & Fr & Me & Ex).
    assert (In effect (nodes (m_graph m))) as Ief by (eapply node_of; eauto).
    assert (In cause (nodes (m_graph m))) as Ica by (eapply node_of; eauto).
    assert (Dict : forall ce ec, dict_of [(cause, ce); (effect, ec)] = ([(cause, ce); (effect, ec)] : obs)).
    { intros ce ec. apply dict_of_id. cbn. repeat constructor; cbn; [|intros []]. intros [E|[]]. auto. }
    assert (One : forall c ce ec, (c = tc \/ c = fc) -> fresh_names (m_graph m) X [[(cause, c)]] ->
      cf_mass D F X [([], [(cause, ce); (effect, ec)])] <> 0%Qc ->
      exists r, ve_precise (MkR [effect] (DoDict [(cause, c)]) [(cause, ce); (effect, ec)] true None) m r /\
        answers D [(effect, 1)] (fun xs => (cf_mass D F X (cf_events [(cause, ce); (effect, ec)] [[(cause, c)]] (prob_targets PN effect) xs) /
                                            cf_mass D F X [([], [(cause, ce); (effect, ec)])])%Qc) r).
    { intros c ce ec C1 Frc Mec.
      assert (Hx : forall y, In y [c] -> y = tc \/ y = fc) by (intros y [<-|[]]; tauto).
      assert (Ie : incl (keys [(cause, ce); (effect, ec)]) (nodes (m_graph m))) by (intros v [<-|[<-|[]]]; auto).
      destruct (counterfactual_ok m D F vt endo cast H PR X HX heur so Hh Hs (DoDict [(cause, c)]) _ eq_refl
        (do_ok m D F vt endo cast H cause (Some (tc, fc)) tc fc Hc [c] Hx) Frc [(cause, ce); (effect, ec)] Ie [effect] [1] _ eq_refl)
        as (m1 & r & E1 & Er & W & _ & Sv & _ & _ & Dm & Val).
      - split; [|split].
        + repeat constructor. intros [].
        + discriminate.
        + intros v i J. cbn in J. destruct J as [J|[]]; injection J as <- <-; (do 2 (split; [auto|])).
          exists [(cause, c)]. split; [now left|]. intros [E|[]]. auto.
      - eapply (child_ok m D F vt endo cast H X cause [c]); auto.
      - exact Mec.
      - exists r. split; [exists m1; split; [exact E1|exact Er]|]. split; [auto|]. split; [auto|]. split; auto. }
    destruct p.
    - cbn [prob_request fst].
      destruct (counterfactual_ok m D F vt endo cast H PR X HX heur so Hh Hs (DoList [[(cause, fc)]; [(cause, tc)]]) _ eq_refl
        (do_ok m D F vt endo cast H cause (Some (tc, fc)) tc fc Hc [fc; tc] ltac:(intros y [<-|[<-|[]]]; auto)) Fr [] ltac:(intros v []) [effect; effect] [1; 2] _ eq_refl)
        as (m1 & r & E1 & Er & W & _ & Sv & _ & _ & Dm & Val).
      + split; [|split].
        * repeat constructor; cbn; intros J; repeat destruct J as [J|J]; try discriminate J; auto.
        * discriminate.
        * intros v i J. cbn in J. destruct J as [J|[J|[]]]; injection J as <- <-; (do 2 (split; [auto|])).
          -- exists [(cause, fc)]. split; [now left|]. intros [E|[]]. auto.
          -- exists [(cause, tc)]. split; [right; now left|]. intros [E|[]]. auto.
      + apply (child_ok m D F vt endo cast H X cause [fc; tc]); auto.
      + intros E. assert (Z : Q2Qc 1 = Q2Qc 0) by (rewrite <- (unit_total m D F vt endo cast H PR X HX); exact E). discriminate Z.
      + exists r. eexists. split; [exists m1; split; [exact E1|exact Er]|]. split; [split; [auto|split; [auto|split; [exact Dm|exact Val]]]|].
        rewrite Ex. cbn [prob_joint prob_given prob_states].
        assert (Ea : cf_mass D F X (cf_events [] [[(cause, fc)]; [(cause, tc)]] (combine [effect; effect] [1; 2]) [fe; te])
          = cf_mass D F X [([(cause, fc)], [(effect, fe)]); ([(cause, tc)], [(effect, te)])]) by apply (no_evidence m D F vt endo cast H PR X HX).
        assert (Eb : cf_mass D F X [([], [])] = 1%Qc) by apply (unit_total m D F vt endo cast H PR X HX).
        exact (f_equal2 Qcdiv Ea Eb).
    - cbn [prob_request fst]. rewrite Dict. destruct (One fc tc te) as (r & P & A); auto.
      exists r. eexists. split; [exact P|]. split; [exact A|]. rewrite Ex. reflexivity.
    - cbn [prob_request fst]. rewrite Dict. destruct (One tc fc fe) as (r & P & A); auto.
      exists r. eexists. split; [exact P|]. split; [exact A|]. rewrite Ex. reflexivity.
  Qed.

  Variable dflt : vtype.
  Hypothesis Hd : dflt <> VTree.

  Lemma ve_prob_ok ss w h i p D cause effect tfc tfe tc fc te fe xs :
    reaches ve_make (ve_ask heur so) dflt ss w h -> i < length (w_objects w) ->
    settled w h i cause tfc tc fc -> settled w h i effect tfe te fe ->
    truth_states D cause (Some (tc, fc)) tc fc -> truth_states D effect (Some (te, fe)) te fe -> cause <> effect ->
    fst (h i) <> [] -> Forall2 (has_probability p D cause effect tc fc te fe) (fst (h i)) xs ->
    (snd (h i) = true -> p = PNS -> exists vs, forall m f, In m (fst (h i)) ->
       ve_precise (fst (prob_request p cause effect tc fc te fe)) m f -> mf_vars f = vs) ->
    exists lo hi, range xs lo hi /\
      prob_answer ve_make (ve_ask heur so) dflt w i p cause effect tfc tfe = Ok (ANums (if snd (h i) then [Fin lo; Fin hi] else map Fin xs)).
  Proof.
    intros R L Sc Se Hc He Ne Nm Fx Ord.
    set (at_ := snd (prob_request p cause effect tc fc te fe)). set (rq := fst (prob_request p cause effect tc fc te fe)).
    assert (Eat : at_ = combine (copy_names (prob_targets p effect)) (prob_states p te fe)) by apply prob_at.
    assert (Each : exists fs, Forall2 (ve_precise rq) (fst (h i)) fs /\
      Forall2 (fun f x => exists val, answers D (prob_targets p effect) val f /\ val (prob_states p te fe) = x) fs xs).
    { clear - Fx Hc He Ne Hh Hs. induction Fx as [|m x ms xs Hx _ (fs & A & B)]; [exists []; auto|].
      destruct (prob_precise p D cause effect tc fc te fe m x Hc He Ne Hx) as (r & val & P & An & Ev). exists (r :: fs). split; constructor; auto. now exists val. }
    destruct Each as (fs & Fp & Fa).
    assert (WD : NoDup (keys D)).
    { destruct (fst (h i)) as [|m ms]; [congruence|]. inversion Fx as [|? ? ? ? (F & vt & endo & cast & X & H & _)]; subst. apply H. }
    assert (St : states_of D (prob_targets p effect) (prob_states p te fe)).
    { destruct He as (l & J & It & If & _). unfold states_of. destruct p; repeat (apply Forall2_cons; [exists l; auto|]); apply Forall2_nil. }
    assert (exists f0, In f0 fs) as (f0 & I0).
    { destruct fs as [|f0 fs]; [inversion Fp; congruence|]. exists f0. now left. }
    assert (An : forall f, In f fs -> exists val, answers D (prob_targets p effect) val f).
    { intros f J. destruct (Forall2_In_l _ _ _ _ Fa J) as (x & _ & val & A & _). now exists val. }
    assert (Sv : snd (h i) = true -> forall f, In f fs -> mf_vars f = mf_vars f0).
    { intros Int f J. assert (Sing : p <> PNS -> mf_vars f = mf_vars f0).
      { intros Np. destruct (An f J) as (v1 & W1 & S1 & _). destruct (An f0 I0) as (v0 & W0 & S0 & _).
        assert (Eq : forall g, wf_mf g -> same_set (mf_vars g) (copy_names (prob_targets p effect)) -> mf_vars g = [copy_name effect 1]).
        { intros g W S. assert (E : copy_names (prob_targets p effect) = [copy_name effect 1]) by (destruct p; [congruence|reflexivity..]). rewrite E in S.
          assert (N : NoDup (mf_vars g)) by apply W. destruct (mf_vars g) as [|a l]; [destruct (proj2 (S (copy_name effect 1)) (or_introl eq_refl))|].
          destruct (proj1 (S a) (or_introl eq_refl)) as [<-|[]]. destruct l as [|b l]; [reflexivity|].
          destruct (proj1 (S b) (or_intror (or_introl eq_refl))) as [<-|[]]. inversion N as [|? ? K]. destruct K. now left. }
        rewrite (Eq f W1 S1), (Eq f0 W0 S0). reflexivity. }
      destruct p; [|apply Sing; discriminate..]. destruct (Ord Int eq_refl) as (vs & Ov).
      destruct (Forall2_In_r _ _ _ _ Fp J) as (m & Jm & Pm). destruct (Forall2_In_r _ _ _ _ Fp I0) as (m0 & Jm0 & Pm0).
      rewrite (Ov m f Jm Pm), (Ov m0 f0 Jm0 Pm0). reflexivity. }
    destruct (prob_ok ve_make (ve_ask heur so) dflt Hd ss w h i p cause effect tfc tfe tc fc te fe fs f0 R L Sc Se Fp I0) as (ys & lo & hi & Fy & Ra & Ans).
    { intros f J. destruct (An f J) as (val & A). assert (A' := A). destruct A' as (W & S & _). split; [auto|]. split; [|split; [|split]].
      - intros Int. destruct (An f0 I0) as (v0 & A0). eapply answers_domain; eauto.
      - eapply answers_finite; [apply prob_names|exact A].
      - fold at_. rewrite Eat. eapply answers_full; eauto. apply prob_names.
      - fold at_. rewrite Eat. intros n K. apply S. unfold keys in K. apply in_map_iff in K as ((n' & s) & <- & K). apply in_combine_l in K. exact K. }
    assert (ys = xs) as ->.
    { clear - Fy Fa Eat St. fold at_ in Fy. rewrite Eat in Fy. revert ys Fy. induction Fa as [|f x fs xs (val & (_ & _ & _ & Val) & Ev) _ IH]; intros ys Fy; inversion Fy; subst; [reflexivity|].
      f_equal; [|now apply IH]. rewrite (Val _ St) in *. congruence. }
    exists lo, hi. auto.
  Qed.
End VeProb.

(** ** Interventional queries with one target *)
Section VeEffect.
  Variables (heur : digraph -> list var -> dict var nat -> res (list var)) (so : list (list var) -> list var).
  Hypothesis Hh : is_heuristic heur.
  Hypothesis Hs : is_set_order so.
  Notation ve_precise := (precise ve_make (ve_ask heur so)).

  Lemma effect_precise D d e v l m x : In (v, l) D -> has_effect D d e v m x ->
    exists r, ve_precise (MkR [v] (DoDict d) e false None) m r /\ wf_mf r /\ mf_domain r = [(v, l)] /\
      forall s, In s l -> mf_get_value r [(v, s)] = Ok (Fin (x s)).
  Proof.
    intros Il (F & vt & endo & cast & H & PR & Nd & Id & Kd & Ie & Iv & N1 & N2 & Me & Ex).
    destruct (causal_query_ok m D F vt endo cast H PR heur so Hh Hs d Nd Id e [v] Kd) as (m1 & r & E1 & Er & W & _ & Sv & _ & _ & Dm & Val & _).
    - repeat constructor. intros [].
    - discriminate.
    - intros u [<-|[]]. auto.
    - auto.
    - intros u [<-|[]]. auto.
    - auto.
    - exists r. split; [exists m1; split; [exact E1|exact Er]|]. split; [auto|].
      assert (NoDup (keys D)) as WD by apply H. split.
      + assert (N : NoDup (keys (mf_domain r))) by apply W. unfold mf_vars in Sv. revert Sv Dm N.
        generalize (mf_domain r). intros [|(a & la) dd] Sv Dm N; [destruct (proj2 (Sv v) (or_introl eq_refl))|].
        destruct (proj1 (Sv a) (or_introl eq_refl)) as [<-|[]].
        assert (la = l) as -> by (eapply dom_unique; [exact WD| |exact Il]; apply Dm; now left).
        destruct dd as [|(b & lb) dd]; [reflexivity|]. destruct (proj1 (Sv b) (or_intror (or_introl eq_refl))) as [<-|[]].
        inversion N as [|? ? K]. destruct K. now left.
      + intros s Js. rewrite Ex. apply (Val [(v, s)]). split; [reflexivity|]. intros u lu J. apply filter_In in J as [J K].
        cbn [fst] in K. apply mem_In in K as [<-|[]]. exists s. cbn [dget]. rewrite eqd_refl. split; [auto|].
        assert (lu = l) as -> by (eapply dom_unique; eauto). exact Js.
  Qed.

  Variable dflt : vtype.
  Lemma ve_effect_ok ss w h i D d e v l xs :
    reaches ve_make (ve_ask heur so) dflt ss w h -> i < length (w_objects w) -> In (v, l) D ->
    fst (h i) <> [] -> Forall2 (has_effect D d e v) (fst (h i)) xs ->
    let ans := query_answer ve_make (ve_ask heur so) dflt w i (MkR [v] (DoDict d) e false None) in
    (snd (h i) = false -> exists fs, ans = Ok (AFactors fs) /\
       Forall2 (fun f x => mf_domain f = [(v, l)] /\ forall s, In s l -> mf_get_value f [(v, s)] = Ok (Fin (x s))) fs xs) /\
    (snd (h i) = true -> exists g, ans = Ok (AInterval g) /\ if_domain g = [(v, l)] /\ st_type (if_store g) = dflt /\
       forall s, In s l -> exists lo hi, interval g [(v, s)] lo hi /\ range (map (fun x => x s) xs) lo hi).
  Proof.
    intros R L Il Nm Fx ans.
    assert (exists fs, Forall2 (ve_precise (MkR [v] (DoDict d) e false None)) (fst (h i)) fs /\
      Forall2 (fun f x => wf_mf f /\ mf_domain f = [(v, l)] /\ forall s, In s l -> mf_get_value f [(v, s)] = Ok (Fin (x s))) fs xs) as (fs & Fp & Fa).
    { clear - Fx Il Hh Hs. induction Fx as [|m x ms xs Hx _ (fs & A & B)]; [exists []; auto|].
      destruct (effect_precise D d e v l m x Il Hx) as (r & P & Q). exists (r :: fs). split; constructor; auto. }
    assert (Nf : fs <> []) by (intros ->; inversion Fp; congruence).
    destruct (answer_ok ve_make (ve_ask heur so) dflt ss w h i (MkR [v] (DoDict d) e false None) R L) as (_ & K & _).
    specialize (K fs Fp Nf). fold ans in K. split; intros Int; rewrite Int in K.
    - exists fs. split; [exact K|]. eapply Forall2_impl; [|exact Fa]. intros f x (_ & A & B). auto.
    - destruct fs as [|f0 fs]; [congruence|].
      assert (D0 : mf_domain f0 = [(v, l)]) by (inversion Fa as [|? ? ? ? (_ & A & _)]; auto).
      assert (Fi : forall f, In f (f0 :: fs) -> wf_mf f /\ mf_domain f = mf_domain f0 /\ all_finite f).
      { intros f J. destruct (Forall2_In_l _ _ _ _ Fa J) as (x & _ & W & A & B). split; [auto|]. split; [congruence|].
        intros o Fo. rewrite A in Fo. destruct (Fo v l (or_introl eq_refl)) as (s & E & Js). exists (x s). rewrite <- (B s Js).
        symmetry. apply get_value_agree; [apply W| |].
        - fold (mf_domain f). now rewrite A.
        - fold (mf_domain f). rewrite A. intros u [<-|[]]. cbn [dget fst]. now rewrite eqd_refl. }
      destruct (from_precise_ok dflt (f0 :: fs) f0 (or_introl eq_refl) Fi) as (g & Eg & _ & _ & Tg & Dg & _ & Iv).
      rewrite Eg in K. exists g. split; [exact K|]. split; [congruence|]. split; [auto|]. intros s Js.
      destruct (Iv [(v, s)]) as (lo & hi & Ig & (f1 & J1 & E1) & (f2 & J2 & E2) & Bd).
      { rewrite D0. intros u lu [J|[]]. injection J as <- <-. exists s. cbn [dget]. now rewrite eqd_refl. }
      exists lo, hi. split; [auto|]. split; [|split].
      + destruct (Forall2_In_l _ _ _ _ Fa J1) as (x & Jx & _ & _ & B). rewrite (B s Js) in E1. injection E1 as <-. apply in_map_iff. eauto.
      + destruct (Forall2_In_l _ _ _ _ Fa J2) as (x & Jx & _ & _ & B). rewrite (B s Js) in E2. injection E2 as <-. apply in_map_iff. eauto.
      + intros z Jz. apply in_map_iff in Jz as (x & <- & Jx). destruct (Forall2_In_r _ _ _ _ Fa Jx) as (f & Jf & _ & _ & B). apply (Bd f); auto.
  Qed.
End VeEffect.

(** A new object has no model to look the states up in. *)
Lemma prob_new {I} (make : pgm -> res I) ask dflt w models interval p cause effect tfe :
  prob_answer make ask dflt (fst (exec make ask dflt w (OMulti models interval))) (length (w_objects w)) p cause effect None tfe = Raise AttributeError.
Proof.
  unfold prob_answer. cbn [exec fst]. unfold new_multi.
  assert (O : forall w' k, or_new w models = (w', k) -> w_objects w' = w_objects w).
  { intros w' k. unfold or_new, new_list. destruct models as [n|]; [destruct (list_at w n)|];
      intros E; apply pair_equal_spec in E as [<- _]; reflexivity. }
  destruct (or_new w models) as [w1 k1] eqn:E1. specialize (O _ _ eq_refl).
  destruct (or_new w1 (Some k1)) as [w2 k2] eqn:E2.
  assert (O2 : w_objects w2 = w_objects w1).
  { revert E2. unfold or_new, new_list. destruct (list_at w1 k1); intros E; apply pair_equal_spec in E as [<- _]; reflexivity. }
  unfold on. cbn [w_objects]. rewrite O2, O, nth_error_app2, Nat.sub_diag by lia. reflexivity.
Qed.
(** The interval answer to a query, at every observation. *)
Lemma range_query {I} (make : pgm -> res I) ask dflt ss w h i rq fs f0 :
  reaches make ask dflt ss w h -> i < length (w_objects w) -> snd (h i) = true ->
  Forall2 (precise make ask rq) (fst (h i)) fs -> In f0 fs ->
  (forall f, In f fs -> wf_mf f /\ mf_domain f = mf_domain f0 /\ all_finite f) ->
  exists g, query_answer make ask dflt w i rq = Ok (AInterval g) /\ if_domain g = mf_domain f0 /\ st_type (if_store g) = dflt /\
    forall o, full (mf_domain f0) o -> exists xs lo hi, Forall2 (fun f x => mf_get_value f o = Ok (Fin x)) fs xs /\ range xs lo hi /\ interval g o lo hi.
Proof.
  intros R L Hi Fs I0 All. assert (Ne : fs <> []) by (intros ->; destruct I0).
  destruct (answer_ok _ _ _ _ _ _ _ rq R L) as (_ & A & _). specialize (A fs Fs Ne). rewrite Hi in A.
  destruct (from_precise_ok dflt fs f0 I0 All) as (g & Eg & Wg & Sg & Tg & Dg & _ & Iv).
  rewrite Eg in A. cbn [bind] in A. exists g. do 3 (split; [assumption|]). intros o Fu.
  destruct (mapM_fin (fun f => mf_get_value f o) fs) as (xs & Ex & Fx).
  { intros f J. destruct (All f J) as (_ & Ed & Fi). apply Fi. now rewrite Ed. }
  destruct (Iv o Fu) as (lo & hi & Ig & (fl & Il & El) & (fh & Ih & Eh) & Bd).
  exists xs, lo, hi. split; [auto|]. split; [|auto].
  destruct (Forall2_In_l _ _ _ _ Fx Il) as (x & Jx & Vx). assert (x = lo) as -> by congruence.
  destruct (Forall2_In_l _ _ _ _ Fx Ih) as (y & Jy & Vy). assert (y = hi) as -> by congruence.
  split; [auto|]. split; [auto|]. intros z Jz. destruct (Forall2_In_r _ _ _ _ Fx Jz) as (f & If & Vf). eapply Bd; eauto.
Qed.
