(** EMCC and GDCC objects. *)

From Coq Require Import String Bool Arith ZArith QArith Qcanon Lia Permutation List.
From Verif Require Import PyBase PyFacts Num DomainModel NdArray StoreModel NumStore FactorModel GenModel GenSpec Spec StoreSpec DomainFacts
  NumFacts FactorSpec GraphModel GraphSpec ModelModel ModelSpec NetSpec NetSem NetFacts VeFacts4 InferModel CausalModel CausalSpec
  CausalFacts MultiModel MultiSpec MultiFacts MultiFacts2 LearnModel LearnSpec EmSpec AggModel ConvModel ConvSpec ConvFacts3 GradModel QSpec QFacts5 GradSpec PipeModel PipeSpec PipeFacts PipeFacts2.
From Coq Require Import List.
Import ListNotations.
Local Open Scope nat_scope.
Local Arguments eqd : simpl never.

(** An intervention leaves a distribution. *)
Lemma do_mass_nil m D F vt endo d : structural m D F vt endo -> Spec.known D d ->
  do_mass D F d [] = 1%Qc.
Proof.
  intros HS Kn. destruct (structural_causal m D F vt endo HS) as (cast & _ & Ca).
  destruct (intervention_ok m D F vt endo cast Ca d) as (m' & _ & C' & Gm & _ & _ & _ & Fm); [exact Kn|].
  assert (Net' : network m' D (do_table F d) vt).
  { apply (causal_network m' D (do_table F d) vt endo cast C'). intros v J.
    assert (J' : In v (nodes (m_graph m))).
    { destruct C' as (_ & _ & _ & _ & SD & _). apply (proj2 (SD v)) in J. now apply (net_nodes m D F vt (proj1 (proj1 HS))). }
    apply (Fm v (F v)). apply (proj1 (proj1 HS)). exact J'. }
  rewrite <- (mass_nil m' D (do_table F d) vt Net'). unfold do_mass, mass. f_equal. apply map_ext_in. intros o J. symmetry.
  apply filter_In in J as [J _]. eapply do_joint_ok; eauto.
Qed.
Lemma structural_plain_roots m D F vt endo : structural m D F vt endo -> plain_roots m.
Proof.
  intros [(Net & _) _] v f Sv _. destruct Net as (_ & _ & _ & _ & _ & SF & St).
  assert (J : In v (nodes (m_graph m))) by (apply SF; apply dget_keys; eauto). specialize (proj1 (St v J)). unfold stored in *. intros E. exists (F v). congruence.
Qed.

Lemma plain_reaches {I} (make : pgm -> res I) ask dflt ms b : ms <> [] -> (forall m, In m ms -> exists x, make m = Ok x) ->
  exists ss h, reaches make ask dflt ss (plain make ask dflt ms b) h /\ h 0 = (ms, b) /\ 0 < length (w_objects (plain make ask dflt ms b)).
Proof.
  intros Ne Mk. destruct ms as [|m ms]; [congruence|]. destruct (mapM_total make (m :: ms) Mk) as (infs & Em).
  destruct (plain_holds make ask dflt m ms b infs Em) as (o & A & _).
  set (w0 := @MkW I [] []). set (s1 := OList (m :: ms)). set (s2 := OMulti (Some 0) b). set (s3 := OCompile 0).
  set (h0 := (fun _ => ([], b)) : held). set (w1 := fst (exec make ask dflt w0 s1)). set (w2 := fst (exec make ask dflt w1 s2)).
  assert (R0 : reaches make ask dflt [] w0 h0) by constructor.
  assert (R1 : reaches make ask dflt ([] ++ [s1]) w1 (holds_after w0 h0 s1)) by (apply reach_app; [exact R0|exact Logic.I]).
  assert (R2 : reaches make ask dflt (([] ++ [s1]) ++ [s2]) w2 (holds_after w1 (holds_after w0 h0 s1) s2)).
  { apply reach_app; [exact R1|]. intros n E. injection E as <-. cbn. lia. }
  exists ((([] ++ [s1]) ++ [s2]) ++ [s3]), (holds_after w2 (holds_after w1 (holds_after w0 h0 s1) s2) s3).
  split; [apply (reach_app make ask dflt _ _ _ s3 R2); cbn; lia|]. split; [reflexivity|].
  apply nth_error_Some. unfold at_ in A. congruence.
Qed.

Section Answers.
  Variable heur : digraph -> list var -> dict var nat -> res (list var).
  Variable so : list (list var) -> list var.
  Hypothesis Hh : is_heuristic heur.
  Hypothesis Ho : is_set_order so.
  Variable dflt : vtype.
  Notation comes := (comes ve_make (ve_ask heur so) dflt).
  Notation query_answer := (query_answer ve_make (ve_ask heur so) dflt).
  Variables (m : pgm) (D : domain) (F : var -> mfactor) (vt : vtype) (endo : list var).
  (** what is known of the models of a training, with their tables *)
  Variable P : nat -> pgm -> (var -> mfactor) -> Prop.
  Hypothesis HP : forall k m' F', P k m' F' -> keeps_equations m D F vt endo m' F'.
  Variables (num : nat) (gen : nat -> res (list pgm)).
  Hypothesis Hn : 0 < num.
  Hypothesis HG : forall k, exists ms, gen k = Ok ms /\ length ms = num /\ forall m', In m' ms -> exists F', P k m' F'.

  Lemma keeps_effect d v l m' F' : keeps_equations m D F vt endo m' F' -> NoDup (keys d) -> incl (keys d) (nodes (m_graph m)) -> Spec.known D d -> In (v, l) D -> ~ In v (keys d) ->
    has_effect D d [] v m' (fun s => do_mass D F' d [(v, s)]).
  Proof.
    intros (Gm & Km & HS & E) Nd Id Kn Iv Nv. destruct (structural_causal m' D F' vt endo HS) as (cast & _ & Ca).
    assert (Nn : forall w, In w (keys D) -> In w (nodes (m_graph m'))) by (intros w J; now apply (net_nodes m' D F' vt (proj1 (proj1 HS)))).
    assert (One := do_mass_nil m' D F' vt endo d HS Kn).
    exists F', vt, endo, cast. split; [exact Ca|]. split; [now apply structural_plain_roots with (1 := HS)|]. split; [exact Nd|].
    split; [now rewrite Gm|].
    split; [exact Kn|]. split; [intros w []|]. split; [apply Nn, keys_In; eauto|]. split; [exact Nv|]. split; [intros []|].
    cbn [outside filter]. rewrite One. split; [discriminate|]. intros s. field. discriminate.
  Qed.
  Lemma made k ms v l : gen k = Ok ms -> In (v, l) D -> ms <> [] /\ (forall m', In m' ms -> exists x, ve_make m' = Ok x) /\
    (forall m', In m' ms -> exists F', P k m' F').
  Proof.
    intros E J. destruct (HG k) as (ms' & E' & Ln & Hm). assert (ms' = ms) as -> by congruence. split; [intros ->; cbn in Ln; lia|]. split; [|exact Hm].
    assert (kn_nil : Spec.known D []) by (intros ? ? ? _ Q; discriminate).
    intros m' J'. destruct (Hm m' J') as (F' & Hp). assert (X := keeps_effect [] v l m' F' (HP _ _ _ Hp) (NoDup_nil _) (fun _ K => match K with end) kn_nil J (fun K => K)).
    destruct (effect_precise heur so Hh Ho D [] [] v l m' _ J X) as (r & (inf & Mi & _) & _). eauto.
  Qed.

  Lemma effect_ok i w n b d v l : comes gen i w (n, b) -> NoDup (keys d) -> incl (keys d) (nodes (m_graph m)) -> Spec.known D d -> In (v, l) D -> ~ In v (keys d) ->
    exists ms xs, gen (pred (Nat.max n 1)) = Ok ms /\ length ms = num /\
      Forall2 (fun m' x => exists F', P (pred (Nat.max n 1)) m' F' /\ forall s, x s = do_mass D F' d [(v, s)]) ms xs /\
      let ans := query_answer w i (MkR [v] (DoDict d) [] false None) in
      (b = false -> exists fs, ans = Ok (AFactors fs) /\
         Forall2 (fun f x => mf_domain f = [(v, l)] /\ forall s, In s l -> mf_get_value f [(v, s)] = Ok (Fin (x s))) fs xs) /\
      (b = true -> exists g, ans = Ok (AInterval g) /\ if_domain g = [(v, l)] /\ st_type (if_store g) = dflt /\
         forall s, In s l -> exists lo hi, interval g [(v, s)] lo hi /\ range (map (fun x => x s) xs) lo hi).
  Proof.
    intros C Nd Id Kn Iv Nv. set (k := pred (Nat.max n 1)).
    assert (G : forall k, exists ms, gen k = Ok ms /\ ms <> [] /\ forall m, In m ms -> exists x, ve_make m = Ok x).
    { intros k'. destruct (HG k') as (ms & E & _). exists ms. split; [exact E|]. destruct (made k' ms v l E Iv) as (X & Y & _). auto. }
    destruct (HG k) as (ms & E & Ln & Hm). destruct (made k ms v l E Iv) as (Ne & Mk & _).
    assert (X : exists xs, Forall2 (fun m' x => exists F', P k m' F' /\ forall s, x s = do_mass D F' d [(v, s)]) ms xs /\
              Forall2 (has_effect D d [] v) ms xs).
    { clear - Hm HP Nd Id Kn Iv Nv. induction ms as [|m1 ms IH]; [exists []; split; constructor|].
      destruct IH as (xs & X1 & X2); [intros m' J; apply Hm; now right|]. destruct (Hm m1 (or_introl eq_refl)) as (F1 & H1).
      exists ((fun s => do_mass D F1 d [(v, s)]) :: xs). split; constructor; auto.
      - exists F1. auto.
      - eapply keeps_effect; eauto. }
    destruct X as (xs & X1 & X2). exists ms, xs. split; [exact E|]. split; [exact Ln|]. split; [exact X1|].
    destruct (trained_answers ve_make (ve_ask heur so) dflt gen i w n b G C ms E) as [Q _]. cbv zeta. rewrite Q.
    destruct (plain_reaches ve_make (ve_ask heur so) dflt ms b Ne Mk) as (ss & h & R & H0 & Lo).
    assert (Y := ve_effect_ok heur so Hh Ho dflt ss _ h 0 D d [] v l xs R Lo Iv). rewrite H0 in Y. cbn [fst snd] in Y.
    exact (Y Ne X2).
  Qed.

  Lemma probability_ok i w n b p cause effect tfc tfe tc fc te fe ms xs : dflt <> VTree -> comes gen i w (n, b) ->
    gen (pred (Nat.max n 1)) = Ok ms -> 0 < n \/ (tfc <> None /\ tfe <> None) ->
    told ms cause tfc tc fc -> told ms effect tfe te fe ->
    truth_states D cause (Some (tc, fc)) tc fc -> truth_states D effect (Some (te, fe)) te fe -> cause <> effect ->
    Forall2 (has_probability p D cause effect tc fc te fe) ms xs ->
    (b = true -> p = PNS -> exists vs, forall m f, In m ms ->
       precise ve_make (ve_ask heur so) (fst (prob_request p cause effect tc fc te fe)) m f -> mf_vars f = vs) ->
    exists lo hi, range xs lo hi /\
      prob_answer ve_make (ve_ask heur so) dflt w i p cause effect tfc tfe = Ok (ANums (if b then [Fin lo; Fin hi] else map Fin xs)).
  Proof.
    intros Hd C E Hg S1 S2 T1 T2 Ne Hx Hv.
    destruct T1 as (lc & Jc & T1'). assert (T1 : truth_states D cause (Some (tc, fc)) tc fc) by (exists lc; auto).
    assert (G : forall k, exists ms, gen k = Ok ms /\ ms <> [] /\ forall m, In m ms -> exists x, ve_make m = Ok x).
    { intros k'. destruct (HG k') as (ms' & E' & _). exists ms'. split; [exact E'|]. destruct (made k' ms' cause lc E' Jc) as (X & Y & _). auto. }
    destruct (made _ ms cause lc E Jc) as (Nm & Mk & _).
    destruct (trained_answers ve_make (ve_ask heur so) dflt gen i w n b G C ms E) as [_ Q]. rewrite Q by exact Hg.
    destruct (plain_reaches ve_make (ve_ask heur so) dflt ms b Nm Mk) as (ss & h & R & H0 & Lo).
    assert (Cp : is_compiled (plain ve_make (ve_ask heur so) dflt ms b) 0).
    { destruct ms as [|m1 ms1]; [congruence|]. destruct (mapM_total ve_make (m1 :: ms1) Mk) as (infs & Em).
      destruct (plain_holds ve_make (ve_ask heur so) dflt m1 ms1 b infs Em) as (o & A & Cc & _). exists o. auto. }
    assert (St : forall v given t f, told ms v given t f -> MultiSpec.settled (plain ve_make (ve_ask heur so) dflt ms b) h 0 v given t f).
    { intros v [q|] t f S; [exact S|]. split; [exact Cp|]. rewrite H0. exact S. }
    assert (Y := ve_prob_ok heur so Hh Ho dflt Hd ss _ h 0 p D cause effect tfc tfe tc fc te fe xs R Lo (St _ _ _ _ S1) (St _ _ _ _ S2) T1 T2 Ne).
    rewrite H0 in Y. cbn [fst snd] in Y. exact (Y Nm Hx Hv).
  Qed.
End Answers.

(** ** EMCC and GDCC *)

Section Objects.
  Variables (m : pgm) (D : domain) (F : var -> mfactor) (vt : vtype) (endo : list var) (data : frame) (E : list var).
  Hypothesis HS : structural m D F vt endo.
  Hypothesis HA : about m D endo data E.
  Hypothesis HU : exists u, exogenous m endo u.
  Variable num_runs : Z.
  Hypothesis Hn : (1 <= num_runs)%Z.
  Variables (parallel : bool) (draw : nat -> nat -> var -> list num) (schedule : nat -> list nat).
  Hypothesis HD : forall k, drawn_exogenous m D endo (draw k).

  (** [i]: the run of the training; its model and learner *)
  Lemma seq_nth_ok i n : i < n -> nth_error (seq 0 n) i = Some i.
  Proof. intros H. rewrite (nth_error_nth' (seq 0 n) 0) by (now rewrite seq_length). now rewrite seq_nth. Qed.
  Lemma Forall2_at {A B} (R : A -> B -> Prop) l1 l2 : Forall2 R l1 l2 -> forall i y, nth_error l2 i = Some y -> exists x, nth_error l1 i = Some x /\ R x y.
  Proof.
    induction 1 as [|x y l1 l2 H _ IH]; intros [|i] z Q; try discriminate; cbn in *.
    - injection Q as <-. eauto.
    - apply IH; exact Q.
  Qed.

  Section EM.
    Variables (query : pgm -> list var -> obs -> res mfactor) (set_iter : list var -> list var) (no_divergence : list num -> list num -> res bool).
    Hypothesis Hq : exact_query query.
    Hypothesis Hs : iterates set_iter.
    Hypothesis Hd : decides no_divergence.
    Hypothesis Hx : explained D F endo data.
    Hypothesis Hc : forall u, exogenous m endo u -> exists v, arc (m_graph m) u v.
    Variable max_iter : Z.

    Lemma emcc_models k : exists ms, emcc_trainer query set_iter no_divergence vt m data max_iter num_runs parallel draw schedule k = Ok ms /\
      length ms = Z.to_nat num_runs /\
      forall i m', nth_error ms i = Some m' -> exists F', improved m D F vt endo data (draw k i) m' F'.
    Proof.
      assert (Gn := em_generate_ok m D F vt endo HS (draw k) (HD k) data E HA HU query set_iter no_divergence Hq Hs Hd Hx Hc max_iter).
      destruct (train_ok parallel num_runs (em_generate query set_iter no_divergence vt m data None max_iter (draw k)) (schedule k) Hn)
        as (ps & a & Ln & Fp & _ & Et & _). { intros i. destruct (Gn i) as (l & m' & F' & prior & F0 & X & _). eauto. }
      exists (map snd ps). split; [exact Et|]. split; [now rewrite map_length|].
      intros i m' Q. rewrite nth_error_map in Q. destruct (nth_error ps i) as [(l & m1)|] eqn:Qp; [|discriminate]. injection Q as Q. cbn [snd] in Q.
      destruct (Forall2_at _ _ _ Fp i _ Qp) as (j & Qj & Mj). assert (Li : i < Z.to_nat num_runs) by (rewrite <- Ln; apply nth_error_Some; congruence).
      rewrite seq_nth_ok in Qj by exact Li. injection Qj as <-.
      destruct (Gn i) as (l' & m2 & F' & prior & F0 & X1 & X2 & X3 & X4 & X5 & X6 & X7).
      assert (m2 = m') as -> by congruence. exists F'. split; [exact X2|]. exists prior, F0. auto.
    Qed.
  End EM.

  Section GD.
    Context {L : Type} (l0 : L) (ladd : L -> L -> L) (lopp : L -> L) (lg : Qc -> L) (lnan : L).
    Hypothesis LG : logarithm l0 ladd lg.
    Variable minimize : option Z -> (list Qc -> res (option L)) -> list num -> res (list Qc).
    Hypothesis SF : stays_feasible minimize.
    Hypothesis Hc : forall u, exogenous m endo u -> sole_cause (m_graph m) F endo u /\ distinct_name (m_graph m) u.
    Variable max_iter : option Z.

    Lemma gdcc_models k : exists ms a,
      gdcc_trainer L l0 ladd lopp lg lnan minimize vt m data max_iter num_runs parallel draw schedule k = Ok ms /\
      length ms = Z.to_nat num_runs /\
      train_agg parallel num_runs (gd_generate L l0 ladd lopp lg lnan minimize vt m data None max_iter (draw k)) (schedule k) = (a, None) /\
      (parallel = false -> length (a_objects a) = Z.to_nat num_runs) /\
      forall i m', nth_error ms i = Some m' -> exists F' m0 F0,
        keeps_equations m D F vt endo m' F' /\ random_start m D F vt endo (draw k i) m0 F0 /\
        fitted lopp lg minimize max_iter D (m_graph m) data (exogenous m endo) F0 F' /\
        (explained D F endo data -> forall lle, orders lopp lg lle -> descends lle minimize -> improved m D F vt endo data (draw k i) m' F') /\
        (parallel = false -> exists l, nth_error (a_objects a) i = Some l /\ model_evolution l = [m0; m']).
    Proof.
      assert (Gn := gd_generate_ok m D F vt endo HS (draw k) (HD k) data E HA HU l0 ladd lopp lg lnan LG minimize SF Hc max_iter).
      destruct (train_ok parallel num_runs (gd_generate L l0 ladd lopp lg lnan minimize vt m data None max_iter (draw k)) (schedule k) Hn)
        as (ps & a & Ln & Fp & Ea & Et & Os & _). { intros i. destruct (Gn i) as (l & m' & F' & prior & F0 & X & _). eauto. }
      exists (map snd ps), a. split; [exact Et|]. split; [now rewrite map_length|]. split; [exact Ea|].
      split. { intros S. rewrite (Os S). now rewrite map_length. }
      intros i m' Q. rewrite nth_error_map in Q. destruct (nth_error ps i) as [(l & m1)|] eqn:Qp; [|discriminate]. injection Q as Q. cbn [snd] in Q.
      destruct (Forall2_at _ _ _ Fp i _ Qp) as (j & Qj & Mj). assert (Li : i < Z.to_nat num_runs) by (rewrite <- Ln; apply nth_error_Some; congruence).
      rewrite seq_nth_ok in Qj by exact Li. injection Qj as <-.
      destruct (Gn i) as (l' & m2 & F' & prior & F0 & X1 & X2 & X3 & X4 & X5 & X6 & X7 & X8).
      assert (m2 = m') as -> by congruence. assert (l' = l) as -> by congruence.
      exists F', prior, F0. split; [exact X2|]. split; [exact X5|]. split; [exact X6|]. split.
      - intros Ex lle Ol De. split; [exact X2|]. exists prior, F0. split; [exact X5|]. split; [now apply X7|]. now apply (X8 lle).
      - intros S. exists l. rewrite (Os S), nth_error_map, Qp. split; [reflexivity|exact X4].
    Qed.
  End GD.
End Objects.

(** ** Causal effects *)
Section Effects.
  Variables (heur : digraph -> list var -> dict var nat -> res (list var)) (so : list (list var) -> list var).
  Hypothesis Hh : is_heuristic heur.
  Hypothesis Ho : is_set_order so.
  Notation comes := (comes ve_make (ve_ask heur so)).
  Notation query_answer := (query_answer ve_make (ve_ask heur so)).

  Lemma runs_at {A} (ms : list A) (P : nat -> A -> Prop) : (forall i x, nth_error ms i = Some x -> P i x) -> forall x, In x ms -> exists i, P i x.
  Proof. intros H x J. apply In_nth_error in J as (i & E). eauto. Qed.

  Lemma emcc_effect m D F vt endo data E : structural m D F vt endo -> about m D endo data E -> (exists u, exogenous m endo u) ->
    forall num_runs, (1 <= num_runs)%Z -> forall parallel draw schedule, (forall k, drawn_exogenous m D endo (draw k)) ->
    forall query set_iter no_divergence, exact_query query -> iterates set_iter -> decides no_divergence -> explained D F endo data ->
    (forall u, exogenous m endo u -> exists v, arc (m_graph m) u v) ->
    forall max_iter i w n b, let gen := emcc_trainer query set_iter no_divergence vt m data max_iter num_runs parallel draw schedule in
    let k := pred (Nat.max n 1) in
    comes vt gen i w (n, b) ->
    forall d v l, NoDup (keys d) -> incl (keys d) (nodes (m_graph m)) -> Spec.known D d -> In (v, l) D -> ~ In v (keys d) ->
    exists ms xs, gen k = Ok ms /\ length ms = Z.to_nat num_runs /\
      Forall2 (fun m' x => exists j F', improved m D F vt endo data (draw k j) m' F' /\ forall s, x s = do_mass D F' d [(v, s)]) ms xs /\
      gives vt b v l (query_answer vt w i (MkR [v] (DoDict d) [] false None)) xs.
  Proof.
    intros HS HA HU num_runs Hn parallel draw schedule HD query set_iter nd Hq Hs Hd Hx Hc max_iter i w n b gen k C d v l Nd Id Kn Iv Nv.
    destruct (effect_ok heur so Hh Ho vt m D F vt endo (fun k m' F' => exists j, improved m D F vt endo data (draw k j) m' F')
      ltac:(intros ? ? ? [? [X _]]; exact X) (Z.to_nat num_runs) gen ltac:(lia)
      ltac:(intros k0; destruct (emcc_models m D F vt endo data E HS HA HU num_runs Hn parallel draw schedule HD query set_iter nd Hq Hs Hd Hx Hc max_iter k0) as (ms & E1 & L1 & H1);
            exists ms; split; [exact E1|]; split; [exact L1|]; intros m' J; destruct (runs_at ms _ H1 m' J) as (j & F' & Q); eauto)
      i w n b d v l C Nd Id Kn Iv Nv) as (ms & xs & E1 & L1 & H1 & A).
    exists ms, xs. split; [exact E1|]. split; [exact L1|]. split; [|exact A].
    eapply Forall2_impl; [|exact H1]. intros m' x (F' & (j & Q) & X). eauto.
  Qed.

  Lemma gdcc_effect m D F vt endo data E : structural m D F vt endo -> about m D endo data E -> (exists u, exogenous m endo u) ->
    forall num_runs, (1 <= num_runs)%Z -> forall parallel draw schedule, (forall k, drawn_exogenous m D endo (draw k)) ->
    forall (L : Type) (l0 : L) ladd lopp lg lnan, logarithm l0 ladd lg -> forall minimize, stays_feasible minimize ->
    (forall u, exogenous m endo u -> sole_cause (m_graph m) F endo u /\ distinct_name (m_graph m) u) ->
    forall max_iter i w n b, let gen := gdcc_trainer L l0 ladd lopp lg lnan minimize vt m data max_iter num_runs parallel draw schedule in
    let k := pred (Nat.max n 1) in
    comes vt gen i w (n, b) ->
    forall d v l, NoDup (keys d) -> incl (keys d) (nodes (m_graph m)) -> Spec.known D d -> In (v, l) D -> ~ In v (keys d) ->
    exists ms xs, gen k = Ok ms /\ length ms = Z.to_nat num_runs /\
      Forall2 (fun m' x => exists j F' m0 F0, keeps_equations m D F vt endo m' F' /\ random_start m D F vt endo (draw k j) m0 F0 /\
          fitted lopp lg minimize max_iter D (m_graph m) data (exogenous m endo) F0 F' /\ forall s, x s = do_mass D F' d [(v, s)]) ms xs /\
      gives vt b v l (query_answer vt w i (MkR [v] (DoDict d) [] false None)) xs.
  Proof.
    intros HS HA HU num_runs Hn parallel draw schedule HD L l0 ladd lopp lg lnan LG minimize SF Hc max_iter i w n b gen k C d v l Nd Id Kn Iv Nv.
    destruct (effect_ok heur so Hh Ho vt m D F vt endo (fun k m' F' => exists j m0 F0, keeps_equations m D F vt endo m' F' /\ random_start m D F vt endo (draw k j) m0 F0 /\
          fitted lopp lg minimize max_iter D (m_graph m) data (exogenous m endo) F0 F')
      ltac:(intros ? ? ? (? & ? & ? & X & _); exact X) (Z.to_nat num_runs) gen ltac:(lia)
      ltac:(intros k0; destruct (gdcc_models m D F vt endo data E HS HA HU num_runs Hn parallel draw schedule HD l0 ladd lopp lg lnan LG minimize SF Hc max_iter k0) as (ms & a & E1 & L1 & _ & _ & H1);
            exists ms; split; [exact E1|]; split; [exact L1|]; intros m' J; destruct (runs_at ms _ H1 m' J) as (j & F' & m0 & F0 & Q1 & Q2 & Q3 & _); exists F', j, m0, F0; auto)
      i w n b d v l C Nd Id Kn Iv Nv) as (ms & xs & E1 & L1 & H1 & A).
    exists ms, xs. split; [exact E1|]. split; [exact L1|]. split; [|exact A].
    eapply Forall2_impl; [|exact H1]. intros m' x (F' & (j & m0 & F0 & Q1 & Q2 & Q3) & X). exists j, F', m0, F0. auto.
  Qed.
End Effects.

(** ** Numbers of runs below one *)
Lemma number_raises {I} (make : pgm -> res I) ask dflt num_runs (w : world I) b rq : (num_runs < 1)%Z ->
  (forall query set_iter nd vt m data max_iter parallel draw schedule,
     query_answer make ask dflt (fst (exec make ask dflt w (OTrained (emcc_trainer query set_iter nd vt m data max_iter num_runs parallel draw schedule) b)))
       (length (w_objects w)) rq = Raise ValueError) /\
  (forall L (l0 : L) ladd lopp lg lnan minimize vt m data max_iter parallel draw schedule,
     query_answer make ask dflt (fst (exec make ask dflt w (OTrained (gdcc_trainer L l0 ladd lopp lg lnan minimize vt m data max_iter num_runs parallel draw schedule) b)))
       (length (w_objects w)) rq = Raise ValueError).
Proof. intros Hn. split; intros; apply trained_raises; now apply train_none. Qed.
