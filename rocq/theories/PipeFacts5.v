(** Effects computed by an EMCC object that is compiled incrementally. *)

From Coq Require Import String Bool Arith ZArith QArith Qcanon Lia Permutation List.
From Verif Require Import PyBase PyFacts Num DomainModel NdArray StoreModel NumStore FactorModel GenModel GenSpec Spec StoreSpec DomainFacts
  NumFacts FactorSpec GraphModel GraphSpec ModelModel ModelSpec NetSpec NetSem NetFacts VeFacts4 InferModel CausalModel CausalSpec
  CausalFacts MultiModel MultiSpec MultiFacts MultiFacts2 LearnModel LearnSpec EmSpec AggModel PipeModel PipeSpec PipeFacts2 PipeFacts3 PipeFacts4.
From Coq Require Import List.
Import ListNotations.
Local Open Scope nat_scope.
Local Arguments eqd : simpl never.

Section Effects.
  Variable heur : digraph -> list var -> dict var nat -> res (list var).
  Variable so : list (list var) -> list var.
  Hypothesis Hh : is_heuristic heur.
  Hypothesis Ho : is_set_order so.
  Variable dflt : vtype.
  Notation grows := (grows ve_make (ve_ask heur so) dflt).
  Notation query_answer := (query_answer ve_make (ve_ask heur so) dflt).
  Variables (m : pgm) (D : domain) (F : var -> mfactor) (vt : vtype) (endo : list var).
  Variable P : nat -> pgm -> (var -> mfactor) -> Prop.
  Hypothesis HP : forall k m' F', P k m' F' -> keeps_equations m D F vt endo m' F'.
  Variables (num : nat) (gen : nat -> res (list pgm)).
  Hypothesis Hn : 0 < num.
  Hypothesis HG : forall k, exists ms, gen k = Ok ms /\ length ms = num /\ forall m', In m' ms -> exists F', P k m' F'.
  Variables (d : obs) (v : var) (l : list state).
  Hypothesis Nd : NoDup (keys d).
  Hypothesis Id : incl (keys d) (nodes (m_graph m)).
  Hypothesis Kn : Spec.known D d.
  Hypothesis Iv : In (v, l) D.
  Hypothesis Nv : ~ In v (keys d).

  Lemma usable : forall k, exists ms, gen k = Ok ms /\ ms <> [] /\ forall m, In m ms -> exists x, ve_make m = Ok x.
  Proof.
    intros k. destruct (HG k) as (ms & E & _). exists ms. split; [exact E|].
    destruct (made heur so Hh Ho m D F vt endo P HP num gen Hn HG k ms v l E Iv) as (X & Y & _). auto.
  Qed.
  Lemma so_far_effects t : exists xs,
    Forall2 (fun m' x => exists k F', k < t /\ P k m' F' /\ forall s, x s = do_mass D F' d [(v, s)]) (so_far gen t) xs /\
    Forall2 (has_effect D d [] v) (so_far gen t) xs.
  Proof.
    assert (X : forall m', In m' (so_far gen t) -> exists k F', k < t /\ P k m' F').
    { intros m' J. unfold so_far in J. apply in_concat in J as (ms & J & Jm). apply in_map_iff in J as (k & <- & J). apply in_seq in J.
      destruct (HG k) as (ms & E & _ & H). rewrite E in Jm. destruct (H m' Jm) as (F' & Q). exists k, F'. split; [lia|exact Q]. }
    revert X. generalize (so_far gen t). intros ms. induction ms as [|m1 ms IH]; intros X; [exists []; split; constructor|].
    destruct IH as (xs & X1 & X2); [intros m' J; apply X; now right|]. destruct (X m1 (or_introl eq_refl)) as (k & F1 & Lk & H1).
    exists ((fun s => do_mass D F1 d [(v, s)]) :: xs). split; constructor; auto.
    - exists k, F1. auto.
    - eapply keeps_effect; eauto.
  Qed.
  Lemma grown_gives i w t b xs : grows gen i w (t, b) -> 0 < t -> Forall2 (has_effect D d [] v) (so_far gen t) xs ->
    gives dflt b v l (query_answer w i (MkR [v] (DoDict d) [] false None)) xs.
  Proof.
    intros C Ht X2. assert (G := usable). destruct (grown_answers ve_make (ve_ask heur so) dflt gen G i w t b C Ht) as [Q _].
    assert (Ne : so_far gen t <> []) by (eapply so_far_some; eauto).
    destruct (plain_reaches ve_make (ve_ask heur so) dflt (so_far gen t) b Ne) as (ss & h & R & H0 & Lo).
    { intros m' J. eapply so_far_make; eauto. }
    assert (Y := ve_effect_ok heur so Hh Ho dflt ss _ h 0 D d [] v l xs R Lo Iv). rewrite H0 in Y. cbn [fst snd] in Y.
    unfold gives. rewrite Q. exact (Y Ne X2).
  Qed.
  Lemma grown_effect i w t b : grows gen i w (t, b) -> 0 < t -> exists xs,
    Forall2 (fun m' x => exists k F', k < t /\ P k m' F' /\ forall s, x s = do_mass D F' d [(v, s)]) (so_far gen t) xs /\
    gives dflt b v l (query_answer w i (MkR [v] (DoDict d) [] false None)) xs.
  Proof. intros C Ht. destruct (so_far_effects t) as (xs & X1 & X2). exists xs. split; [exact X1|]. eapply grown_gives; eauto. Qed.

  Lemma so_far_more t t' : t <= t' -> exists rest, so_far gen t' = so_far gen t ++ rest.
  Proof.
    induction 1 as [|t' _ (rest & IH)]; [exists []; now rewrite app_nil_r|]. destruct (HG t') as (ms & E & _).
    exists (rest ++ ms). now rewrite (so_far_S gen t' ms E), IH, app_assoc.
  Qed.
  Lemma grown_nested i w t i' w' t' : grows gen i w (t, true) -> grows gen i' w' (t', true) -> 0 < t <= t' -> exists g g',
    query_answer w i (MkR [v] (DoDict d) [] false None) = Ok (AInterval g) /\
    query_answer w' i' (MkR [v] (DoDict d) [] false None) = Ok (AInterval g') /\
    forall s, In s l -> exists lo hi lo' hi', interval g [(v, s)] lo hi /\ interval g' [(v, s)] lo' hi' /\ (lo' <= lo)%Qc /\ (hi <= hi')%Qc.
  Proof.
    intros C C' [Ht Hl]. destruct (so_far_effects t') as (xs & _ & X2). destruct (so_far_more t t' Hl) as (rest & E).
    assert (X3 := X2). rewrite E in X3. apply Forall2_app_inv_l in X3 as (x1 & x2 & X3 & _ & ->).
    destruct (grown_gives i w t true x1 C Ht X3) as [_ Y]. destruct (Y eq_refl) as (g & A & _ & _ & R).
    destruct (grown_gives i' w' t' true (x1 ++ x2) C' ltac:(lia) X2) as [_ Y']. destruct (Y' eq_refl) as (g' & A' & _ & _ & R').
    exists g, g'. split; [exact A|]. split; [exact A'|]. intros s J. destruct (R s J) as (lo & hi & B & I1 & I2 & _).
    destruct (R' s J) as (lo' & hi' & B' & _ & _ & M). exists lo, hi, lo', hi'. split; [exact B|]. split; [exact B'|].
    rewrite map_app in M. split; apply M; apply in_app_iff; left; assumption.
  Qed.
End Effects.

Section Emcc.
  Variables (heur : digraph -> list var -> dict var nat -> res (list var)) (so : list (list var) -> list var).
  Hypothesis Hh : is_heuristic heur.
  Hypothesis Ho : is_set_order so.
  Notation grows := (grows ve_make (ve_ask heur so)).
  Notation query_answer := (query_answer ve_make (ve_ask heur so)).
  Variables (m : pgm) (D : domain) (F : var -> mfactor) (vt : vtype) (endo : list var) (data : frame) (E : list var).
  Hypothesis HS : structural m D F vt endo.
  Hypothesis HA : about m D endo data E.
  Hypothesis HU : exists u, exogenous m endo u.
  Variable step_runs : Z.
  Hypothesis Hn : (1 <= step_runs)%Z.
  Variables (parallel : bool) (draw : nat -> nat -> var -> list num) (schedule : nat -> list nat).
  Hypothesis HD : forall k, drawn_exogenous m D endo (draw k).
  Variables (query : pgm -> list var -> obs -> res mfactor) (set_iter : list var -> list var) (no_divergence : list num -> list num -> res bool).
  Hypothesis Hq : exact_query query.
  Hypothesis Hs : iterates set_iter.
  Hypothesis Hd : decides no_divergence.
  Hypothesis Hx : explained D F endo data.
  Hypothesis Hc : forall u, exogenous m endo u -> exists v, arc (m_graph m) u v.
  Variable max_iter : Z.
  Let gen := emcc_trainer query set_iter no_divergence vt m data max_iter step_runs parallel draw schedule.
  Let P (k : nat) (m' : pgm) (F' : var -> mfactor) : Prop := exists j, improved m D F vt endo data (draw k j) m' F'.
  Lemma step_keeps k m' F' : P k m' F' -> keeps_equations m D F vt endo m' F'.
  Proof. intros [? [X _]]. exact X. Qed.
  Lemma step_models k : exists ms, gen k = Ok ms /\ length ms = Z.to_nat step_runs /\ forall m', In m' ms -> exists F', P k m' F'.
  Proof.
    destruct (emcc_models m D F vt endo data E HS HA HU step_runs Hn parallel draw schedule HD query set_iter no_divergence Hq Hs Hd Hx Hc max_iter k) as (ms & E1 & L1 & H1).
    exists ms. split; [exact E1|]. split; [exact L1|]. intros m' J. destruct (runs_at ms _ H1 m' J) as (j & F' & Q). exists F', j. exact Q.
  Qed.

  Lemma emcc_next num_runs i w t b : grows vt gen i w (t, b) ->
    ((Z.of_nat t * step_runs < num_runs)%Z -> compile_next ve_make num_runs w i = (fst (exec ve_make (ve_ask heur so) vt w (OMore i)), Some (Ok tt)) /\
       grows vt gen i (fst (exec ve_make (ve_ask heur so) vt w (OMore i))) (S t, b)) /\
    ((num_runs <= Z.of_nat t * step_runs)%Z -> compile_next ve_make num_runs w i = (w, None)).
  Proof.
    intros C. assert (V : exists v l, In (v, l) D).
    { destruct HU as (u & J & _). assert (J2 := net_nodes m D F vt (proj1 (proj1 HS)) u). apply J2 in J. apply in_map_iff in J as ((v & l) & _ & J). eauto. }
    destruct V as (v & l & Iv).
    destruct (next_turn ve_make (ve_ask heur so) vt gen (usable heur so Hh Ho m D F vt endo P step_keeps (Z.to_nat step_runs) gen ltac:(lia) step_models v l Iv) i (Z.to_nat step_runs)) with (num_runs := num_runs) (w := w) (t := t) (b := b) as [A B].
    - intros k ms E1. destruct (step_models k) as (ms' & E2 & L & _). congruence.
    - exact C.
    - rewrite Nat2Z.inj_mul, Z2Nat.id in A, B by lia. split; [|exact B]. intros L. split; [now apply A|]. now apply grows_more.
  Qed.
  Lemma emcc_grown i w t b d v l : grows vt gen i w (t, b) -> 0 < t ->
    NoDup (keys d) -> incl (keys d) (nodes (m_graph m)) -> Spec.known D d -> In (v, l) D -> ~ In v (keys d) ->
    length (so_far gen t) = t * Z.to_nat step_runs /\ exists xs,
    Forall2 (fun m' x => exists k j F', k < t /\ improved m D F vt endo data (draw k j) m' F' /\ forall s, x s = do_mass D F' d [(v, s)]) (so_far gen t) xs /\
    gives vt b v l (query_answer vt w i (MkR [v] (DoDict d) [] false None)) xs.
  Proof.
    intros C Ht Nd Id Kn Iv Nv. split.
    - clear C Ht. induction t as [|t IH]; [reflexivity|]. destruct (step_models t) as (ms & E1 & L & _).
      rewrite (so_far_S gen t ms E1), app_length, IH, L. lia.
    - destruct (grown_effect heur so Hh Ho vt m D F vt endo P step_keeps (Z.to_nat step_runs) gen ltac:(lia) step_models d v l Nd Id Kn Iv Nv i w t b C Ht) as (xs & X & Y).
      exists xs. split; [|exact Y]. eapply Forall2_impl; [|exact X]. intros m' x (k & F' & Lk & (j & Q) & R). exists k, j, F'. auto.
  Qed.
  Lemma emcc_nested i w t i' w' t' d v l : grows vt gen i w (t, true) -> grows vt gen i' w' (t', true) -> 0 < t <= t' ->
    NoDup (keys d) -> incl (keys d) (nodes (m_graph m)) -> Spec.known D d -> In (v, l) D -> ~ In v (keys d) -> exists g g',
    query_answer vt w i (MkR [v] (DoDict d) [] false None) = Ok (AInterval g) /\
    query_answer vt w' i' (MkR [v] (DoDict d) [] false None) = Ok (AInterval g') /\
    forall s, In s l -> exists lo hi lo' hi', interval g [(v, s)] lo hi /\ interval g' [(v, s)] lo' hi' /\ (lo' <= lo)%Qc /\ (hi <= hi')%Qc.
  Proof.
    intros C C' Ht Nd Id Kn Iv Nv.
    exact (grown_nested heur so Hh Ho vt m D F vt endo P step_keeps (Z.to_nat step_runs) gen ltac:(lia) step_models d v l Nd Id Kn Iv Nv i w t i' w' t' C C' Ht).
  Qed.
End Emcc.

(** Fewer than one model per turn. *)
Lemma step_raises {I} (make : pgm -> res I) ask dflt step_runs num_runs (w : world I) b query set_iter nd vt m data max_iter parallel draw schedule :
  (step_runs < 1)%Z -> (1 <= num_runs)%Z ->
  snd (compile_next make num_runs (fst (exec make ask dflt w (OTrained (emcc_trainer query set_iter nd vt m data max_iter step_runs parallel draw schedule) b)))
    (length (w_objects w))) = Some (Raise ValueError).
Proof. intros Hs Hn. apply next_raises; [|exact Hn]. now apply train_none. Qed.
