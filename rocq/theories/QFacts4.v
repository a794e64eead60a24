(** The values of the tables of the Q-factorisation, and their products. *)

From Coq Require Import String Bool Arith ZArith QArith Qcanon Lia Permutation List.
From Verif Require Import PyBase PyFacts Num DomainModel NdArray StoreModel NumStore FactorModel GraphModel ModelModel InferModel DataModel
  Spec DomainFacts StoreSpec StoreFacts FactorSpec FactorFacts BigSum GraphSpec GraphFacts GraphFacts2 PropFacts3 ModelSpec ModelFacts
  NetSpec NetSem FactorSem NetFacts VeFacts2 VeFacts3 VeFacts4 CfFacts CfFacts3 BuildFacts CausalFacts PropFacts4 GenFacts3 LearnModel EmSpec EmMath EmFacts5
  QModel QSpec QFacts2 QFacts3.
From Coq Require Import List.
Import ListNotations.
Local Open Scope nat_scope.
Local Arguments eqd : simpl never.

Lemma part_get vs o v : dget v (part vs o) = if mem v vs then dget v o else None.
Proof.
  unfold part. induction o as [|[w s] o IH]; cbn [filter fst]; [cbn; now destruct (mem v vs)|].
  destruct (mem w vs) eqn:Ew; cbn [dget].
  - destruct (eqd v w) as [-> | N]; [now rewrite Ew|exact IH].
  - destruct (eqd v w) as [-> | N]; [rewrite Ew in *; exact IH|exact IH].
Qed.
(** an observation of [vs] as a valid assignment *)
Lemma part_asg D vs o : wf_dom D -> incl vs (keys D) -> full (pick vs D) o ->
  exists a, valid D a /\ (forall v, In v vs -> dget v o = Some (a v)) /\ forall x, dget x (part vs o) = dget x (obs_of vs a).
Proof.
  intros WD I Fo. destruct (some_valid D WD) as (a0 & V0). exists (over (part vs o) a0).
  assert (A : forall v, In v vs -> dget v o = Some (over (part vs o) a0 v)).
  { intros v J. apply I in J as K. apply keys_In in K as (l & K). destruct (Fo v l) as (s & E & _); [apply filter_In; split; [auto|now apply mem_In]|].
    unfold over. rewrite part_get. apply mem_In in J. rewrite J, E. reflexivity. }
  split; [|split; [exact A|]].
  - intros v l J. unfold over. rewrite part_get. destruct (mem v vs) eqn:M; [|now apply V0].
    apply mem_In in M as M'. destruct (Fo v l) as (s & E & K); [apply filter_In; split; [auto|exact M]|]. now rewrite E.
  - intros x. rewrite part_get, dget_obs_of. destruct (mem x vs) eqn:M; [|reflexivity]. apply A. now apply mem_In.
Qed.

Lemma table_value D vt W x ps f a o : table_given D vt W x ps f -> valid D a -> ~ In x ps -> (forall v, In v (x :: ps) -> dget v o = Some (a v)) ->
  mf_get_value f o = Ok (quotient vt (W (obs_of (x :: ps) a)) (W (obs_of ps a))).
Proof.
  intros (Wf & _ & L & R & Df & X) Va Nx G.
  assert (E := X (obs_of [x] a) (obs_of ps a) (assigns_obs D [x] a Va) (assigns_obs D ps a Va)).
  change (obs_of [x] a ++ obs_of ps a) with (obs_of (x :: ps) a) in E. rewrite <- E.
  assert (V : forall v, In v (mf_vars f) <-> In v (x :: ps)).
  { intros v. rewrite (proj1 (proj2 (proj2 (proj2 (wf_mf_partitioned f Wf)))) v), (L v), (R v). cbn. tauto. }
  apply get_value_agree; [apply Wf| |].
  - intros v l J. exists (a v). assert (K : In v (mf_vars f)) by (apply keys_In; eauto). split; [apply obs_of_get; now apply V|].
    apply (Va v l). now apply Df.
  - intros v J. rewrite obs_of_get by (now apply V). apply G. now apply V.
Qed.

(** rows of equal length are combined column by column *)
Lemma fold_rows {A O} (op : A -> A -> A) (os : list O) (rows : list (O -> A)) (r0 : O -> A) :
  fold_left (fun acc row => map (fun xy => op (fst xy) (snd xy)) (combine acc row)) (map (fun r => map r os) rows) (map r0 os) =
  map (fun o => fold_left op (map (fun r => r o) rows) (r0 o)) os.
Proof.
  revert r0. induction rows as [|r rows IH]; intros r0; cbn [map fold_left]; [reflexivity|].
  assert (E : map (fun xy => op (fst xy) (snd xy)) (combine (map r0 os) (map r os)) = map (fun o => op (r0 o) (r o)) os).
  { clear. induction os as [|o os IH]; [reflexivity|]. cbn [map combine]. rewrite IH. reflexivity. }
  rewrite E, IH. reflexivity.
Qed.

Section Prob.
  Variables (D : domain) (q : digraph) (T : var -> mfactor) (b : pgm).
  Hypothesis Wq : wf_graph q.
  Hypothesis B : built D q T b.
  Hypothesis N0 : nodes q <> [].

  Lemma prob_rows os (h : var -> obs -> num) : (forall v o, In v (nodes q) -> In o os -> mf_get_value (T v) o = Ok (h v o)) ->
    exists v vs, nodes q = v :: vs /\ m_prob b os = Ok (map (fun o => fold_left nmul (map (fun w => h w o) vs) (h v o)) os).
  Proof.
    intros X. destruct B as (B1 & B2 & B3 & B4 & B5). destruct (nodes q) as [|v vs] eqn:E; [congruence|]. exists v, vs. split; [reflexivity|].
    unfold m_prob. rewrite (vals_of (m_factors b) (fun v => Some (FM (T v)))); [|rewrite B2, <- E; apply Wq|intros w J; apply B4; now rewrite <- B2].
    rewrite B2. erewrite (mapM_det _ (fun f => map (fun o => match f with Some (FM f) => match mf_get_value f o with Ok x => x | _ => NaN end | _ => NaN end) os)).
    - cbn [bind map np_prod_rows]. apply (f_equal Ok). rewrite map_map.
      rewrite <- (map_map (fun w o => match mf_get_value (T w) o with Ok x => x | _ => NaN end) (fun r => map r os) vs).
      rewrite (fold_rows nmul os). apply map_ext_in. intros o J. rewrite map_map. rewrite X by (auto; now left).
      f_equal. apply map_ext_in. intros w K. rewrite X by (auto; now right). reflexivity.
    - intros f J. apply in_map_iff in J as (w & <- & J). cbn [fo_prob]. unfold mf_prob. apply mapM_det. intros o K. now rewrite X.
  Qed.
End Prob.

Lemma fold_fin (l : list Qc) c : fold_left nmul (map Fin l) (Fin c) = Fin (c * product_of l).
Proof.
  revert c. induction l as [|x l IH]; intros c; cbn [map fold_left nmul]; [apply (f_equal Fin); cbn; ring|]. rewrite IH. apply (f_equal Fin). unfold product_of. cbn [fold_right]. ring.
Qed.
Lemma fold_nan_start (l : list num) : fold_left nmul l NaN = NaN.
Proof. induction l; [reflexivity|]. cbn. exact IHl. Qed.
Lemma fold_nan (l : list num) x : (forall y, In y (x :: l) -> y = NaN \/ exists c, y = Fin c) -> In NaN (x :: l) -> fold_left nmul l x = NaN.
Proof.
  revert x. induction l as [|y l IH]; intros x A J.
  - destruct J as [-> | []]. reflexivity.
  - cbn [fold_left]. apply IH.
    + intros z [<- | K]; [|apply A; right; now right]. destruct (A x (or_introl eq_refl)) as [-> | (c & ->)]; [now left|].
      destruct (A y (or_intror (or_introl eq_refl))) as [-> | (c' & ->)]; cbn; eauto.
    + destruct J as [-> | [-> | J]]; [left; reflexivity| |right; exact J].
      left. destruct (A x (or_introl eq_refl)) as [-> | (c & ->)]; reflexivity.
Qed.
