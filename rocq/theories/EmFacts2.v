(** The rows of a table of data, and how often their relevant parts occur. *)

From Coq Require Import String Bool Arith ZArith QArith Qcanon Lia Permutation List.
From Verif Require Import PyBase PyFacts Num DomainModel NdArray StoreModel NumStore FactorModel GraphModel ModelModel InferModel
  Spec DomainFacts NumFacts FactorFacts FactorFacts3 PropFacts1 BigSum GraphSpec ModelSpec ModelFacts NetSpec NetSem LearnModel EmSpec EmMath EmFacts1.
From Coq Require Import List.
Import ListNotations.
Local Open Scope nat_scope.
Local Arguments eqd : simpl never.

(** *** Rows as observations *)
Lemma known_get (d : dict var (option state)) x s : NoDup (keys d) ->
  (dget x (LearnModel.known d) = Some s <-> dget x d = Some (Some s)).
Proof.
  induction d as [|[y c] d IH]; intros N; [cbn; split; discriminate|]. cbn in N. apply NoDup_cons_iff in N as [Ny N].
  specialize (IH N). assert (K : forall z, In z (keys (LearnModel.known d)) -> In z (keys d)).
  { intros z. clear. induction d as [|[y [c|]] d IH]; cbn; [auto|intros [-> | J]; auto|auto]. }
  unfold LearnModel.known in *. cbn [flat_map snd fst]. destruct c as [c|]; cbn [app].
  - cbn [dget]. destruct (eqd x y) as [-> | Nx]; [split; congruence|]. exact IH.
  - cbn [dget]. destruct (eqd x y) as [-> | Nx]; [|exact IH]. split; [|discriminate]. intros Q. exfalso. apply Ny, K, dget_keys. eauto.
Qed.
Lemma known_NoDup (d : dict var (option state)) : NoDup (keys d) -> NoDup (keys (LearnModel.known d)).
Proof.
  induction d as [|[y [c|]] d IH]; intros N; cbn in *; [constructor|..]; apply NoDup_cons_iff in N as [Ny N]; [|auto].
  constructor; [|auto]. intros J. apply Ny. clear - J. induction d as [|[z [c'|]] d IH]; cbn in *; [auto|destruct J as [-> | J]; auto|auto].
Qed.
Lemma row_dict_NoDup cols r : NoDup (keys (row_dict cols r)).
Proof. unfold row_dict, dict_of. apply NoDup_dmerge. constructor. Qed.
Lemma row_obs_NoDup data r : NoDup (keys (row_obs data r)).
Proof. apply known_NoDup, row_dict_NoDup. Qed.

(** two observations of the same variables in the same order *)
Lemma obs_ext (o1 o2 : obs) : NoDup (keys o1) -> keys o1 = keys o2 -> (forall x s, dget x o1 = Some s -> dget x o2 = Some s) -> o1 = o2.
Proof.
  revert o2. induction o1 as [|[x s] o1 IH]; intros [|[y t] o2] N K H; cbn in K; try discriminate; [auto|].
  injection K as -> K. cbn in N. apply NoDup_cons_iff in N as [Ny N].
  assert (E : t = s). { specialize (H y s). cbn [dget] in H. rewrite !eqd_refl in H. specialize (H eq_refl). congruence. }
  subst t. f_equal. apply IH; [auto|auto|]. intros x s0 Q. specialize (H x s0). cbn [dget] in H.
  destruct (eqd x y) as [-> | Nx]; [|auto]. exfalso. apply Ny, dget_keys. eauto.
Qed.

Lemma obs_eq_iff o1 o2 : NoDup (keys o1) -> keys o1 = keys o2 -> (obs_eq o1 o2 = true <-> o1 = o2).
Proof.
  intros N K. unfold obs_eq. rewrite andb_true_iff, forallb_forall. split.
  - intros [_ H]. apply obs_ext; [auto|auto|]. intros x s Q. apply dget_In in Q. specialize (H (x, s) Q). cbn in H.
    destruct (dget x o2) as [t|]; [|discriminate]. destruct (eqd t s) as [-> | _]; [auto|discriminate].
  - intros <-. split; [apply set_eqb_iff; intros x; tauto|]. intros [x s] J. cbn.
    rewrite (In_dget _ _ _ N J). now rewrite eqd_refl.
Qed.

Lemma drop_duplicates_In l r : In r (drop_duplicates l) <-> In r l.
Proof. unfold drop_duplicates. now rewrite <- in_rev, nodup_In, <- in_rev. Qed.

Lemma obs_unique_ok K l : NoDup K -> (forall o, In o l -> keys o = K) ->
  NoDup (obs_unique l) /\ forall o, In o (obs_unique l) <-> In o l.
Proof.
  intros NK HK. unfold obs_unique. 
  assert (G : forall l seen acc, (forall o, In o (seen ++ l) -> keys o = K) -> NoDup acc -> (forall o, In o acc <-> In o seen) ->
    let r := snd (fold_left (fun acc o => (fst acc ++ [o], if existsb (obs_eq o) (fst acc) then snd acc else o :: snd acc)) l (seen, acc)) in
    NoDup r /\ forall o, In o r <-> In o seen \/ In o l).
  { clear l HK. induction l as [|o l IH]; intros seen acc HK Na Ha; cbn [fold_left snd fst].
    - split; [auto|]. intros o. rewrite Ha. cbn. tauto.
    - assert (Ko : keys o = K) by (apply HK, in_or_app; right; now left).
      assert (Q : existsb (obs_eq o) seen = true <-> In o seen).
      { rewrite existsb_exists. split.
        - intros (o' & J & Q). apply obs_eq_iff in Q; [now subst|now rewrite Ko|]. rewrite Ko. symmetry. apply HK, in_or_app. auto.
        - intros J. exists o. split; [auto|]. apply obs_eq_iff; [now rewrite Ko|auto|auto]. }
      destruct (IH (seen ++ [o]) (if existsb (obs_eq o) seen then acc else o :: acc)) as [I1 I2].
      + intros o' J. apply HK. rewrite <- app_assoc in J. exact J.
      + destruct (existsb (obs_eq o) seen); [auto|]. constructor; [|auto]. rewrite Ha. intros J. apply Q in J. discriminate.
      + intros o'. rewrite in_app_iff. cbn. destruct (existsb (obs_eq o) seen); cbn; rewrite Ha.
        * split; [auto|]. intros [J|[<- | []]]; [auto|]. now apply Q.
        * tauto.
      + split; [exact I1|]. intros o'. rewrite I2, in_app_iff. cbn. tauto. }
  destruct (G l [] []) as [G1 G2]; [auto|constructor|intros; cbn; tauto|]. split.
  - apply NoDup_rev. exact G1.
  - intros o. rewrite <- in_rev. rewrite G2. cbn. tauto.
Qed.

(** *** Counting *)
Lemma qsum_pick {A} (x : A) (y : A -> Qc) l (dec : forall a b : A, {a = b} + {a <> b}) : NoDup l -> In x l ->
  qsum (map (fun a => if dec x a then y a else 0%Qc) l) = y x.
Proof.
  induction l as [|b l IH]; [intros _ []|]. intros N J. apply NoDup_cons_iff in N as [Nb N]. cbn. destruct (dec x b) as [-> | Nx].
  - rewrite qsum_zeros; [ring|]. intros c Jc. destruct (dec b c) as [-> | _]; [tauto|auto].
  - destruct J as [-> | J]; [congruence|]. rewrite IH by auto. ring.
Qed.
Lemma obs_dec (a b : obs) : {a = b} + {a <> b}.
Proof. decide equality. destruct a0 as [x s], p as [y t]. destruct (eqd x y) as [-> | N]; [|right; congruence].
  destruct (eqd s t) as [-> | N]; [left; auto|right; congruence]. Defined.
Lemma count_qsum {A} (b : A -> bool) l : qn (length (filter b l)) = qsum (map (fun r => if b r then 1%Qc else 0%Qc) l).
Proof. induction l as [|r l IH]; [reflexivity|]. cbn. destruct (b r); cbn [length]; [rewrite qn_S|]; rewrite IH; ring. Qed.

Lemma counted {A} (os : list obs) (part : A -> obs) (rows : list A) (b : obs -> A -> bool) (f : obs -> Qc) : NoDup os ->
  (forall r, In r rows -> In (part r) os) ->
  (forall o r, In o os -> In r rows -> (b o r = true <-> part r = o)) ->
  qsum (map (fun o => (qn (length (filter (b o) rows)) * f o)%Qc) os) = qsum (map (fun r => f (part r)) rows).
Proof.
  intros N Hp Hb.
  rewrite (map_ext_in _ (fun o => qsum (map (fun r => if obs_dec (part r) o then f o else 0%Qc) rows))).
  - rewrite qsum_swap. f_equal. apply map_ext_in. intros r Jr. rewrite (qsum_pick (part r) f os obs_dec); auto.
  - intros o Jo. rewrite count_qsum, Qcmult_comm, <- qsum_scale. f_equal. apply map_ext_in. intros r Jr. specialize (Hb o r Jo Jr).
    destruct (b o r), (obs_dec (part r) o) as [Q|Q]; try ring; exfalso; [now apply Q, Hb|]. apply Hb in Q. discriminate.
Qed.

Section Blanket.
  Variables (g : digraph) (D : domain) (v : var) (E : list var) (data : frame).
  Hypothesis WG : wf_graph g.
  Hypothesis AC : acyclic g.
  Hypothesis ND : forall x, In x (keys D) <-> In x (nodes g).
  Hypothesis Iv : In v (nodes g).
  Hypothesis OD : observes D data E.

  Lemma matches_part (keep : var -> bool) r r' : In r (f_rows data) -> In r' (f_rows data) ->
    (matches (f_cols data) (dfilter keep (row_obs data r')) r = true <-> dfilter keep (row_obs data r) = dfilter keep (row_obs data r')).
  Proof.
    intros Jr Jr'. destruct (proj2 (proj2 OD) r Jr) as (_ & Kr & _). destruct (proj2 (proj2 OD) r' Jr') as (_ & Kr' & _).
    unfold matches. rewrite forallb_forall.
    assert (N : NoDup (keys (dfilter keep (row_obs data r')))) by (apply NoDup_dfilter, row_obs_NoDup).
    assert (KK : keys (dfilter keep (row_obs data r')) = keys (dfilter keep (row_obs data r))) by (rewrite !keys_dfilter; congruence).
    split.
    - intros H. symmetry. apply obs_ext; [auto|auto|]. intros x s Q. assert (Q0 := Q). apply dget_In in Q. specialize (H (x, s) Q). cbn in H.
      destruct (dget x (row_dict (f_cols data) r)) as [[t|]|] eqn:Et; try discriminate.
      destruct (eqd t s) as [-> | _]; [|discriminate]. rewrite dget_dfilter in *. destruct (keep x); [|discriminate].
      unfold row_obs. apply known_get; [apply row_dict_NoDup|auto].
    - intros Q [x s] J. cbn. rewrite <- Q in J. apply (In_dget _ _ _) in J; [|apply NoDup_dfilter, row_obs_NoDup].
      rewrite dget_dfilter in J. destruct (keep x); [|discriminate]. unfold row_obs in J. apply known_get in J; [|apply row_dict_NoDup].
      rewrite J. now rewrite eqd_refl.
  Qed.

  (** the blanket of [v]: the relevant parts of the rows, each once *)
  Lemma blanket_ok : ~ In v E -> exists (keep : var -> bool) os,
    (forall w, In w E -> (keep w = true <-> bears_on g v E w)) /\
    get_minimal_obs_blanket g data v = Ok os /\ NoDup os /\
    forall o, In o os <-> exists r, In r (f_rows data) /\ o = dfilter keep (row_obs data r).
  Proof.
    intros Nv. destruct OD as (NC & IE & HR).
    destruct (dsep_filter_ok g v E WG AC Iv) as (keep & Hk & Hf); [intros x J; apply ND; auto|].
    exists keep. unfold get_minimal_obs_blanket.
    assert (X : mapM (dsep_filter g v) (map (row_dict (f_cols data)) (drop_duplicates (f_rows data))) =
      Ok (map (fun r => dfilter keep (row_obs data r)) (drop_duplicates (f_rows data)))).
    { assert (G : forall l, incl l (f_rows data) -> mapM (dsep_filter g v) (map (row_dict (f_cols data)) l) = Ok (map (fun r => dfilter keep (row_obs data r)) l)).
      { induction l as [|r l IH]; intros I; [reflexivity|]. cbn [map mapM].
        rewrite Hf by (apply (HR r); apply I; now left). cbn [bind]. rewrite IH by (intros x J; apply I; now right). reflexivity. }
      apply G. intros r J. now apply drop_duplicates_In. }
    rewrite X. cbn [bind]. eexists. split; [|split; [reflexivity|]].
    - intros w J. apply Hk; [auto|]. intros ->. contradiction.
    - destruct (f_rows data) as [|r0 rs] eqn:Er.
      + cbn. split; [constructor|]. intros o. split; [intros []|]. intros (r & [] & _).
      + rewrite <- Er in *. destruct (obs_unique_ok (filter keep E) (map (fun r => dfilter keep (row_obs data r)) (drop_duplicates (f_rows data)))) as [U1 U2].
        * assert (J : In r0 (f_rows data)) by (rewrite Er; now left). destruct (HR r0 J) as (_ & K & _). rewrite <- K.
          apply NoDup_filter, row_obs_NoDup.
        * intros o J. apply in_map_iff in J as (r & <- & J). apply (proj1 (drop_duplicates_In _ _)) in J. destruct (HR r J) as (_ & K & _).
          rewrite keys_dfilter. now rewrite K.
        * split; [exact U1|]. intros o. rewrite U2, in_map_iff. split.
          -- intros (r & <- & J). apply (proj1 (drop_duplicates_In _ _)) in J. eauto.
          -- intros (r & J & ->). exists r. split; [auto|]. now apply drop_duplicates_In.
  Qed.
End Blanket.
