(** Sample graphs for the examples about d-separation. *)

From Coq Require Import String Ascii Bool Arith ZArith QArith Qcanon List.
From Verif Require Import PyBase PyFacts Num DomainModel NdArray StoreModel NumStore FactorModel GraphModel ModelModel InferModel LearnModel BlanketModel
  Spec StoreSpec FactorSpec GraphSpec ModelSpec NetSpec LearnSpec EmSpec SepSpec SepFacts1 Checks FactorChecks GraphChecks OrderSpec InferChecks
  CausalChecks LearnChecks EmChecks.
Import ListNotations.
Local Open Scope nat_scope.
Local Open Scope string_scope.
Local Open Scope list_scope.

Lemma asia_dag : wf_graph g_asia /\ acyclic g_asia.
Proof. apply dagb_sound. vm_compute. reflexivity. Qed.
Lemma sep1 : d_separated g_asia ["L"] ["B"] ["S"] = Ok true. Proof. vm_compute. reflexivity. Qed.
Lemma sep2 : d_separated g_asia ["L"] ["B"] ["S"; "D"] = Ok false. Proof. vm_compute. reflexivity. Qed.
Lemma sep3 : d_separated g_asia ["L"] ["B"] [] = Ok false. Proof. vm_compute. reflexivity. Qed.
Lemma sep4 : dsep_nodes g_asia "L" ["S"] = Ok ["B"]. Proof. vm_compute. reflexivity. Qed.
Lemma sep5 : dcon_nodes g_asia "L" ["S"] = Ok ["S"; "X"; "D"]. Proof. vm_compute. reflexivity. Qed.
Lemma sep6 : dcon_nodes g_asia "L" ["S"; "Q"] = Raise NodeNotFound. Proof. vm_compute. reflexivity. Qed.
Lemma trail1 : d_connected g_asia ["S"; "D"] "L" "B".
Proof.
  exists OutOf. eapply act_collider with (y := "D").
  - eapply act_down; [apply act_start| |].
    + intros [E|[E|[]]]; discriminate.
    + cbn. tauto.
  - exists "D". split; [cbn; tauto|]. now left.
  - cbn. tauto.
Qed.

Lemma ch_sep : d_separated (m_graph m_ch) ["U"] ["X"] ["V"] = Ok true. Proof. vm_compute. reflexivity. Qed.
Lemma one_state (x : var) (z : Z) : (z = 0 \/ z = 1)%Z -> In x (keys D_ch) -> assigns D_ch [x] [(x, SInt z)].
Proof.
  intros Hz _. split; [reflexivity|]. intros v l J. apply filter_In in J as [J M]. cbn [fst] in M. apply mem_In in M. destruct M as [<- | []].
  exists (SInt z). split; [unfold dget; now rewrite eqd_refl|].
  assert (l = l01) as -> by (cbn in J; repeat destruct J as [J|J]; [congruence..|contradiction]).
  destruct Hz as [-> | ->]; cbn; auto.
Qed.
Definition gap : Qc :=
  (mass D_ch F_ch [("U", SInt 0); ("X", SInt 0)] * mass D_ch F_ch [] - mass D_ch F_ch [("U", SInt 0)] * mass D_ch F_ch [("X", SInt 0)])%Qc.
Lemma gap_is : Qcompare (this gap) 0 = Gt.
Proof. vm_compute. reflexivity. Qed.
Lemma ch_dependent : ~ independent_in D_ch F_ch ["U"] ["X"] [].
Proof.
  intros I. assert (E := I [("U", SInt 0)] [("X", SInt 0)] []).
  assert (gap = 0%Qc).
  { assert (A : forall a b : Qc, a = b -> (a - b)%Qc = 0%Qc) by (intros a b ->; ring).
    apply A. apply E; [| |split; [reflexivity|]].
    - apply one_state; [auto|cbn; tauto].
    - apply one_state; [auto|cbn; tauto].
    - intros v l J. apply filter_In in J as [_ J]. discriminate. }
  assert (G := gap_is). rewrite H in G. vm_compute in G. discriminate.
Qed.
Lemma ch_filter : dsep_filter (m_graph m_ch) "U" [("V", Some (SInt 1)); ("X", Some (SInt 0))] = Ok [("V", SInt 1)].
Proof. vm_compute. reflexivity. Qed.
Lemma bl1 : markov_blanket g_asia "L" = Ok ["X"; "D"; "S"; "B"]. Proof. vm_compute. reflexivity. Qed.
Lemma bl2 : markov_blanket_hidden g_asia "L" (Some ["D"]) = Ok ["S"; "X"; "D"]. Proof. vm_compute. reflexivity. Qed.
Lemma bl3 : markov_blanket_hidden g_asia "L" (Some ["S"]) = Ok ["S"; "B"; "X"; "D"]. Proof. vm_compute. reflexivity. Qed.
Lemma bl4 : markov_blanket_hidden (m_graph m_ch) "U" (Some ["V"]) = Ok ["V"; "X"]. Proof. vm_compute. reflexivity. Qed.
Lemma bl5 : markov_blanket_hidden g_asia "Q" (Some ["S"]) = Raise NodeNotFound. Proof. vm_compute. reflexivity. Qed.
Lemma hidden_member : exists g v h l w, wf_graph g /\ acyclic g /\ In v (nodes g) /\
  markov_blanket_hidden g v (Some h) = Ok l /\ In w h /\ In w l.
Proof.
  exists g_asia, "L", ["S"], ["S"; "B"; "X"; "D"], "S". split; [apply asia_dag|]. split; [apply asia_dag|].
  split; [vm_compute; tauto|]. split; [exact bl3|]. split; cbn; tauto.
Qed.
