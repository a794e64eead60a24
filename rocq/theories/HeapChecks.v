(** Concrete stores in a concrete heap. *)

From Coq Require Import String Bool Arith QArith Qcanon Lia List.
From Verif Require Import PyBase Num DomainModel NdArray StoreModel NumStore PyFacts Spec DomainFacts StoreSpec StoreFacts
  HeapModel HeapSpec HeapFacts HeapFacts2 HeapFacts3 HeapFacts4 HeapFacts5 HeapFacts6 HeapFacts7 HeapFacts8 Checks.
Import ListNotations.
Local Open Scope nat_scope.
Local Open Scope string_scope.

Definition hx0 := SStr "x0".
Definition hx1 := SStr "x1".
Definition hy0 := SStr "y0".
Definition hy1 := SStr "y1".
Definition hz0 := SStr "z0".
Definition qn (n : Z) : num := q (n # 1).

(** X and Y with two states each, Z with one *)
Definition hdX : domain := [("X", [hx0; hx1])].
Definition hdY : domain := [("Y", [hy0; hy1])].
Definition hdom : domain := [("X", [hx0; hx1]); ("Y", [hy0; hy1])].
Definition hdomZ : domain := [("Z", [hz0]); ("Y", [hy0; hy1])].

(** a heap with the dictionaries of three trees, a numpy array and a list *)
Definition hheap : heap :=
  [CNode "Y" [(hy0, HNum (qn 1)); (hy1, HNum (qn 2))];
   CNode "Y" [(hy0, HNum (qn 3)); (hy1, HNum (qn 4))];
   CNode "X" [(hx0, HRef 0); (hx1, HRef 1)];
   CNode "Y" [(hy0, HNum (qn 5)); (hy1, HNum (qn 6))];
   CNode "Z" [(hz0, HRef 3)];
   CArr (mkNd [2] [qn 7; qn 8]);
   CList [qn 1; qn 2; qn 3; qn 4];
   CNode "Y" [(hy0, HNum (qn 2)); (hy1, HNum (qn 3))];
   CArr (mkNd [2; 2] [qn 1; qn 2; qn 3; qn 4])].

Definition hs0 : hstore := mkHS VTree hdom (HRef 2).
Definition hp0 : store num :=
  StTree hdom (Node "X" [(hx0, Node "Y" [(hy0, Leaf (qn 1)); (hy1, Leaf (qn 2))]);
                         (hx1, Node "Y" [(hy0, Leaf (qn 3)); (hy1, Leaf (qn 4))])]).
Definition hF0 : list nat := [2; 0; 1].

Definition hsZ : hstore := mkHS VTree hdomZ (HRef 4).
Definition hpZ : store num := StTree hdomZ (Node "Z" [(hz0, Node "Y" [(hy0, Leaf (qn 5)); (hy1, Leaf (qn 6))])]).

Definition hs1 : hstore := mkHS VNumpy1D hdX (HRef 5).
Definition hp1 : store num := StNp1 hdX [qn 7; qn 8].

Definition hsL : hstore := mkHS VList hdom (HRef 6).
Definition hpL : store num := StList hdom [qn 1; qn 2; qn 3; qn 4].

Definition hsY : hstore := mkHS VTree hdY (HRef 7).
Definition hpY : store num := StTree hdY (Node "Y" [(hy0, Leaf (qn 2)); (hy1, Leaf (qn 3))]).

Definition hsA : hstore := mkHS VNumpy hdom (HRef 8).
Definition hpA : store num := StNumpy hdom (mkNd [2; 2] [qn 1; qn 2; qn 3; qn 4]).

Lemma holds_by h s p F G : holds h s p G -> G = F -> holds h s p F.
Proof. now intros H <-. Qed.
Ltac hold := eapply holds_by; [repeat (econstructor; try reflexivity) | reflexivity].

Lemma hs0_holds : holds hheap hs0 hp0 hF0.
Proof. hold. Qed.
Lemma hsZ_holds : holds hheap hsZ hpZ [4; 3].
Proof. hold. Qed.
Lemma hs1_holds : holds hheap hs1 hp1 [5].
Proof. exact (holds_numpy1d hheap hdX 5 (mkNd [2] [qn 7; qn 8]) eq_refl). Qed.
Lemma hsL_holds : holds hheap hsL hpL [6].
Proof. hold. Qed.
Lemma hsY_holds : holds hheap hsY hpY [7].
Proof. hold. Qed.
Lemma hsA_holds : holds hheap hsA hpA [8].
Proof. hold. Qed.

Lemma hF0_nodup : NoDup hF0.
Proof. repeat constructor; cbn; lia. Qed.
Lemma hFZ_nodup : NoDup [4; 3].
Proof. repeat constructor; cbn; lia. Qed.
Lemma one_nodup (a : nat) : NoDup [a].
Proof. repeat constructor; cbn; tauto. Qed.

Lemma hdom_wf : wf_dom hdom.
Proof. apply wf_domb_sound. vm_compute. reflexivity. Qed.
Lemma hdomZ_wf : wf_dom hdomZ.
Proof. apply wf_domb_sound. vm_compute. reflexivity. Qed.
Lemma hdX_wf : wf_dom hdX.
Proof. apply wf_domb_sound. vm_compute. reflexivity. Qed.
Lemma hdY_wf : wf_dom hdY.
Proof. apply wf_domb_sound. vm_compute. reflexivity. Qed.

Ltac nd := repeat constructor; cbn; intros H; repeat destruct H as [H|H]; try discriminate; auto.

Lemma leafY_comp (a b : num) d : d = hdY -> tcomp d (Node "Y" [(hy0, Leaf a); (hy1, Leaf b)]).
Proof.
  intros ->. apply (tc_node hdY "Y" [hy0; hy1]); [now left | nd | reflexivity |].
  intros s c [E|[E|[]]]; injection E as <- <-; constructor.
Qed.

Lemma hp0_wf : wf_store hp0.
Proof.
  split; [exact hdom_wf|]. apply (tc_node hdom "X" [hx0; hx1]); [now left | nd | reflexivity |].
  intros s c [E|[E|[]]]; injection E as <- <-; apply leafY_comp; reflexivity.
Qed.
Lemma hpZ_wf : wf_store hpZ.
Proof.
  split; [exact hdomZ_wf|]. apply (tc_node hdomZ "Z" [hz0]); [now left | nd | reflexivity |].
  intros s c [E|[]]; injection E as <- <-; apply leafY_comp; reflexivity.
Qed.
Lemma hpY_wf : wf_store hpY.
Proof. split; [exact hdY_wf|]. now apply leafY_comp. Qed.
Lemma hp1_wf : wf_store hp1.
Proof. split; [exact hdX_wf | reflexivity]. Qed.
Lemma hpL_wf : wf_store hpL.
Proof. split; [exact hdom_wf | reflexivity]. Qed.
Lemma hpA_wf : wf_store hpA.
Proof. split; [exact hdom_wf | split; reflexivity]. Qed.

Lemma qn_neq a b : a <> b -> qn a <> qn b.
Proof.
  intros N E. apply N. unfold qn, q in E. assert (E' : Q2Qc (a # 1) = Q2Qc (b # 1)) by congruence.
  apply Q2Qc_eq_iff in E'. unfold Qeq in E'. cbn in E'. lia.
Qed.

(** restrict: the subtree of X = x0 is the restricted store *)
Lemma leak_restrict : changes_source 9 (DRestrict (single [("X", hx0)])) hp0.
Proof.
  exists hheap, hs0, hF0, (mkHS VTree hdY (HRef 0)), hheap, (qn 9), [("Y", hy0)], (mkHS VTree hdY (HRef 0)),
    (put hheap 0 (CNode "Y" [(hy0, HNum (qn 9)); (hy1, HNum (qn 2))])),
    (StTree hdom (Node "X" [(hx0, Node "Y" [(hy0, Leaf (qn 9)); (hy1, Leaf (qn 2))]);
                            (hx1, Node "Y" [(hy0, Leaf (qn 3)); (hy1, Leaf (qn 4))])])), hF0,
    [("X", hx0); ("Y", hy0)], (qn 1), (qn 9).
  split; [exact hp0_wf|]. split; [exact hs0_holds|]. split; [exact hF0_nodup|].
  split; [vm_compute; reflexivity|]. split; [vm_compute; reflexivity|].
  split; [hold|].
  split; [vm_compute; reflexivity|]. split; [vm_compute; reflexivity|]. apply qn_neq. discriminate.
Qed.

(** restrict to nothing: the same tree *)
Lemma leak_restrict_nothing : changes_source 9 (DRestrict (single [])) hp0.
Proof.
  exists hheap, hs0, hF0, hs0, hheap, (qn 9), [("X", hx0); ("Y", hy0)], hs0,
    (put hheap 0 (CNode "Y" [(hy0, HNum (qn 9)); (hy1, HNum (qn 2))])),
    (StTree hdom (Node "X" [(hx0, Node "Y" [(hy0, Leaf (qn 9)); (hy1, Leaf (qn 2))]);
                            (hx1, Node "Y" [(hy0, Leaf (qn 3)); (hy1, Leaf (qn 4))])])), hF0,
    [("X", hx0); ("Y", hy0)], (qn 1), (qn 9).
  split; [exact hp0_wf|]. split; [exact hs0_holds|]. split; [exact hF0_nodup|].
  split; [vm_compute; reflexivity|]. split; [vm_compute; reflexivity|].
  split; [hold|].
  split; [vm_compute; reflexivity|]. split; [vm_compute; reflexivity|]. apply qn_neq. discriminate.
Qed.

(** marginalize a variable with one state; or none *)
Lemma leak_marginalize dv : dv = DMarginalize ["Z"] \/ dv = DMaxmarginalize ["Z"] -> changes_source 9 dv hpZ.
Proof.
  intros D.
  exists hheap, hsZ, [4; 3], (mkHS VTree hdY (HRef 3)), hheap, (qn 9), [("Y", hy0)], (mkHS VTree hdY (HRef 3)),
    (put hheap 3 (CNode "Y" [(hy0, HNum (qn 9)); (hy1, HNum (qn 6))])),
    (StTree hdomZ (Node "Z" [(hz0, Node "Y" [(hy0, Leaf (qn 9)); (hy1, Leaf (qn 6))])])), [4; 3],
    [("Z", hz0); ("Y", hy0)], (qn 5), (qn 9).
  split; [exact hpZ_wf|]. split; [exact hsZ_holds|]. split; [exact hFZ_nodup|].
  split; [destruct D as [-> | ->]; vm_compute; reflexivity|]. split; [vm_compute; reflexivity|].
  split; [hold|].
  split; [vm_compute; reflexivity|]. split; [vm_compute; reflexivity|]. apply qn_neq. discriminate.
Qed.

Lemma leak_marginalize_nothing : changes_source 9 (DMarginalize []) hpZ.
Proof.
  exists hheap, hsZ, [4; 3], hsZ, hheap, (qn 9), [("Z", hz0); ("Y", hy0)], hsZ,
    (put hheap 3 (CNode "Y" [(hy0, HNum (qn 9)); (hy1, HNum (qn 6))])),
    (StTree hdomZ (Node "Z" [(hz0, Node "Y" [(hy0, Leaf (qn 9)); (hy1, Leaf (qn 6))])])), [4; 3],
    [("Z", hz0); ("Y", hy0)], (qn 5), (qn 9).
  split; [exact hpZ_wf|]. split; [exact hsZ_holds|]. split; [exact hFZ_nodup|].
  split; [vm_compute; reflexivity|]. split; [vm_compute; reflexivity|].
  split; [hold|].
  split; [vm_compute; reflexivity|]. split; [vm_compute; reflexivity|]. apply qn_neq. discriminate.
Qed.

(** copy(deep=False) *)
Lemma leak_copy_numpy1d : changes_source 9 (DCopy false) hp1.
Proof.
  exists hheap, hs1, [5], hs1, hheap, (qn 9), [("X", hx1)], hs1,
    (put hheap 5 (CArr (mkNd [2] [qn 7; qn 9]))), (StNp1 hdX [qn 7; qn 9]), [5], [("X", hx1)], (qn 8), (qn 9).
  split; [exact hp1_wf|]. split; [exact hs1_holds|]. split; [apply one_nodup|].
  split; [vm_compute; reflexivity|]. split; [vm_compute; reflexivity|].
  split; [refine (holds_numpy1d _ hdX 5 (mkNd [2] [qn 7; qn 9]) _); reflexivity|].
  split; [vm_compute; reflexivity|]. split; [vm_compute; reflexivity|]. apply qn_neq. discriminate.
Qed.

Lemma leak_copy_tree : changes_source 9 (DCopy false) hpY.
Proof.
  exists hheap, hsY, [7], hsY, hheap, (qn 9), [("Y", hy1)], hsY,
    (put hheap 7 (CNode "Y" [(hy0, HNum (qn 2)); (hy1, HNum (qn 9))])),
    (StTree hdY (Node "Y" [(hy0, Leaf (qn 2)); (hy1, Leaf (qn 9))])), [7], [("Y", hy1)], (qn 3), (qn 9).
  split; [exact hpY_wf|]. split; [exact hsY_holds|]. split; [apply one_nodup|].
  split; [vm_compute; reflexivity|]. split; [vm_compute; reflexivity|].
  split; [hold|].
  split; [vm_compute; reflexivity|]. split; [vm_compute; reflexivity|]. apply qn_neq. discriminate.
Qed.

(** ** Cases of the theorems *)

Lemma used_Y : used_up [("Y", hy0)] (Node "X" [(hx0, Node "Y" [(hy0, Leaf (qn 1)); (hy1, Leaf (qn 2))]);
                         (hx1, Node "Y" [(hy0, Leaf (qn 3)); (hy1, Leaf (qn 4))])]).
Proof.
  apply used_skip; [discriminate | reflexivity|].
  intros s c [E|[E|[]]]; injection E as <- <-; (eapply used_pick; [reflexivity | reflexivity | constructor]).
Qed.

Lemma not_used_X : ~ used_up [("X", hx0)] (Node "X" [(hx0, Node "Y" [(hy0, Leaf (qn 1)); (hy1, Leaf (qn 2))]);
                         (hx1, Node "Y" [(hy0, Leaf (qn 3)); (hy1, Leaf (qn 4))])]).
Proof.
  intros U. inversion U as [| | o w ch s c D DC U1]; subst; [discriminate|].
  cbn in D. injection D as <-. cbn in DC. injection DC as <-. cbn in U1.
  inversion U1; subst; [congruence | discriminate].
Qed.

Lemma own_Y : own_result (DRestrict (single [("Y", hy0)])) hp0.
Proof. exact used_Y. Qed.

Lemma own_marg : own_result (DMarginalize ["X"]) hp0.
Proof.
  split; [exact hp0_wf|]. split; [apply NoDup_cons; [intros [] | constructor]|]. split.
  - intros v [<- | []]. now left.
  - exists "X". split; [now left|]. exists [hx0; hx1]. split; [reflexivity | cbn; lia].
Qed.

(** restrict to Y = y0, then overwrite all entries: the source and the other
    stores are as before *)
Definition hcalls : list (num * obs) := [(qn 9, [("X", hx0)]); (qn 8, [("X", hx1)]); (qn 7, [])].
Lemma restrict_case : exists r h1 r' h2,
  derive 9 (DRestrict (single [("Y", hy0)])) hs0 hheap = (Ok r, h1) /\
  set_values 9 r hcalls h1 = (r', h2) /\ h1 <> h2.
Proof.
  eexists _, _, _, _. split; [vm_compute; reflexivity|]. split; [vm_compute; reflexivity|].
  intros E. apply (f_equal (fun h => nth_error h 9)) in E. vm_compute in E.
  discriminate E.
Qed.

Lemma mult_case : exists r h1 p' G,
  derive 9 (DMultiply hsY) hs0 hheap = (Ok r, h1) /\ holds h1 r p' G /\
  get_value p' [("X", hx1); ("Y", hy1)] = Ok (qn 12) /\ G = [13; 10; 12].
Proof.
  eexists _, _, _, _. split; [vm_compute; reflexivity|]. split; [repeat (econstructor; try reflexivity)|].
  split; vm_compute; reflexivity.
Qed.

Lemma copy_case : exists r h1, derive 9 (DCopy true) hs0 hheap = (Ok r, h1) /\ hs_data r = HRef 11.
Proof. eexists _, _. split; vm_compute; reflexivity. Qed.

Lemma sub_holds : holds hheap (mkHS VTree hdY (HRef 0)) (StTree hdY (Node "Y" [(hy0, Leaf (qn 1)); (hy1, Leaf (qn 2))])) [0].
Proof. hold. Qed.

Lemma obs_nonempty : [("X", hx0)] <> [].
Proof. discriminate. Qed.

Lemma constructor_case : exists s h1, hinit VNumpy1D hdX (HRef 5) hheap = (Ok s, h1).
Proof. eexists _, _. vm_compute. reflexivity. Qed.
