(** Cases of the statements about the distribution of samples. *)

From Coq Require Import String Ascii Bool Arith ZArith QArith Qcanon List.
From Verif Require Import PyBase Num DomainModel NdArray StoreModel NumStore FactorModel GraphModel ModelModel InferModel CausalModel LearnModel DataModel
  Spec StoreSpec FactorSpec GraphSpec ModelSpec NetSpec CausalSpec DataSpec OrderSpec SampleSpec Checks FactorChecks GraphChecks InferChecks CausalChecks DataChecks.
Import ListNotations.
Local Open Scope string_scope.
Local Open Scope nat_scope.
Local Open Scope list_scope.

Lemma keys_net_ok : topological (m_graph m_net) (keys D_net).
Proof. apply topob_sound. vm_compute. reflexivity. Qed.
Lemma usable_net : usable D_net.
Proof. apply usableb_sound. vm_compute. reflexivity. Qed.

(** two rows, the numbers that give them, and their probability *)
Definition two_rows : list obs :=
  [[("A", SStr "a0"); ("B", SInt 0); ("C", SBool false); ("E", SBool false); ("H", SBool false)];
   [("A", SStr "a1"); ("B", SInt 1); ("C", SBool true); ("E", SBool true); ("H", SBool true)]].
Lemma two_in : In two_rows (samples D_net 2).
Proof.
  assert (B : existsb (fun rows => if list_eq_dec (list_eq_dec (fun a b => eqd a b)) rows two_rows then true else false) (samples D_net 2) = true)
    by (vm_compute; reflexivity).
  apply existsb_exists in B as (rows & J & E). destruct (list_eq_dec _ rows two_rows) as [<-|]; [exact J|discriminate].
Qed.
Definition two (v : var) (i : nat) : Qc := match i with 0 => Q2Qc (1#10) | _ => Q2Qc (1#2) end.
Lemma two_ok : uniform two.
Proof. intros v [|i]; split; vm_compute; discriminate || reflexivity. Qed.
Lemma two_drawn : forward_sampling (keys D_net) m_net 2 two = Ok two_rows.
Proof. vm_compute. reflexivity. Qed.
Lemma two_likelihood : likelihood D_net F_net two_rows = Q2Qc (21#3200).
Proof. apply Qc_is_canon. vm_compute. reflexivity. Qed.
Definition a0 : obs := [("A", SStr "a0")].
Lemma one_apart : chance D_net F_net 1 (fun rows => apart (Q2Qc (1#2)) (frequency a0 rows) (mass D_net F_net a0)) = Q2Qc (1#4) /\
  (mass D_net F_net a0 * (1 - mass D_net F_net a0) / (Q2Qc (inject_Z (Z.of_nat 1)) * (Q2Qc (1#2) * Q2Qc (1#2))))%Qc = Q2Qc (3#4).
Proof. split; apply Qc_is_canon; vm_compute; reflexivity. Qed.

Lemma one_mean : mean_of D_net F_net 1 (frequency a0) = Q2Qc (1#4) /\
  mean_of D_net F_net 1 (fun rows => (frequency a0 rows - Q2Qc (1#4)) * (frequency a0 rows - Q2Qc (1#4)))%Qc = Q2Qc (3#16) /\
  chance D_net F_net 1 (all_match [a0]) = Q2Qc (1#4).
Proof. repeat split; apply Qc_is_canon; vm_compute; reflexivity. Qed.

(** the answers for the two rows about C given E *)
Definition eE : obs := [("E", SBool true)].
Lemma mass_eE : mass D_net F_net eE <> 0%Qc.
Proof. intros E. assert (B : qzero (mass D_net F_net eE) = false) by (vm_compute; reflexivity). rewrite E in B. discriminate. Qed.
Definition differs (eps : Q) : bool :=
  differ (Q2Qc eps) (laplace_query plain_order VNumpy (frame_of D_net two_rows) D_net true ["C"] None eE)
    (ve_query (heuristic_fn MIN_FILL first_choice) plain_order m_net ["C"] None eE) [("C", SBool true)].
Lemma two_differ : differs (1#5) = true /\ differs (1#4) = false.
Proof. split; vm_compute; reflexivity. Qed.

Definition differs_given (eps : Q) : bool :=
  differ (Q2Qc eps) (laplace_query plain_order VNumpy (frame_of D_net two_rows) D_net true ["C"] (Some ["E"]) [])
    (ve_query (heuristic_fn MIN_FILL first_choice) plain_order m_net ["C"] (Some ["E"]) []) [("C", SBool true); ("E", SBool true)].
Lemma two_given : differs_given (1#5) = true /\ differs_given (1#4) = false.
Proof. split; vm_compute; reflexivity. Qed.

(** rows drawn under do(X = 1), and what they say about U given Y *)
Definition dX : obs := [("X", SInt 1)].
Definition eY : obs := [("Y", SStr "y1")].
Definition drawn : res (list obs) :=
  let* m1 := cve_init (m_cf VNumpy) in let* m2 := scm_intervention m1 dX in forward_sampling (keys D_cf) m2 3 three.
Definition do_rows : list obs :=
  [[("U", SStr "v"); ("X", SInt 1); ("Z", SInt 0); ("V", SInt 1); ("Y", SStr "y1")];
   [("U", SStr "w"); ("X", SInt 1); ("Z", SInt 0); ("V", SInt 1); ("Y", SStr "y1")];
   [("U", SStr "u"); ("X", SInt 1); ("Z", SInt 0); ("V", SInt 0); ("Y", SStr "y1")]].
Definition do_differs (eps : Q) : res bool :=
  let* m1 := cve_init (m_cf VNumpy) in
  Ok (differ (Q2Qc eps) (laplace_query plain_order VNumpy (frame_of D_cf do_rows) D_cf true ["U"] None eY)
    (causal_query (heuristic_fn MIN_FILL first_choice) plain_order m1 ["U"] (DoDict dX) eY) [("U", SStr "u")]).
Lemma do_drawn : drawn = Ok do_rows /\ do_differs (1#6) = Ok true /\ do_differs (1#5) = Ok false.
Proof. split; [|split]; vm_compute; reflexivity. Qed.
Lemma do_mass_eY : do_mass D_cf F_tab dX eY <> 0%Qc.
Proof. intros E. assert (B : qzero (do_mass D_cf F_tab dX eY) = false) by (vm_compute; reflexivity). rewrite E in B. discriminate. Qed.
Lemma usable_cf : usable D_cf.
Proof. apply usableb_sound. vm_compute. reflexivity. Qed.

(** the endogenous columns of a sample, and the probability of a row *)
Lemma cf_topo : topological (m_graph m_tab) (keys D_cf).
Proof. apply topob_sound. vm_compute. reflexivity. Qed.
Definition endo_row (x z : Z) (y : string) : obs := [("X", SInt x); ("Z", SInt z); ("Y", SStr y)].
Lemma endo_rows : sample_endogenous (keys D_cf) m_tab 3 three true = Ok [endo_row 1 0 "y1"; endo_row 1 0 "y1"; endo_row 0 1 "y0"] /\
  chance D_cf F_tab 1 (columns_are ["X"; "Z"; "Y"] [endo_row 0 1 "y0"]) = Q2Qc (1#10).
Proof. split; [vm_compute; reflexivity|apply Qc_is_canon; vm_compute; reflexivity]. Qed.
