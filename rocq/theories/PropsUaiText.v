(** Properties C36 and C37: what the readers find in files written by hand. *)

From Coq Require Import String Ascii Bool Arith ZArith QArith Qcanon List.
From Verif Require Import PyBase Num DomainModel NdArray StoreModel NumStore FactorModel GraphModel ModelModel CausalModel UaiModel UaiSpec UaiTextFacts UaiChecks.
Import ListNotations.
Local Open Scope nat_scope.
Local Open Scope string_scope.
Local Open Scope list_scope.

(** The reader of Bayesian networks finds numbers in plain notation as they are
    written, that of causal models also numbers in scientific notation with a
    capital E. *)
Theorem C36_numbers : forall ts, Forall plain_text ts -> numbers match_plain (String.concat " " ts) = ts.
Proof. exact numbers_plain. Qed.
Print Assumptions C36_numbers.
Theorem C37_numbers : forall ts, Forall sci_text ts -> numbers match_exp (String.concat " " ts) = ts.
Proof. exact numbers_sci. Qed.
Print Assumptions C37_numbers.

Example C37_numbers_case : sci_text "1.5E-05" /\ sci_text "2E+3" /\ sci_text "-7E1" /\
  numbers match_exp "1.5E-05 2E+3 -7E1" = ["1.5E-05"; "2E+3"; "-7E1"] /\
  numbers match_plain "1.5E-05 2E+3 -7E1" = ["1.5"; "-05"; "2"; "+3"; "-7"; "1"] /\
  numbers match_exp "1.5e-05" = ["1.5"; "-05"].
Proof.
  split; [right; exists "1.5", "-", "05"; split; [plain_tac "1" "5"|]; split; [auto|]; split; [digits_tac|reflexivity]|].
  split; [right; exists "2", "+", "3"; split; [exists "", "2", ""; split; [now left|]; split; [digits_tac|]; split; [now left|reflexivity]|]; split; [auto|]; split; [digits_tac|reflexivity]|].
  split; [right; exists "-7", "", "1"; split; [exists "-", "7", ""; split; [now right|]; split; [digits_tac|]; split; [now left|reflexivity]|]; split; [auto|]; split; [digits_tac|reflexivity]|].
  vm_compute. auto.
Qed.

(** A parent given by a negative number is counted from the end of the list of
    variables; a plus sign changes nothing. *)
Definition hand (p : string) : string :=
  String.concat newline ["BAYES"; "2"; "2 2"; "2"; "1 0"; ("2 " ++ p ++ " 1")%string; "2 0.25 0.75"; "4 1.0 0.0 0.5 0.5"; ""].
Example C36_negative_case :
  bn_read_uai sample_parse VNumpy (hand "-2") = bn_read_uai sample_parse VNumpy (hand "0") /\
  bn_read_uai sample_parse VNumpy (hand "+0") = bn_read_uai sample_parse VNumpy (hand "0") /\
  (exists m, bn_read_uai sample_parse VNumpy (hand "0") = Ok m /\ nodes (m_graph m) = ["V0"; "V1"]) /\
  bn_read_uai sample_parse VNumpy (hand "-3") = Raise IndexError.
Proof.
  split; [vm_compute; reflexivity|]. split; [vm_compute; reflexivity|]. split; [|vm_compute; reflexivity].
  eexists. split; [vm_compute; reflexivity|reflexivity].
Qed.

(** Files that do not fit: another number of tables than variables, a table of
    another variable, too few numbers, another label.  Spaces in the label are
    ignored, and any piece of the label is accepted, even the empty one. *)
Definition lines (l : list string) : string := String.concat newline l.
Example C36_malformed_case :
  bn_read_uai sample_parse VNumpy (lines ["BAYES"; "2"; "2 2"; "3"; "1 0"; "2 0 1"; "2 0.25 0.75"; "4 1.0 0.0 0.5 0.5"; ""]) = Raise AssertionError /\
  bn_read_uai sample_parse VNumpy (lines ["BAYES"; "2"; "2 2"; "2"; "1 1"; "2 1 0"; "2 0.25 0.75"; "4 1.0 0.0 0.5 0.5"; ""]) = Raise AssertionError /\
  bn_read_uai sample_parse VNumpy (lines ["BAYES"; "2"; "2 2"; "2"; "1 0"; "2 0 1"; "2 0.25 0.75"; "4 1.0 0.0"; ""]) = Raise StopIteration /\
  bn_read_uai sample_parse VNumpy (lines ["CAUSAL"; "2"; "2 2"; "2"; "1 0"; "2 0 1"; "2 0.25 0.75"; "4 1.0 0.0 0.5 0.5"; ""]) = Raise ValueError /\
  bn_read_uai sample_parse VNumpy (lines ["B AY ES "; "2"; "2 2"; "2"; "1 0"; "2 0 1"; "2 0.25 0.75"; "4 1.0 0.0 0.5 0.5"; ""]) =
  bn_read_uai sample_parse VNumpy (hand "0") /\
  bn_read_uai sample_parse VNumpy (lines [""; "2"; "2 2"; "2"; "1 0"; "2 0 1"; "2 0.25 0.75"; "4 1.0 0.0 0.5 0.5"; ""]) =
  bn_read_uai sample_parse VNumpy (hand "0").
Proof. repeat split; vm_compute; reflexivity. Qed.
