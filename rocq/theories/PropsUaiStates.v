(** Property C37: how the states of an equation are written, with and without
    the list of the variables written as integers. *)

From Coq Require Import String Ascii Bool Arith ZArith QArith Qcanon List.
From Verif Require Import PyBase Num DomainModel NdArray StoreModel NumStore FactorModel GraphModel ModelModel CausalModel UaiModel UaiSpec
  ModelSpec ModelChecks CausalSpec CausalChecks UaiChecks.
Import ListNotations.
Local Open Scope string_scope.
Local Open Scope list_scope.

(** X takes the second state where U is 0 and the first where it is 1. *)
Example C37_states_written_case :
  let written_as values := String.concat newline ["CAUSAL"; "2"; "2 2"; "2"; "2" ++ UaiModel.tab ++ "1 0"; "1" ++ UaiModel.tab ++ "1"; "";
    "2" ++ UaiModel.tab ++ values; "2" ++ UaiModel.tab ++ "0.25 0.75"; ""]%string in
  is_odd (SBool false) (SBool true) /\
  (** as `save` calls the writer *)
  save_uai sample_str VNumpy (m_odd (SBool false) (SBool true)) None = Ok (written_as "1 0") /\
  save_uai sample_str VNumpy (m_odd (SInt 1) (SInt 2)) None = Ok (written_as "2 1") /\
  (** called without the list, the states are written as python prints them *)
  to_uai sample_str VNumpy (m_odd (SBool false) (SBool true)) true [] None = Ok (written_as "True False") /\
  to_uai sample_str VNumpy (m_odd (SInt 1) (SInt 2)) true [] None = Ok (written_as "2 1") /\
  to_uai sample_str VNumpy (m_odd (SStr "a") (SStr "b")) true [] None = Ok (written_as "b a").
Proof.
  cbv zeta. split; [odd_tac (SBool false) (SBool true)|]. repeat split; vm_compute; reflexivity.
Qed.

(** The equation over booleans is read back as it was. *)
Example C37_booleans_case : exists en f',
  read_factor sample_str sample_parse (m_odd (SBool false) (SBool true)) "V0" = Ok (en, f') /\ en = ["V0"] /\
  mf_get_value f' [("V1", SInt 0); ("V0", SInt 1)] = Ok n1 /\ mf_get_value f' [("V1", SInt 1); ("V0", SInt 0)] = Ok n1.
Proof.
  destruct (read_factor sample_str sample_parse (m_odd (SBool false) (SBool true)) "V0") as [[en f']|] eqn:E; [|vm_compute in E; discriminate].
  exists en, f'. split; [reflexivity|]. vm_compute in E. injection E as <- <-. repeat split; vm_compute; reflexivity.
Qed.
