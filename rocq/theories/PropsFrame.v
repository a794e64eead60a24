(** C66: deterministic factors read from data frames. *)

From Coq Require Import String Bool Arith ZArith List.
From Verif Require Import PyBase DomainModel NdArray StoreModel FactorModel LearnModel FrameModel Spec FactorSpec GenSpec FrameSpec
  FrameFacts Checks FrameChecks.
Import ListNotations.
Local Open Scope nat_scope.
Local Open Scope string_scope.
Local Open Scope list_scope.

(** The rows tabulate a function with its values in the last column, in any
    order: the factor is that function, and the frame of the caller keeps its
    entries. *)
Theorem C66_function : forall dflt D cols v rs, known_columns D (cols ++ [v]) -> function_table D cols v rs -> no_part cols v ->
  forall left_var, left_var = None \/ (left_var = Some v /\ v <> "") -> forall l, dget v D = Some l ->
  exists f, from_data_frame dflt (frame_of (cols ++ [v]) rs) D left_var = (frame_of (cols ++ [v]) rs, Ok f) /\
    wf_df f v l /\ df_domain f = order_dom D (cols ++ [v]) /\ df_right f = cols /\ df_vtype f = dflt /\
    forall xs y, In (xs ++ [y]) rs -> get_value (df_store f) (combine cols xs) = Ok y.
Proof. exact read_ok. Qed.
Print Assumptions C66_function.

Example C66_case : known_columns D_frame (["A"; "U"] ++ ["X"]) /\ function_table D_frame ["A"; "U"] "X" rows_frame /\ no_part ["A"; "U"] "X" /\
  forall vt, read_value (from_data_frame vt (frame_of ["A"; "U"; "X"] rows_frame) D_frame None) [("A", SInt 1%Z); ("U", SStr "u1")] = Ok (SStr "x0") /\
  read_value (from_data_frame vt (frame_of ["A"; "U"; "X"] rows_frame) D_frame None) [("A", SInt 1%Z); ("U", SStr "u0")] = Ok (SStr "x1").
Proof.
  split; [apply known_columnsb_sound; [apply nodupb_sound| apply nodupb_sound|]; vm_compute; reflexivity|].
  split; [apply function_tableb_sound; vm_compute; reflexivity|]. split; [apply no_partb_sound; vm_compute; reflexivity|].
  intros []; vm_compute; auto.
Qed.

(** If the values are in another column the rows are sorted by them too soon,
    and the factor is another function: the rows say x1 for u0. *)
Theorem C66_column_refuted : function_table D_frame ["U"] "X" rows_xu /\ In [SStr "u0"; SStr "x1"] rows_xu /\
  forall vt, read_value (from_data_frame vt (frame_of ["X"; "U"] (map (@rev state) rows_xu)) D_frame (Some "X")) [("U", SStr "u0")] = Ok (SStr "x0").
Proof.
  split; [apply function_tableb_sound; vm_compute; reflexivity|]. split; [now left|]. intros []; vm_compute; reflexivity.
Qed.
Print Assumptions C66_column_refuted.

(** The frame of the caller loses the entries that are no states of their
    columns, whatever comes of the call. *)
Theorem C66_caller : forall dflt D df left_var, known_columns D (f_cols df) -> (forall r, In r (f_rows df) -> length r = length (f_cols df)) ->
  fst (from_data_frame dflt df D left_var) = mkF (f_cols df) (map (without_strangers D (f_cols df)) (f_rows df)).
Proof. exact caller_ok. Qed.
Print Assumptions C66_caller.
Example C66_caller_case : without_strangers D_frame ["U"; "X"] [Some (SStr "u1"); Some (SStr "x7")] = [Some (SStr "u1"); None].
Proof. reflexivity. Qed.

(** Such an entry in the last column is no error: the factor has the value
    "nan". *)
Theorem C66_stranger_refuted : forall vt,
  read_value (from_data_frame vt (frame_of ["U"; "X"] [[SStr "u0"; SStr "x1"]; [SStr "u1"; SStr "x7"]]) D_frame None) [("U", SStr "u1")] = Ok (SStr "nan").
Proof. intros []; vm_compute; reflexivity. Qed.
Print Assumptions C66_stranger_refuted.
(** Nor are two rows for one configuration if another has none. *)
Theorem C66_repeated_refuted : forall vt,
  read_value (from_data_frame vt (frame_of ["U"; "X"] [[SStr "u0"; SStr "x1"]; [SStr "u0"; SStr "x0"]]) D_frame None) [("U", SStr "u1")] = Ok (SStr "x1").
Proof. intros []; vm_compute; reflexivity. Qed.
Print Assumptions C66_repeated_refuted.

(** Too few or too many rows: ValueError. *)
Theorem C66_size_raises : forall dflt D cols v rows, known_columns D (cols ++ [v]) -> (forall r, In r rows -> length r = length (cols ++ [v])) ->
  (forall r, In r rows -> exists s, nth (length cols) r None = Some s /\ cell D v s) ->
  forall left_var, left_var = None \/ (left_var = Some v /\ v <> "") -> no_part cols v -> length rows <> table_size D cols ->
  snd (from_data_frame dflt (mkF (cols ++ [v]) rows) D left_var) = Raise ValueError.
Proof. exact wrong_size. Qed.
Print Assumptions C66_size_raises.
(** The name of another column is part of the name of the last: ValueError. *)
Theorem C66_name_raises : forall dflt D cols v rows, known_columns D (cols ++ [v]) -> (forall r, In r rows -> length r = length (cols ++ [v])) ->
  (forall r, In r rows -> exists s, nth (length cols) r None = Some s /\ cell D v s) ->
  forall left_var, left_var = None \/ (left_var = Some v /\ v <> "") -> (exists w a b, In w cols /\ v = (a ++ w ++ b)%string) ->
  snd (from_data_frame dflt (mkF (cols ++ [v]) rows) D left_var) = Raise ValueError.
Proof. exact name_within. Qed.
Print Assumptions C66_name_raises.
(** A column without states: KeyError. *)
Theorem C66_unknown_raises : forall dflt D df left_var, (forall v l, In v (f_cols df) -> dget v D = Some l -> NoDup l) ->
  (exists v, In v (f_cols df) /\ ~ In v (keys D)) -> snd (from_data_frame dflt df D left_var) = Raise KeyError.
Proof. exact unknown_column. Qed.
Print Assumptions C66_unknown_raises.
(** A left variable that is no column: KeyError. *)
Theorem C66_left_raises : forall dflt D df v, known_columns D (f_cols df) -> (forall r, In r (f_rows df) -> length r = length (f_cols df)) ->
  f_cols df <> [] -> v <> "" -> ~ In v (f_cols df) -> snd (from_data_frame dflt df D (Some v)) = Raise KeyError.
Proof. exact not_a_column. Qed.
Print Assumptions C66_left_raises.
(** No columns: IndexError. *)
Theorem C66_empty_raises : forall dflt D rows, snd (from_data_frame dflt (mkF [] rows) D None) = Raise IndexError.
Proof. exact no_columns. Qed.
Print Assumptions C66_empty_raises.

Example C66_raises_cases : forall vt,
  snd (from_data_frame vt (frame_of ["U"; "X"] [[SStr "u0"; SStr "x1"]]) D_frame None) = Raise ValueError /\
  snd (from_data_frame vt (frame_of ["U"; "XU"] [[SStr "u0"; SStr "x1"]; [SStr "u1"; SStr "x0"]]) [("U", [SStr "u0"; SStr "u1"]); ("XU", [SStr "x0"; SStr "x1"])] None)
    = Raise ValueError /\
  snd (from_data_frame vt (frame_of ["U"; "Z"] []) D_frame None) = Raise KeyError /\
  snd (from_data_frame vt (frame_of ["U"; "X"] rows_xu) D_frame (Some "Z")) = Raise KeyError.
Proof. intros []; vm_compute; auto. Qed.
