(** Model of saving models to files and reading them: bcause/models/pgmodel.py
    [save] and [read], bcause/readwrite (bnread.py, bnwrite.py, scmread.py,
    scmwrite.py) for the formats BIF and XMLBIF, and
    bcause/util/assertions.py [assert_file_exists].  The texts of .uai files are
    in UaiModel.v.

    The file system is the value of type [world]: the texts of the files and
    the list of the folders.  A path is the string of a pathlib.Path.  The
    writers and readers of pgmpy are quantified over: [render] makes the text of
    a network, [parse] the network of a text.  Logging and the printing of the
    text (bnwrite.py:82) are left out. *)

From Coq Require Import String Bool Arith List.
From Verif Require Import PyBase Num DomainModel NdArray StoreModel NumStore FactorModel GraphModel ModelModel PgmpyModel UaiModel.
Import ListNotations.
Local Open Scope nat_scope.
Local Open Scope string_scope.
Local Open Scope list_scope.

(** The two formats of pgmpy: BIFReader and BIFWriter, XMLBIFReader and
    XMLBIFWriter. (bnread.py:6, 26-32, bnwrite.py:5, 25-29) *)
Inductive format := Bif | XmlBif.
(** bnread.py:19-24, bnwrite.py:16-23, the files and the folders that exist [world] *)
Record world := MkW { w_files : dict string string; w_dirs : list string }.

(** `os.path.exists` (bnread.py:19-24, bnwrite.py:16-23) *)
Definition path_exists (w : world) (p : string) : bool := mem p (keys (w_files w)) || mem p (w_dirs w).
(** assertions.py:14-18 [assert_file_exists] *)
Definition assert_file_exists (w : world) (p : string) : res unit :=
  if path_exists w p then Ok tt else Raise FileNotFoundError.
(** `open(p)` and reading; a folder cannot be read (IsADirectoryError, an
    OSError) (bnread.py:20-22, 42) *)
Definition file_read (w : world) (p : string) : res string :=
  match dget p (w_files w) with
  | Some t => Ok t
  | None => if mem p (w_dirs w) then Raise OSError else Raise FileNotFoundError
  end.
(** `str.endswith` (pgmodel.py:77-98) *)
Definition ends_with (suffix p : string) : bool :=
  (String.length suffix <=? String.length p)%nat &&
  (substring (String.length p - String.length suffix) (String.length suffix) p =? suffix)%string.

Section Files.
  (** `Path.parent` and `Path.absolute` *)
  Variables (parent absolute : string -> string).
  (** pgmpy's writers and readers, and the rule of its get_value *)
  Variables (render : format -> pgnet -> res string) (parse : format -> string -> res pgnet).
  Variable state_index : list state -> state -> res nat.
  (** does a writer open the file before it has made the text? *)
  Variable emptied : bool.
  (** the conversions between floats and text, and the default store class *)
  Variables (fstr : num -> string) (fparse : string -> res num) (dflt : vtype).

  (** `open(p, "w")` and writing: the folder must be one, and the path must not
      be a folder (bnwrite.py:23, 76-83) *)
  Definition file_write (w : world) (p text : string) : world * res unit :=
    if mem p (w_dirs w) then (w, Raise OSError)
    else if negb (path_exists w (parent p)) then (w, Raise FileNotFoundError)
    else if negb (mem (parent p) (w_dirs w)) then (w, Raise OSError)
    else (MkW (dset p text (w_files w)) (w_dirs w), Ok tt).

  (** bnwrite.py:16-23 [__write], 25-29 [to_bif] and [to_xmlbif] *)
  Definition write_net (fmt : format) (w : world) (m : pgm) (p : string) : world * res unit :=
    match assert_file_exists w (parent p) with
    | Raise e => (w, Raise e)
    | Ok _ =>
        match to_pgmpy m with
        | Raise e => (w, Raise e)
        | Ok n => match render fmt n with
                  | Ok text => file_write w p text
                  | Raise e => if emptied
                               then let (w, r) := file_write w p "" in (w, match r with Ok _ => Raise e | Raise e' => Raise e' end)
                               else (w, Raise e)
                  end
        end
    end.
  (** scmwrite.py:10-14 [to_bif] and [to_xmlbif]; a Bayesian network is written
      by [write_net] itself *)
  Definition write_model (fmt : format) (w : world) (m : pgm) (p : string) : world * res unit :=
    match m_kind m with
    | KBn => write_net fmt w m p
    | KScm _ _ => match scm_to_bnet m with Ok b => write_net fmt w b p | Raise e => (w, Raise e) end
    end.
  (** bnwrite.py:31-85 and scmwrite.py:16-17 [to_uai], with the file *)
  Definition write_uai (w : world) (m : pgm) (p : string) (var_order : option (list var)) : world * res unit :=
    match save_uai fstr dflt m var_order with
    | Raise e => (w, Raise e)
    | Ok text => match assert_file_exists w (parent p) with
                 | Raise e => (w, Raise e)
                 | Ok _ => file_write w p text
                 end
    end.
  (** pgmodel.py:75-86 [save]; the keyword var_order is used for .uai only *)
  Definition save (w : world) (m : pgm) (p : string) (var_order : option (list var)) : world * res string :=
    let (w, r) := if ends_with ".uai" p then write_uai w m p var_order
                  else if ends_with ".xmlbif" p then write_model XmlBif w m p
                  else if ends_with ".bif" p then write_model Bif w m p
                  else (w, Raise ValueError) in
    (w, let* _ := r in Ok (absolute p)).

  (** bnread.py:19-24 [__read], 26-32 [from_bif] and [from_xmlbif] with the
      default store class *)
  Definition read_net (fmt : format) (w : world) (p : string) : res pgm :=
    let* _ := assert_file_exists w p in
    let* text := file_read w p in
    let* n := parse fmt text in
    to_bcause state_index n dflt.
  (** scmread.py:9-15 [from_bif] and [from_xmlbif] *)
  Definition read_causal (fmt : format) (w : world) (p : string) : res pgm :=
    let* m := read_net fmt w p in scm_from_model m.
  (** pgmodel.py:89-100 [read] of the class BayesianNetwork, and of the class
      StructuralCausalModel *)
  Definition read (causal : bool) (w : world) (p : string) : res pgm :=
    if ends_with ".uai" p then
      let* text := file_read w p in
      (if causal then scm_read_uai fparse dflt text else bn_read_uai fparse dflt text)
    else if ends_with ".xmlbif" p then if causal then read_causal XmlBif w p else read_net XmlBif w p
    else if ends_with ".bif" p then if causal then read_causal Bif w p else read_net Bif w p
    else Raise ValueError.
End Files.
