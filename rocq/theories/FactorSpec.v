(** Vocabulary for statements about factors. *)

From Coq Require Import String Ascii Bool Arith List.
From Verif Require Import PyBase Num DomainModel NdArray StoreModel NumStore FactorModel Spec StoreSpec.
Import ListNotations.

(** A domain that the library accepts and can use: distinct variables whose
    names do not start with an underscore, each with a non-empty list of
    distinct states of one python type. *)
Definition usable (d : domain) : Prop :=
  wf_dom d /\
  (forall v l x y, In (v, l) d -> In x l -> In y l -> type_of x = type_of y) /\
  (forall v s, In v (keys d) -> v <> String "_"%char s).

(** A well-formed multinomial factor. *)
Definition wf_mf (f : mfactor) : Prop :=
  wf_store (mf_store f) /\ usable (mf_domain f) /\ NoDup (mf_right f) /\ incl (mf_right f) (mf_vars f).

(** Left and right variables partition the variables of the factor. *)
Definition partitioned (f : mfactor) : Prop :=
  NoDup (mf_vars f) /\ NoDup (mf_left f) /\ NoDup (mf_right f) /\
  (forall v, In v (mf_vars f) <-> In v (mf_left f) \/ In v (mf_right f)) /\
  (forall v, ~ (In v (mf_left f) /\ In v (mf_right f))).

(** A well-formed deterministic factor: one left variable [v] with states [l],
    and a table of function values over the right variables. *)
Definition wf_df (f : dfactor) (v : var) (l : list state) : Prop :=
  wf_dom (df_domain f) /\ df_left f = [v] /\ In (v, l) (df_domain f) /\
  NoDup (df_right f) /\ incl (df_right f) (df_vars f) /\
  wf_store (df_store f) /\ st_domain (df_store f) = drop [v] (df_domain f).

(** The three accepted forms of the values of a new factor: a flat row-major
    list, an array of the shape of the domain, or one number for all entries. *)
Definition given_values (dom : domain) (v : fvals num) (xs : list num) : Prop :=
  v = flist xs \/ v = FArr (mkNd (card dom) xs) \/
  exists x, v = FScalar x /\ xs = repeat x (size dom).

(** An observation with its variables renamed. *)
Definition rename_obs (m : dict var var) (o : obs) : obs := map (fun vs => (rename1 m (fst vs), snd vs)) o.

(** For every configuration of the right variables the values sum to one over
    the left variables. *)
Definition normalised (f : mfactor) : Prop :=
  forall o, full (pick (mf_right f) (mf_domain f)) o -> exists xs,
    Forall2 (fun p x => mf_get_value f (p ++ o) = Ok x) (all_assignments (drop (mf_right f) (mf_domain f))) xs /\
    nsum xs = n1.
