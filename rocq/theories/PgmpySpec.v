(** What the statements about conversion to pgmpy mean. *)

From Coq Require Import String Bool Arith List.
From Verif Require Import PyBase Num DomainModel StoreModel FactorModel Spec FactorSpec.
Import ListNotations.
Local Open Scope nat_scope.

(** The rule finds every state of the list at its own position. *)
Definition finds (state_index : list state -> state -> res nat) (l : list state) : Prop :=
  forall i s, nth_error l i = Some s -> state_index l s = Ok i.

(** The variables [vs] of the domain in the order of [vs]. *)
Definition arrange (vs : list var) (d : domain) : domain :=
  flat_map (fun v => match dget v d with Some l => [(v, l)] | None => [] end) vs.

(** The shapes that can be converted for a left variable with [n] states: one
    variable; two of which the second has [n] states; or more of which the
    first and the last have [n] states. *)
Definition convertible (n : nat) (d : domain) : Prop :=
  match d with
  | [] => False
  | [_] => True
  | [_; (_, l)] => length l = n
  | (_, l) :: r => length l = n /\ length (snd (last r (EmptyString, []))) = n
  end.

(** The variables of the factor are its right variables, in their order, and
    then [v]. *)
Definition aligned (f : mfactor) (v : var) : Prop := mf_vars f = mf_right f ++ [v].

(** Two factors over the same domain with the same right variables and the
    same values. *)
Definition same_factor (f f' : mfactor) : Prop :=
  mf_domain f' = mf_domain f /\ mf_right f' = mf_right f /\
  forall o, full (mf_domain f) o -> exists x, mf_get_value f o = Ok x /\ mf_get_value f' o = Ok x.

(** If there are more than two variables, the first has [n] states. *)
Definition square (f : mfactor) (n : nat) : Prop :=
  2 < length (mf_vars f) -> forall w k r, mf_domain f = (w, k) :: r -> length k = n.
