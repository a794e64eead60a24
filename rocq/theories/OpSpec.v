(** Vocabulary for statements about expressions written with the operators of
    factors. *)

From Coq Require Import String Bool Arith ZArith QArith Qcanon List.
From Verif Require Import PyBase Num DomainModel NdArray StoreModel NumStore FactorModel GenModel Spec StoreSpec
  NumFacts FactorSpec OpModel.
Import ListNotations.

(** The variables of the first list that are not in the second. *)
Definition without (vs ws : list var) : list var := filter (fun v => negb (mem v ws)) vs.

(** The two spellings of a group of variables: `"A"` and `["A", "B"]`. *)
Inductive spells : pyval -> list var -> Prop :=
| spells_one v : spells (PStr v) [v]
| spells_many vs : spells (PSeq vs) vs.

(** The factor [f] is stored as [vt] and its value at every full observation is
    the rational number [g o]. *)
Definition holds (vt : vtype) (f : mfactor) (g : obs -> Qc) : Prop :=
  wf_mf f /\ mf_vtype f = vt /\
  forall o, full (mf_domain f) o -> mf_get_value f o = Ok (Fin (g o)).

(** [m o] is the largest of the values of [g] at [o] extended over the
    variables [vs] of [d]. *)
Definition largest (vs : list var) (d : domain) (g m : obs -> Qc) : Prop :=
  forall o, full (drop vs d) o ->
    (exists p, In p (all_assignments (pick vs d)) /\ m o = g (p ++ o)) /\
    (forall p, In p (all_assignments (pick vs d)) -> (g (p ++ o) <= m o)%Qc).

(** [means vt e d L g]: read as mathematics, the expression [e] over factors
    stored as [vt] is a table over the domain [d] with the variables [L] on the
    left and the entry [g o] at every full observation [o]. *)
Inductive means (vt : vtype) : pyexp -> domain -> list var -> (obs -> Qc) -> Prop :=
| means_factor f g : holds vt f g -> means vt (XVal (PFac f)) (mf_domain f) (mf_left f) g
| means_mul e1 d1 L1 g1 e2 d2 L2 g2 : means vt e1 d1 L1 g1 -> means vt e2 d2 L2 g2 -> compatible d1 d2 ->
    means vt (XOp OpMul e1 e2) (join d1 d2) (L1 ++ L2) (fun o => g1 o * g2 o)%Qc
| means_add e1 d1 L1 g1 e2 d2 L2 g2 : means vt e1 d1 L1 g1 -> means vt e2 d2 L2 g2 -> compatible d1 d2 ->
    means vt (XOp OpAdd e1 e2) (join d1 d2) (L1 ++ L2) (fun o => g1 o + g2 o)%Qc
| means_sub e1 d1 L1 g1 e2 d2 L2 g2 : means vt e1 d1 L1 g1 -> means vt e2 d2 L2 g2 -> compatible d1 d2 ->
    means vt (XOp OpSub e1 e2) (join d1 d2) (L1 ++ L2) (fun o => g1 o - g2 o)%Qc
| means_div e1 d1 L1 g1 e2 d2 L2 g2 : means vt e1 d1 L1 g1 -> means vt e2 d2 L2 g2 -> compatible d1 d2 ->
    (forall o, full d2 o -> g2 o <> 0%Qc) ->
    means vt (XOp OpDiv e1 e2) (join d1 d2) (without L1 (keys d2)) (fun o => g1 o / g2 o)%Qc
| means_mul_number e d L g q : means vt e d L g ->
    means vt (XOp OpMul e (XVal (PNum (Fin q)))) d L (fun o => g o * q)%Qc
| means_add_number e d L g q : means vt e d L g ->
    means vt (XOp OpAdd e (XVal (PNum (Fin q)))) d L (fun o => g o + q)%Qc
| means_sub_number e d L g q : means vt e d L g ->
    means vt (XOp OpSub e (XVal (PNum (Fin q)))) d L (fun o => g o - q)%Qc
| means_div_number e d L g q : means vt e d L g -> q <> 0%Qc ->
    means vt (XOp OpDiv e (XVal (PNum (Fin q)))) d L (fun o => g o / q)%Qc
| means_sum e d L g x vs : means vt e d L g -> spells x vs -> NoDup vs -> incl vs (keys d) ->
    means vt (XOp OpPow e (XVal x)) (drop vs d) (without L vs)
          (fun o => qsum (map (fun p => g (p ++ o)) (all_assignments (pick vs d))))
| means_max e d L g m x vs : means vt e d L g -> spells x vs -> NoDup vs -> incl vs (keys d) ->
    vt <> VNumpy1D -> largest vs d g m ->
    means vt (XOp OpXor e (XVal x)) (drop vs d) (without L vs) m
| means_absent op e d L g x vs : means vt e d L g -> spells x vs -> (op = OpPow \/ op = OpXor) ->
    (forall v, In v vs -> ~ In v (keys d)) ->
    means vt (XOp op e (XVal x)) d L g
| means_restrict e d L g o : means vt e d L g -> known d o ->
    means vt (XRestrict e o) (drop (keys o) d) (without L (keys o)) (fun o' => g (o ++ o')).

(** Two factors with the same table: the same variables with the same states,
    and equal values at every full observation. *)
Definition same_table (f h : mfactor) : Prop :=
  mf_vtype f = mf_vtype h /\
  (forall v l, In (v, l) (mf_domain f) <-> In (v, l) (mf_domain h)) /\
  (forall v, In v (mf_left f) <-> In v (mf_left h)) /\
  forall o, full (mf_domain f) o -> exists q, mf_get_value f o = Ok (Fin q) /\ mf_get_value h o = Ok (Fin q).
