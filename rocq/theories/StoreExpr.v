(** Programs over the store interface (for the store-type independence
    property): an expression language, its evaluation with a chosen store type
    through the modelled operations, and its meaning as a function of
    observations. *)

From Coq Require Import String Bool Arith ZArith QArith Qcanon List.
From Verif Require Import PyBase Num DomainModel NdArray StoreModel NumStore Spec NumFacts.
Import ListNotations.

(** A calculation written with the methods of DiscreteStore
    (bcause/factors/values/store.py:109-132). *)
Inductive expr : Type :=
| ETab (d : domain) (l : list Qc)
| ERestrict (e : expr) (o : obs)
| EMul (e1 e2 : expr)
| EAdd (e1 e2 : expr)
| ESub (e1 e2 : expr)
| EDiv (e1 e2 : expr)
| EMarg (e : expr) (vs : list var).

(** Run the calculation with one store type: tables are built by the
    constructor (store.py:20-29), operations are the modelled methods. *)
Fixpoint eval (vt : vtype) (e : expr) : res (store num) :=
  match e with
  | ETab d l => st_init vt d (DArr (mkNd (card d) (map Fin l)))
  | ERestrict e o => let* s := eval vt e in st_restrict s o
  | EMul e1 e2 => let* s1 := eval vt e1 in let* s2 := eval vt e2 in st_multiply s1 s2
  | EAdd e1 e2 => let* s1 := eval vt e1 in let* s2 := eval vt e2 in st_addition s1 s2
  | ESub e1 e2 => let* s1 := eval vt e1 in let* s2 := eval vt e2 in st_subtract s1 s2
  | EDiv e1 e2 => let* s1 := eval vt e1 in let* s2 := eval vt e2 in st_divide s1 s2
  | EMarg e vs => let* s := eval vt e in st_marginalize s vs
  end.

(** Mathematical meaning, without stores: [denotes e d g] says that [e] is a
    well-formed calculation of the table over [d] with entry [g o] at every full
    observation [o]. *)
Inductive denotes : expr -> domain -> (obs -> Qc) -> Prop :=
| den_tab d l : wf_dom d -> length l = size d ->
    denotes (ETab d l) d (fun o => nth (rowpos d o) l 0)
| den_restrict e d g o : denotes e d g ->
    (forall v l x, In (v, l) d -> dget v o = Some x -> In x l) ->
    denotes (ERestrict e o) (drop (keys o) d) (fun o' => g (o ++ o'))
| den_mul e1 d1 g1 e2 d2 g2 : denotes e1 d1 g1 -> denotes e2 d2 g2 -> compatible d1 d2 ->
    denotes (EMul e1 e2) (join d1 d2) (fun o => g1 o * g2 o)
| den_add e1 d1 g1 e2 d2 g2 : denotes e1 d1 g1 -> denotes e2 d2 g2 -> compatible d1 d2 ->
    denotes (EAdd e1 e2) (join d1 d2) (fun o => g1 o + g2 o)
| den_sub e1 d1 g1 e2 d2 g2 : denotes e1 d1 g1 -> denotes e2 d2 g2 -> compatible d1 d2 ->
    denotes (ESub e1 e2) (join d1 d2) (fun o => g1 o - g2 o)
| den_div e1 d1 g1 e2 d2 g2 : denotes e1 d1 g1 -> denotes e2 d2 g2 -> compatible d1 d2 ->
    (forall o, full d2 o -> g2 o <> 0) ->
    denotes (EDiv e1 e2) (join d1 d2) (fun o => g1 o / g2 o)
| den_marg e d g vs : denotes e d g -> NoDup vs -> incl vs (keys d) ->
    denotes (EMarg e vs) (drop vs d)
            (fun o => qsum (map (fun p => g (p ++ o)) (all_assignments (pick vs d)))).
