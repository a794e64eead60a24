(** Property C77: the answers to different queries fit together. *)

From Coq Require Import String Ascii Bool Arith ZArith QArith Qcanon Permutation List.
From Verif Require Import PyBase Num DomainModel NdArray StoreModel NumStore FactorModel GraphModel ModelModel InferModel CausalModel
  Spec StoreSpec FactorSpec GraphSpec ModelSpec NetSpec OrderSpec OrderFacts CausalSpec CoherSpec CoherFacts Checks FactorChecks GraphChecks InferChecks CausalChecks.
Import ListNotations.
Local Open Scope nat_scope.
Local Open Scope string_scope.
Local Open Scope list_scope.

(** ** C77 *)
(** Summing variables out of an answer answers the query about the others. *)
Theorem C77_marginalize : forall m D F vt, network m D F vt -> forall heur so, is_heuristic heur -> is_set_order so ->
  forall e T S, NoDup (T ++ S) -> T <> [] -> incl (T ++ S) (nodes (m_graph m)) -> incl (keys e) (nodes (m_graph m)) ->
  (forall v, In v (T ++ S) -> ~ In v (keys e)) -> mass D F e <> 0%Qc ->
  exists r f r', ve_query heur so m (T ++ S) None e = Ok r /\ mf_marginalize r S = Ok f /\
    ve_query heur so m T None e = Ok r' /\ same_table D T f r'.
Proof. exact ve_marginalized. Qed.
Print Assumptions C77_marginalize.

(** Fixing variables of an answer and normalising gives the answer with more
    evidence. *)
Theorem C77_observe : forall m D F vt, network m D F vt -> forall heur so, is_heuristic heur -> is_set_order so ->
  forall e T S s, NoDup (T ++ S) -> T <> [] -> incl (T ++ S) (nodes (m_graph m)) -> incl (keys e) (nodes (m_graph m)) ->
  (forall v, In v (T ++ S) -> ~ In v (keys e)) -> assigns D S s -> mass D F (s ++ e) <> 0%Qc -> mass D F e <> 0%Qc ->
  exists r f g h r', ve_query heur so m (T ++ S) None e = Ok r /\ mf_restrict r s = Ok f /\ mf_marginalize f T = Ok g /\
    mf_divide f (OFac g) = Ok h /\ ve_query heur so m T None (s ++ e) = Ok r' /\ same_table D T h r'.
Proof. exact ve_observed. Qed.
Print Assumptions C77_observe.

(** The conditional table, restricted to a state of its conditioning variables,
    is the answer with that state as evidence. *)
Theorem C77_given : forall m D F vt, network m D F vt -> forall heur so, is_heuristic heur -> is_set_order so ->
  forall e T C c, NoDup T -> NoDup C -> T <> [] -> incl T (nodes (m_graph m)) -> incl C (nodes (m_graph m)) ->
  incl (keys e) (nodes (m_graph m)) -> (forall v, In v (T ++ C) -> ~ In v (keys e)) -> (forall v, In v T -> ~ In v C) ->
  assigns D C c -> mass D F (c ++ e) <> 0%Qc -> mass D F e <> 0%Qc ->
  exists r f r', ve_query heur so m T (Some C) e = Ok r /\ mf_restrict r c = Ok f /\
    ve_query heur so m T None (c ++ e) = Ok r' /\ same_table D T f r'.
Proof. exact given. Qed.
Print Assumptions C77_given.

(** The chain rule: the conditional table times the answer for the conditioning
    variables is the joint answer.  Where a state of the conditioning variables
    is impossible this needs the numpy store; the others hold NaN there. *)
Theorem C77_chain : forall m D F vt, network m D F vt -> forall heur so, is_heuristic heur -> is_set_order so ->
  forall e T C, NoDup (T ++ C) -> T <> [] -> C <> [] -> incl (T ++ C) (nodes (m_graph m)) -> incl (keys e) (nodes (m_graph m)) ->
  (forall v, In v (T ++ C) -> ~ In v (keys e)) -> mass D F e <> 0%Qc ->
  exists r p h j, ve_query heur so m T (Some C) e = Ok r /\ ve_query heur so m C None e = Ok p /\ mf_multiply r (OFac p) = Ok h /\
    ve_query heur so m (T ++ C) None e = Ok j /\
    (forall t c, assigns D T t -> assigns D C c -> mass D F (c ++ e) <> 0%Qc \/ (nonnegative D F /\ vt = VNumpy) ->
       exists q, mf_get_value h (t ++ c) = Ok (Fin q) /\ mf_get_value j (t ++ c) = Ok (Fin q)) /\
    (forall t c, assigns D T t -> assigns D C c -> mass D F (c ++ e) = 0%Qc -> nonnegative D F -> vt <> VNumpy ->
       mf_get_value h (t ++ c) = Ok NaN /\ mf_get_value j (t ++ c) = Ok (Fin 0%Qc)).
Proof. exact chained. Qed.
Print Assumptions C77_chain.

(** The same under an intervention. *)
Theorem C77_do_marginalize : forall m D F vt endo cast, causal m D F vt endo cast -> plain_roots m ->
  forall heur so, is_heuristic heur -> is_set_order so ->
  forall d, NoDup (keys d) -> incl (keys d) (nodes (m_graph m)) -> known D d ->
  forall e T S, NoDup (T ++ S) -> T <> [] -> incl (T ++ S) (nodes (m_graph m)) -> incl (keys e) (nodes (m_graph m)) ->
  (forall v, In v (T ++ S) -> ~ In v (keys e) /\ ~ In v (keys d)) -> (forall v, In v (keys e) -> ~ In v (keys d)) -> do_mass D F d e <> 0%Qc ->
  exists m1 r f r', cve_init m = Ok m1 /\ causal_query heur so m1 (T ++ S) (DoDict d) e = Ok r /\ mf_marginalize r S = Ok f /\
    causal_query heur so m1 T (DoDict d) e = Ok r' /\ same_table D T f r'.
Proof. exact causal_marginalized. Qed.
Print Assumptions C77_do_marginalize.

Theorem C77_do_observe : forall m D F vt endo cast, causal m D F vt endo cast -> plain_roots m ->
  forall heur so, is_heuristic heur -> is_set_order so ->
  forall d, NoDup (keys d) -> incl (keys d) (nodes (m_graph m)) -> known D d ->
  forall e T S s, NoDup (T ++ S) -> T <> [] -> incl (T ++ S) (nodes (m_graph m)) -> incl (keys e) (nodes (m_graph m)) ->
  (forall v, In v (T ++ S) -> ~ In v (keys e) /\ ~ In v (keys d)) -> (forall v, In v (keys e) -> ~ In v (keys d)) ->
  assigns D S s -> do_mass D F d (s ++ e) <> 0%Qc -> do_mass D F d e <> 0%Qc ->
  exists m1 r f g h r', cve_init m = Ok m1 /\ causal_query heur so m1 (T ++ S) (DoDict d) e = Ok r /\ mf_restrict r s = Ok f /\
    mf_marginalize f T = Ok g /\ mf_divide f (OFac g) = Ok h /\ causal_query heur so m1 T (DoDict d) (s ++ e) = Ok r' /\ same_table D T h r'.
Proof. exact causal_observed. Qed.
Print Assumptions C77_do_observe.

Definition ask (vt : vtype) (T : list var) (C : option (list var)) (e : obs) : res mfactor :=
  ve_query (heuristic_fn MIN_FILL first_choice) plain_order (bn_of vt g_net ts_net) T C e.

(** P(A, H | E) summed over H, and fixed at H = true. *)
Example C77_case : forall vt, let e := [("E", SBool true)] in let s := [("H", SBool true)] in
  network (bn_of vt g_net ts_net) D_net (table_of vt ts_net) vt /\
  is_heuristic (heuristic_fn MIN_FILL first_choice) /\ is_set_order plain_order /\
  mass D_net (table_of vt ts_net) e <> 0%Qc /\ mass D_net (table_of vt ts_net) (s ++ e) <> 0%Qc /\
  (let* r := ask vt ["A"; "H"] None e in let* f := mf_marginalize r ["H"] in let* r' := ask vt ["A"] None e in
   Ok (okb (mf_get_value f [("A", SStr "a0")]) (q (93#358)), okb (mf_get_value r' [("A", SStr "a0")]) (q (93#358)))) = Ok (true, true) /\
  (let* r := ask vt ["A"; "H"] None e in let* f := mf_restrict r s in let* g := mf_marginalize f ["A"] in
   let* h := mf_divide f (OFac g) in let* r' := ask vt ["A"] None (s ++ e) in
   Ok (okb (mf_get_value h [("A", SStr "a0")]) (q (93#358)), okb (mf_get_value r' [("A", SStr "a0")]) (q (93#358)))) = Ok (true, true).
Proof.
  intros vt e s. split; [exact (net_ok vt)|]. split; [apply heuristic_ok, first_chooses|]. split; [exact plain_order_ok|].
  split; [apply (qeqb_neq _ (179#600) 0); [destruct vt; vm_compute; reflexivity|discriminate]|].
  split; [apply (qeqb_neq _ (1253#4800) 0); [destruct vt; vm_compute; reflexivity|discriminate]|].
  split; destruct vt; vm_compute; reflexivity.
Qed.

(** B = 0 and C = true never occur together: the products differ there. *)
Example C77_chain_case : let bad := [("A", SStr "a0"); ("B", SInt 0); ("C", SBool true)] in
  let fine := [("A", SStr "a0"); ("B", SInt 1); ("C", SBool true)] in
  let at_ vt o := (let* r := ask vt ["A"] (Some ["B"; "C"]) [] in let* p := ask vt ["B"; "C"] None [] in let* h := mf_multiply r (OFac p) in
                   let* j := ask vt ["A"; "B"; "C"] None [] in Ok (mf_get_value h o, mf_get_value j o)) in
  nonnegative D_net F_net /\
  qeqb (mass D_net F_net [("B", SInt 0); ("C", SBool true)]) 0 = true /\
  match at_ VNumpy bad with Ok (Ok (Fin x), Ok (Fin y)) => qeqb x 0 && qeqb y 0 | _ => false end = true /\
  match at_ VList bad with Ok (Ok NaN, Ok (Fin y)) => qeqb y 0 | _ => false end = true /\
  match at_ VList fine with Ok (Ok (Fin x), Ok (Fin y)) => qeqb x (1#24) && qeqb y (1#24) | _ => false end = true.
Proof.
  intros bad fine at_. split; [apply (nonneg_check _ _ VNumpy m_net); [exact (net_ok VNumpy)|vm_compute; reflexivity]|].
  split; [vm_compute; reflexivity|]. split; [vm_compute; reflexivity|]. split; vm_compute; reflexivity.
Qed.

(** P(Z, U | do(X = 1)), with Y observed. *)
Example C77_do_case : forall vt, let d := [("X", SInt 1)] in let e := [("Y", SStr "y1")] in let s := [("Z", SInt 0)] in
  causal (m_cf vt) D_cf (table_of vt ts_cf) vt ["X"; "Z"; "Y"] false /\ plain_roots (m_cf vt) /\
  do_mass D_cf (table_of vt ts_cf) d e <> 0%Qc /\ do_mass D_cf (table_of vt ts_cf) d (s ++ e) <> 0%Qc /\
  (let ask T e := (let* m1 := cve_init (m_cf vt) in causal_query (heuristic_fn MIN_FILL first_choice) plain_order m1 T (DoDict d) e) in
   let* r := ask ["U"; "Z"] e in let* f := mf_restrict r s in let* g := mf_marginalize f ["U"] in
   let* h := mf_divide f (OFac g) in let* r' := ask ["U"] (s ++ e) in
   let* x := mf_get_value h [("U", SStr "w")] in let* y := mf_get_value r' [("U", SStr "w")] in Ok (okb (Ok x) y)) = Ok true.
Proof.
  intros vt d e s. split; [apply cf_ok|]. split; [apply cf_roots|].
  split; [apply (qeqb_neq _ 1 0); [destruct vt; vm_compute; reflexivity|discriminate]|].
  split; [intros Z; apply (f_equal this) in Z; destruct vt; vm_compute in Z; discriminate|]. destruct vt; vm_compute; reflexivity.
Qed.
