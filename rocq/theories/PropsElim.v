(** Property C75: the costs of the elimination heuristics measure the tables
    that variable elimination creates. *)

From Coq Require Import String Ascii Bool Arith ZArith QArith Qcanon Permutation List.
From Verif Require Import PyBase Num DomainModel NdArray StoreModel NumStore FactorModel GraphModel ModelModel InferModel
  Spec StoreSpec FactorSpec GraphSpec ModelSpec NetSpec OrderSpec ElimSpec ElimFacts2 Checks FactorChecks GraphChecks InferChecks CausalChecks ElimChecks.
Import ListNotations.
Local Open Scope nat_scope.
Local Open Scope string_scope.
Local Open Scope list_scope.

(** ** C75 *)
(** In any network and after any eliminations, the table created for [v] has
    variables among [v] and its neighbours in the elimination graph only, so its
    number of variables and of entries are at most the costs of MIN_SIZE (plus
    one) and MIN_WEIGHT. *)
Theorem C75_bound : forall m D F vt, network m D F vt ->
  forall gone v, NoDup (gone ++ [v]) -> incl (gone ++ [v]) (nodes (m_graph m)) ->
  exists fs t, mapM multinomial_of (vals (m_factors m)) = Ok fs /\ creates fs gone v t /\ In v (mf_vars t) /\
    (forall w, In w (mf_vars t) -> w = v \/ adjacent (m_graph m) gone v w) /\
    (forall c, cost_is MIN_SIZE (m_graph m) [] gone v c -> length (mf_vars t) <= S c) /\
    (forall sizes c, sizes_of D sizes -> cost_is MIN_WEIGHT (m_graph m) sizes gone v c -> size (mf_domain t) <= c).
Proof. exact elim_bound. Qed.
Print Assumptions C75_bound.

(** The costs are exact when every eliminated variable is an ancestor of a
    variable that stays. *)
Theorem C75_exact : forall m D F vt, network m D F vt ->
  forall gone v, NoDup (gone ++ [v]) -> incl (gone ++ [v]) (nodes (m_graph m)) -> all_used (m_graph m) (gone ++ [v]) ->
  exists fs t, mapM multinomial_of (vals (m_factors m)) = Ok fs /\ creates fs gone v t /\
    (forall w, In w (mf_vars t) <-> w = v \/ adjacent (m_graph m) gone v w) /\
    (forall c, cost_is MIN_SIZE (m_graph m) [] gone v c -> length (mf_vars t) = S c) /\
    (forall sizes c, sizes_of D sizes -> cost_is MIN_WEIGHT (m_graph m) sizes gone v c -> size (mf_domain t) = c).
Proof. exact elim_exact. Qed.
Print Assumptions C75_exact.

(** Without that they are not: a table that sums to one is dropped, while its
    variables stay joined in the elimination graph. *)
Theorem C75_barren_refuted : exists m D F vt gone v w fs t,
  network m D F vt /\ NoDup (gone ++ [v]) /\ incl (gone ++ [v]) (nodes (m_graph m)) /\
  mapM multinomial_of (vals (m_factors m)) = Ok fs /\ creates fs gone v t /\
  adjacent (m_graph m) gone v w /\ ~ In w (mf_vars t).
Proof. exact barren. Qed.
Print Assumptions C75_barren_refuted.

(** In the model compiled for a query that condition always holds, and the sizes
    that [run] hands to the heuristic are those of its variables: the cost of a
    variable is the size of the table that eliminating it next creates. *)
Theorem C75_query : forall m D F vt, network m D F vt ->
  forall T e, incl T (nodes (m_graph m)) -> incl (keys e) (nodes (m_graph m)) -> (forall v, In v T -> ~ In v (keys e)) -> known D e ->
  forall im, ve_compile m T e = Ok im ->
  exists fs sizes, mapM multinomial_of (vals (m_factors im)) = Ok fs /\ get_varsizes im (nodes (m_graph im)) = Ok sizes /\
    forall gone v, NoDup (gone ++ [v]) -> incl (gone ++ [v]) (nodes (m_graph im)) ->
    (forall x, In x (gone ++ [v]) -> ~ In x T /\ ~ In x (keys e)) ->
    exists t, creates fs gone v t /\
      (forall w, In w (mf_vars t) <-> w = v \/ adjacent (m_graph im) gone v w) /\
      cost_is MIN_SIZE (m_graph im) sizes gone v (length (mf_vars t) - 1) /\
      cost_is MIN_WEIGHT (m_graph im) sizes gone v (size (mf_domain t)).
Proof. exact query_tables. Qed.
Print Assumptions C75_query.

(** So, whatever the random choices, every round of MIN_WEIGHT creates a table
    with the fewest entries, and every round of MIN_SIZE one with the fewest
    variables, among those of the variables still to be eliminated. *)
Theorem C75_smallest : forall m D F vt, network m D F vt ->
  forall T e, incl T (nodes (m_graph m)) -> incl (keys e) (nodes (m_graph m)) -> (forall v, In v T -> ~ In v (keys e)) -> known D e ->
  forall im, ve_compile m T e = Ok im ->
  forall choose vs, chooses choose -> NoDup vs -> incl vs (nodes (m_graph im)) -> (forall x, In x vs -> ~ In x T /\ ~ In x (keys e)) ->
  exists fs sizes, mapM multinomial_of (vals (m_factors im)) = Ok fs /\ get_varsizes im (nodes (m_graph im)) = Ok sizes /\
    forall h, exists order, heuristic_fn h choose (m_graph im) vs sizes = Ok order /\ Permutation order vs /\
    forall gone v later, order = gone ++ v :: later -> exists t, creates fs gone v t /\
      forall w, In w later -> exists t', creates fs gone w t' /\
        (h = MIN_WEIGHT -> size (mf_domain t) <= size (mf_domain t')) /\
        (h = MIN_SIZE -> length (mf_vars t) <= length (mf_vars t')).
Proof. exact query_smallest. Qed.
Print Assumptions C75_smallest.

Example C75_bound_case :
  network m_net D_net F_net VNumpy /\ NoDup ["H"; "E"; "C"; "A"] /\ incl ["H"; "E"; "C"; "A"] (nodes (m_graph m_net)) /\
  created m_net [] "C" = Ok (["C"; "A"; "B"; "E"], 24) /\ created m_net ["C"] "A" = Ok (["A"; "B"; "E"], 12) /\
  created m_net ["H"; "E"; "C"] "A" = Ok (["A"], 2).
Proof.
  split; [exact (net_ok VNumpy)|]. split; [apply nodupb_sound; vm_compute; reflexivity|].
  split; [apply inclb_sound; vm_compute; reflexivity|]. repeat split; vm_compute; reflexivity.
Qed.

Example C75_exact_case :
  network m_net D_net F_net VNumpy /\ NoDup ["C"; "E"; "A"] /\ incl ["C"; "E"; "A"] (nodes (m_graph m_net)) /\
  all_used (m_graph m_net) ["C"; "E"; "A"] /\ created m_net ["C"; "E"] "A" = Ok (["A"; "H"; "B"], 12).
Proof.
  split; [exact (net_ok VNumpy)|]. split; [apply nodupb_sound; vm_compute; reflexivity|].
  split; [apply inclb_sound; vm_compute; reflexivity|]. split; [exact net_used|]. vm_compute. reflexivity.
Qed.

(** Asking for E given H: nothing is dropped, and MIN_WEIGHT takes A first (the
    table of A, B and C) and then B. *)
Example C75_query_case :
  let T := ["E"] in let e := [("H", SBool true)] in
  incl T (nodes (m_graph m_net)) /\ incl (keys e) (nodes (m_graph m_net)) /\ (forall v, In v T -> ~ In v (keys e)) /\ known D_net e /\
  chooses first_choice /\
  (let* im := ve_compile m_net T e in
   let* sizes := get_varsizes im (nodes (m_graph im)) in
   let* order := heuristic_fn MIN_WEIGHT first_choice (m_graph im) ["C"; "A"; "B"] sizes in
   let* a := created im [] "A" in let* c := created im [] "C" in let* b := created im ["A"] "B" in let* c' := created im ["A"; "B"] "C" in
   Ok (order, [a; c; b; c'])) =
  Ok (["A"; "B"; "C"], [(["A"; "C"; "B"], 12); (["C"; "A"; "B"; "E"], 24); (["B"; "C"], 6); (["C"; "E"], 4)]).
Proof.
  intros T e. split; [apply inclb_sound; vm_compute; reflexivity|]. split; [apply inclb_sound; vm_compute; reflexivity|].
  split; [intros v [<-|[]] [J|[]]; discriminate|]. split; [apply knownb_sound; vm_compute; reflexivity|].
  split; [exact first_chooses|]. vm_compute. reflexivity.
Qed.
