(** Property C73: enumeration and domain utilities. *)

From Coq Require Import String Ascii Bool Arith ZArith Permutation List.
From Verif Require Import PyBase DomainModel NdArray CausalModel UaiModel UtilModel Spec FactorSpec UtilSpec UaiSpec UtilFacts
  Checks FactorChecks.
Import ListNotations.
Local Open Scope nat_scope.

(** ** C73 *)
(** A domain made from sizes is accepted everywhere and lists its states in order. *)
Theorem C73_create : forall (sizes : dict var Z) first named, sizes <> [] -> NoDup (keys sizes) ->
  (forall v n, In (v, n) sizes -> (1 <= n)%Z) -> (forall v s, In v (keys sizes) -> v <> String "_"%char s) ->
  exists D, create_domain sizes first named = Ok D /\ usable D /\ keys D = keys sizes /\
    forall v n, In (v, n) sizes -> exists l, dget v D = Some l /\ length l = Z.to_nat n /\
      forall i, i < Z.to_nat n -> nth_error l i =
        Some (if named then SStr (append (lower v) (z_str (first + Z.of_nat i))) else SInt (first + Z.of_nat i)).
Proof. exact create_domain_ok. Qed.
Print Assumptions C73_create.

Theorem C73_create_raises : forall first named, create_domain [] first named = Raise IndexError.
Proof. exact create_empty_raises. Qed.
Print Assumptions C73_create_raises.

(** A size that is not positive is accepted and gives a variable without states. *)
Theorem C73_no_states_refuted : forall (sizes : dict var Z) first named v n, NoDup (keys sizes) -> In (v, n) sizes -> (n <= 0)%Z ->
  exists D, create_domain sizes first named = Ok D /\ dget v D = Some [].
Proof. exact create_no_states. Qed.
Print Assumptions C73_no_states_refuted.

(** The strides: the row-major position of an assignment is the sum of its
    state positions times the strides. *)
Theorem C73_strides : forall d o, NoDup (keys d) ->
  keys (steps_dict d) = keys d /\ list_sum (map (fun vk => digit d o (fst vk) * snd vk) (steps_dict d)) = rowpos d o.
Proof. exact (fun d o ND => conj (steps_dict_keys d) (steps_sum d o ND)). Qed.
Print Assumptions C73_strides.

(** The numeric assignments are the state positions of all assignments, in order. *)
Theorem C73_numeric : forall d, wf_dom d ->
  Forall2 (fun o c => keys c = keys d /\ forall v, In v (keys d) -> dget v c = Some (digit d o v))
    (all_assignments d) (numeric_assignment_space d) /\
  numeric_state_space d = map vals (numeric_assignment_space d).
Proof. exact (fun d W => conj (numeric_digits d W) (numeric_rows d)). Qed.
Print Assumptions C73_numeric.

(** The power set: every sub-list, once, smaller ones first. *)
Theorem C73_powerset : forall A (l : list A),
  (forall s, In s (powerset l) <-> sublist s l) /\ length (powerset l) = 2 ^ length l /\
  (NoDup l -> NoDup (powerset l)) /\
  (forall i j s t, nth_error (powerset l) i = Some s -> nth_error (powerset l) j = Some t -> i <= j -> length s <= length t).
Proof. exact (fun A l => conj (powerset_In l) (conj (powerset_length l) (conj (powerset_NoDup l) (powerset_sorted l)))). Qed.
Print Assumptions C73_powerset.

(** Reordering from first-index-fastest to last-index-fastest. *)
Theorem C73_reorder : forall A (values : list A) shape, length values = cells shape ->
  exists ys, change_shape_order values shape = Ok ys /\ Permutation ys values /\
    forall idx, inside shape idx -> nth_error ys (last_fastest shape idx) = nth_error values (first_fastest shape idx).
Proof. exact @reorder_both. Qed.
Print Assumptions C73_reorder.

Theorem C73_reorder_raises : forall A (values : list A) shape, length values <> cells shape ->
  change_shape_order values shape = Raise ValueError.
Proof. exact @reorder_raises. Qed.
Print Assumptions C73_reorder_raises.

(** A single name counts as one name, not as a list of letters. *)
Theorem C73_as_lists : forall s l a b r,
  as_lists [OneName s] = Ok (inl [s]) /\ as_lists [ManyNames l] = Ok (inl l) /\
  (exists q, as_lists (a :: b :: r) = Ok (inr q) /\
     Forall2 (fun x y => match x with OneName s' => y = [s'] | ManyNames l' => y = l' end) (a :: b :: r) q) /\
  as_lists [] = Raise IndexError.
Proof. exact as_lists_spec. Qed.
Print Assumptions C73_as_lists.

Example C73_case :
  create_domain [("X"%string, 2%Z); ("Yes"%string, 3%Z)] 1 true =
    Ok [("X"%string, [SStr "x1"; SStr "x2"]); ("Yes"%string, [SStr "yes1"; SStr "yes2"; SStr "yes3"])] /\
  create_domain [("X"%string, 3%Z)] (-1) false = Ok [("X"%string, [SInt (-1); SInt 0; SInt 1])] /\
  wf_dom dAB /\ steps_dict dAB = [("A"%string, 3); ("B"%string, 1)] /\
  length (numeric_assignment_space dAB) = 6 /\ nth_error (numeric_assignment_space dAB) 4 = Some [("A"%string, 1); ("B"%string, 1)] /\
  powerset [1; 2; 3] = [[]; [1]; [2]; [3]; [1; 2]; [1; 3]; [2; 3]; [1; 2; 3]] /\
  change_shape_order [1; 2; 3; 4; 5; 6] [2; 3] = Ok [1; 3; 5; 2; 4; 6] /\
  change_shape_order [1; 2; 3; 4; 5] [2; 3] = Raise ValueError.
Proof. split; [reflexivity|]. split; [reflexivity|]. split; [apply wf_domb_sound; reflexivity|]. repeat split. Qed.
