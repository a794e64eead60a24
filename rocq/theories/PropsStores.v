(** Properties C01, C02, C04-C11: domains and value stores. *)

From Coq Require Import String Bool Arith ZArith QArith Qcanon List.
From Verif Require Import PyBase Num DomainModel NdArray StoreModel NumStore Spec StoreSpec StoreExpr
  PropFacts1 PropFacts2 Checks.
Import ListNotations.
Local Open Scope nat_scope.

(** * C01 *)
Theorem C01_enumeration : forall d : domain, NoDup (keys d) ->
  length (assignment_space d) = size d /\
  (forall o, In o (assignment_space d) <-> keys o = keys d /\ full d o) /\
  ((forall v l, In (v, l) d -> NoDup l) -> NoDup (assignment_space d)) /\
  (forall o, keys o = keys d -> full d o -> nth_error (assignment_space d) (rowpos d o) = Some o) /\
  state_space d = map vals (assignment_space d).
Proof. exact enumeration_ok. Qed.
Print Assumptions C01_enumeration.

Example C01_case : NoDup (keys dAB) /\ size dAB = 6 /\
  nth_error (assignment_space dAB) 4 = Some [("A", SStr "a1"); ("B", SInt 1)]%string.
Proof. split; [apply nodupb_sound; reflexivity|]. split; reflexivity. Qed.

(** * C02 *)
Theorem C02_flat_index : forall (d : domain) (o : obs),
  NoDup (keys d) -> (forall v l, In (v, l) d -> NoDup l) ->
  (forall v l s, In (v, l) d -> dget v o = Some s -> In s l) ->
  index_list d o = Ok (positions (consistent o) (assignment_space d) 0).
Proof. exact index_list_positions. Qed.
Print Assumptions C02_flat_index.

Theorem C02_full_observation : forall (d : domain) (o : obs), wf_dom d -> full d o ->
  index_list d o = Ok [rowpos d o].
Proof. exact index_list_single. Qed.
Print Assumptions C02_full_observation.

Theorem C02_unknown_state : forall (d : domain) (o : obs) v l s, NoDup (keys d) ->
  In (v, l) d -> dget v o = Some s -> ~ In s l -> index_list d o = Raise IndexError.
Proof. exact DomainFacts.index_list_unknown. Qed.
Print Assumptions C02_unknown_state.

Example C02_case : index_list dAB [("Z", SInt 7); ("B", SInt 2)]%string = Ok [2; 5] /\
  positions (consistent [("Z", SInt 7); ("B", SInt 2)]%string) (assignment_space dAB) 0 = [2; 5] /\
  index_list dAB [("B", SInt 1); ("A", SStr "a1")]%string = Ok [4] /\
  index_list dAB [("B", SInt 9)]%string = Raise IndexError.
Proof. repeat split; reflexivity. Qed.

(** * C04 *)
Theorem C04_set_value : forall (V : Type) (s : store V) (x : V) (o : obs),
  wf_store s -> full (st_domain s) o ->
  exists s', st_set_value s x o = Ok s' /\ wf_store s' /\
    st_domain s' = st_domain s /\ st_type s' = st_type s /\
    forall o', full (st_domain s) o' ->
      ((forall v, In v (keys (st_domain s)) -> dget v o' = dget v o) -> get_value s' o' = Ok x) /\
      ((exists v, In v (keys (st_domain s)) /\ dget v o' <> dget v o) ->
         get_value s' o' = get_value s o').
Proof. exact @set_value_obs. Qed.
Print Assumptions C04_set_value.

Example C04_case : forall vt, let s := tab vt dAB [1; 2; 3; 4; 5; 6]%Q in
  let o := [("B", SInt 0); ("A", SStr "a1")]%string in
  wf_store s /\ full (st_domain s) o /\
  listing (st_set_value s (q 9) o) = Ok (map q [1; 2; 3; 9; 5; 6]%Q).
Proof.
  intros vt s o. destruct (tab_wf vt dAB [1; 2; 3; 4; 5; 6]%Q eq_refl eq_refl) as (W & D & _). unfold s.
  split; [auto|]. split; [rewrite D; apply fullb_sound; reflexivity|].
  apply listing_ok. destruct vt; vm_compute; reflexivity.
Qed.

(** * C05 *)
Theorem C05_restrict : forall (V : Type) (s : store V) (o : obs), wf_store s ->
  (forall v l x, In (v, l) (st_domain s) -> dget v o = Some x -> In x l) ->
  exists s', st_restrict s o = Ok s' /\ wf_store s' /\ st_type s' = st_type s /\
    st_domain s' = drop (keys o) (st_domain s) /\
    forall o', full (drop (keys o) (st_domain s)) o' ->
      exists x, get_value s' o' = Ok x /\ get_value s (o ++ o') = Ok x.
Proof. exact @restrict_obs. Qed.
Print Assumptions C05_restrict.

Theorem C05_unknown_state : forall (V : Type) (s : store V) (o : obs) v l x, wf_store s ->
  In (v, l) (st_domain s) -> dget v o = Some x -> ~ In x l -> exists e, st_restrict s o = Raise e.
Proof. exact @StoreFacts.st_restrict_unknown. Qed.
Print Assumptions C05_unknown_state.

Example C05_case : forall vt, let s := tab vt dAB [1; 2; 3; 4; 5; 6]%Q in
  let o := [("Z", SInt 4); ("A", SStr "a1")]%string in
  wf_store s /\ (forall v l x, In (v, l) (st_domain s) -> dget v o = Some x -> In x l) /\
  listing (st_restrict s o) = Ok (map q [4; 5; 6]%Q).
Proof.
  intros vt s o. destruct (tab_wf vt dAB [1; 2; 3; 4; 5; 6]%Q eq_refl eq_refl) as (W & D & _). unfold s.
  split; [auto|]. split.
  - rewrite D. intros v l x [E|[E|[]]] G; injection E as <- <-; vm_compute in G; try discriminate.
    injection G as <-. right; left; reflexivity.
  - apply listing_ok. destruct vt; vm_compute; reflexivity.
Qed.

(** * C06 *)
Theorem C06_multiply : forall s1 s2 : store num, wf_store s1 -> wf_store s2 ->
  st_type s1 = st_type s2 -> compatible (st_domain s1) (st_domain s2) ->
  exists s, st_multiply s1 s2 = Ok s /\ wf_store s /\ st_type s = st_type s1 /\
    st_domain s = join (st_domain s1) (st_domain s2) /\
    forall o, full (join (st_domain s1) (st_domain s2)) o ->
      exists x y, get_value s1 o = Ok x /\ get_value s2 o = Ok y /\ get_value s o = Ok (nmul x y).
Proof. exact (combine_obs n0 nmul). Qed.
Print Assumptions C06_multiply.

Theorem C06_addition : forall s1 s2 : store num, wf_store s1 -> wf_store s2 ->
  st_type s1 = st_type s2 -> compatible (st_domain s1) (st_domain s2) ->
  exists s, st_addition s1 s2 = Ok s /\ wf_store s /\ st_type s = st_type s1 /\
    st_domain s = join (st_domain s1) (st_domain s2) /\
    forall o, full (join (st_domain s1) (st_domain s2)) o ->
      exists x y, get_value s1 o = Ok x /\ get_value s2 o = Ok y /\ get_value s o = Ok (nadd x y).
Proof. exact (combine_obs n0 nadd). Qed.
Print Assumptions C06_addition.

Theorem C06_subtract : forall s1 s2 : store num, wf_store s1 -> wf_store s2 ->
  st_type s1 = st_type s2 -> compatible (st_domain s1) (st_domain s2) ->
  exists s, st_subtract s1 s2 = Ok s /\ wf_store s /\ st_type s = st_type s1 /\
    st_domain s = join (st_domain s1) (st_domain s2) /\
    forall o, full (join (st_domain s1) (st_domain s2)) o ->
      exists x y, get_value s1 o = Ok x /\ get_value s2 o = Ok y /\ get_value s o = Ok (nsub x y).
Proof. exact (combine_obs n0 nsub). Qed.
Print Assumptions C06_subtract.

Theorem C06_different_types : forall s1 s2 : store num, st_type s1 <> st_type s2 ->
  st_multiply s1 s2 = Raise ValueError /\ st_addition s1 s2 = Raise ValueError /\
  st_subtract s1 s2 = Raise ValueError /\ st_divide s1 s2 = Raise ValueError.
Proof.
  exact (fun s1 s2 H => conj (StoreOps.st_combine_types _ _ s1 s2 H)
    (conj (StoreOps.st_combine_types _ _ s1 s2 H)
    (conj (StoreOps.st_combine_types _ _ s1 s2 H) (StoreOps.st_combine_types _ _ s1 s2 H)))).
Qed.
Print Assumptions C06_different_types.

Example C06_case : forall vt, let s1 := tab vt dAB [1; 2; 3; 4; 5; 6]%Q in let s2 := tab vt dBC [1; 2; 3; 4; 5; 6]%Q in
  wf_store s1 /\ wf_store s2 /\ st_type s1 = st_type s2 /\ compatible (st_domain s1) (st_domain s2) /\
  listing (st_multiply s1 s2) = Ok (map q [1; 2; 6; 8; 15; 18; 4; 8; 15; 20; 30; 36]%Q) /\
  listing (st_subtract s2 s1) = Ok (map q [0; -3; 1; -2; 1; -2; 2; -1; 2; -1; 3; 0]%Q).
Proof.
  intros vt s1 s2.
  destruct (tab_wf vt dAB [1; 2; 3; 4; 5; 6]%Q eq_refl eq_refl) as (W1 & D1 & T1).
  destruct (tab_wf vt dBC [1; 2; 3; 4; 5; 6]%Q eq_refl eq_refl) as (W2 & D2 & T2). unfold s1, s2.
  split; [auto|]. split; [auto|]. split; [congruence|]. split; [rewrite D1, D2; apply compatibleb_sound; reflexivity|].
  split; apply listing_ok; destruct vt; vm_compute; reflexivity.
Qed.

(** * C07 *)
Theorem C07_divide : forall s1 s2 : store num, wf_store s1 -> wf_store s2 ->
  st_type s1 = st_type s2 -> compatible (st_domain s1) (st_domain s2) ->
  exists s, st_divide s1 s2 = Ok s /\ wf_store s /\ st_type s = st_type s1 /\
    st_domain s = join (st_domain s1) (st_domain s2) /\
    forall o, full (join (st_domain s1) (st_domain s2)) o ->
      exists x y z, get_value s1 o = Ok x /\ get_value s2 o = Ok y /\ get_value s o = Ok z /\
        (forall a b, x = Fin a -> y = Fin b -> b <> 0%Qc -> z = Fin (a / b)) /\
        (forall a, x = Fin a -> y = n0 ->
           match st_type s1 with
           | VNumpy => (a = 0%Qc -> z = n0) /\ ((0 < a)%Qc -> z = Fin flt_max) /\ ((a < 0)%Qc -> z = Fin (- flt_max))
           | _ => (a = 0%Qc -> z = NaN) /\ ((0 < a)%Qc -> z = PInf) /\ ((a < 0)%Qc -> z = NInf)
           end).
Proof. exact divide_obs. Qed.
Print Assumptions C07_divide.

(** The numpy store never leaves the finite numbers. *)
Theorem C07_numpy_finite : forall s1 s2 s : store num, st_type s1 = VNumpy -> wf_store s1 -> wf_store s2 ->
  compatible (st_domain s1) (st_domain s2) -> st_divide s1 s2 = Ok s ->
  forall o, full (st_domain s) o -> exists r, get_value s o = Ok (Fin r).
Proof. exact divide_numpy_finite. Qed.
Print Assumptions C07_numpy_finite.

Example C07_case : let f vt := st_divide (tab vt dAB [1; 2; 3; 0; -5; 6]%Q) (tab vt dA [2; 0]%Q) in
  (forall vt, wf_store (tab vt dAB [1; 2; 3; 0; -5; 6]%Q) /\ wf_store (tab vt dA [2; 0]%Q)) /\
  compatible dAB dA /\
  listing (f VNumpy) = Ok [q (1#2); q 1; q (3#2); q 0; Fin (- flt_max); Fin flt_max] /\
  (forall vt, vt <> VNumpy -> listing (f vt) = Ok [q (1#2); q 1; q (3#2); NaN; NInf; PInf]).
Proof.
  cbv zeta. split.
  { intros vt. split; apply tab_wf; reflexivity. }
  split; [apply compatibleb_sound; reflexivity|]. split.
  - apply listing_ok. vm_compute; reflexivity.
  - intros vt N. apply listing_ok. destruct vt; [congruence| | |]; vm_compute; reflexivity.
Qed.

(** * C08 *)
Theorem C08_marginalize : forall (s : store num) (vs : list var), wf_store s -> NoDup vs ->
  incl vs (keys (st_domain s)) ->
  exists s', st_marginalize s vs = Ok s' /\ wf_store s' /\ st_type s' = st_type s /\
    st_domain s' = drop vs (st_domain s) /\
    forall o, full (drop vs (st_domain s)) o ->
      exists xs, Forall2 (fun p x => get_value s (p ++ o) = Ok x) (all_assignments (pick vs (st_domain s))) xs /\
                 get_value s' o = Ok (nsum xs).
Proof. exact marginalize_obs. Qed.
Print Assumptions C08_marginalize.

Theorem C08_order_irrelevant : forall (s s1 s2 : store num) (vs ws : list var), wf_store s -> NoDup vs ->
  incl vs (keys (st_domain s)) -> Permutation.Permutation vs ws ->
  st_marginalize s vs = Ok s1 -> st_marginalize s ws = Ok s2 ->
  st_domain s1 = st_domain s2 /\ forall o, full (st_domain s1) o -> get_value s1 o = get_value s2 o.
Proof. exact marginalize_perm_obs. Qed.
Print Assumptions C08_order_irrelevant.

Example C08_case : forall vt, let s := tab vt dAB [1; 2; 3; 4; 5; 6]%Q in
  wf_store s /\ NoDup ["B"; "A"]%string /\ incl ["B"; "A"]%string (keys (st_domain s)) /\
  listing (st_marginalize s ["A"%string]) = Ok (map q [5; 7; 9]%Q) /\
  listing (st_marginalize s ["B"; "A"]%string) = Ok [q 21] /\
  listing (st_marginalize s ["A"; "B"]%string) = Ok [q 21].
Proof.
  intros vt s. destruct (tab_wf vt dAB [1; 2; 3; 4; 5; 6]%Q eq_refl eq_refl) as (W & D & _). unfold s.
  split; [auto|]. split; [apply nodupb_sound; reflexivity|]. split; [rewrite D; apply inclb_sound; reflexivity|].
  split; [|split]; apply listing_ok; destruct vt; vm_compute; reflexivity.
Qed.

(** * C09 *)
Theorem C09_maxmarginalize : forall (s : store num) (vs : list var), wf_store s ->
  (forall o, full (st_domain s) o -> exists q, get_value s o = Ok (Fin q)) ->
  NoDup vs -> incl vs (keys (st_domain s)) -> st_type s <> VNumpy1D ->
  exists s', st_maxmarginalize s vs = Ok s' /\ wf_store s' /\ st_type s' = st_type s /\
    st_domain s' = drop vs (st_domain s) /\
    forall o, full (drop vs (st_domain s)) o ->
      exists q, get_value s' o = Ok (Fin q) /\
        (exists p, In p (all_assignments (pick vs (st_domain s))) /\ get_value s (p ++ o) = Ok (Fin q)) /\
        (forall p q', In p (all_assignments (pick vs (st_domain s))) ->
           get_value s (p ++ o) = Ok (Fin q') -> (q' <= q)%Qc).
Proof. exact maxmarginalize_obs. Qed.
Print Assumptions C09_maxmarginalize.

Theorem C09_numpy1d : forall (s : store num) (vs : list var), st_type s = VNumpy1D ->
  st_maxmarginalize s vs = Raise NotImplementedError.
Proof. exact maxmarginalize_np1. Qed.
Print Assumptions C09_numpy1d.

Example C09_case : forall vt, vt <> VNumpy1D -> let s := tab vt dAB [1; 7; 3; 4; -5; 6]%Q in
  wf_store s /\ listing (st_maxmarginalize s ["A"%string]) = Ok (map q [4; 7; 6]%Q) /\
  listing (st_maxmarginalize s ["B"; "A"]%string) = Ok [q 7].
Proof.
  intros vt N s. destruct (tab_wf vt dAB [1; 7; 3; 4; -5; 6]%Q eq_refl eq_refl) as (W & D & _). unfold s.
  split; [auto|]. split; apply listing_ok; destruct vt; try congruence; vm_compute; reflexivity.
Qed.

(** * C10 *)
Theorem C10_calculation : forall (vt : vtype) (e : expr) (d : domain) (g : obs -> Qc), denotes e d g ->
  exists s, eval vt e = Ok s /\ wf_store s /\ st_type s = vt /\ st_domain s = d /\
    forall o, full d o -> get_value s o = Ok (Fin (g o)).
Proof. exact coherent_ok. Qed.
Print Assumptions C10_calculation.

Theorem C10_store_independence : forall (e : expr) (d : domain) (g : obs -> Qc), denotes e d g ->
  forall vt1 vt2, exists s1 s2, eval vt1 e = Ok s1 /\ eval vt2 e = Ok s2 /\
    st_domain s1 = st_domain s2 /\ forall o, full (st_domain s1) o -> get_value s1 o = get_value s2 o.
Proof. exact store_independence. Qed.
Print Assumptions C10_store_independence.

Definition C10_expr : expr :=
  EMarg (EDiv (EMul (ETab dAB (map Q2Qc [1; 2; 3; 4; 5; 6]%Q)) (ETab dBC (map Q2Qc [1; 0; 3; 4; 5; 6]%Q)))
              (ERestrict (ETab dAB (map Q2Qc [1; 2; 4; 8; 5; 10]%Q)) [("B", SInt 1)]%string)) ["B"%string].
Example C10_case : (exists d g, denotes C10_expr d g) /\
  forall vt, listing (eval vt C10_expr) = Ok (map q [11; 13; 49#5; 56#5]%Q).
Proof.
  split.
  - do 2 eexists. unfold C10_expr.
    apply den_marg; [apply den_div; [apply den_mul; [apply den_tab|apply den_tab|]|apply den_restrict; [apply den_tab|]| |]| |].
    all: try (apply wf_domb_sound; reflexivity). all: try reflexivity.
    + apply compatibleb_sound; reflexivity.
    + intros v l x [E|[E|[]]] G; injection E as <- <-; vm_compute in G; try discriminate.
      injection G as <-. right; left; reflexivity.
    + apply compatibleb_sound; reflexivity.
    + intros o F. destruct (F "A"%string [SStr "a0"; SStr "a1"]%string (or_introl eq_refl)) as (x & G & [<-|[<-|[]]]);
        cbn [rowpos dAB app dget]; rewrite ?G; vm_compute; discriminate.
    + apply nodupb_sound; reflexivity.
    + apply inclb_sound; reflexivity.
  - intros vt. apply listing_ok. destruct vt; vm_compute; reflexivity.
Qed.

(** * C11 *)
Theorem C11_commutative : forall s1 s2 : store num, wf_store s1 -> wf_store s2 -> st_type s1 = st_type s2 ->
  compatible (st_domain s1) (st_domain s2) ->
  exists p q, st_multiply s1 s2 = Ok p /\ st_multiply s2 s1 = Ok q /\
    forall o, full (st_domain s1) o -> full (st_domain s2) o ->
      exists x, get_value p o = Ok x /\ get_value q o = Ok x.
Proof. exact multiply_comm_obs. Qed.
Print Assumptions C11_commutative.

Theorem C11_associative : forall s1 s2 s3 : store num, wf_store s1 -> wf_store s2 -> wf_store s3 ->
  st_type s1 = st_type s2 -> st_type s2 = st_type s3 ->
  compatible (st_domain s1) (st_domain s2) -> compatible (st_domain s1) (st_domain s3) ->
  compatible (st_domain s2) (st_domain s3) ->
  exists p12 p l23 q, st_multiply s1 s2 = Ok p12 /\ st_multiply p12 s3 = Ok p /\
    st_multiply s2 s3 = Ok l23 /\ st_multiply s1 l23 = Ok q /\ st_domain p = st_domain q /\
    forall o, full (st_domain p) o -> exists x, get_value p o = Ok x /\ get_value q o = Ok x.
Proof. exact multiply_assoc_obs. Qed.
Print Assumptions C11_associative.

Theorem C11_sum_out : forall (s1 s2 : store num) (v : var), wf_store s1 -> wf_store s2 ->
  st_type s1 = st_type s2 -> compatible (st_domain s1) (st_domain s2) ->
  (forall o, full (st_domain s1) o -> exists q, get_value s1 o = Ok (Fin q)) ->
  (forall o, full (st_domain s2) o -> exists q, get_value s2 o = Ok (Fin q)) ->
  ~ In v (keys (st_domain s1)) -> In v (keys (st_domain s2)) ->
  exists p p' m m', st_multiply s1 s2 = Ok p /\ st_marginalize p [v] = Ok p' /\
    st_marginalize s2 [v] = Ok m /\ st_multiply s1 m = Ok m' /\ st_domain p' = st_domain m' /\
    forall o, full (st_domain p') o -> exists x, get_value p' o = Ok x /\ get_value m' o = Ok x.
Proof. exact sum_out_obs. Qed.
Print Assumptions C11_sum_out.

Example C11_case : forall vt, let s1 := tab vt dAB [1; 2; 3; 4; 5; 6]%Q in let s2 := tab vt dBC [1; 2; 3; 4; 5; 6]%Q in
  wf_store s1 /\ wf_store s2 /\ st_type s1 = st_type s2 /\ compatible (st_domain s1) (st_domain s2) /\
  ~ In "C"%string (keys (st_domain s1)) /\ In "C"%string (keys (st_domain s2)) /\
  listing (let* p := st_multiply s1 s2 in st_marginalize p ["C"%string]) = Ok (map q [3; 14; 33; 12; 35; 66]%Q) /\
  listing (let* m := st_marginalize s2 ["C"%string] in st_multiply s1 m) = Ok (map q [3; 14; 33; 12; 35; 66]%Q).
Proof.
  intros vt s1 s2.
  destruct (tab_wf vt dAB [1; 2; 3; 4; 5; 6]%Q eq_refl eq_refl) as (W1 & D1 & T1).
  destruct (tab_wf vt dBC [1; 2; 3; 4; 5; 6]%Q eq_refl eq_refl) as (W2 & D2 & T2). unfold s1, s2.
  split; [auto|]. split; [auto|]. split; [congruence|]. rewrite D1, D2. split; [apply compatibleb_sound; reflexivity|].
  split; [intros [E|[E|[]]]; discriminate|]. split; [right; left; reflexivity|].
  split; apply listing_ok; destruct vt; vm_compute; reflexivity.
Qed.
