(** Properties C03 and C12-C16: factors. *)

From Coq Require Import String Ascii Bool Arith ZArith QArith Qcanon Permutation List.
From Verif Require Import PyBase Num DomainModel NdArray StoreModel NumStore FactorModel Spec StoreSpec
  FactorSpec FactorFacts FactorFacts2 FactorFacts3 Checks FactorChecks CtorFacts RenameFacts1.
Import ListNotations.
Local Open Scope nat_scope.

(** * C03 *)
Theorem C03_constructor : forall (dom : domain) (v : fvals num) (xs : list num) l r rv (vt : vtype),
  usable dom -> length xs = size dom -> given_values dom v xs ->
  set_variables (keys dom) l r = Ok rv ->
  exists f, mf_init dom v l r vt = Ok f /\ wf_store (mf_store f) /\ mf_domain f = dom /\ mf_vtype f = vt /\
    mf_right f = rv /\
    (forall o, full dom o -> exists x, mf_get_value f o = Ok x /\ nth_error xs (rowpos dom o) = Some x) /\
    mf_values f = Ok xs.
Proof. exact mf_init_ok. Qed.
Print Assumptions C03_constructor.

Theorem C03_wrong_length : forall (dom : domain) (xs : list num) l r (vt : vtype),
  length xs <> size dom -> mf_init dom (flist xs) l r vt = Raise ValueError.
Proof. exact mf_init_length. Qed.
Print Assumptions C03_wrong_length.

(** What the constructor rejects besides a wrong length. *)
Theorem C03_bad_domain : forall (dom : domain) (v : fvals num) l r (vt : vtype), NoDup (keys dom) ->
  (exists v l, In (v, l) dom /\ (l = [] \/ exists x y, In x l /\ In y l /\ type_of x <> type_of y)) \/
  (exists s, In (String "_"%char s) (keys dom)) ->
  mf_init dom v l r vt = Raise ValueError.
Proof. exact mf_init_bad_domain. Qed.
Print Assumptions C03_bad_domain.

Theorem C03_array_shape : forall (dom : domain) (a : nd num) l r,
  2 <= length (shape a) -> shape a <> card dom -> mf_init dom (FArr a) l r VNumpy = Raise ValueError.
Proof. exact mf_init_array_numpy. Qed.
Print Assumptions C03_array_shape.

Theorem C03_array_size : forall (dom : domain) (a : nd num) l r (vt : vtype),
  2 <= length (shape a) -> length (flat a) <> size dom -> vt = VList \/ vt = VNumpy1D ->
  mf_init dom (FArr a) l r vt = Raise ValueError.
Proof. exact mf_init_array_size. Qed.
Print Assumptions C03_array_size.

(** Outside the numpy store the shape of an array is ignored. *)
Theorem C03_array_flat : forall (dom : domain) (a : nd num) l r (vt : vtype),
  dom <> [] -> 2 <= length (shape a) -> length (flat a) = size dom -> vt <> VNumpy ->
  mf_init dom (FArr a) l r vt = mf_init dom (flist (flat a)) l r vt.
Proof. exact mf_init_array_flat. Qed.
Print Assumptions C03_array_flat.

Theorem C03_transposed_refuted : exists (dom : domain) (a : nd num),
  usable dom /\ shape a = rev (card dom) /\ shape a <> card dom /\
  forall vt, vt <> VNumpy -> exists f, mf_init dom (FArr a) None None vt = Ok f /\ mf_values f = Ok (flat a).
Proof. exact transposed_accepted. Qed.
Print Assumptions C03_transposed_refuted.

Theorem C03_tree_size_refuted : exists (dom : domain) (a : nd num) (f : mfactor) (o : obs),
  usable dom /\ length (flat a) <> size dom /\ full dom o /\
  mf_init dom (FArr a) None None VTree = Ok f /\ mf_get_value f o = Raise KeyError.
Proof. exact tree_size_accepted. Qed.
Print Assumptions C03_tree_size_refuted.

(** Repeated states are accepted, and what is read depends on the store. *)
Theorem C03_repeated_states_refuted : exists (dom : domain) (xs : list num) (o : obs) (x y : num),
  NoDup (keys dom) /\ length xs = size dom /\ full dom o /\ x <> y /\
  forall vt, exists f, mf_init dom (flist xs) None None vt = Ok f /\
    mf_get_value f o = Ok (match vt with VTree => y | _ => x end).
Proof. exact repeated_states_accepted. Qed.
Print Assumptions C03_repeated_states_refuted.

Example C03_case_rejects : forall vt,
  mf_init [("A", [SStr "a"; SInt 1])]%string (FScalar n1) None None vt = Raise ValueError /\
  mf_init [("A", [])]%string (FScalar n1) None None vt = Raise ValueError /\
  mf_init [("_A", [SStr "a"])]%string (FScalar n1) None None vt = Raise ValueError /\
  2 <= length (shape transposed_array) /\ shape transposed_array <> card dAB /\
  length (flat transposed_array) = size dAB /\
  length (flat (mkNd [2; 2] (map q [1; 2; 3; 4]%Q))) <> size dAB.
Proof. intros vt. repeat split; try reflexivity; discriminate. Qed.

Example C03_case : forall vt,
  usable dAB /\ length (map q [1; 2; 3; 4; 5; 6]%Q) = size dAB /\
  given_values dAB (flist (map q [1; 2; 3; 4; 5; 6]%Q)) (map q [1; 2; 3; 4; 5; 6]%Q) /\
  given_values dAB (FScalar (q 2)) (map q [2; 2; 2; 2; 2; 2]%Q) /\
  view (mf_init dAB (flist (map q [1; 2; 3; 4; 5; 6]%Q)) (Some ["B"%string]) None vt) =
    Ok (dAB, ["B"%string], ["A"%string], map q [1; 2; 3; 4; 5; 6]%Q) /\
  okb (let* f := mf_init dAB (flist (map q [1; 2; 3; 4; 5; 6]%Q)) None None vt in
       mf_get_value f [("B", SInt 1); ("A", SStr "a1")]%string) (q 5) = true /\
  mf_init dAB (flist (map q [1; 2; 3; 4; 5]%Q)) None None vt = Raise ValueError.
Proof.
  intros vt. split; [apply usableb_sound; reflexivity|]. split; [reflexivity|]. split; [left; reflexivity|].
  split; [right; right; exists (q 2); split; reflexivity|].
  split; [apply view_ok; destruct vt; vm_compute; reflexivity|].
  split; [destruct vt; vm_compute; reflexivity|reflexivity].
Qed.

(** * C12 *)
Theorem C12_partition : forall f, wf_mf f -> partitioned f.
Proof. exact wf_mf_partitioned. Qed.
Print Assumptions C12_partition.

Theorem C12_constructor : forall (vars l r : list var),
  ((exists rv, set_variables vars (Some l) (Some r) = Ok rv) <->
   (forall v, In v vars <-> In v l \/ In v r) /\ (forall v, ~ (In v l /\ In v r))) /\
  (forall e, set_variables vars (Some l) (Some r) = Raise e -> e = ValueError).
Proof. exact (fun vars l r => conj (set_variables_both vars l r) (fun e => set_variables_raise vars (Some l) (Some r) e)). Qed.
Print Assumptions C12_constructor.

(** [right_vars] alone is not checked against the domain. *)
Theorem C12_right_alone : forall (dom : domain) (xs : list num) (r : list var) (vt : vtype),
  usable dom -> length xs = size dom ->
  exists f, mf_init dom (flist xs) None (Some r) vt = Ok f /\ mf_right f = r /\
    mf_left f = filter (fun v => negb (mem v r)) (keys dom).
Proof. exact right_alone. Qed.
Print Assumptions C12_right_alone.

Theorem C12_restrict : forall f (o : obs), wf_mf f ->
  (forall v l x, In (v, l) (mf_domain f) -> dget v o = Some x -> In x l) ->
  exists f', mf_restrict f o = Ok f' /\ wf_mf f' /\ mf_vtype f' = mf_vtype f /\
    mf_domain f' = drop (keys o) (mf_domain f) /\
    (forall v, In v (mf_right f') <-> In v (mf_right f) /\ ~ In v (keys o)) /\
    (forall v, In v (mf_left f') <-> In v (mf_left f) /\ ~ In v (keys o)) /\
    forall o', full (drop (keys o) (mf_domain f)) o' ->
      exists x, mf_get_value f' o' = Ok x /\ mf_get_value f (o ++ o') = Ok x.
Proof. exact mf_restrict_ok. Qed.
Print Assumptions C12_restrict.

Theorem C12_marginalize : forall f (vs : list var), wf_mf f -> NoDup vs -> incl vs (mf_vars f) ->
  exists f', mf_marginalize f vs = Ok f' /\ wf_mf f' /\ mf_vtype f' = mf_vtype f /\
    mf_domain f' = drop vs (mf_domain f) /\
    (forall v, In v (mf_right f') <-> In v (mf_right f) /\ ~ In v vs) /\
    (forall v, In v (mf_left f') <-> In v (mf_left f) /\ ~ In v vs) /\
    forall o, full (drop vs (mf_domain f)) o ->
      exists xs, Forall2 (fun p x => mf_get_value f (p ++ o) = Ok x) (all_assignments (pick vs (mf_domain f))) xs /\
                 mf_get_value f' o = Ok (nsum xs).
Proof. exact mf_marginalize_ok. Qed.
Print Assumptions C12_marginalize.

Theorem C12_maxmarginalize : forall f (vs : list var), wf_mf f -> NoDup vs -> incl vs (mf_vars f) ->
  (forall o, full (mf_domain f) o -> exists q, mf_get_value f o = Ok (Fin q)) -> mf_vtype f <> VNumpy1D ->
  exists f', mf_maxmarginalize f vs = Ok f' /\ wf_mf f' /\ mf_vtype f' = mf_vtype f /\
    mf_domain f' = drop vs (mf_domain f) /\
    (forall v, In v (mf_right f') <-> In v (mf_right f) /\ ~ In v vs) /\
    (forall v, In v (mf_left f') <-> In v (mf_left f) /\ ~ In v vs) /\
    forall o, full (drop vs (mf_domain f)) o ->
      exists q, mf_get_value f' o = Ok (Fin q) /\
        (exists p, In p (all_assignments (pick vs (mf_domain f))) /\ mf_get_value f (p ++ o) = Ok (Fin q)) /\
        (forall p q', In p (all_assignments (pick vs (mf_domain f))) ->
           mf_get_value f (p ++ o) = Ok (Fin q') -> (q' <= q)%Qc).
Proof. exact mf_maxmarginalize_ok. Qed.
Print Assumptions C12_maxmarginalize.

Theorem C12_multiply : forall f g, wf_mf f -> wf_mf g -> mf_vtype f = mf_vtype g ->
  compatible (mf_domain f) (mf_domain g) ->
  exists h, mf_multiply f (OFac g) = Ok h /\ wf_mf h /\ mf_vtype h = mf_vtype f /\
    mf_domain h = join (mf_domain f) (mf_domain g) /\
    (forall v, In v (mf_left h) <-> In v (mf_left f) \/ In v (mf_left g)) /\
    (forall v, In v (mf_right h) <-> In v (mf_vars h) /\ ~ In v (mf_left f) /\ ~ In v (mf_left g)) /\
    forall o, full (join (mf_domain f) (mf_domain g)) o ->
      exists x y, mf_get_value f o = Ok x /\ mf_get_value g o = Ok y /\ mf_get_value h o = Ok (nmul x y).
Proof. exact (mf_arith_ok nmul). Qed.
Print Assumptions C12_multiply.

Theorem C12_addition : forall f g, wf_mf f -> wf_mf g -> mf_vtype f = mf_vtype g ->
  compatible (mf_domain f) (mf_domain g) ->
  exists h, mf_addition f (OFac g) = Ok h /\ wf_mf h /\ mf_vtype h = mf_vtype f /\
    mf_domain h = join (mf_domain f) (mf_domain g) /\
    (forall v, In v (mf_left h) <-> In v (mf_left f) \/ In v (mf_left g)) /\
    (forall v, In v (mf_right h) <-> In v (mf_vars h) /\ ~ In v (mf_left f) /\ ~ In v (mf_left g)) /\
    forall o, full (join (mf_domain f) (mf_domain g)) o ->
      exists x y, mf_get_value f o = Ok x /\ mf_get_value g o = Ok y /\ mf_get_value h o = Ok (nadd x y).
Proof. exact (mf_arith_ok nadd). Qed.
Print Assumptions C12_addition.

Theorem C12_subtract : forall f g, wf_mf f -> wf_mf g -> mf_vtype f = mf_vtype g ->
  compatible (mf_domain f) (mf_domain g) ->
  exists h, mf_subtract f (OFac g) = Ok h /\ wf_mf h /\ mf_vtype h = mf_vtype f /\
    mf_domain h = join (mf_domain f) (mf_domain g) /\
    (forall v, In v (mf_left h) <-> In v (mf_left f) \/ In v (mf_left g)) /\
    (forall v, In v (mf_right h) <-> In v (mf_vars h) /\ ~ In v (mf_left f) /\ ~ In v (mf_left g)) /\
    forall o, full (join (mf_domain f) (mf_domain g)) o ->
      exists x y, mf_get_value f o = Ok x /\ mf_get_value g o = Ok y /\ mf_get_value h o = Ok (nsub x y).
Proof. exact (mf_arith_ok nsub). Qed.
Print Assumptions C12_subtract.

Theorem C12_divide : forall f g, wf_mf f -> wf_mf g -> mf_vtype f = mf_vtype g ->
  compatible (mf_domain f) (mf_domain g) ->
  exists h, mf_divide f (OFac g) = Ok h /\ wf_mf h /\ mf_vtype h = mf_vtype f /\
    mf_domain h = join (mf_domain f) (mf_domain g) /\
    (forall v, In v (mf_left h) <-> In v (mf_left f) /\ ~ In v (mf_vars g)) /\
    (forall v, In v (mf_right h) <-> In v (mf_right f) \/ In v (mf_vars g)) /\
    forall o, full (join (mf_domain f) (mf_domain g)) o ->
      exists x y, mf_get_value f o = Ok x /\ mf_get_value g o = Ok y /\
                  mf_get_value h o = Ok (div_op (mf_vtype f) x y).
Proof. exact mf_divide_ok. Qed.
Print Assumptions C12_divide.

Theorem C12_scalar : forall f x, wf_mf f ->
  exists h, mf_multiply f (ONum x) = Ok h /\ wf_mf h /\ mf_vtype h = mf_vtype f /\
    mf_domain h = mf_domain f /\
    (forall v, In v (mf_left h) <-> In v (mf_left f)) /\ (forall v, In v (mf_right h) <-> In v (mf_right f)) /\
    forall o, full (mf_domain f) o ->
      exists y, mf_get_value f o = Ok y /\ mf_get_value h o = Ok (nmul y x).
Proof. exact (mf_scalar_ok nmul). Qed.
Print Assumptions C12_scalar.

Section C12_cases.
  Let A := "A"%string. Let B := "B"%string. Let C := "C"%string.
  (** P(A|B) and P(B|C) *)
  Let f vt := fac vt dAB [1; 2; 3; 4; 5; 6]%Q [B].
  Let g vt := fac vt dBC [1; 2; 3; 4; 5; 6]%Q [C].

  Example C12_case : forall vt,
    wf_mf (f vt) /\ wf_mf (g vt) /\ mf_vtype (f vt) = mf_vtype (g vt) /\
    compatible (mf_domain (f vt)) (mf_domain (g vt)) /\
    view (let* h := mf_multiply (f vt) (OFac (g vt)) in mf_restrict h [(C, SBool true)]) =
      Ok (dAB, [A; B], [], map q [2; 8; 18; 8; 20; 36]%Q) /\
    view (mf_divide (f vt) (OFac (fac vt dA [1; 2]%Q []))) =
      Ok (dAB, [], [A; B], map q [1; 2; 3; 2; 5#2; 3]%Q).
  Proof.
    intros vt.
    destruct (fac_wf vt dAB [1; 2; 3; 4; 5; 6]%Q [B] eq_refl) as (W1 & D1 & T1).
    destruct (fac_wf vt dBC [1; 2; 3; 4; 5; 6]%Q [C] eq_refl) as (W2 & D2 & T2).
    unfold f, g. split; [auto|]. split; [auto|]. split; [congruence|].
    split; [rewrite D1, D2; apply compatibleb_sound; reflexivity|].
    split; apply view_ok; destruct vt; vm_compute; reflexivity.
  Qed.

  Example C12_case_constructor :
    set_variables [A; B] (Some [A]) (Some [B]) = Ok [B] /\
    set_variables [A; B] (Some [A]) (Some [A; B]) = Raise ValueError /\
    set_variables [A; B] (Some [A]) (Some [C]) = Raise ValueError.
  Proof. repeat split; reflexivity. Qed.
End C12_cases.

(** * C13 *)
Theorem C13_constant : forall f v (l : list state) (x : state),
  wf_mf f -> mf_left f = [v] -> In (v, l) (mf_domain f) -> In x l ->
  exists f', mf_constant f x = Ok f' /\ wf_mf f' /\ mf_vtype f' = mf_vtype f /\
    mf_domain f' = [(v, l)] /\ mf_left f' = [v] /\ mf_right f' = [] /\
    forall o s, dget v o = Some s -> In s l -> mf_get_value f' o = Ok (if eqd s x then n1 else n0).
Proof. exact mf_constant_ok. Qed.
Print Assumptions C13_constant.

Theorem C13_rejected : forall f (x : state), wf_mf f ->
  (mf_left f = [] -> mf_constant f x = Raise IndexError) /\
  (forall v l, mf_left f = [v] -> In (v, l) (mf_domain f) -> ~ In x l -> mf_constant f x = Raise ValueError) /\
  (1 < length (mf_left f) -> mf_constant f x = Raise ValueError).
Proof. exact mf_constant_bad. Qed.
Print Assumptions C13_rejected.

Theorem C13_deterministic : forall f v (l : list state) (x : state), wf_df f v l ->
  (In x l -> exists g, df_constant f x = Ok g /\ wf_df g v l /\ df_domain g = [(v, l)] /\ df_right g = [] /\
     df_vtype g = df_vtype f /\ forall o, get_value (df_store g) o = Ok x) /\
  (~ In x l -> df_constant f x = Raise ValueError).
Proof. exact (fun f v l x W => conj (df_constant_ok f v l x W) (df_constant_bad f v l x W)). Qed.
Print Assumptions C13_deterministic.

Example C13_case : forall vt, let f := fac vt dAB [1; 2; 3; 4; 5; 6]%Q ["A"%string] in
  wf_mf f /\ mf_left f = ["B"%string] /\
  view (mf_constant f (SInt 1)) = Ok ([("B"%string, [SInt 0; SInt 1; SInt 2])], ["B"%string], [], map q [0; 1; 0]%Q) /\
  mf_constant f (SInt 7) = Raise ValueError /\
  mf_constant (fac vt dAB [1; 2; 3; 4; 5; 6]%Q []) (SInt 1) = Raise ValueError.
Proof.
  intros vt f. destruct (fac_wf vt dAB [1; 2; 3; 4; 5; 6]%Q ["A"%string] eq_refl) as (W1 & D1 & T1).
  split; [auto|]. split; [destruct vt; reflexivity|]. split; [apply view_ok; destruct vt; vm_compute; reflexivity|].
  split; destruct vt; reflexivity.
Qed.

(** * C14 *)
Theorem C14_to_multinomial : forall f v (l : list state), wf_df f v l -> usable (df_domain f) ->
  exists h, df_to_multinomial f = Ok h /\ wf_mf h /\ mf_domain h = df_domain f /\ mf_right h = df_right f /\
    mf_left h = [v] /\ mf_vtype h = df_vtype f /\
    forall o, full (df_domain f) o -> exists y z,
      get_value (df_store f) o = Ok y /\ dget v o = Some z /\
      mf_get_value h o = Ok (if eqd y z then n1 else n0).
Proof. exact df_to_multinomial_ok. Qed.
Print Assumptions C14_to_multinomial.

Theorem C14_normalised : forall f v (l : list state) h, wf_df f v l -> usable (df_domain f) ->
  (forall o, full (drop [v] (df_domain f)) o -> exists y, get_value (df_store f) o = Ok y /\ In y l) ->
  df_to_multinomial f = Ok h ->
  exists g, mf_marginalize h [v] = Ok g /\ mf_domain g = drop [v] (df_domain f) /\
    forall o, full (drop [v] (df_domain f)) o -> mf_get_value g o = Ok n1.
Proof. exact df_to_multinomial_sum. Qed.
Print Assumptions C14_normalised.

(** The indices, not the states, come back from [to_deterministic]. *)
Theorem C14_roundtrip : forall f v (l : list state) h dflt, wf_df f v l -> usable (df_domain f) ->
  (forall o, full (drop [v] (df_domain f)) o -> exists y, get_value (df_store f) o = Ok y /\ In y l) ->
  df_to_multinomial f = Ok h ->
  exists g, mf_to_deterministic dflt h = Ok g /\ wf_df g v l /\ df_domain g = df_domain f /\
    forall o, full (drop [v] (df_domain f)) o -> exists y i,
      get_value (df_store f) o = Ok y /\ nth_error l i = Some y /\
      get_value (df_store g) o = Ok (SInt (Z.of_nat i)).
Proof. exact deterministic_roundtrip. Qed.
Print Assumptions C14_roundtrip.

(** For any table with one left variable, [to_deterministic] gives the position
    of the first largest value. *)
Theorem C14_to_deterministic : forall f v (l : list state) dflt, wf_mf f -> mf_left f = [v] -> In (v, l) (mf_domain f) ->
  (forall o, full (mf_domain f) o -> exists x, mf_get_value f o = Ok (Fin x)) ->
  exists g, mf_to_deterministic dflt f = Ok g /\ wf_df g v l /\ df_domain g = mf_domain f /\ df_vtype g = dflt /\
    forall o, full (drop [v] (mf_domain f)) o -> exists i s x,
      get_value (df_store g) o = Ok (SInt (Z.of_nat i)) /\ nth_error l i = Some s /\ mf_get_value f ((v, s) :: o) = Ok (Fin x) /\
      forall j s' y, nth_error l j = Some s' -> mf_get_value f ((v, s') :: o) = Ok (Fin y) -> (y <= x)%Qc /\ (j < i -> (y < x)%Qc).
Proof. exact to_deterministic_first. Qed.
Print Assumptions C14_to_deterministic.

Theorem C14_one_left : forall f dflt, length (mf_left f) <> 1 -> mf_to_deterministic dflt f = Raise ValueError.
Proof. exact to_deterministic_left. Qed.
Print Assumptions C14_one_left.

(** In the column B = 0 two states of A have the largest value. *)
Example C14_case_argmax : forall vt,
  (let* f := mf_init dAB (FArr (mkNd [6] (map q [2; 1; 3; 2; 2; 4]%Q))) (Some ["A"%string]) None vt in
   let* g := mf_to_deterministic vt f in Ok (mf_left f, values_list (df_store g))) = Ok (["A"%string], Ok [SInt 0; SInt 1; SInt 1]) /\
  (let* f := mf_init dAB (FArr (mkNd [6] (map q [2; 1; 3; 2; 2; 4]%Q))) None None vt in mf_to_deterministic vt f) = Raise ValueError.
Proof. intros vt. split; destruct vt; vm_compute; reflexivity. Qed.

(** The constructor of deterministic factors does not check the domain. *)
Theorem C14_unchecked_domain : forall (dom : domain) (v : var) (l : list state) (xs : list state) (vt : vtype),
  wf_dom dom -> In (v, l) dom -> length xs = size (drop [v] dom) ->
  exists f, df_init dom (mkNd [length xs] xs) (Some [v]) None vt = Ok f /\ df_domain f = dom /\
    ((exists s, In (String "_"%char s) (keys dom)) -> df_to_multinomial f = Raise ValueError).
Proof. exact df_unchecked. Qed.
Print Assumptions C14_unchecked_domain.

Example C14_case_unchecked :
  wf_dom [("_A", [SStr "a0"; SStr "a1"])]%string /\
  length [SStr "a1"]%string = size (drop ["_A"%string] [("_A", [SStr "a0"; SStr "a1"])]%string) /\
  In "_A"%string (keys [("_A", [SStr "a0"; SStr "a1"])]%string).
Proof. split; [apply wf_domb_sound; reflexivity|]. split; [reflexivity|left; reflexivity]. Qed.

Example C14_case : forall vt, let f := dfac vt dAB "A"%string [SStr "a1"; SStr "a0"; SStr "a1"]%string in
  wf_df f "A"%string [SStr "a0"; SStr "a1"]%string /\ usable (df_domain f) /\
  (forall o, full (drop ["A"%string] (df_domain f)) o ->
     exists y, get_value (df_store f) o = Ok y /\ In y [SStr "a0"; SStr "a1"]%string) /\
  view (df_to_multinomial f) = Ok (dAB, ["A"%string], ["B"%string], map q [0; 1; 0; 1; 0; 1]%Q) /\
  (let* h := df_to_multinomial f in let* g := mf_to_deterministic VNumpy h in values_list (df_store g)) =
    Ok [SInt 1; SInt 0; SInt 1].
Proof.
  intros vt f.
  destruct (dfac_wf vt dAB "A"%string [SStr "a0"; SStr "a1"]%string [SStr "a1"; SStr "a0"; SStr "a1"]%string eq_refl (or_introl eq_refl))
    as (W & D & T). fold f in W, D, T.
  split; [auto|]. split; [rewrite D; apply usableb_sound; reflexivity|]. split.
  - intros o F. rewrite D in F.
    destruct (F "B"%string [SInt 0; SInt 1; SInt 2] (or_introl eq_refl)) as (s & G & I).
    destruct (df_init_ok dAB "A"%string [SStr "a0"; SStr "a1"]%string [SStr "a1"; SStr "a0"; SStr "a1"]%string vt)
      as (f' & E & _ & _ & _ & _ & H); [apply wf_domb_sound; reflexivity|left; reflexivity|reflexivity|].
    assert (f = f') as -> by (unfold f, dfac; rewrite E; reflexivity).
    destruct (H o F) as (x & Gx & Nx). exists x. split; auto. apply nth_error_In in Nx. simpl in Nx.
    destruct Nx as [<-|[<-|[<-|[]]]]; simpl; auto.
  - split; [apply view_ok; destruct vt; vm_compute; reflexivity|destruct vt; vm_compute; reflexivity].
Qed.

(** * C15 *)
Theorem C15_values_array : forall f (order : list var), wf_mf f -> Permutation order (mf_vars f) ->
  exists a, mf_values_array f order = Ok a /\ length (flat a) = prodl (shape a) /\
    Forall2 (fun v n => exists l, dget v (mf_domain f) = Some l /\ n = length l) order (shape a) /\
    forall o idx, full (mf_domain f) o ->
      Forall2 (fun v i => exists l x, dget v (mf_domain f) = Some l /\ dget v o = Some x /\ nth_error l i = Some x)
              order idx ->
      exists x, mf_get_value f o = Ok x /\ nd_get a idx = Ok x.
Proof. exact mf_values_array_ok. Qed.
Print Assumptions C15_values_array.

Theorem C15_default_order : forall f, mf_values_array f [] = mf_values_array f (mf_vars f).
Proof. exact mf_values_array_default. Qed.
Print Assumptions C15_default_order.

Example C15_case : forall vt, let f := fac vt dAB [1; 2; 3; 4; 5; 6]%Q [] in
  wf_mf f /\ Permutation ["B"; "A"]%string (mf_vars f) /\
  match mf_values_array f ["B"; "A"]%string with
  | Ok a => shape a = [3; 2] /\ flat a = map q [1; 4; 2; 5; 3; 6]%Q
  | Raise _ => False
  end.
Proof.
  intros vt f. destruct (fac_wf vt dAB [1; 2; 3; 4; 5; 6]%Q [] eq_refl) as (W1 & D1 & T1).
  split; [auto|]. split; [unfold f, mf_vars; rewrite D1; apply perm_swap|].
  destruct vt; (split; [reflexivity|apply nums_eqb_sound; vm_compute; reflexivity]).
Qed.

(** * C16 *)
Theorem C16_rename : forall f (m : dict var var), wf_mf f ->
  (forall x y, In x (mf_vars f) -> In y (mf_vars f) -> rename1 m x = rename1 m y -> x = y) ->
  (forall v s, In v (mf_vars f) -> rename1 m v <> String "_"%char s) ->
  exists f', mf_rename f m = Ok f' /\ wf_mf f' /\ mf_vtype f' = mf_vtype f /\
    mf_domain f' = map (fun vl => (rename1 m (fst vl), snd vl)) (mf_domain f) /\
    mf_right f' = map (rename1 m) (mf_right f) /\ mf_left f' = map (rename1 m) (mf_left f) /\
    forall o, full (mf_domain f) o -> incl (keys o) (mf_vars f) ->
      exists x, mf_get_value f o = Ok x /\ mf_get_value f' (rename_obs m o) = Ok x.
Proof. exact mf_rename_ok. Qed.
Print Assumptions C16_rename.

Theorem C16_underscore : forall f (m : dict var var) v s, wf_mf f ->
  (forall x y, In x (mf_vars f) -> In y (mf_vars f) -> rename1 m x = rename1 m y -> x = y) ->
  In v (mf_vars f) -> rename1 m v = String "_"%char s -> mf_rename f m = Raise ValueError.
Proof. exact mf_rename_underscore. Qed.
Print Assumptions C16_underscore.

(** Functions: the names are not checked. *)
Theorem C16_deterministic : forall f v (l : list state) (m : dict var var), wf_df f v l ->
  (forall x y, In x (df_vars f) -> In y (df_vars f) -> rename1 m x = rename1 m y -> x = y) ->
  exists f', df_rename f m = Ok f' /\ wf_df f' (rename1 m v) l /\ df_vtype f' = df_vtype f /\
    df_domain f' = map (fun vl => (rename1 m (fst vl), snd vl)) (df_domain f) /\
    df_right f' = map (rename1 m) (df_right f) /\
    forall o o' : obs, full (drop [v] (df_domain f)) o -> (forall w, In w (df_right f) -> dget (rename1 m w) o' = dget w o) ->
      get_value (df_store f') o' = get_value (df_store f) o.
Proof. exact df_rename_ok. Qed.
Print Assumptions C16_deterministic.

(** Swapping the two names. *)
Example C16_case : forall vt, let f := fac vt dAB [1; 2; 3; 4; 5; 6]%Q ["B"%string] in
  let m := [("A", "B"); ("B", "A")]%string in
  wf_mf f /\ (forall x y, In x (mf_vars f) -> In y (mf_vars f) -> rename1 m x = rename1 m y -> x = y) /\
  (forall v s, In v (mf_vars f) -> rename1 m v <> String "_"%char s) /\
  view (mf_rename f m) =
    Ok ([("B", [SStr "a0"; SStr "a1"]); ("A", [SInt 0; SInt 1; SInt 2])]%string, ["B"%string], ["A"%string],
        map q [1; 2; 3; 4; 5; 6]%Q).
Proof.
  intros vt f m. destruct (fac_wf vt dAB [1; 2; 3; 4; 5; 6]%Q ["B"%string] eq_refl) as (W1 & D1 & T1).
  split; [auto|]. unfold f, mf_vars. rewrite D1. split; [|split].
  - intros x y [<-|[<-|[]]] [<-|[<-|[]]]; vm_compute; congruence.
  - intros v s [<-|[<-|[]]]; vm_compute; congruence.
  - apply view_ok; destruct vt; vm_compute; reflexivity.
Qed.

Example C16_case_deterministic : forall vt, let f := dfac vt dAB "A"%string [SStr "a1"; SStr "a0"; SStr "a1"]%string in
  let m := [("A", "B"); ("B", "_b")]%string in
  wf_df f "A"%string [SStr "a0"; SStr "a1"]%string /\
  (forall x y, In x (df_vars f) -> In y (df_vars f) -> rename1 m x = rename1 m y -> x = y) /\
  (let* g := df_rename f m in let* l := values_list (df_store g) in Ok (df_domain g, df_left g, df_right g, l)) =
    Ok ([("B", [SStr "a0"; SStr "a1"]); ("_b", [SInt 0; SInt 1; SInt 2])]%string, ["B"%string], ["_b"%string],
        [SStr "a1"; SStr "a0"; SStr "a1"]%string).
Proof.
  intros vt f m.
  destruct (dfac_wf vt dAB "A"%string [SStr "a0"; SStr "a1"]%string [SStr "a1"; SStr "a0"; SStr "a1"]%string eq_refl (or_introl eq_refl))
    as (W & D & T). fold f in W, D, T.
  split; [auto|]. split; [|destruct vt; vm_compute; reflexivity]. unfold df_vars. rewrite D.
  intros x y [<-|[<-|[]]] [<-|[<-|[]]]; vm_compute; congruence.
Qed.
