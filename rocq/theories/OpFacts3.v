(** Products of many factors; operands that the operators reject. *)

From Coq Require Import String Ascii Bool Arith ZArith QArith Qcanon Lia Permutation List.
From Verif Require Import PyBase Num DomainModel NdArray StoreModel NumStore FactorModel GenModel PyFacts Spec
  DomainFacts StoreSpec StoreFacts NumFacts FactorSpec FactorFacts PropFacts1 PropFacts2
  OpModel OpSpec OpFacts1 OpFacts2.
Import ListNotations.
Local Open Scope nat_scope.
Local Arguments eqd : simpl never.

Lemma combine_from_ok vt (val : mfactor -> obs -> Qc) fs : forall x d L g,
  gives vt (Ok x) d L g -> (forall f, In f fs -> holds vt f (val f)) ->
  (forall f, In f fs -> compatible d (mf_domain f)) ->
  (forall f h, In f fs -> In h fs -> compatible (mf_domain f) (mf_domain h)) ->
  exists r, combine_from x (map PFac fs) = Ok (PFac r) /\ wf_mf r /\ mf_vtype r = vt /\
    (forall v l, In (v, l) (mf_domain r) <-> In (v, l) d \/ exists f, In f fs /\ In (v, l) (mf_domain f)) /\
    (forall v, In v (mf_left r) <-> In v L \/ exists f, In f fs /\ In v (mf_left f)) /\
    forall o, full (mf_domain r) o -> mf_get_value r o = Ok (Fin (g o * fold_right Qcmult 1%Qc (map (fun f => val f o) fs))).
Proof.
  induction fs as [|h fs IH]; intros x d L g G H C CC; cbn [map combine_from].
  - destruct G as (f & E & W & T & D & Lf & V). injection E as ->. exists f. split; [auto|]. split; [auto|].
    split; [auto|]. subst d. split.
    + intros v l. split; [auto|]. intros [J|(k & [] & _)]. auto.
    + split.
      * intros v. rewrite Lf. split; [auto|]. intros [J|(k & [] & _)]. auto.
      * intros o Fo. rewrite V by auto. f_equal. f_equal. simpl. ring.
  - assert (Hh := H h (or_introl eq_refl)). assert (Ch := C h (or_introl eq_refl)).
    assert (Gh : gives vt (Ok (PFac h)) (mf_domain h) (mf_left h) (val h)).
    { exact (means_ok vt (XVal (PFac h)) _ _ _ (means_factor vt h (val h) Hh)). }
    assert (S := step_arith vt OpMul nmul Qcmult x (PFac h) d L g _ _ _
                   (or_introl (conj eq_refl (conj eq_refl eq_refl))) G Gh Ch).
    destruct S as (y & E & R). rewrite E. cbn [bind].
    destruct (IH (PFac y) (join d (mf_domain h)) (L ++ mf_left h) (fun o => g o * val h o)%Qc) as
      (r & Er & Wr & Tr & Dr & Lr & V).
    + exists y. split; [auto|]. exact R.
    + intros f J. apply H. right. auto.
    + intros f J. apply compatible_join; [apply C; right; auto|apply CC; [left; auto|right; auto]].
    + intros f k J K. apply CC; right; auto.
    + exists r. split; [auto|]. split; [auto|]. split; [auto|]. split.
      * intros v l. rewrite Dr, join_In_iff by auto. split.
        -- intros [[J|J]|(k & J & K)]; [auto|right; exists h; split; [left|]; auto|right; exists k; split; [right|]; auto].
        -- intros [J|(k & [<-|J] & K)]; [auto|auto|right; eauto].
      * split.
        -- intros v. rewrite Lr, in_app_iff. split.
           ++ intros [[J|J]|(k & J & K)]; [auto|right; exists h; split; [left|]; auto|right; exists k; split; [right|]; auto].
           ++ intros [J|(k & [<-|J] & K)]; [auto|auto|right; eauto].
        -- intros o Fo. rewrite V by auto. f_equal. f_equal. cbn [map fold_right]. ring.
Qed.

Lemma combine_all_ok vt (val : mfactor -> obs -> Qc) fs : fs <> [] ->
  (forall f, In f fs -> holds vt f (val f)) ->
  (forall f h, In f fs -> In h fs -> compatible (mf_domain f) (mf_domain h)) ->
  exists r, py_combine_all (map PFac fs) = Ok (PFac r) /\ wf_mf r /\ mf_vtype r = vt /\
    (forall v l, In (v, l) (mf_domain r) <-> exists f, In f fs /\ In (v, l) (mf_domain f)) /\
    (forall v, In v (mf_left r) <-> exists f, In f fs /\ In v (mf_left f)) /\
    forall o, full (mf_domain r) o -> mf_get_value r o = Ok (Fin (fold_right Qcmult 1%Qc (map (fun f => val f o) fs))).
Proof.
  intros NE H CC. destruct fs as [|h fs]; [congruence|]. cbn [map py_combine_all].
  assert (Hh := H h (or_introl eq_refl)).
  destruct (combine_from_ok vt val fs (PFac h) (mf_domain h) (mf_left h) (val h)) as (r & Er & Wr & Tr & Dr & Lr & V).
  - exact (means_ok vt (XVal (PFac h)) _ _ _ (means_factor vt h (val h) Hh)).
  - intros f J. apply H. right. auto.
  - intros f J. apply CC; [left; auto|right; auto].
  - intros f k J K. apply CC; right; auto.
  - exists r. split; [auto|]. split; [auto|]. split; [auto|]. split.
    + intros v l. rewrite Dr. split.
      * intros [J|(k & J & K)]; [exists h; split; [left|]; auto|exists k; split; [right|]; auto].
      * intros (k & [<-|J] & K); [auto|right; eauto].
    + split.
      * intros v. rewrite Lr. split.
        -- intros [J|(k & J & K)]; [exists h; split; [left|]; auto|exists k; split; [right|]; auto].
        -- intros (k & [<-|J] & K); [auto|right; eauto].
      * intros o Fo. rewrite V by auto. reflexivity.
Qed.

Lemma fold_mul_perm (l1 l2 : list Qc) : Permutation l1 l2 -> fold_right Qcmult 1%Qc l1 = fold_right Qcmult 1%Qc l2.
Proof. induction 1; cbn [fold_right]; [auto|congruence|ring|congruence]. Qed.

Lemma combine_all_perm vt (val : mfactor -> obs -> Qc) fs hs : fs <> [] -> Permutation fs hs ->
  (forall f, In f fs -> holds vt f (val f)) ->
  (forall f h, In f fs -> In h fs -> compatible (mf_domain f) (mf_domain h)) ->
  exists r s, py_combine_all (map PFac fs) = Ok (PFac r) /\ py_combine_all (map PFac hs) = Ok (PFac s) /\ same_table r s.
Proof.
  intros NE P H CC. assert (B : forall f, In f hs <-> In f fs).
  { intros f. split; apply Permutation_in; [now apply Permutation_sym|auto]. }
  destruct (combine_all_ok vt val fs NE H CC) as (r & Er & Wr & Tr & Dr & Lr & Vr).
  destruct (combine_all_ok vt val hs) as (s & Es & Ws & Ts & Ds & Ls & Vs).
  - intros ->. apply Permutation_sym, Permutation_nil in P. auto.
  - intros f J. apply H, B, J.
  - intros f h J K. apply CC; now apply B.
  - exists r, s. split; [auto|]. split; [auto|].
    assert (DD : forall v l, In (v, l) (mf_domain r) <-> In (v, l) (mf_domain s)).
    { intros v l. rewrite Dr, Ds. split; intros (f & J & K); exists f; (split; [now apply B|auto]). }
    split; [congruence|]. split; [auto|]. split.
    + intros v. rewrite Lr, Ls. split; intros (f & J & K); exists f; (split; [now apply B|auto]).
    + intros o Fo. eexists. split; [apply Vr; auto|]. rewrite Vs.
      * f_equal. f_equal. apply fold_mul_perm. apply Permutation_map. now apply Permutation_sym.
      * intros v l J. apply Fo. now apply DD.
Qed.

(** ** rejected operands *)
Lemma mixed_classes op f h : is_arith op = true -> mf_vtype f <> mf_vtype h ->
  py_binop op (PFac f) (PFac h) = Raise ValueError.
Proof.
  intros A N. assert (X : forall zero nop, st_combine zero nop (mf_store f) (mf_store h) = Raise ValueError).
  { intros. unfold mf_vtype in N. destruct (mf_store f), (mf_store h); try reflexivity; now destruct N. }
  destruct op; try discriminate; cbn [py_binop fac_arith factor_method];
    unfold mf_multiply, mf_addition, mf_subtract, mf_divide, mf_arith; cbn [prepare_operand bind];
    unfold st_multiply, st_addition, st_subtract, st_divide; rewrite X; reflexivity.
Qed.

Lemma underscore_rejected f (dom : domain) v l r : In ("_bound"%string) (keys dom) ->
  mf_builder f dom v l r = Raise ValueError.
Proof.
  intros I. assert (C : check_domain dom = Raise ValueError).
  { unfold check_domain. destruct (negb _); [reflexivity|].
    assert (E : existsb underscored (keys dom) = true).
    { apply existsb_exists. exists "_bound"%string. split; [auto|reflexivity]. }
    now rewrite E. }
  unfold mf_builder. destruct l, r; unfold mf_init; rewrite C; reflexivity.
Qed.

Lemma interval_operand op f (h : ifactor) : is_arith op = true -> wf_mf f -> wf_store (if_store h) ->
  mf_vtype f = if_vtype h -> In "_bound"%string (keys (st_domain (if_store h))) ->
  compatible (mf_domain f) (st_domain (if_store h)) ->
  py_binop op (PFac f) (PIvl h) = Raise ValueError.
Proof.
  intros A W Wh T B C.
  assert (X : forall nop, exists s, st_combine n0 nop (mf_store f) (if_store h) = Ok s /\ In "_bound"%string (keys (st_domain s))).
  { intros nop. destruct (combine_obs n0 nop (mf_store f) (if_store h)) as (s & E & _ & _ & D & _); auto; [apply W|].
    exists s. split; [auto|]. rewrite D. apply join_keys. auto. }
  destruct op; try discriminate; cbn [py_binop fac_arith]; unfold with_interval, store_op, st_multiply, st_addition, st_subtract, st_divide.
  - destruct (X nmul) as (s & -> & I). cbn [bind]. now rewrite underscore_rejected.
  - destruct (X nadd) as (s & -> & I). cbn [bind]. now rewrite underscore_rejected.
  - destruct (X nsub) as (s & -> & I). cbn [bind]. now rewrite underscore_rejected.
  - destruct (X (div_op (st_type (mf_store f)))) as (s & -> & I). cbn [bind]. now rewrite underscore_rejected.
Qed.

Lemma max_numpy1d f x vs : mf_vtype f = VNumpy1D -> spells x vs -> (exists v, In v vs /\ In v (mf_vars f)) ->
  py_binop OpXor (PFac f) x = Raise NotImplementedError.
Proof.
  intros T S (v & I & J). cbn [py_binop]. rewrite (spells_names x vs S). cbn [bind]. unfold mf_maxmarginalize.
  assert (E : existsb (fun v => mem v (mf_vars f)) vs = true).
  { apply existsb_exists. exists v. split; [auto|]. now apply mem_In. }
  rewrite E. cbn [negb]. rewrite maxmarginalize_np1; auto.
Qed.

Lemma arith_list op : In op [OpMul; OpAdd; OpSub; OpDiv] -> is_arith op = true.
Proof. intros [<-|[<-|[<-|[<-|[]]]]]; reflexivity. Qed.

Lemma number_left_num x f (n : num) : x = PNum n ->
  (forall op, In op [OpMul; OpAdd; OpSub; OpDiv] -> py_binop op x (PFac f) = Raise AttributeError) /\
  (forall op, In op [OpXor; OpPow] -> py_binop op x (PFac f) = Raise TypeError).
Proof. intros ->. split; intros op I; repeat destruct I as [<-|I]; try reflexivity; destruct I. Qed.
Lemma number_left_str x f (s : var) : x = PStr s ->
  (forall op, In op [OpMul; OpAdd; OpSub; OpDiv] -> py_binop op x (PFac f) = Raise AttributeError) /\
  (forall op, In op [OpXor; OpPow] -> py_binop op x (PFac f) = Raise TypeError).
Proof. intros ->. split; intros op I; repeat destruct I as [<-|I]; try reflexivity; destruct I. Qed.
Lemma number_left_seq x f (l : list var) : x = PSeq l ->
  (forall op, In op [OpMul; OpAdd; OpSub; OpDiv] -> py_binop op x (PFac f) = Raise AttributeError) /\
  (forall op, In op [OpXor; OpPow] -> py_binop op x (PFac f) = Raise TypeError).
Proof. intros ->. split; intros op I; repeat destruct I as [<-|I]; try reflexivity; destruct I. Qed.

Lemma operand_raises f :
  (forall op x, In op [OpMul; OpAdd; OpSub; OpDiv] ->
     (exists n, x = POther n) \/ (exists s, x = PStr s) \/ (exists l, x = PSeq l) ->
     py_binop op (PFac f) x = Raise AttributeError) /\
  (forall op x, In op [OpXor; OpPow] ->
     (exists n, x = PNum n) \/ (exists n, x = POther n) \/ (exists h, x = PFac h) \/ (exists h, x = PDet h) \/
     (exists h, x = PIvl h) ->
     py_binop op (PFac f) x = Raise TypeError).
Proof.
  split.
  - intros op x I [(n & ->)|[(s & ->)|(l & ->)]]; repeat destruct I as [<-|I]; try reflexivity; destruct I.
  - intros op x I [(n & ->)|[(n & ->)|[(h & ->)|[(h & ->)|(h & ->)]]]]; repeat destruct I as [<-|I]; try reflexivity; destruct I.
Qed.

Lemma unavailable (d d' : dfactor) (i : ifactor) (f : mfactor) (n : num) (s : var) (l : list var) (o : obs) :
  (forall op y, In op [OpMul; OpAdd; OpSub; OpDiv] -> py_binop op (PIvl i) y = Raise NotImplementedError) /\
  (forall op, In op [OpXor; OpPow] -> py_binop op (PIvl i) (PStr s) = Raise NotImplementedError /\
     py_binop op (PIvl i) (PSeq l) = Raise NotImplementedError /\ py_binop op (PIvl i) (PNum n) = Raise TypeError) /\
  (forall op, In op [OpMul; OpAdd; OpSub; OpDiv] -> py_binop op (PDet d) (PFac f) = Raise NotImplementedError /\
     py_binop op (PDet d) (PDet d') = Raise TypeError /\ py_binop op (PDet d) (PNum n) = Raise TypeError /\
     py_binop op (PNum n) (PDet d) = Raise TypeError) /\
  (forall op, In op [OpXor; OpPow] -> py_binop op (PDet d) (PStr s) = Raise TypeError) /\
  py_restrict (PDet d) o = Raise NotImplementedError.
Proof.
  split; [|split; [|split; [|split]]].
  - intros op y I. repeat destruct I as [<-|I]; try reflexivity; destruct I.
  - intros op I. repeat destruct I as [<-|I]; try (split; [|split]; reflexivity); destruct I.
  - intros op I. repeat destruct I as [<-|I]; try (split; [|split; [|split]]; reflexivity); destruct I.
  - intros op I. repeat destruct I as [<-|I]; try reflexivity; destruct I.
  - reflexivity.
Qed.

Lemma first_raises op e1 e2 x :
  (py_eval e1 = Raise x -> py_eval (XOp op e1 e2) = Raise x) /\
  ((exists y, py_eval e1 = Ok y) -> py_eval e2 = Raise x -> py_eval (XOp op e1 e2) = Raise x) /\
  (forall o, py_eval e1 = Raise x -> py_eval (XRestrict e1 o) = Raise x).
Proof.
  split; [|split].
  - intros E. cbn [py_eval]. now rewrite E.
  - intros (y & E1) E2. cbn [py_eval]. now rewrite E1, E2.
  - intros o E. cbn [py_eval]. now rewrite E.
Qed.
Lemma sampling_raises (i : ifactor) (d : dfactor) os :
  (forall n, (n < 1)%Z -> if_sample i n = Raise ValueError) /\ (forall n, (1 <= n)%Z -> if_sample i n = Raise NotImplementedError) /\
  if_sample_conditional i os = Raise NotImplementedError /\ forall n, df_sample d n = Raise NotImplementedError.
Proof.
  split; [|split; [|split; reflexivity]]; intros n N; unfold if_sample.
  - now rewrite (proj2 (Z.ltb_lt n 1) N).
  - now rewrite (proj2 (Z.ltb_ge n 1) N).
Qed.
