(** Tokenising what was written. *)

From Coq Require Import String Ascii Bool Arith ZArith QArith Qcanon DecimalString DecimalNat Lia List.
From Verif Require Import PyBase Num DomainModel NdArray StoreModel NumStore FactorModel GraphModel ModelModel CausalModel
  UaiModel PyFacts Spec StoreSpec FactorSpec GraphSpec ModelSpec NetSpec UaiSpec CfFacts2.
Import ListNotations.
Local Open Scope nat_scope.
Local Open Scope string_scope.
Local Open Scope list_scope.
Local Arguments eqd : simpl never.

Lemma list_app (a b : string) : list_ascii_of_string (a ++ b)%string = list_ascii_of_string a ++ list_ascii_of_string b.
Proof. induction a as [|c a IH]; cbn; [reflexivity|now rewrite IH]. Qed.
Lemma str_app_assoc (a b c : string) : ((a ++ b) ++ c)%string = (a ++ b ++ c)%string.
Proof. induction a; cbn; [reflexivity|now rewrite IHa]. Qed.
Lemma str_app_nil (a : string) : (a ++ "")%string = a.
Proof. induction a; cbn; [reflexivity|now rewrite IHa]. Qed.

(** ** Numbers as text *)

Lemma is_digit_spec c : is_digit c = true <-> 48 <= nat_of_ascii c <= 57.
Proof. unfold is_digit. rewrite andb_true_iff, !Nat.leb_le. lia. Qed.

Lemma uint_digits d c : In c (list_ascii_of_string (NilEmpty.string_of_uint d)) -> 48 <= nat_of_ascii c <= 57.
Proof.
  induction d; cbn [NilEmpty.string_of_uint list_ascii_of_string In]; intros H; try (destruct H; fail);
    try (destruct H as [<- | H]; [vm_compute; lia|auto]); tauto.
Qed.

Lemma nat_str_decimal n : nat_str n = decimal n.
Proof. reflexivity. Qed.

Lemma decimal_digits n : digits (decimal n).
Proof.
  split.
  - unfold decimal. intros E.
    assert (E' : Nat.to_uint n = Decimal.Nil).
    { apply (f_equal NilEmpty.uint_of_string) in E. rewrite NilEmpty.usu in E. now injection E as E. }
    assert (Z := Unsigned.of_to n). rewrite E' in Z. cbn in Z. subst n. discriminate.
  - intros c. apply uint_digits.
Qed.

Lemma decimal_plain n : plain_text (decimal n).
Proof.
  exists "", (decimal n), "". split; [auto|]. split; [apply decimal_digits|]. split; [auto|]. cbn. now rewrite str_app_nil.
Qed.

Lemma int_decimal n : int_of_token (decimal n) = Ok (Z.of_nat n).
Proof.
  destruct (decimal_digits n) as [N G]. unfold int_of_token.
  destruct (decimal n) as [|c r] eqn:E; [congruence|].
  assert (Hc := G c (or_introl eq_refl)).
  assert (A : Ascii.eqb c "-" = false) by (apply Ascii.eqb_neq; intros ->; cbn in Hc; lia).
  assert (B : Ascii.eqb c "+" = false) by (apply Ascii.eqb_neq; intros ->; cbn in Hc; lia).
  rewrite A, B. unfold nat_of_token. rewrite <- E. unfold decimal. rewrite NilEmpty.usu. cbn [option_map].
  rewrite Unsigned.of_to. reflexivity.
Qed.

(** ** The longest prefix *)

Lemma span_all p a r : (forall c, In c a -> p c = true) -> (forall c r', r = c :: r' -> p c = false) ->
  span p (a ++ r) = (a, r).
Proof.
  intros A R. induction a as [|c a IH]; cbn [app span].
  - destruct r as [|c r]; cbn; [reflexivity|]. now rewrite (R c r eq_refl).
  - rewrite (A c) by now left. rewrite IH; [reflexivity|]. intros c' Hc. apply A. now right.
Qed.

(** A character that may follow a number. *)
Definition blank (c : ascii) : Prop := c = " "%char \/ c = ascii_of_nat 9 \/ c = ascii_of_nat 10.
(** A character where no number starts. *)
Definition skipped (c : ascii) : Prop := is_digit c = false /\ is_dot c = false /\ is_sign c = false.
Lemma blank_skipped c : blank c -> skipped c.
Proof. intros [-> | [-> | ->]]; vm_compute; auto. Qed.

Definition ends_blank (r : list ascii) : Prop := match r with [] => True | c :: _ => blank c end.

Lemma match_plain_before t r : plain_text t -> (forall c r', r = c :: r' -> skipped c) ->
  match_plain (list_ascii_of_string t ++ r) = Some (list_ascii_of_string t, r).
Proof.
  intros (s & a & b & Hs & [Na Da] & Hb & ->) R.
  rewrite !list_app, <- !app_assoc. set (A := list_ascii_of_string a) in *.
  assert (DA : forall c, In c A -> is_digit c = true) by (intros c Hc; now apply is_digit_spec, Da).
  assert (NA : exists c A', A = c :: A').
  { destruct a as [|c a]; [congruence|]. now exists c, (list_ascii_of_string a). }
  destruct NA as (c0 & A' & EA).
  assert (S0 : opt_char is_sign (list_ascii_of_string s ++ A ++ list_ascii_of_string b ++ r) =
               (list_ascii_of_string s, A ++ list_ascii_of_string b ++ r)).
  { destruct Hs as [-> | ->]; cbn [list_ascii_of_string app].
    - rewrite EA. cbn [app opt_char]. assert (H := DA c0 ltac:(rewrite EA; now left)).
      replace (is_sign c0) with false; [reflexivity|]. symmetry. unfold is_sign.
      apply orb_false_iff; split; apply Ascii.eqb_neq; intros ->; vm_compute in H; discriminate.
    - cbn [opt_char]. reflexivity. }
  unfold match_plain. rewrite S0.
  assert (Rd : forall c r', r = c :: r' -> is_digit c = false /\ is_dot c = false).
  { intros c r' E. destruct (R c r' E) as (? & ? & ?). auto. }
  destruct Hb as [-> | (d & [Nd Dd] & ->)]; cbn [list_ascii_of_string app].
  - rewrite (span_all is_digit A r DA) by (intros c r' E; now destruct (Rd c r' E)).
    assert (E1 : span is_dot r = ([], r)).
    { apply (span_all is_dot [] r); [intros c []|]. intros c r' E. now destruct (Rd c r' E). }
    rewrite E1. destruct (span is_digit r) as [d2 l4]. rewrite EA.
    cbn [app]. rewrite app_nil_r. reflexivity.
  - set (B := list_ascii_of_string d).
    rewrite list_app. change (list_ascii_of_string ".") with ["."%char]. fold B. cbn [app].
    rewrite (span_all is_digit A ("."%char :: B ++ r) DA) by (intros c r' E; injection E as <- _; reflexivity).
    assert (NB : exists c B', B = c :: B').
    { destruct d as [|c d]; [congruence|]. now exists c, (list_ascii_of_string d). }
    destruct NB as (c1 & B' & EB).
    assert (DB : forall c, In c B -> is_digit c = true) by (intros c Hc; now apply is_digit_spec, Dd).
    assert (D1 := DB c1 ltac:(rewrite EB; now left)).
    assert (E1 : span is_dot ("."%char :: B ++ r) = (["."%char], B ++ r)).
    { apply (span_all is_dot ["."%char] (B ++ r)).
      - intros c [<- | []]. reflexivity.
      - intros c r' E. rewrite EB in E. injection E as <- _. unfold is_dot. apply Ascii.eqb_neq. intros ->. vm_compute in D1. discriminate. }
    rewrite E1. rewrite (span_all is_digit B r DB) by (intros c r' E; now destruct (Rd c r' E)).
    rewrite EB. cbn [app]. reflexivity.
Qed.

Lemma match_plain_tok t r : plain_text t -> ends_blank r ->
  match_plain (list_ascii_of_string t ++ r) = Some (list_ascii_of_string t, r).
Proof. intros T R. apply match_plain_before; [exact T|]. intros c r' ->. apply blank_skipped, R. Qed.

Lemma match_plain_skip c r : skipped c -> match_plain (c :: r) = None.
Proof.
  intros (A & B & C). unfold match_plain. cbn [opt_char]. rewrite C. cbn [span]. rewrite A. cbn [span]. rewrite B.
  cbn [span]. rewrite A. reflexivity.
Qed.

Lemma match_exp_tok t r : plain_text t -> ends_blank r ->
  match_exp (list_ascii_of_string t ++ r) = Some (list_ascii_of_string t, r).
Proof.
  intros T R. unfold match_exp. rewrite match_plain_tok by assumption.
  assert (E1 : opt_char (fun c => Ascii.eqb c "E") r = ([], r)).
  { destruct r as [|c r]; cbn; [reflexivity|]. destruct R as [-> | [-> | ->]]; reflexivity. }
  assert (E2 : opt_char is_sign r = ([], r)).
  { destruct r as [|c r]; cbn; [reflexivity|]. destruct (blank_skipped c R) as (_ & _ & E). now rewrite E. }
  assert (E3 : span is_digit r = ([], r)).
  { destruct r as [|c r]; cbn; [reflexivity|]. destruct (blank_skipped c R) as (E & _ & _). now rewrite E. }
  rewrite E1, E2, E3. cbn [app]. now rewrite app_nil_r.
Qed.
Lemma match_exp_skip c r : skipped c -> match_exp (c :: r) = None.
Proof. intros H. unfold match_exp. now rewrite match_plain_skip. Qed.

(** What both regular expressions have in common. *)
Definition scanner (m : list ascii -> option (list ascii * list ascii)) : Prop :=
  m [] = None /\
  (forall t r, plain_text t -> ends_blank r -> m (list_ascii_of_string t ++ r) = Some (list_ascii_of_string t, r)) /\
  (forall c r, skipped c -> m (c :: r) = None).
Lemma plain_scanner : scanner match_plain.
Proof. split; [reflexivity|]. split; [apply match_plain_tok|apply match_plain_skip]. Qed.
Lemma exp_scanner : scanner match_exp.
Proof. split; [reflexivity|]. split; [apply match_exp_tok|apply match_exp_skip]. Qed.

Section Scan.
  Variable m : list ascii -> option (list ascii * list ascii).
  Hypothesis SC : scanner m.

  Definition tokens (l : list ascii) (ts : list string) : Prop :=
    forall fuel, length l < fuel -> find_all m fuel l = ts.
  Lemma tokens_nil : tokens [] [].
  Proof. intros [|fuel] H; [inversion H|]. cbn. destruct SC as (E & _ & _). now rewrite E. Qed.
  Lemma tokens_skip c r ts : skipped c -> tokens r ts -> tokens (c :: r) ts.
  Proof.
    intros C T [|fuel] H; [inversion H|]. cbn [find_all length] in *. destruct SC as (_ & _ & E). rewrite E by assumption.
    apply T. lia.
  Qed.
  Lemma plain_nonempty t : plain_text t -> list_ascii_of_string t <> [].
  Proof.
    intros (s & a & b & _ & [N _] & _ & ->). rewrite !list_app. destruct a as [|c a]; [congruence|].
    cbn. now destruct (list_ascii_of_string s).
  Qed.
  Lemma tokens_tok t r ts : plain_text t -> ends_blank r -> tokens r ts ->
    tokens (list_ascii_of_string t ++ r) (t :: ts).
  Proof.
    intros P R T [|fuel] H; [inversion H|]. cbn [find_all]. destruct SC as (_ & E & _). rewrite E by assumption.
    rewrite string_of_list_ascii_of_string. f_equal. apply T.
    rewrite app_length in H. assert (N := plain_nonempty t P). destruct (list_ascii_of_string t); [congruence|]. cbn in H. lia.
  Qed.

  (** [s] contains the tokens [ts] and ends them. *)
  Definition emits (s : string) (ts : list string) : Prop :=
    forall r rts, tokens r rts -> tokens (list_ascii_of_string s ++ r) (ts ++ rts).
  Lemma emits_nil : emits "" [].
  Proof. intros r rts T. exact T. Qed.
  Lemma emits_app s1 t1 s2 t2 : emits s1 t1 -> emits s2 t2 -> emits (s1 ++ s2) (t1 ++ t2).
  Proof. intros A B r rts T. rewrite list_app, <- !app_assoc. apply A, B, T. Qed.
  Lemma emits_skip c s ts : skipped c -> emits s ts -> emits (String c s) ts.
  Proof. intros C A r rts T. cbn. apply tokens_skip; auto. Qed.
  Lemma emits_tok t c : plain_text t -> blank c -> emits (t ++ String c "") [t].
  Proof.
    intros P C r rts T. rewrite list_app, <- app_assoc. cbn. apply tokens_tok; [assumption|exact C|].
    apply tokens_skip; [now apply blank_skipped|exact T].
  Qed.
  Lemma emits_tok_app t c s ts : plain_text t -> blank c -> emits s ts -> emits (t ++ String c s) (t :: ts).
  Proof.
    intros P C A. change (String c s) with (String c "" ++ s)%string. rewrite <- str_app_assoc.
    apply (emits_app _ [t]); [now apply emits_tok|exact A].
  Qed.
  Lemma blank_space : blank " ". Proof. now left. Qed.
  Lemma blank_nl : blank (ascii_of_nat 10). Proof. now right; right. Qed.
  Lemma blank_tab : blank (ascii_of_nat 9). Proof. now right; left. Qed.
  Lemma emits_newline : emits newline [].
  Proof. apply emits_skip; [apply blank_skipped, blank_nl|apply emits_nil]. Qed.

  Lemma emits_line l : Forall plain_text l -> emits (String.concat " " l ++ newline) l.
  Proof.
    induction l as [|x l IH]; intros F; [apply emits_newline|]. inversion F; subst. cbn [String.concat].
    destruct l as [|y l]; [now apply emits_tok, blank_nl|].
    rewrite str_app_assoc. cbn [append]. apply emits_tok_app; [assumption|apply blank_space|]. apply IH; assumption.
  Qed.
  Lemma emits_concat ls tss : Forall2 emits ls tss -> emits (String.concat "" ls) (List.concat tss).
  Proof.
    intros F. induction F as [|s ts ls tss A F IH]; cbn [String.concat List.concat]; [apply emits_nil|].
    destruct ls as [|s2 ls].
    - inversion F; subst. cbn. rewrite app_nil_r. exact A.
    - cbn [append]. now apply emits_app.
  Qed.
  Lemma emits_tokens s ts : emits s ts -> numbers m s = ts.
  Proof.
    intros A. unfold numbers. assert (T := A [] [] tokens_nil). rewrite !app_nil_r in T. apply T.
    assert (E : forall s, length (list_ascii_of_string s) = String.length s) by (induction s0; cbn; auto).
    rewrite E. lia.
  Qed.
End Scan.

(** ** Reading tokens *)

Lemma next_int_decimal n ts : next_int (decimal n :: ts) = Ok (Z.of_nat n, ts).
Proof. unfold next_int. cbn. now rewrite int_decimal. Qed.

Lemma nexts_map {A B} (f : list string -> res (A * list string)) (t : B -> string) (x : B -> A) (l : list B) ts :
  (forall b ts, In b l -> f (t b :: ts) = Ok (x b, ts)) ->
  nexts f (length l) (map t l ++ ts) = Ok (map x l, ts).
Proof.
  induction l as [|b l IH]; intros H; cbn [length nexts map app]; [reflexivity|].
  rewrite H by now left. cbn. rewrite IH; [reflexivity|]. intros b' ts' Hb. apply H. now right.
Qed.

Lemma for_vars_map {A} (f : var -> list string -> res (A * list string)) (t : var -> list string) (x : var -> A) vs ts :
  (forall v ts, In v vs -> f v (t v ++ ts) = Ok (x v, ts)) ->
  for_vars f vs (concat (map t vs) ++ ts) = Ok (map x vs, ts).
Proof.
  induction vs as [|v vs IH]; intros H; cbn [for_vars map concat app]; [reflexivity|].
  rewrite <- app_assoc, H by now left. cbn. rewrite IH; [reflexivity|]. intros v' ts' Hv. apply H. now right.
Qed.

Lemma py_index_nat {A} (l : list A) i x : nth_error l i = Some x -> py_index l (Z.of_nat i) = Ok x.
Proof.
  intros E. unfold py_index. replace (Z.of_nat i <? 0)%Z with false by (symmetry; apply Z.ltb_ge; lia).
  replace (Z.of_nat i <? 0)%Z with false by (symmetry; apply Z.ltb_ge; lia).
  rewrite Nat2Z.id. now apply py_nth_ok.
Qed.

(** ** Names *)

Lemma uai_name_inj i j : uai_name i = uai_name j -> i = j.
Proof. unfold uai_name. intros E. cbn in E. injection E as E. now apply nat_str_inj. Qed.
Lemma uai_name_us i s : uai_name i <> String "_" s.
Proof. unfold uai_name. cbn. intros E. discriminate. Qed.

Lemma prefix_app a b : String.prefix a b = true <-> exists t, b = (a ++ t)%string.
Proof.
  revert b. induction a as [|c a IH]; intros b; cbn.
  - split; [intros _; now exists b|destruct b; auto].
  - destruct b as [|d b]; [split; [discriminate|intros (t & E); discriminate]|].
    change (prefix (String c a) (String d b)) with (if ascii_dec c d then prefix a b else false). destruct (ascii_dec c d) as [-> | N].
    + rewrite IH. split; intros (t & E); exists t; [now rewrite E|now injection E as E].
    + split; [discriminate|]. intros (t & E). injection E as -> _. congruence.
Qed.

Lemma substr_of_spec a b : substr_of a b = true <-> exists s t, b = (s ++ a ++ t)%string.
Proof.
  induction b as [|c b IH]; cbn [substr_of]; rewrite orb_true_iff, prefix_app.
  - split.
    + intros [(t & E) | H]; [now exists "", t|discriminate].
    + intros ([|c s] & t & E); [left; now exists t|discriminate].
  - rewrite IH. split.
    + intros [(t & E) | (s & t & E)]; [now exists "", t|exists (String c s), t; cbn; now rewrite <- E].
    + intros ([|c' s] & t & E); [left; now exists t|right]. cbn in E. injection E as _ E. now exists s, t.
Qed.

Lemma name_in_name i j : substr_of (uai_name i) (uai_name j) = true <-> exists t, decimal j = (decimal i ++ t)%string.
Proof.
  rewrite substr_of_spec. split.
  - intros (s & t & E). destruct s as [|c s].
    + exists t. unfold uai_name in E. cbn in E. now injection E as E.
    + exfalso. unfold uai_name in E. cbn in E. injection E as _ E.
      destruct (decimal_digits j) as [_ H].
      assert (V : In "V"%char (list_ascii_of_string (decimal j))).
      { rewrite E, list_app. apply in_or_app. right. now left. }
      apply H in V. vm_compute in V. lia.
  - intros (t & E). exists "", t. unfold uai_name. cbn. now rewrite E.
Qed.
