(** The numbers found in a text. *)

From Coq Require Import String Ascii Bool Arith ZArith QArith Qcanon Lia List.
From Verif Require Import PyBase Num DomainModel NdArray StoreModel NumStore FactorModel GraphModel ModelModel CausalModel UaiModel UaiSpec UaiFacts.
Import ListNotations.
Local Open Scope nat_scope.
Local Open Scope string_scope.
Local Open Scope list_scope.

Lemma match_exp_sci t r : sci_text t -> ends_blank r -> match_exp (list_ascii_of_string t ++ r) = Some (list_ascii_of_string t, r).
Proof.
  intros [T|(a & s & d & Pa & Hs & [Nd Dd] & ->)] R; [now apply match_exp_tok|].
  unfold match_exp. rewrite !list_app, <- !app_assoc. change (list_ascii_of_string "E") with ["E"%char]. cbn [app].
  rewrite match_plain_before; [|exact Pa|intros c r' E; injection E as <- _; vm_compute; auto].
  set (B := list_ascii_of_string d). assert (DB : forall c, In c B -> is_digit c = true) by (intros c Hc; now apply is_digit_spec, Dd).
  assert (NB : exists c B', B = c :: B') by (destruct d as [|c d]; [congruence|]; now exists c, (list_ascii_of_string d)).
  destruct NB as (c0 & B' & EB). assert (D0 := DB c0 ltac:(rewrite EB; now left)).
  cbn [opt_char]. change (Ascii.eqb "E" "E") with true. cbv iota beta.
  assert (S0 : opt_char is_sign (list_ascii_of_string s ++ B ++ r) = (list_ascii_of_string s, B ++ r)).
  { destruct Hs as [-> |[-> | ->]]; cbn [list_ascii_of_string app]; [|reflexivity|reflexivity].
    rewrite EB. cbn [app opt_char]. replace (is_sign c0) with false; [reflexivity|]. symmetry. unfold is_sign.
    apply orb_false_iff; split; apply Ascii.eqb_neq; intros ->; vm_compute in D0; discriminate. }
  rewrite S0. rewrite (span_all is_digit B r DB).
  - reflexivity.
  - intros c r' ->. cbn in R. now destruct (blank_skipped c R).
Qed.
Lemma sci_nonempty t : sci_text t -> list_ascii_of_string t <> [].
Proof.
  intros [T|(a & s & d & Pa & _ & _ & ->)]; [now apply plain_nonempty|]. rewrite list_app. assert (N := plain_nonempty a Pa).
  intros E. apply app_eq_nil in E as [E _]. contradiction.
Qed.

Section Found.
  Variables (m : list ascii -> option (list ascii * list ascii)) (P : string -> Prop).
  Hypothesis M0 : m [] = None.
  Hypothesis Mt : forall t r, P t -> ends_blank r -> m (list_ascii_of_string t ++ r) = Some (list_ascii_of_string t, r).
  Hypothesis Ms : forall c r, skipped c -> m (c :: r) = None.
  Hypothesis Pn : forall t, P t -> list_ascii_of_string t <> [].

  Lemma found ts : Forall P ts -> forall fuel, length (list_ascii_of_string (String.concat " " ts)) < fuel ->
    find_all m fuel (list_ascii_of_string (String.concat " " ts)) = ts.
  Proof.
    induction ts as [|t ts IH]; intros Ft fuel L.
    - destruct fuel; [reflexivity|]. cbn. now rewrite M0.
    - inversion Ft as [|? ? Pt Fs]; subst. destruct ts as [|t2 ts].
      + cbn [String.concat] in *. destruct fuel as [|fuel]; [lia|]. cbn [find_all].
        rewrite <- (app_nil_r (list_ascii_of_string t)) at 1. rewrite Mt by (auto; exact I). rewrite string_of_list_ascii_of_string. f_equal.
        destruct fuel; [reflexivity|]. cbn. now rewrite M0.
      + change (String.concat " " (t :: t2 :: ts)) with (t ++ " " ++ String.concat " " (t2 :: ts))%string in *.
        set (rest := String.concat " " (t2 :: ts)) in *. clearbody rest.
        rewrite !list_app in *. change (list_ascii_of_string " ") with [" "%char] in *. cbn [app] in *. assert (N := Pn t Pt).
        destruct fuel as [|fuel]; [lia|]. cbn [find_all].
        rewrite Mt by (auto; now left). rewrite string_of_list_ascii_of_string. f_equal.
        rewrite app_length in L. cbn [length] in L. assert (0 < length (list_ascii_of_string t)) by (destruct (list_ascii_of_string t); [congruence|cbn; lia]).
        destruct fuel as [|fuel]; [lia|]. cbn [find_all]. rewrite Ms by (apply blank_skipped; now left). apply IH; [exact Fs|lia].
  Qed.
  Lemma found_numbers ts : Forall P ts -> numbers m (String.concat " " ts) = ts.
  Proof.
    intros Ft. unfold numbers. apply found; [exact Ft|].
    assert (E : forall s, length (list_ascii_of_string s) = String.length s) by (induction s; cbn; auto). rewrite E. lia.
  Qed.
End Found.

Lemma numbers_plain ts : Forall plain_text ts -> numbers match_plain (String.concat " " ts) = ts.
Proof. apply found_numbers; [reflexivity|apply match_plain_tok|apply match_plain_skip|apply plain_nonempty]. Qed.
Lemma numbers_sci ts : Forall sci_text ts -> numbers match_exp (String.concat " " ts) = ts.
Proof. apply found_numbers; [reflexivity|apply match_exp_sci|apply match_exp_skip|apply sci_nonempty]. Qed.
