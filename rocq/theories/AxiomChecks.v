(** Checking by computation that counterfactual queries are well posed. *)

From Coq Require Import String Bool Arith ZArith QArith Qcanon List.
From Verif Require Import PyBase Num DomainModel NdArray StoreModel NumStore FactorModel GraphModel ModelModel InferModel CausalModel
  PyFacts Spec StoreSpec FactorSpec GraphSpec ModelSpec NetSpec OrderSpec CausalSpec SepSpec LawSpec CalcSpec AxiomSpec
  Checks FactorChecks GraphChecks InferChecks CausalChecks CalcChecks CalcFacts4.
Import ListNotations.
Local Open Scope nat_scope.
Local Open Scope string_scope.
Local Open Scope list_scope.
Local Arguments eqd : simpl never.

Definition targetsb (g : digraph) (X : list var) (dos : list obs) (ti : list (var * nat)) : bool :=
  nodupK ti && negb (Nat.eqb (length ti) 0) &&
  forallb (fun vi => mem (fst vi) (nodes g) && negb (mem (fst vi) X) &&
                     existsb (fun id => (Nat.eqb (fst id) (snd vi)) && negb (mem (fst vi) (keys (snd id)))) (worlds dos)) ti.
Lemma targetsb_sound g X dos ti : targetsb g X dos ti = true -> targets_ok g X dos ti.
Proof.
  unfold targetsb. rewrite !andb_true_iff. intros [[A B] C]. split; [now apply nodupK_sound|]. split; [intros ->; discriminate B|].
  rewrite forallb_forall in C. intros v i J. specialize (C (v, i) J). cbn [fst snd] in C. rewrite !andb_true_iff in C. destruct C as [[C1 C2] C3].
  split; [now apply mem_In|]. split; [apply mem_nIn; now apply negb_true_iff|].
  apply existsb_exists in C3 as ([k d] & W & E). cbn [fst snd] in E. apply andb_true_iff in E as [E1 E2]. apply Nat.eqb_eq in E1. subst k.
  exists d. split; [exact W|]. apply mem_nIn. now apply negb_true_iff.
Qed.
Definition childb (g : digraph) (d : obs) (v : var) : bool := existsb (fun xy => (if eqd (fst xy) v then true else false) && negb (mem (snd xy) (keys d))) (edges g).
Lemma childb_sound g d v : childb g d v = true -> keeps_child g d v.
Proof.
  unfold childb. intros C. apply existsb_exists in C as ([x y] & J & E). cbn [fst snd] in E. apply andb_true_iff in E as [E1 E2].
  destruct (eqd x v) as [->|]; [|discriminate]. exists y. split; [|apply mem_nIn; now apply negb_true_iff]. apply arcb_iff. unfold arcb. now apply mem_In.
Qed.
Definition dosb (g : digraph) (D : domain) (X : list var) (dos : list obs) : bool :=
  forallb (fun d => statesb g D d && forallb (fun v => negb (mem v X) && childb g d v) (keys d)) dos.
Lemma posed_check vt X dos e ti : let g := g_med in
  fresh_names g X dos -> dosb g D_med X dos && inclb (keys e) (nodes g) && targetsb g X dos ti && positive vt [] e = true ->
  well_posed g D_med (table_of vt ts_med) X dos e ti.
Proof.
  intros g Fr C. rewrite !andb_true_iff in C. destruct C as [[[C1 C2] C3] C4]. unfold dosb in C1. rewrite forallb_forall in C1.
  split; [intros d J; specialize (C1 d J); apply andb_true_iff in C1 as [C1 _]; apply (statesb_sound g D_med d C1)|].
  split; [auto|]. split; [now apply inclb_sound|]. split; [now apply targetsb_sound|]. split.
  - intros d v J K. specialize (C1 d J). apply andb_true_iff in C1 as [_ C1]. rewrite forallb_forall in C1. specialize (C1 v K).
    apply andb_true_iff in C1 as [C5 C6]. split; [apply mem_nIn; now apply negb_true_iff|now apply childb_sound].
  - rewrite <- (do_none D_med). now apply positive_sound.
Qed.
