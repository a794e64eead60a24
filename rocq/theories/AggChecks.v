(** Sample aggregators. *)

From Coq Require Import String Ascii Bool Arith ZArith QArith Qcanon Lia List.
From Verif Require Import PyBase PyFacts Num DomainModel NdArray StoreModel NumStore FactorModel GenModel GraphModel ModelModel InferModel CausalModel
  LearnModel AggModel Spec StoreSpec FactorSpec GraphSpec ModelSpec Checks FactorChecks GraphChecks NetSpec OrderSpec InferChecks CausalChecks
  LearnSpec LearnChecks AggSpec.
Import ListNotations.
Local Open Scope string_scope.
Local Open Scope nat_scope.
Local Open Scope list_scope.

(** Learner [k] produces the model number [10 * k]; task [bad] raises. *)
Definition numbered (k : nat) (bad : option nat) (i : nat) : res (nat * nat) :=
  match bad with
  | Some b => if i =? b then Raise KeyError else Ok (k + i, 10 * (k + i))
  | None => Ok (k + i, 10 * (k + i))
  end.
Definition call_ (k : nat) (n : Z) (schedule : list nat) : tasks nat nat := MkT n (numbered k None) schedule.
Definition bad_call (k : nat) (n : Z) (b : nat) (schedule : list nat) : tasks nat nat := MkT n (numbered k (Some b)) schedule.

(** the aggregator of the model of LearnChecks, with two different priors *)
Definition draw_em (i : nat) (v : var) : list num :=
  match i with 0 => map q [-1#4; -1#4] | _ => map q [-1#8; -3#8] end.
Definition gen_em : nat -> res (learner em_state * pgm) := em_generate em_query plain_iter equality_test VNumpy m_em fr_em None 5 draw_em.
Definition value_of (r : res (learner em_state * pgm)) (o : obs) (x : num) : bool :=
  match r with Ok (_, m) => okb (value_in m "U" o) x | Raise _ => false end.
Definition prior_of (r : res (learner em_state * pgm)) (o : obs) (x : num) : bool :=
  match r with Ok (l, _) => okb (value_in (l_prior l) "U" o) x | Raise _ => false end.
Lemma gen_em_ok : 
  value_of (gen_em 0) [("U", SInt 0)] (q (3#4)) = true /\ value_of (gen_em 1) [("U", SInt 0)] (q (3#4)) = true /\
  prior_of (gen_em 0) [("U", SInt 0)] (q (1#2)) = true /\ prior_of (gen_em 1) [("U", SInt 0)] (q (1#4)) = true.
Proof. repeat split; vm_compute; reflexivity. Qed.
Lemma m_em_graph : wf_graph (m_graph m_em) /\ acyclic (m_graph m_em).
Proof. apply dagb_sound. vm_compute. reflexivity. Qed.
Lemma m_em_trainable : agg_trainable m_em None = ["U"].
Proof. vm_compute. reflexivity. Qed.
