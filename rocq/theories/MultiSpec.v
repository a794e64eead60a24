(** Vocabulary of the statements about inference with several models. *)

From Coq Require Import String Bool Arith ZArith QArith Qcanon List.
From Verif Require Import PyBase Num DomainModel NdArray StoreModel NumStore FactorModel GenModel GraphModel ModelModel InferModel
  CausalModel MultiModel Spec StoreSpec FactorSpec GraphSpec ModelSpec NetSpec CausalSpec.
Import ListNotations.
Local Open Scope nat_scope.

Section MultiSpec.
  Context {I : Type}.
  Variable make : pgm -> res I.
  Variable ask : I -> request -> res mfactor.
  Variable dflt : vtype.

  (** The precise answer for one model. *)
  Definition precise (rq : request) (m : pgm) (f : mfactor) : Prop := exists inf, make m = Ok inf /\ ask inf rq = Ok f.

  (** The models in a list that is passed to a method. *)
  Definition content (w : world I) (models : option nat) : list pgm :=
    match models with Some k => nth k (w_lists w) [] | None => [] end.

  (** What every object holds: the models set or added so far (those in the
      given list at the time of the call), and whether its answers are
      intervals. *)
  Definition held := nat -> list pgm * bool.
  Definition change (h : held) (i : nat) (x : list pgm * bool) : held := fun j => if j =? i then x else h j.
  Definition holds_after (w : world I) (h : held) (s : op) : held :=
    match s with
    | OMulti models interval => change h (length (w_objects w)) (content w models, interval)
    | OTrained _ interval => change h (length (w_objects w)) ([], interval)
    | OSet i models => change h i (content w models, snd (h i))
    | OAdd i models => change h i (fst (h i) ++ content w models, snd (h i))
    | OInterval i b => change h i (fst (h i), b)
    | _ => h
    end.

  (** The list of the object [i] is no other object's. *)
  Definition unshared (w : world I) (i : nat) : Prop :=
    forall j oi oj, nth_error (w_objects w) i = Some oi -> nth_error (w_objects w) j = Some oj ->
      mi_models oi = mi_models oj -> j = i.
  (** [reaches w h w' h'] : the statements [ss] lead from one to the other.  No
      object trains its own models, lists and objects exist before they are
      used, and models are only added to lists that are not shared. *)
  Definition allowed (w : world I) (s : op) : Prop :=
    let object i := i < length (w_objects w) in
    let list k := forall n, k = Some n -> n < length (w_lists w) in
    match s with
    | OTrained _ _ => False
    | OList _ => True
    | OMulti models _ => list models
    | OSet i models => object i /\ list models
    | OAdd i models => object i /\ list models /\ unshared w i
    | OInterval i _ | OCompile i | OMore i | OQuery i _ | OProb i _ _ _ _ _ => object i
    end.
  Inductive reaches : list op -> world I -> held -> Prop :=
  | reach_nil h : reaches [] (MkW [] []) h
  | reach_app ss w h s : reaches ss w h -> allowed w s ->
      reaches (ss ++ [s]) (fst (exec make ask dflt w s)) (holds_after w h s).

  (** The answer to the next call. *)
  Definition query_answer (w : world I) (i : nat) (rq : request) : res answer := snd (exec make ask dflt w (OQuery i rq)).
  Definition prob_answer (w : world I) (i : nat) p cause effect tfc tfe : res answer :=
    snd (exec make ask dflt w (OProb i p cause effect tfc tfe)).

  (** The object was compiled and its models not changed since. *)
  Definition is_compiled (w : world I) (i : nat) : Prop :=
    exists o, nth_error (w_objects w) i = Some o /\ mi_compiled o = true.
End MultiSpec.

(** [lo] and [hi] are the least and the greatest of the numbers. *)
Definition range (l : list Qc) (lo hi : Qc) : Prop :=
  In lo l /\ In hi l /\ forall x, In x l -> (lo <= x)%Qc /\ (x <= hi)%Qc.

(** ** The probabilities of causation *)

(** The states true and false that a call uses: the given pair, or those
    recognised in the domain of the first model of a compiled object. *)
Definition settled {I} (w : world I) (h : held) (i : nat) (v : var) (given : option (state * state)) (t f : state) : Prop :=
  match given with
  | Some p => p = (t, f)
  | None => is_compiled w i /\ exists m l, hd_error (fst (h i)) = Some m /\ has_domain m v l /\ identify_true_false v l = Ok (t, f)
  end.

(** The interventions, and the probability of the evidence, for each of them. *)
Definition prob_dos (p : probability) (cause : var) (tc fc : state) : list obs :=
  match p with PNS => [[(cause, fc)]; [(cause, tc)]] | PN => [[(cause, fc)]] | PS => [[(cause, tc)]] end.
Definition prob_given (p : probability) D F X (cause effect : var) (tc fc te fe : state) : Qc :=
  match p with
  | PNS => 1
  | PN => cf_mass D F X [([], [(cause, tc); (effect, te)])]
  | PS => cf_mass D F X [([], [(cause, fc); (effect, fe)])]
  end.
Definition prob_joint (p : probability) D F X (cause effect : var) (tc fc te fe : state) : Qc :=
  match p with
  | PNS => cf_mass D F X [([(cause, fc)], [(effect, fe)]); ([(cause, tc)], [(effect, te)])]
  | PN => cf_mass D F X [([], [(cause, tc); (effect, te)]); ([(cause, fc)], [(effect, fe)])]
  | PS => cf_mass D F X [([], [(cause, fc); (effect, fe)]); ([(cause, tc)], [(effect, te)])]
  end.
(** The structural causal model [m] over [D] has the probability [x]. *)
Definition has_probability (p : probability) (D : domain) (cause effect : var) (tc fc te fe : state) (m : pgm) (x : Qc) : Prop :=
  exists F vt endo cast X, causal m D F vt endo cast /\ plain_roots m /\ roots (m_graph m) X /\
    ~ In cause X /\ ~ In effect X /\ (exists v, arc (m_graph m) cause v) /\ fresh_names (m_graph m) X (prob_dos p cause tc fc) /\
    prob_given p D F X cause effect tc fc te fe <> 0%Qc /\
    x = (prob_joint p D F X cause effect tc fc te fe / prob_given p D F X cause effect tc fc te fe)%Qc.

(** The structural causal model [m] over [D] gives [x] to the state [s] of [v]
    under the intervention [d] with the evidence [e]. *)
Definition has_effect (D : domain) (d e : obs) (v : var) (m : pgm) (x : state -> Qc) : Prop :=
  exists F vt endo cast, causal m D F vt endo cast /\ plain_roots m /\
    NoDup (keys d) /\ incl (keys d) (nodes (m_graph m)) /\ known D d /\ incl (keys e) (nodes (m_graph m)) /\
    In v (nodes (m_graph m)) /\ ~ In v (keys d) /\ ~ In v (keys e) /\ do_mass D F d (outside d e) <> 0%Qc /\
    forall s, x s = (do_mass D F d ((v, s) :: outside d e) / do_mass D F d (outside d e))%Qc.
