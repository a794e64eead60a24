(** Counterfactual queries about what was observed are observational. *)

From Coq Require Import String Bool Arith Lia ZArith QArith Qcanon Permutation List.
From Verif Require Import PyBase Num NumFacts DomainModel DomainFacts NdArray StoreModel NumStore FactorModel GraphModel ModelModel InferModel LearnModel CausalModel
  PyFacts Spec StoreSpec StoreFacts FactorSpec FactorFacts FactorFacts2 GraphSpec GraphFacts GraphFacts2 ModelSpec ModelFacts NetSpec NetFacts NetSem FactorSem
  BigSum BuildFacts BuildFacts2 PropFacts1 VeFacts VeFacts2 VeFacts3 VeFacts4 VeFacts5 OrderSpec CausalSpec CausalFacts CausalFacts2 CfFacts PropFacts5 SepSpec
  LawSpec LawFacts CalcSpec CalcFacts1 CalcFacts2 CalcFacts3 CalcFacts4 CalcFacts5.
From Coq Require Import List.
Import ListNotations.
Local Open Scope nat_scope.
Local Arguments eqd : simpl never.

Lemma world_one T (xs : list state) : length xs = length T -> in_world 1 (map (fun v => (v, 1)) T) xs = combine T xs.
Proof.
  unfold in_world. revert xs. induction T as [|v T IH]; intros [|x xs] L; try discriminate L; [reflexivity|].
  cbn [map combine filter snd fst Nat.eqb]. rewrite IH by (now injection L). reflexivity.
Qed.
Lemma combine_one (T : list var) : combine T (map (fun _ => 1) T) = map (fun v => (v, 1)) T.
Proof. induction T; cbn; congruence. Qed.

Section Consistency.
  Variables (m : pgm) (D : domain) (F : var -> mfactor) (vt : vtype) (endo : list var) (cast : bool).
  Hypothesis H : causal m D F vt endo cast.
  Hypothesis PR : plain_roots m.
  Variable X : list var.
  Hypothesis HX : roots (m_graph m) X.
  Variables (heur : digraph -> list var -> dict var nat -> res (list var)) (so : list (list var) -> list var).
  Hypothesis Hh : is_heuristic heur.
  Hypothesis Hs : is_set_order so.
  Notation g := (m_graph m).

  Lemma consistency d e T : states_for g D d -> (forall v, In v (keys d) -> ~ In v X /\ keeps_child g d v) -> fresh_names g X [d] ->
    incl (keys e) (nodes g) -> (forall v s, dget v d = Some s -> dget v e = Some s) ->
    NoDup T -> T <> [] -> incl T (nodes g) -> (forall v, In v T -> ~ In v X /\ ~ In v (keys e)) -> mass D F e <> 0%Qc ->
    exists m1, cve_init m = Ok m1 /\ forall xs, length xs = length T -> assigns D T (combine T xs) ->
      exists p, answer (counterfactual_query heur so m1 T (DoDict d) e (Some (map (fun _ => 1) T))) (combine (copy_names (map (fun v => (v, 1)) T)) xs) p /\
                answer (causal_query heur so m1 T (DoDict []) e) (combine T xs) p.
  Proof.
    intros Sd Cd Fr Ie Sub NT Te IT DT Pos.
    assert (Ndt : forall v, In v T -> ~ In v (keys d)).
    { intros v J K. apply dget_keys in K as (s & Es). apply (proj2 (DT v J)), dget_keys. exists s. auto. }
    destruct (counterfactual_ok m D F vt endo cast H PR X HX heur so Hh Hs (DoDict d) [d] eq_refl) with (e := e) (ts := T) (sub := map (fun _ : var => 1) T) (ti := map (fun v : var => (v, 1)) T)
      as (m1 & r & E1 & Er & _ & _ & _ & _ & _ & _ & Val); auto.
    { intros d' [<-|[]]. exact Sd. }
    { now rewrite combine_one. }
    { split; [apply FinFun.Injective_map_NoDup; [intros a b E; now injection E|auto]|]. split; [destruct T; [congruence|discriminate]|].
      intros v i J. apply in_map_iff in J as (w & E & J). injection E as <- <-. split; [auto|]. split; [now apply DT|]. exists d. split; [now left|auto]. }
    { intros d' v [<-|[]] J. auto. }
    { rewrite <- (mass_law m D F vt endo cast H PR X HX). exact Pos. }
    exists m1. split; [auto|]. intros xs L A.
    exists (mass D F (combine T xs ++ e) / mass D F e)%Qc. split.
    - exists r. split; [auto|]. rewrite Val.
      + apply (f_equal Ok), (f_equal Fin). rewrite (mass_law m D F vt endo cast H PR X HX e). f_equal.
        rewrite (mass_law m D F vt endo cast H PR X HX). unfold cf_events, worlds. cbn [length seq combine map fst snd].
        rewrite (world_one T xs L). unfold cf_mass. f_equal. f_equal. apply filter_ext_in_. intros u Iu. cbn [forallb fst snd]. rewrite !andb_true_r.
        assert (Kn : known D []) by (intros v l s _ E; discriminate E).
        assert (Hu := units m D F vt endo cast H PR X HX [] u Kn (NoDup_nil _) Iu). destruct Hu as (o & Io & _ & _ & _ & Ho).
        assert (Hc : happens D F X u [] (combine T xs ++ e) = happens D F X u [] (combine T xs) && happens D F X u [] e).
        { rewrite !Ho. apply consistent_both. intros v J. rewrite (proj1 A) in J. now apply DT. }
        rewrite Hc, andb_comm. destruct (happens D F X u [] e) eqn:He; [|now rewrite !andb_false_r].
        rewrite !andb_true_r.
        assert (Hd : happens D F X u [] d = true).
        { rewrite Ho in *. apply (all_assignments_In_full D o) in Io as [Ko Fo]; [|apply (law_wd m D F vt endo cast H)].
          assert (No : NoDup (keys o)) by (rewrite Ko; apply (law_wd m D F vt endo cast H)).
          apply cons_intro; [auto|]. intros v s x Es Ed. apply (cons_get o v s No Es e He x). auto. }
        assert (C := composition m D F vt endo cast H PR X HX [] d u (combine T xs)). rewrite app_nil_r in C. apply C; auto; try apply Sd. constructor.
      + assert (P : forall v x, In (v, x) (combine T xs) -> exists l, In (v, l) D /\ In x l).
        { intros v x J. assert (Jv : In v T) by (apply in_combine_l in J; auto).
          assert (K := IT v Jv). apply (node_keys m D F vt endo cast H), keys_In in K as (l & K). exists l. split; [auto|].
          destruct (proj2 A v l) as (s & Es & Js); [apply filter_In; split; [auto|now apply mem_In]|].
          rewrite (In_dget v x (combine T xs)) in Es; [congruence| |auto]. rewrite (proj1 A). auto. }
        clear -L P. revert xs L P. induction T as [|v T IH]; intros [|x xs] L P; try discriminate L; constructor.
        * apply P. now left.
        * apply IH; [now injection L|]. intros w y J. apply P. now right.
    - destruct (seen m D F vt endo cast H PR heur so Hh Hs e T (combine T xs)) as (m1' & E1' & A'); auto.
      { intros v J. now apply DT. }
      rewrite E1 in E1'. injection E1' as <-. exact A'.
  Qed.
End Consistency.
