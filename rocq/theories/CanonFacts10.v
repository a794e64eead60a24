(** Counterfactual queries in a structural model and in the one with canonical
    equations. *)

From Coq Require Import String Bool Arith ZArith QArith Qcanon Lia Permutation List.
From Verif Require Import PyBase Num DomainModel NdArray StoreModel NumStore FactorModel GenModel GraphModel ModelModel Spec StoreSpec FactorSpec GraphSpec ModelSpec GenSpec NetSpec CausalSpec CanonSpec InferModel CausalModel
  NumFacts PyFacts StoreFacts FactorFacts PropFacts1 NetFacts CausalFacts CausalFacts2 CfFacts PropFacts5 CanonFacts9.
From Coq Require Import List.
Import ListNotations.
Local Open Scope nat_scope.
Local Open Scope list_scope.
Local Arguments eqd : simpl never.

Section Queries.
  Variables (m : pgm) (D : domain) (F : var -> mfactor) (vt : vtype) (endo : list var) (cast : bool) (X : list var) (U : var -> var) (lu : var -> list state).
  Notation g := (m_graph m).
  Hypothesis H : causal m D F vt endo cast.
  Hypothesis PR : plain_roots m.
  Hypothesis Nn : nonnegative D F.
  Hypothesis Vt : vt <> VNumpy.
  Hypothesis Mk : markovian g X U.
  Hypothesis Rs : response_states D g X U lu.
  Notation D' := (with_states D X lu).
  Notation ps := (inner_parents g X).

  Lemma known_other o : known D o -> (forall v, In v (keys o) -> ~ In v X) -> known D' o.
  Proof.
    intros K N v l s J E. apply (K v l s); [|assumption]. apply (k_inner D X lu v l); [|assumption]. apply N, dget_keys. eauto.
  Qed.
  Lemma truth_other v tf t f : ~ In v X -> truth_states D v tf t f -> truth_states D' v tf t f.
  Proof. intros N (l & I & R). exists l. split; [now apply (k_inner D X lu v l)|exact R]. Qed.
  Lemma world_keys i ti xs v : In v (keys (in_world i ti xs)) -> exists j, In (v, j) ti.
  Proof.
    intros J. unfold in_world, keys in J. rewrite map_map in J. apply in_map_iff in J as (((w & j) & s) & <- & J). cbn [fst].
    apply filter_In in J as [J _]. apply in_combine_l in J. eauto.
  Qed.

  Lemma scm_queries : exists fs M,
    (forall v, In v (nodes g) -> ~ In v X -> exists l f t, In (v, l) D /\
       canonical_deterministic ((v, l) :: (U v, lu (U v)) :: order_dom D (ps v)) (U v) (ps v) vt = Ok f /\
       In (v, FD f) fs /\ In (U v, FM t) fs) /\
    scm_init (GDag g) (Some (FsDict fs)) None false true = Ok M /\ m_graph M = g /\
    forall heur so, is_heuristic heur -> is_set_order so ->
    (forall dd dos, do_list dd = dos -> interventions g D dos -> fresh_names g X dos ->
     forall e, incl (keys e) (nodes g) -> (forall v, In v (keys e) -> ~ In v X) ->
     forall ts sub ti, ti = combine ts sub -> targets_ok g X dos ti ->
     (forall d v, In d dos -> In v (keys d) -> ~ In v X /\ keeps_child g d v) ->
     cf_mass D F X [([], e)] <> 0%Qc ->
     exists m1 M1 r R, cve_init m = Ok m1 /\ cve_init M = Ok M1 /\
       counterfactual_query heur so m1 ts dd e (Some sub) = Ok r /\ counterfactual_query heur so M1 ts dd e (Some sub) = Ok R /\
       same_set (mf_vars R) (mf_vars r) /\
       forall xs, states_of D ti xs -> exists y, mf_get_value r (combine (copy_names ti) xs) = Ok y /\ mf_get_value R (combine (copy_names ti) xs) = Ok y) /\
    (forall cause effect tfc tfe tc fc te fe, truth_states D cause tfc tc fc -> truth_states D effect tfe te fe -> cause <> effect ->
     ~ In cause X -> ~ In effect X -> (exists w, arc g cause w) -> fresh_names g X [[(cause, fc)]; [(cause, tc)]] ->
     exists m1 M1 y, cve_init m = Ok m1 /\ cve_init M = Ok M1 /\
       prob_necessity_sufficiency heur so m1 cause effect tfc tfe = Ok y /\ prob_necessity_sufficiency heur so M1 cause effect tfc tfe = Ok y).
  Proof.
    destruct (scm_canonical m D F vt endo cast X U lu H Nn Vt Mk Rs) as (fs & M & F' & endo' & A1 & A2 & A3 & A4 & A5 & A6 & A7).
    exists fs, M. split; [assumption|]. split; [assumption|]. split; [assumption|]. intros heur so Hh Hs.
    assert (HX : roots g X) by exact (proj1 Mk). assert (HX' : roots (m_graph M) X) by (rewrite A3; exact HX). split.
    - intros dd dos Ed Hd Fr e Ie Ne ts sub ti Et Ht Ch Me.
      assert (Te : cf_mass D' F' X [([], e)] = cf_mass D F X [([], e)]).
      { apply A7. intros d t [[= <- <-] | []]. exact Ne. }
      destruct (counterfactual_ok m D F vt endo cast H PR X HX heur so Hh Hs dd dos Ed Hd Fr e Ie ts sub ti Et Ht Ch Me)
        as (m1 & r & e1 & e2 & _ & _ & e5 & _ & _ & _ & e9).
      destruct (counterfactual_ok M D' F' vt endo' false A4 A5 X HX' heur so Hh Hs dd dos Ed) with (e := e) (ts := ts) (sub := sub) (ti := ti)
        as (M1 & R & f1 & f2 & _ & _ & f5 & _ & _ & _ & f9); rewrite ?A3; try assumption.
      + intros d J. destruct (Hd d J) as (K1 & K2 & K3). split; [|split; assumption]. apply known_other; [assumption|].
        intros v Jv. now apply (Ch d v).
      + exact (fun Z => Me (eq_trans (eq_sym Te) Z)).
      + exists m1, M1, r, R. split; [assumption|]. split; [assumption|]. split; [assumption|]. split; [assumption|].
        split; [intros v; rewrite (f5 v), (e5 v); reflexivity|]. intros xs Sx. eexists. split; [exact (e9 xs Sx)|].
        destruct Ht as (_ & _ & Ht). assert (Sx' : states_of D' ti xs).
        { unfold states_of in *. assert (Hn : forall v i, In (v, i) ti -> ~ In v X) by (intros v i J; now apply (Ht v i)).
          clear - Sx Hn. induction Sx as [|[v i] x ti xs (l & I & J) S IH]; constructor.
          - exists l. split; [|assumption]. cbn [fst] in *. apply (k_inner D X lu v l); [|assumption]. apply (Hn v i). now left.
          - apply IH. intros w j Jw. apply (Hn w j). now right. }
        refine (eq_trans (f9 xs Sx') (f_equal2 (fun x y => Ok (Fin (x / y)%Qc)) (A7 _ _) Te)). intros d t J. unfold cf_events in J. destruct J as [[= <- <-] | J]; [exact Ne|].
        apply in_map_iff in J as ((i & d') & [= <- <-] & J). cbn [fst snd]. intros v Jv. apply world_keys in Jv as (j & Jv). now apply (Ht v j).
    - intros cause effect tfc tfe tc fc te fe Tc Tf Nce Nc Nf Ch Fr.
      destruct (pns_ok m D F vt endo cast H PR X HX heur so Hh Hs cause effect tfc tfe tc fc te fe Tc Tf Nce Nc Nf Ch Fr) as (m1 & e1 & e2).
      destruct (pns_ok M D' F' vt endo' false A4 A5 X HX' heur so Hh Hs cause effect tfc tfe tc fc te fe) as (M1 & f1 & f2); rewrite ?A3; try assumption.
      + now apply truth_other.
      + now apply truth_other.
      + eexists m1, M1, _. split; [assumption|]. split; [assumption|]. split; [exact e2|]. refine (eq_trans f2 (f_equal (fun x => Ok (Fin x)) (A7 _ _))).
        intros d t [[= <- <-] | [[= <- <-] | []]] v [<- | []]; assumption.
  Qed.
End Queries.
