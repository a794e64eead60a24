(** The identities and bounds of Tian and Pearl for PN, PS and PNS. *)

From Coq Require Import String Bool Arith Lia ZArith QArith Qcanon Permutation List.
From Verif Require Import PyBase Num NumFacts DomainModel NdArray StoreModel NumStore FactorModel GraphModel ModelModel InferModel CausalModel
  PyFacts Spec StoreSpec StoreFacts FactorSpec FactorFacts FactorFacts2 GraphSpec GraphFacts ModelSpec ModelFacts NetSpec NetFacts NetSem FactorSem
  BigSum BuildFacts BuildFacts2 VeFacts4 CausalSpec CausalFacts CausalFacts2 CfFacts CfFacts2 CfFacts3 PropFacts1 PropFacts4 PropFacts5 EmMath LawSpec LawFacts.
Import ListNotations.
Local Open Scope nat_scope.
Local Arguments eqd : simpl never.

(** ** Linear combinations of sums over units *)
Section Comb.
  Context {A : Type} (U : list A) (w : A -> Qc).
  Definition S_of (p : A -> bool) : Qc := qsum (map (fun u => if p u then w u else 0%Qc) U).
  Fixpoint comb (cs : list (Qc * (A -> bool))) : Qc := match cs with [] => 0%Qc | (c, p) :: cs => (c * S_of p + comb cs)%Qc end.
  Fixpoint pointw (cs : list (Qc * (A -> bool))) (u : A) : Qc :=
    match cs with [] => 0%Qc | (c, p) :: cs => (c * (if p u then 1 else 0) + pointw cs u)%Qc end.
  Lemma comb_sum cs : comb cs = qsum (map (fun u => (pointw cs u * w u)%Qc) U).
  Proof.
    induction cs as [|[c p] cs IH]; cbn [comb].
    - symmetry. induction U as [|u l IH]; [reflexivity|]. change (qsum (map (fun u => (pointw [] u * w u)%Qc) (u :: l))) with
        (pointw [] u * w u + qsum (map (fun u => (pointw [] u * w u)%Qc) l))%Qc. rewrite IH. cbn [pointw]. ring.
    - rewrite IH. unfold S_of. clear IH. induction U as [|u l IH].
      + change (c * 0 + 0 = 0)%Qc. ring.
      + assert (E : forall f : A -> Qc, qsum (map f (u :: l)) = (f u + qsum (map f l))%Qc) by reflexivity. rewrite !E. clear E.
        rewrite <- IH. cbn [pointw]. destruct (p u); ring.
  Qed.
  Lemma comb_nonneg cs : (forall u, In u U -> (0 <= w u)%Qc) -> (forall u, In u U -> (0 <= pointw cs u)%Qc) -> (0 <= comb cs)%Qc.
  Proof.
    intros W P. rewrite comb_sum. clear -W P. induction U as [|u l IH]; [discriminate|].
    change (0 <= pointw cs u * w u + qsum (map (fun u => (pointw cs u * w u)%Qc) l))%Qc.
    assert (A0 : (0 <= qsum (map (fun u => (pointw cs u * w u)%Qc) l))%Qc) by (apply IH; intros; [apply W|apply P]; now right).
    assert (A1 := W u (or_introl eq_refl)). assert (A2 := P u (or_introl eq_refl)). qcnra.
  Qed.
  Lemma comb_zero cs : (forall u, In u U -> pointw cs u = 0%Qc) -> comb cs = 0%Qc.
  Proof.
    intros P. rewrite comb_sum. clear -P. induction U as [|u l IH]; [reflexivity|].
    change (pointw cs u * w u + qsum (map (fun u => (pointw cs u * w u)%Qc) l) = 0)%Qc.
    rewrite IH by (intros; apply P; now right). rewrite (P u) by now left. ring.
  Qed.
End Comb.

Section Bounds.
  Variables (m : pgm) (D : domain) (F : var -> mfactor) (vt : vtype) (endo : list var) (cast : bool).
  Hypothesis H : causal m D F vt endo cast.
  Hypothesis PR : plain_roots m.
  Notation g := (m_graph m).
  Variable X : list var.
  Hypothesis HX : roots g X.
  Variables (heur : digraph -> list var -> dict var nat -> res (list var)) (so : list (list var) -> list var).
  Hypothesis Hh : is_heuristic heur.
  Hypothesis Hs : is_set_order so.
  Notation U := (all_assignments (pick X D)).
  Notation wt := (joint F (keys (pick X D))).
  Notation hap := (happens D F X).
  Notation cf := (cf_mass D F X).

  Lemma happens_none d u : known D d -> NoDup (keys d) -> In u U -> hap u d [] = true.
  Proof.
    intros K N I. destruct (units m D F vt endo cast H PR X HX d u K N I) as (o & _ & _ & _ & _ & Hp).
    rewrite Hp. unfold consistent. now apply forallb_forall.
  Qed.
  Lemma do_total d : known D d -> NoDup (keys d) -> (forall v, In v (keys d) -> ~ In v X) -> do_mass D F d [] = 1%Qc.
  Proof.
    intros K N J. rewrite (do_units m D F vt endo cast H PR X HX) by auto. rewrite <- (all_units m D F vt endo cast H PR X HX).
    unfold cf_mass. f_equal. f_equal. apply filter_ext_in_. intros u I. cbn [forallb fst snd]. now rewrite happens_none.
  Qed.

  (** an interventional query without evidence answers with the mass *)
  Lemma ask d T t : known D d -> NoDup (keys d) -> incl (keys d) (nodes g) -> (forall v, In v (keys d) -> ~ In v X) ->
    NoDup T -> T <> [] -> incl T (nodes g) -> (forall v, In v T -> ~ In v (keys d)) -> assigns D T t ->
    forall m1, cve_init m = Ok m1 -> answer (causal_query heur so m1 T (DoDict d) []) t (do_mass D F d t).
  Proof.
    intros K N In1 J NT Te IT Nd A m1 E. assert (One := do_total d K N J).
    destruct (causal_query_ok m D F vt endo cast H PR heur so Hh Hs d N In1 [] T K NT Te IT ltac:(intros v [])) as (m1' & r & E1 & Er & _ & _ & _ & _ & _ & _ & V & _).
    - intros v I. split; [auto|intros []].
    - cbn [outside filter]. rewrite One. discriminate.
    - assert (m1' = m1) as -> by congruence. exists r. split; [exact Er|]. rewrite (V t A). f_equal. f_equal. cbn [outside filter].
      rewrite app_nil_r, One. field. discriminate.
  Qed.

  Variables (cause effect : var) (tfc tfe : option (state * state)) (tc fc te fe : state).
  Hypothesis Hc : truth_states D cause tfc tc fc.
  Hypothesis He : truth_states D effect tfe te fe.
  Hypothesis Ne : cause <> effect.
  Hypothesis Nc : ~ In cause X.
  Hypothesis Nf : ~ In effect X.
  Hypothesis Ch : exists w, arc g cause w.
  Hypothesis Fr : fresh_names g X [[(cause, fc)]; [(cause, tc)]].

  Lemma one_fresh x : fresh_names g X [[(cause, x)]].
  Proof. destruct Fr as [A B]. split; [auto|]. intros v i I J L. apply B; auto. cbn in *. lia. Qed.
  Lemma known_c x : x = tc \/ x = fc -> known D [(cause, x)].
  Proof. intros Hx. destruct Hc as (l & I & It & If & _). apply (known_one m D F vt endo cast H) with l; auto. destruct Hx as [-> | ->]; auto. Qed.
  Lemma nodup_c x : NoDup (keys [(cause, x : state)]).
  Proof. repeat constructor. intros []. Qed.
  Lemma known_nil : known D [].
  Proof. intros v l s _ E. discriminate E. Qed.
  Lemma assigns_one v given t f x : truth_states D v given t f -> x = t \/ x = f -> assigns D [v] [(v, x)].
  Proof.
    intros (l & I & It & If & _) Hx. split; [reflexivity|]. intros w l' J. apply filter_In in J as [J M]. cbn in M.
    destruct (eqd w v) as [->|]; [|discriminate]. exists x. cbn. rewrite eqd_refl. split; [auto|].
    assert (l' = l) as -> by (eapply dom_unique; [apply H|exact J|exact I]). destruct Hx as [-> | ->]; auto.
  Qed.
  Lemma assigns_both x y : x = tc \/ x = fc -> y = te \/ y = fe -> assigns D [cause; effect] [(cause, x); (effect, y)].
  Proof.
    intros Hx Hy. split; [reflexivity|]. intros w l' J. apply filter_In in J as [J M]. apply mem_In in M. cbn in M.
    destruct Hc as (l & I & It & If & _), He as (k & I2 & It2 & If2 & _). cbn. destruct M as [<-|[<-|[]]].
    - rewrite eqd_refl. exists x. split; [auto|]. assert (l' = l) as -> by (eapply dom_unique; [apply H|exact J|exact I]). destruct Hx as [-> | ->]; auto.
    - rewrite eqd_neq by auto. rewrite eqd_refl. exists y. split; [auto|].
      assert (l' = k) as -> by (eapply dom_unique; [apply H|exact J|exact I2]). destruct Hy as [-> | ->]; auto.
  Qed.

  (** what the queries answer, as sums over the units *)
  Notation Sm := (S_of U wt).
  Lemma ask_do x y m1 : cve_init m = Ok m1 -> x = tc \/ x = fc -> y = te \/ y = fe ->
    answer (causal_query heur so m1 [effect] (DoDict [(cause, x)]) []) [(effect, y)] (Sm (fun u => hap u [(cause, x)] [(effect, y)])).
  Proof.
    intros E Hx Hy. assert (Ic : In cause (nodes g)) by (eapply (node_of m D F vt endo cast); eauto).
    assert (Ie : In effect (nodes g)) by (eapply (node_of m D F vt endo cast); eauto). assert (A := assigns_one effect _ _ _ y He Hy).
    assert (Q := ask [(cause, x)] [effect] [(effect, y)] (known_c x Hx) (nodup_c x)).
    rewrite (do_units m D F vt endo cast H PR X HX) in Q; [|now apply known_c|apply nodup_c|intros v [<-|[]]; auto].
    rewrite cf_sum in Q. unfold S_of. erewrite map_ext_in; [apply Q; auto|].
    - intros v [<-|[]]; auto.
    - intros v [<-|[]]; auto.
    - repeat constructor. intros [].
    - discriminate.
    - intros v [<-|[]]; auto.
    - intros v [<-|[]] [E1|[]]. auto.
    - intros u _. cbn [forallb fst snd]. now rewrite andb_true_r.
  Qed.
  Lemma ask_see T t m1 : cve_init m = Ok m1 -> NoDup T -> T <> [] -> incl T (nodes g) -> assigns D T t ->
    answer (causal_query heur so m1 T (DoDict []) []) t (Sm (fun u => hap u [] t)).
  Proof.
    intros E NT Te IT A.
    assert (Q := ask [] T t known_nil ltac:(constructor) ltac:(intros v []) ltac:(intros v []) NT Te IT ltac:(intros v _ []) A m1 E).
    rewrite (do_units m D F vt endo cast H PR X HX) in Q; [|apply known_nil|constructor|intros v []].
    rewrite cf_sum in Q. unfold S_of. erewrite map_ext_in; [apply Q|]. intros u _. cbn [forallb fst snd]. now rewrite andb_true_r.
  Qed.

  (** per unit *)
  Lemma pair_see u x y : In u U -> hap u [] [(cause, x); (effect, y)] = hap u [] [(cause, x)] && hap u [] [(effect, y)].
  Proof. intros I. apply (happens_two m D F vt endo cast H PR X HX); auto; [apply known_nil|constructor]. Qed.
  Lemma consist u x t : In u U -> x = tc \/ x = fc -> hap u [] [(cause, x)] = true -> hap u [(cause, x)] t = hap u [] t.
  Proof.
    intros I Hx E. change [(cause, x)] with ([(cause, x)] ++ []) at 1. apply (composition m D F vt endo cast H PR X HX); auto.
    - apply known_nil.
    - cbn. now apply known_c.
    - apply nodup_c.
    - constructor.
  Qed.
  Lemma flips d v t f u : known D d -> NoDup (keys d) -> two_states D v t f -> In u U -> hap u d [(v, f)] = negb (hap u d [(v, t)]).
  Proof.
    intros K N (l & I & S1 & Ntf) Iu. destruct (one_happens m D F vt endo cast H PR X HX d u v l K N Iu I) as (s & Is & Hv).
    rewrite !Hv. apply S1 in Is as [<-|[<-|[]]].
    - rewrite eqd_refl, eqd_neq by auto. reflexivity.
    - rewrite eqd_refl, eqd_neq by auto. reflexivity.
  Qed.
  Lemma excludes d v t f u l : known D d -> NoDup (keys d) -> In (v, l) D -> t <> f -> In u U -> hap u d [(v, f)] = true -> hap u d [(v, t)] = false.
  Proof.
    intros K N I Ntf Iu. destruct (one_happens m D F vt endo cast H PR X HX d u v l K N Iu I) as (s & Is & Hv). rewrite !Hv.
    destruct (eqd f s) as [->|]; [|discriminate]. now rewrite eqd_neq by auto.
  Qed.

  Lemma pns_S : exists m1, cve_init m = Ok m1 /\ prob_necessity_sufficiency heur so m1 cause effect tfc tfe =
    Ok (Fin (Sm (fun u => hap u [(cause, fc)] [(effect, fe)] && hap u [(cause, tc)] [(effect, te)]))).
  Proof.
    destruct (pns_ok m D F vt endo cast H PR X HX heur so Hh Hs cause effect tfc tfe tc fc te fe Hc He Ne Nc Nf Ch Fr) as (m1 & E & V).
    exists m1. split; [auto|]. rewrite V, cf_sum. f_equal. f_equal. unfold S_of. f_equal. apply map_ext_in. intros u _.
    cbn [forallb fst snd]. now rewrite andb_true_r.
  Qed.
  Lemma pn_S m1 : cve_init m = Ok m1 -> let p := Sm (fun u => hap u [] [(cause, tc); (effect, te)]) in p <> 0%Qc ->
    prob_necessity heur so m1 cause effect tfc tfe =
    Ok (Fin (Sm (fun u => hap u [] [(cause, tc); (effect, te)] && hap u [(cause, fc)] [(effect, fe)]) / p)%Qc).
  Proof.
    intros E p P. assert (Ep : cf [([], [(cause, tc); (effect, te)])] = p).
    { rewrite cf_sum. unfold p, S_of. f_equal. apply map_ext_in. intros u _. cbn [forallb fst snd]. now rewrite andb_true_r. }
    destruct (pn_ok m D F vt endo cast H PR X HX heur so Hh Hs cause effect tfc tfe tc fc te fe Hc He Ne Nc Nf Ch (one_fresh fc)) as (m1' & E' & V).
    { rewrite Ep. exact P. }
    assert (m1' = m1) as -> by congruence. rewrite V, Ep. f_equal. f_equal. f_equal. rewrite cf_sum. unfold S_of. f_equal. apply map_ext_in. intros u _.
    cbn [forallb fst snd]. now rewrite andb_true_r.
  Qed.
  Lemma ps_S m1 : cve_init m = Ok m1 -> let p := Sm (fun u => hap u [] [(cause, fc); (effect, fe)]) in p <> 0%Qc ->
    prob_sufficiency heur so m1 cause effect tfc tfe =
    Ok (Fin (Sm (fun u => hap u [] [(cause, fc); (effect, fe)] && hap u [(cause, tc)] [(effect, te)]) / p)%Qc).
  Proof.
    intros E p P. assert (Ep : cf [([], [(cause, fc); (effect, fe)])] = p).
    { rewrite cf_sum. unfold p, S_of. f_equal. apply map_ext_in. intros u _. cbn [forallb fst snd]. now rewrite andb_true_r. }
    destruct (ps_ok m D F vt endo cast H PR X HX heur so Hh Hs cause effect tfc tfe tc fc te fe Hc He Ne Nc Nf Ch (one_fresh tc)) as (m1' & E' & V).
    { rewrite Ep. exact P. }
    assert (m1' = m1) as -> by congruence. rewrite V, Ep. f_equal. f_equal. f_equal. rewrite cf_sum. unfold S_of. f_equal. apply map_ext_in. intros u _.
    cbn [forallb fst snd]. now rewrite andb_true_r.
  Qed.
End Bounds.
