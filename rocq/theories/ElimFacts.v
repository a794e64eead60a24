(** The tables that variable elimination creates are over the neighbours in the
    graph that the heuristics use (C75). *)

From Coq Require Import String Bool Arith ZArith QArith Qcanon Lia Permutation List.
From Verif Require Import PyBase PyFacts Num DomainModel NdArray StoreModel NumStore FactorModel Spec StoreSpec DomainFacts StoreFacts
  NumFacts PropFacts1 StoreMarg2 FactorSpec FactorFacts FactorFacts2 FactorFacts3 BigSum GraphModel GraphSpec GraphFacts GraphFacts2
  ModelModel ModelSpec ModelFacts BuildFacts InferModel NetSpec NetSem FactorSem NetFacts VeFacts VeFacts2 VeFacts3 VeFacts4 VeFacts5
  LearnFacts OrderSpec OrderFacts ElimSpec.
From Coq Require Import List.
Import ListNotations.
Local Open Scope nat_scope.
Local Arguments eqd : simpl never.

(** ** Directed paths through eliminated variables *)

Inductive down (g : digraph) (gone : list var) : var -> var -> Prop :=
| dn_one x y : arc g x y -> down g gone x y
| dn_step x w y : arc g x w -> In w gone -> down g gone w y -> down g gone x y.

Lemma down_add g l v x y : down g (l ++ [v]) x y -> down g l x y \/ (down g l x v /\ down g l v y).
Proof.
  induction 1 as [x y A|x w y A I _ IH]; [left; now constructor|].
  apply in_app_or in I as [I|[<-|[]]].
  - destruct IH as [IH|[I1 I2]]; [left; econstructor 2; eauto|right; split; auto; econstructor 2; eauto].
  - right. split; [now constructor|]. destruct IH as [IH|[_ I2]]; auto.
Qed.

Lemma walk_down g Z x t : walk g x t -> ~ In t Z -> exists y, ~ In y Z /\ down g Z x y.
Proof.
  induction 1 as [x y A|x y z A _ IH]; intros N; [exists y; split; auto; now constructor|].
  destruct (in_dec eqd y Z) as [I|I]; [|exists y; split; auto; now constructor].
  destruct (IH N) as (u & Nu & Du). exists u. split; auto. econstructor 2; eauto.
Qed.

Lemma through_sym g l x y : through g l x y -> through g l y x.
Proof.
  induction 1 as [x y M|x w y M I _ IH]; [constructor; now apply moral_sym|].
  eapply through_trans; [exact I|exact IH|]. constructor. now apply moral_sym.
Qed.

(** ** The invariant of the loop *)

Section Elim.
  Variables (g : digraph) (D : domain) (vt : vtype) (G : var -> mfactor).
  Hypothesis Wg : wf_graph g.
  Hypothesis Ac : acyclic g.
  Hypothesis WD : wf_dom D.
  Hypothesis tabs : forall n, In n (nodes g) -> good D vt (G n) /\
    (forall v, In v (mf_vars (G n)) <-> v = n \/ arc g v n) /\ (forall v, In v (mf_left (G n)) <-> v = n).
  Variable ks : list var.
  Hypothesis Hks : same_set ks (nodes g).

  Definition upper (gone : list var) (fs : list mfactor) : Prop :=
    (forall f, In f fs -> good D vt f /\
       forall x, In x (mf_vars f) -> In x (nodes g) /\ ~ In x gone /\
         forall y, In y (mf_vars f) -> x <> y -> through g gone x y) /\
    (forall x, In x (nodes g) -> ~ In x gone -> exists f, In f fs /\ In x (mf_left f)).

  Definition lower (gone : list var) (fs : list mfactor) : Prop :=
    (forall x y, ~ In x gone -> ~ In y gone -> down g gone x y -> exists f, In f fs /\ In x (mf_vars f) /\ In y (mf_left f)) /\
    (forall x y, ~ In x gone -> ~ In y gone -> x <> y -> through g gone x y -> exists f, In f fs /\ In x (mf_vars f) /\ In y (mf_vars f)).

  Lemma upper_start : upper [] (map G ks).
  Proof.
    split.
    - intros f J. apply in_map_iff in J as (n & <- & J). apply Hks in J. destruct (tabs n J) as (Gn & Vn & _). split; auto.
      assert (Nd : forall x, In x (mf_vars (G n)) -> In x (nodes g)).
      { intros x Jx. apply Vn in Jx as [-> | A]; auto. apply Wg in A. tauto. }
      intros x Jx. split; auto. split; [intros []|]. intros y Jy Ne. constructor. split; auto.
      apply Vn in Jx. apply Vn in Jy. destruct Jx as [-> | Ax], Jy as [-> | Ay]; auto; [congruence|]. right. right. eauto.
    - intros x J _. exists (G x). split; [now apply in_map, Hks|]. destruct (tabs x J) as (_ & _ & Ln). now apply Ln.
  Qed.

  Lemma lower_start : lower [] (map G ks).
  Proof.
    assert (Fam : forall n v, arc g v n -> In n (nodes g)) by (intros n v A; apply Wg in A; tauto).
    split.
    - intros x y _ _ Dn. destruct Dn as [x y A|x w y _ [] _]. exists (G y). split; [apply in_map, Hks; eauto|].
      destruct (tabs y (Fam y x A)) as (_ & Vn & Ln). split; [apply Vn; auto|now apply Ln].
    - intros x y _ _ Ne Th. destruct Th as [x y M|x w y _ [] _]. destruct M as (_ & [A|[A|(z & A & B)]]).
      + exists (G y). split; [apply in_map, Hks; eauto|]. destruct (tabs y (Fam y x A)) as (_ & Vn & _). split; apply Vn; auto.
      + exists (G x). split; [apply in_map, Hks; eauto|]. destruct (tabs x (Fam x y A)) as (_ & Vn & _). split; apply Vn; auto.
      + exists (G z). split; [apply in_map, Hks; eauto|]. destruct (tabs z (Fam z x A)) as (_ & Vn & _). split; apply Vn; auto.
  Qed.

  Lemma step_ok gone fs z : upper gone fs -> In z (nodes g) -> ~ In z gone ->
    exists t fs', product_all (filter (fun f => mem z (mf_vars f)) fs) = Ok t /\ good D vt t /\ In z (mf_vars t) /\
      (forall w, In w (mf_vars t) <-> exists f, In f fs /\ In z (mf_vars f) /\ In w (mf_vars f)) /\
      (forall w, In w (mf_vars t) -> w = z \/ adjacent g gone z w) /\
      ve_step fs z = Ok fs' /\ upper (gone ++ [z]) fs' /\
      (lower gone fs -> (exists t, walk g z t /\ ~ In t (gone ++ [z])) ->
        (forall w, adjacent g gone z w -> In w (mf_vars t)) /\ lower (gone ++ [z]) fs').
  Proof.
    intros [U1 U2] Jz Nz. set (rel := filter (fun f => mem z (mf_vars f)) fs).
    assert (Irel : forall f, In f rel <-> In f fs /\ In z (mf_vars f)) by (intros f; unfold rel; now rewrite filter_In, mem_In).
    destruct (U2 z Jz Nz) as (fz & Jfz & Lz). assert (Vz : In z (mf_vars fz)) by (now apply mf_left_In in Lz).
    assert (Rne : rel <> []) by (intros E; assert (X : In fz rel) by (apply Irel; auto); rewrite E in X; destruct X).
    destruct (product_all_ok D vt WD rel Rne) as (t & Et & Gt & Vt & Lt & _). { intros f J. apply Irel in J. now apply U1. }
    assert (Vt' : forall w, In w (mf_vars t) <-> exists f, In f fs /\ In z (mf_vars f) /\ In w (mf_vars f)).
    { intros w. rewrite Vt. split; [intros (f & J & Jw); apply Irel in J as [J1 J2]; eauto|intros (f & J1 & J2 & Jw); exists f; split; auto; now apply Irel]. }
    assert (zt : In z (mf_vars t)) by (apply Vt'; eauto).
    destruct (good_marg D WD vt t [z] Gt) as (fn & En & Gn & _ & Vn & Ln & _); [repeat constructor; intros []|intros w [<-|[]]; auto|].
    set (irr := filter (fun f => negb (mem z (mf_vars f))) fs).
    assert (Iirr : forall f, In f irr <-> In f fs /\ ~ In z (mf_vars f)).
    { intros f. unfold irr. rewrite filter_In, negb_true_iff, mem_nIn. reflexivity. }
    set (fs' := if 0 <? length (mf_left fn) then irr ++ [fn] else irr).
    assert (Ifs : forall f, In f fs' -> In f irr \/ f = fn).
    { intros f. unfold fs'. destruct (0 <? _); [rewrite in_app_iff; cbn; intros [J|[J|[]]]; auto|auto]. }
    assert (Iirr' : forall f, In f irr -> In f fs') by (intros f J; unfold fs'; destruct (0 <? _); [apply in_or_app; auto|auto]).
    assert (Ifn : forall w, In w (mf_left fn) -> In fn fs').
    { intros w J. unfold fs'. destruct (mf_left fn); [destruct J|]. cbn. apply in_or_app. right. now left. }
    assert (Adj : forall w, In w (mf_vars t) -> w = z \/ adjacent g gone z w).
    { intros w J. apply Vt' in J as (f & J1 & J2 & J3). destruct (eqd w z) as [-> | Ne]; auto. right.
      destruct (U1 f J1) as [_ P]. destruct (P w J3) as (_ & Nw & _). destruct (P z J2) as (_ & _ & Q). repeat split; auto. }
    assert (Es : ve_step fs z = Ok fs') by (unfold ve_step; fold rel; rewrite Et; cbn [bind]; rewrite En; reflexivity).
    exists t, fs'. do 5 (split; [assumption|]). split; [exact Es|]. split.
    - split.
      + intros f J. apply Ifs in J as [J | ->].
        * apply Iirr in J as [J Nf]. destruct (U1 f J) as [Gf P]. split; auto. intros x Jx. destruct (P x Jx) as (Nx & Gx & Tx).
          split; auto. split; [rewrite in_app_iff; intros [X|[<-|[]]]; auto|]. intros y Jy Ne. apply through_add. left. auto.
        * split; auto. intros x Jx. apply Vn in Jx as [Jx Nx]. cbn in Nx.
          assert (Ax := Adj x Jx). destruct Ax as [-> | Ax]; [tauto|].
          apply Vt' in Jx as (f & J1 & _ & J3). destruct (U1 f J1) as [_ P]. destruct (P x J3) as (Px & Gx & _).
          split; auto. split; [rewrite in_app_iff; cbn; tauto|]. intros y Jy Ne. apply Vn in Jy as [Jy Ny]. cbn in Ny.
          destruct (Adj y Jy) as [-> | Ay]; [tauto|]. apply through_add. right. split; [apply through_sym, Ax|apply Ay].
      + intros x Jx Nx. rewrite in_app_iff in Nx. destruct (U2 x Jx) as (f & J & Lf); [tauto|].
        destruct (in_dec eqd z (mf_vars f)) as [Iz|Iz].
        * assert (X : In x (mf_left fn)) by (apply Ln; split; [apply Lt; exists f; split; auto; now apply Irel|cbn in *; tauto]).
          exists fn. split; [exact (Ifn x X)|auto].
        * exists f. split; auto. apply Iirr', Iirr. auto.
    - intros [L1 L2] (tt & Wt & Nt).
      assert (Adj' : forall w, adjacent g gone z w -> In w (mf_vars t)).
      { intros w (Ne & _ & Nw & Th). destruct (L2 z w Nz Nw Ne Th) as (f & J1 & J2 & J3). apply Vt'. eauto. }
      split; [exact Adj'|].
      assert (Kept : In fn fs').
      { destruct (walk_down g (gone ++ [z]) z tt Wt Nt) as (y & Ny & Dy).
        assert (Dy' : down g gone z y) by (apply down_add in Dy as [Dy|[_ Dy]]; auto).
        rewrite in_app_iff in Ny. destruct (L1 z y Nz) as (f & J1 & J2 & J3); [tauto|auto|].
        apply (Ifn y). apply Ln. split; [apply Lt; exists f; split; auto; now apply Irel|cbn in *; tauto]. }
      assert (new_var : forall x f, In f rel -> In x (mf_vars f) -> x <> z -> In x (mf_vars fn)).
      { intros x f J Jx Ne. apply Vn. split; [apply Vt; eauto|]. intros [<-|[]]; auto. }
      assert (new_left : forall x f, In f rel -> In x (mf_left f) -> x <> z -> In x (mf_left fn)).
      { intros x f J Jx Ne. apply Ln. split; [apply Lt; eauto|]. intros [<-|[]]; auto. }
      split.
      + intros x y Nx Ny Dn. rewrite in_app_iff in Nx, Ny.
        assert (Nxz : x <> z) by (intros ->; apply Nx; right; now left). assert (Nyz : y <> z) by (intros ->; apply Ny; right; now left).
        apply down_add in Dn as [Dn|[D1 D2]].
        * destruct (L1 x y) as (f & J1 & J2 & J3); auto. destruct (in_dec eqd z (mf_vars f)) as [Iz|Iz].
          -- assert (X : In f rel) by (now apply Irel). exists fn. eauto.
          -- exists f. split; auto. apply Iirr', Iirr. auto.
        * destruct (L1 x z) as (f1 & A1 & A2 & A3); auto. destruct (L1 z y) as (f2 & B1 & B2 & B3); auto.
          assert (X1 : In f1 rel) by (apply Irel; split; auto; now apply mf_left_In in A3).
          assert (X2 : In f2 rel) by (now apply Irel). exists fn. eauto.
      + intros x y Nx Ny Ne Th. rewrite in_app_iff in Nx, Ny.
        assert (Nxz : x <> z) by (intros ->; apply Nx; right; now left). assert (Nyz : y <> z) by (intros ->; apply Ny; right; now left).
        apply through_add in Th as [Th|[T1 T2]].
        * destruct (L2 x y) as (f & J1 & J2 & J3); auto. destruct (in_dec eqd z (mf_vars f)) as [Iz|Iz].
          -- assert (X : In f rel) by (now apply Irel). exists fn. eauto.
          -- exists f. split; auto. apply Iirr', Iirr. auto.
        * destruct (L2 x z) as (f1 & A1 & A2 & A3); auto. destruct (L2 z y) as (f2 & B1 & B2 & B3); auto.
          assert (X1 : In f1 rel) by (now apply Irel). assert (X2 : In f2 rel) by (now apply Irel). exists fn. eauto.
  Qed.

  Lemma loop_tables gone : forall done fs, upper done fs -> NoDup (done ++ gone) -> incl gone (nodes g) ->
    exists fs', foldM ve_step gone fs = Ok fs' /\ upper (done ++ gone) fs' /\
      (lower done fs -> (forall v, In v gone -> exists t, walk g v t /\ ~ In t (done ++ gone)) -> lower (done ++ gone) fs').
  Proof.
    induction gone as [|z gone IH]; intros done fs U N I.
    - exists fs. rewrite app_nil_r. split; [reflexivity|auto].
    - assert (Nz : ~ In z done) by (apply NoDup_remove_2 in N; rewrite in_app_iff in N; tauto).
      destruct (step_ok done fs z U (I z (or_introl eq_refl)) Nz) as (t & fs1 & _ & _ & _ & _ & _ & Es & U1 & L1).
      destruct (IH (done ++ [z]) fs1 U1) as (fs' & E & U' & L'); [now rewrite <- app_assoc|intros v J; apply I; now right|].
      rewrite <- app_assoc in U', L'. cbn [app] in U', L'. exists fs'. cbn [foldM]. rewrite Es. cbn [bind].
      split; [exact E|]. split; [exact U'|]. intros L Al. apply L'.
      + apply (proj2 (L1 L ltac:(destruct (Al z (or_introl eq_refl)) as (u & Wu & Nu); exists u; split; auto;
          rewrite !in_app_iff in *; cbn in *; tauto))).
      + intros v J. apply Al. now right.
  Qed.

  Lemma tables gone v : NoDup (gone ++ [v]) -> incl (gone ++ [v]) (nodes g) ->
    exists t, creates (map G ks) gone v t /\ good D vt t /\ In v (mf_vars t) /\
      (forall w, In w (mf_vars t) -> w = v \/ adjacent g gone v w) /\
      ((forall x, In x (gone ++ [v]) -> exists y, walk g x y /\ ~ In y (gone ++ [v])) ->
        forall w, adjacent g gone v w -> In w (mf_vars t)).
  Proof.
    intros N I. destruct (loop_tables gone [] (map G ks) upper_start) as (fs & E & U & L).
    { cbn. now apply NoDup_app_l in N. } { intros x J. apply I, in_or_app. auto. }
    cbn [app] in U, L.
    assert (Nv : ~ In v gone) by (apply NoDup_remove_2 in N; now rewrite app_nil_r in N).
    destruct (step_ok gone fs v U) as (t & fs1 & Et & Gt & Jv & _ & A & _ & _ & X); [apply I, in_or_app; right; now left|auto|].
    exists t. split; [exists fs; auto|]. split; [auto|]. split; [auto|]. split; [auto|].
    intros Al. apply X.
    - apply L; [apply lower_start|]. intros x J. destruct (Al x) as (y & Wy & Ny); [apply in_or_app; auto|]. exists y. split; auto.
      rewrite in_app_iff in Ny. tauto.
    - apply Al, in_or_app. right. now left.
  Qed.
End Elim.
