(** Log-probabilities of models whose factors are not all multinomial. *)

From Coq Require Import String ZArith QArith Qcanon List.
From Verif Require Import PyBase PyFacts Num DomainModel NdArray StoreModel NumStore FactorModel GraphModel ModelModel InferModel LearnModel DataModel
  Spec FactorSpec GraphSpec ModelSpec QModel.
From Coq Require Import List.
Import ListNotations.

Section Others.
  Variables (L : Type) (ladd : L -> L -> L) (lg : Qc -> L) (lnan linf : L).
  Notation flp := (fo_log_prob L lg lnan linf).

  Lemma others_raise (m : pgm) os pre v post :
    (forall w, In w pre -> exists f, stored m w (FM f) /\ forall o, In o os -> exists x, mf_get_value f o = Ok (Fin x) /\ (0 < x)%Qc) ->
    In v (keys (m_factors m)) -> (forall f, ~ stored m v (FM f)) -> (forall w, In w post -> In w (keys (m_factors m))) ->
    m_log_prob L ladd lg lnan linf m os (Some (pre ++ v :: post)) = Raise AttributeError.
  Proof.
    intros Hp Jv Nv Hq. unfold m_log_prob.
    assert (E : match pre ++ v :: post with [] => nodes (m_graph m) | vs => vs end = pre ++ v :: post) by (destruct pre; reflexivity).
    replace (match Some (pre ++ v :: post) with None | Some [] => nodes (m_graph m) | Some vs => vs end) with (pre ++ v :: post) by (destruct pre; reflexivity).
    clear E. unfold get_factors. rewrite mapM_app.
    assert (P : exists fs, mapM (fun v => dlook v (m_factors m)) pre = Ok fs /\ exists rs, mapM (flp os) fs = Ok rs).
    { clear -Hp. induction pre as [|w pre IH]; [exists []; split; [reflexivity|exists []; reflexivity]|].
      destruct IH as (fs & E & rs & Er); [intros x J; apply Hp; now right|]. destruct (Hp w) as (f & St & Pos); [now left|].
      exists (Some (FM f) :: fs). cbn [mapM]. unfold dlook. unfold stored in St. rewrite St. cbn [bind].
      change (mapM (fun v => match dget v (m_factors m) with Some x => Ok x | None => Raise KeyError end) pre) with (mapM (fun v => dlook v (m_factors m)) pre).
      rewrite E. cbn [bind]. split; [reflexivity|]. cbn [fo_log_prob mapM].
      assert (Q : exists l, mf_log_prob L lg lnan linf f os = Ok l).
      { clear -Pos. unfold mf_log_prob. induction os as [|o os IH]; [exists []; reflexivity|]. destruct IH as (l & E); [intros; apply Pos; now right|].
        destruct (Pos o) as (x & Ex & Px); [now left|]. exists (lg x :: l). cbn [mapM]. rewrite Ex. cbn [bind math_log].
        destruct (Qclt_le_dec 0 x) as [_|B]; [|exfalso; exact (Qcle_not_lt _ _ B Px)]. cbn [bind]. rewrite E. reflexivity. }
      destruct Q as (l & ->). cbn [bind]. rewrite Er. cbn [bind]. eauto. }
    destruct P as (fs & E1 & rs & E2). rewrite E1. cbn [bind mapM].
    apply dget_keys in Jv as (fv & Ev). unfold dlook at 1. rewrite Ev. cbn [bind].
    assert (Q : exists gs, mapM (fun v => dlook v (m_factors m)) post = Ok gs).
    { clear -Hq. induction post as [|w post IH]; [exists []; reflexivity|]. destruct IH as (gs & E); [intros x J; apply Hq; now right|].
      assert (J := Hq w (or_introl eq_refl)). apply dget_keys in J as (fw & Ew). exists (fw :: gs). cbn [mapM]. unfold dlook at 1. rewrite Ew. cbn [bind]. rewrite E. reflexivity. }
    destruct Q as (gs & ->). cbn [bind]. rewrite mapM_app, E2. cbn [bind mapM].
    assert (B : flp os fv = Raise AttributeError).
    { destruct fv as [[f|f|]|]; try reflexivity. exfalso. apply (Nv f). exact Ev. }
    rewrite B. reflexivity.
  Qed.
End Others.
