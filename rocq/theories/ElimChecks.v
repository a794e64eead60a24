(** Checks used by the examples of C75. *)

From Coq Require Import String Ascii Bool Arith ZArith QArith Qcanon Permutation List.
From Verif Require Import PyBase PyFacts Num DomainModel NdArray StoreModel NumStore FactorModel GraphModel ModelModel InferModel
  Spec StoreSpec FactorSpec GraphSpec ModelSpec NetSpec OrderSpec ElimSpec Checks FactorChecks GraphChecks InferChecks.
Import ListNotations.
Local Open Scope nat_scope.
Local Open Scope string_scope.
Local Open Scope list_scope.

(** The table created for [v] after eliminating [gone]: its variables and its
    number of entries. *)
Definition created (m : pgm) (gone : list var) (v : var) : res (list var * nat) :=
  let* fs := mapM multinomial_of (vals (m_factors m)) in
  let* fs := foldM ve_step gone fs in
  let* t := product_all (filter (fun f => mem v (mf_vars f)) fs) in
  Ok (mf_vars t, size (mf_domain t)).

Lemma created_creates m gone v l n : created m gone v = Ok (l, n) ->
  exists fs t, mapM multinomial_of (vals (m_factors m)) = Ok fs /\ creates fs gone v t /\ mf_vars t = l.
Proof.
  unfold created, creates. destruct (mapM multinomial_of (vals (m_factors m))) as [fs|]; [|discriminate]. cbn [bind].
  destruct (foldM ve_step gone fs) as [fs'|] eqn:E; [|discriminate]. cbn [bind].
  destruct (product_all (filter (fun f => mem v (mf_vars f)) fs')) as [t|] eqn:E'; [|discriminate]. cbn [bind].
  intros J. injection J as <- _. exists fs, t. eauto.
Qed.

Definition arcb (g : digraph) (x y : var) : bool := existsb (fun e => String.eqb (fst e) x && String.eqb (snd e) y) (edges g).
Lemma arcb_sound g x y : arcb g x y = true -> arc g x y.
Proof.
  unfold arcb, arc. intros E. apply existsb_exists in E as ([a b] & J & E). apply andb_true_iff in E as [E1 E2].
  apply String.eqb_eq in E1, E2. cbn in E1, E2. now subst.
Qed.

Lemma barren_made : created m_net ["H"; "E"; "C"] "A" = Ok (["A"], 2).
Proof. vm_compute. reflexivity. Qed.
Lemma barren_in : incl ["H"; "E"; "C"; "A"] (nodes (m_graph m_net)).
Proof. apply inclb_sound. vm_compute. reflexivity. Qed.
Lemma barren_arcs : arc (m_graph m_net) "A" "C" /\ arc (m_graph m_net) "B" "C".
Proof. split; apply arcb_sound; vm_compute; reflexivity. Qed.

Lemma barren : exists m D F vt gone v w fs t,
  network m D F vt /\ NoDup (gone ++ [v]) /\ incl (gone ++ [v]) (nodes (m_graph m)) /\
  mapM multinomial_of (vals (m_factors m)) = Ok fs /\ creates fs gone v t /\
  adjacent (m_graph m) gone v w /\ ~ In w (mf_vars t).
Proof.
  generalize (net_ok VNumpy), barren_made, barren_in, barren_arcs. fold m_net. fold F_net. generalize m_net. intros m N M I [A B].
  destruct (created_creates _ _ _ _ _ M) as (fs & t & Ef & C & Et).
  exists m, D_net, F_net, VNumpy, ["H"; "E"; "C"], "A", "B", fs, t.
  split; [exact N|]. split; [apply nodupb_sound; vm_compute; reflexivity|]. split; [exact I|]. split; [exact Ef|]. split; [exact C|]. split.
  - split; [discriminate|]. split; [intros [J|[J|[J|[]]]]; discriminate|]. split; [intros [J|[J|[J|[]]]]; discriminate|].
    apply th_one. split; [discriminate|]. right. right. exists "C". auto.
  - rewrite Et. intros [J|[]]. discriminate.
Qed.

Lemma net_arcs : arc (m_graph m_net) "A" "C" /\ arc (m_graph m_net) "C" "E" /\ arc (m_graph m_net) "E" "H".
Proof. split; [|split]; apply arcb_sound; vm_compute; reflexivity. Qed.
Lemma net_used : all_used (m_graph m_net) ["C"; "E"; "A"].
Proof.
  generalize net_arcs. generalize (m_graph m_net). intros g (A & B & C).
  assert (N : ~ In "H" ["C"; "E"; "A"]) by (intros [J|[J|[J|[]]]]; discriminate).
  assert (W1 : walk g "E" "H") by now constructor. assert (W2 : walk g "C" "H") by (econstructor 2; eauto).
  assert (W3 : walk g "A" "H") by (econstructor 2; eauto).
  intros v J. exists "H". split; auto. destruct J as [<-|[<-|[<-|[]]]]; auto.
Qed.
