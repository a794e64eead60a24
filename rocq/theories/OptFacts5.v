(** Corollaries: tables that a step does not change, tables without zeros. *)

From Coq Require Import String Bool Arith ZArith QArith Qcanon Lia List.
From Verif Require Import PyBase PyFacts Num DomainModel StoreModel FactorModel GraphModel ModelModel LearnModel
  Spec FactorSpec GraphSpec ModelSpec NetSpec LearnSpec EmSpec PropFacts1 DomainFacts OptSpec OptFacts2.
From Coq Require Import List.
Import ListNotations.
Local Open Scope nat_scope.

Lemma power_one n : power 1 n = 1%Qc.
Proof. unfold power. induction n as [|n IH]; [reflexivity|]. cbn [repeat]. change (product_of (1%Qc :: repeat 1%Qc n)) with (1 * product_of (repeat 1%Qc n))%Qc. rewrite IH. ring. Qed.

Theorem fixed query set_iter vt (Hq : exact_query query) (Hs : iterates set_iter) D E data (OD : observes D data E) l m F l' m' F' v :
  ready D vt E data l m F -> em_step query set_iter vt l None = (l', None) -> l_model l' = Some m' -> network m' D F' vt ->
  trains l v -> ~ has_converged l v -> rules_nothing_out D F data v ->
  (forall o, In o (all_assignments D) -> entry (F' v) o = entry (F v) o) ->
  best_table D vt (m_graph m) data F v.
Proof.
  intros R S EM N T NC O X G RG.
  assert (B : (likelihood D G data <= power 1 (length (f_rows data)) * likelihood D F data)%Qc).
  { apply (gap query set_iter vt Hq Hs D E data OD l m F l' m' F' v 1%Qc R S EM N T NC O); [|exact RG].
    intros o J. rewrite (X o J), Qcmult_1_l. apply Qcle_refl. }
  rewrite power_one, Qcmult_1_l in B. exact B.
Qed.

Theorem positive (D : domain) F data v : (forall o, full D o -> (0 < entry (F v) o)%Qc) -> NoDup (keys D) -> rules_nothing_out D F data v.
Proof.
  intros P N r p _ J _ _ Z. apply (all_assignments_In_full D p N) in J as [_ J]. specialize (P p J). rewrite Z in P.
  now apply Qclt_not_eq in P.
Qed.
