(** Sample models for the examples about fusion. *)

From Coq Require Import String Ascii Bool Arith ZArith QArith Qcanon List.
From Verif Require Import PyBase PyFacts Num DomainModel NdArray StoreModel NumStore FactorModel GraphModel ModelModel InferModel CausalModel
  Spec StoreSpec FactorSpec GraphSpec ModelSpec NetSpec CausalSpec SepSpec FusionSpec Checks FactorChecks GraphChecks ModelFacts GraphFacts InferChecks
  CausalChecks EmChecks.
Import ListNotations.
Local Open Scope nat_scope.
Local Open Scope string_scope.
Local Open Scope list_scope.

Definition part_of (m : pgm) (D : domain) : part := (m, D, table_in m).
Definition rootb (p : part) (x : var) : bool :=
  mem x (nodes (m_graph (p_model p))) && match preds (m_graph (p_model p)) x with [] => true | _ => false end.
Fixpoint apartb (on : list var) (l : list part) : bool :=
  match l with
  | [] => true
  | p :: r => forallb (fun q => forallb (fun x => negb (mem x (nodes (m_graph (p_model q)))) || mem x on) (nodes (m_graph (p_model p)))) r && apartb on r
  end.
Definition fusableb (on : list var) (ms : list (pgm * domain)) : bool :=
  forallb (fun md => networkb (fst md) (snd md) && forallb (rootb (part_of (fst md) (snd md))) on) ms &&
  forallb (fun md => forallb (fun xl => negb (mem (fst xl) on) ||
     match ms with (_, D0) :: _ => match dget (fst xl) D0 with Some l => if eqd l (snd xl) then true else false | None => false end | [] => false end) (snd md)) (tl ms) &&
  apartb on (map (fun md => part_of (fst md) (snd md)) ms).
Lemma rootb_sound p x : rootb p x = true -> p_node p x /\ forall y, ~ p_arc p y x.
Proof.
  unfold rootb. rewrite andb_true_iff, mem_In. intros [I E]. split; [exact I|]. intros y A. unfold p_arc in A. apply in_preds in A.
  destruct (preds (m_graph (p_model p)) x); [destruct A|discriminate].
Qed.
Lemma apartb_sound on l : apartb on l = true -> ForallOrdPairs (fun p q => forall x, p_node p x -> p_node q x -> In x on) l.
Proof.
  induction l as [|p r IH]; [constructor|]. cbn [apartb]. rewrite andb_true_iff. intros [A B]. constructor; [|now apply IH].
  apply Forall_forall. intros q I x J K. rewrite forallb_forall in A. specialize (A q I). rewrite forallb_forall in A. specialize (A x J).
  apply orb_true_iff in A as [A|A]; [|now apply mem_In]. apply negb_true_iff, mem_nIn in A. contradiction.
Qed.
Lemma fusableb_sound on m0 D0 ms : fusableb on ((m0, D0) :: ms) = true ->
  fusable VNumpy on (part_of m0 D0) (map (fun md => part_of (fst md) (snd md)) ms).
Proof.
  unfold fusableb. rewrite !andb_true_iff. intros [[A B] C]. split; [|split].
  - intros p I. change (In p (map (fun md => part_of (fst md) (snd md)) ((m0, D0) :: ms))) in I. apply in_map_iff in I as ([m D] & <- & I).
    rewrite forallb_forall in A. specialize (A _ I). cbn [fst snd] in A. apply andb_true_iff in A as [A1 A2]. split; [now apply networkb_sound|].
    intros x J. rewrite forallb_forall in A2. now apply rootb_sound, A2.
  - intros p x l I J K. apply in_map_iff in I as ([m D] & <- & I). cbn [tl] in B. rewrite forallb_forall in B. specialize (B _ I).
    rewrite forallb_forall in B. specialize (B _ K). cbn [fst snd] in B. apply orb_true_iff in B as [B|B]; [apply negb_true_iff, mem_nIn in B; contradiction|].
    destruct (dget x D0) as [l'|] eqn:E; [|discriminate]. destruct (eqd l' l) as [->|]; [|discriminate]. now apply dget_In.
  - exact (apartb_sound on _ C).
Qed.
Definition lonelyb (on : list var) (p : part) : bool :=
  existsb (fun x => negb (mem x on) && forallb (fun e => negb (if eqd (fst e) x then true else false) && negb (if eqd (snd e) x then true else false))
    (edges (m_graph (p_model p)))) (nodes (m_graph (p_model p))).
Lemma lonelyb_sound on p : lonelyb on p = false -> forall x, ~ lonely on p x.
Proof.
  intros E x (N & O & A). rewrite <- not_true_iff_false in E. apply E. apply existsb_exists. exists x. split; [exact N|].
  apply andb_true_iff. split; [now apply negb_true_iff, mem_nIn|]. apply forallb_forall. intros [a b] I. cbn [fst snd].
  destruct (eqd a x) as [->|]; [destruct (A b) as [A' _]; exfalso; exact (A' I)|]. destruct (eqd b x) as [->|]; [destruct (A a) as [_ A']; exfalso; exact (A' I)|]. reflexivity.
Qed.

(** A -> B and A -> C <- E, with different tables of A *)
Definition m_ab : pgm := bn_of VNumpy (graph_of [("A", "B")]) [("A", ([("A", l01)], [1#4; 3#4]%Q, [])); ("B", ([("A", l01); ("B", l01)], [1#3; 2#3; 1#2; 1#2]%Q, ["A"]))].
Definition m_ac : pgm := bn_of VNumpy (graph_of [("A", "C"); ("E", "C")])
  [("A", ([("A", l01)], [1#2; 1#2]%Q, [])); ("E", ([("E", l01)], [1#5; 4#5]%Q, []));
   ("C", ([("A", l01); ("E", l01); ("C", l01)], [0; 1; 1#2; 1#2; 1#3; 2#3; 1; 0]%Q, ["A"; "E"]))].
Definition D_ab : domain := [("A", l01); ("B", l01)].
Definition D_ac : domain := [("A", l01); ("E", l01); ("C", l01)].
Definition p_ab : part := part_of m_ab D_ab.
Definition p_ac : part := part_of m_ac D_ac.
Lemma bn_fusable : fusable VNumpy ["A"] p_ab [p_ac].
Proof. apply (fusableb_sound ["A"] m_ab D_ab [(m_ac, D_ac)]). vm_compute. reflexivity. Qed.
Lemma bn_class : one_class None p_ab [p_ac].
Proof. left. split; [reflexivity|]. intros p [<-|[<-|[]]]; vm_compute; reflexivity. Qed.
Lemma bn_attached : forall p x, In p [p_ac] -> ~ lonely ["A"] p x.
Proof. intros p x [<-|[]]. revert x. apply lonelyb_sound. vm_compute. reflexivity. Qed.
Definition answered (m : res pgm) (D : domain) (o : obs) : option Q :=
  match m with Ok m => if networkb m D then Some (this (mass D (table_in m) o)) else None | Raise _ => None end.
Definition D_abc : domain := [("A", l01); ("B", l01); ("E", l01); ("C", l01)].
(** P(B=0, C=0) = 1/4*1/3*(1/5*0+4/5*1/2) + 3/4*1/2*(1/5*1/3+4/5*1) *)
Lemma bn_answer : answered (fusion_roots plain_order [m_ab; m_ac] ["A"] None) D_abc [("B", SInt 0); ("C", SInt 0)] = Some (43 # 120)%Q.
Proof. vm_compute. reflexivity. Qed.
(** P(C=0) = 1/4*2/5 + 3/4*13/15, with A from the first model, against 1/2*2/5 + 1/2*13/15 in the second *)
Lemma bn_marginal : answered (fusion_roots plain_order [m_ab; m_ac] ["A"] None) D_abc [("C", SInt 0)] = Some (3 # 4)%Q /\
  answered (Ok m_ac) D_ac [("C", SInt 0)] = Some (19 # 30)%Q.
Proof. split; vm_compute; reflexivity. Qed.

(** a node without arcs in the second model *)
Definition m_lone : pgm := bn_of VNumpy (add_node (graph_of [("A", "C")]) "E")
  [("A", ([("A", l01)], [1#2; 1#2]%Q, [])); ("E", ([("E", l01)], [1#5; 4#5]%Q, [])); ("C", ([("A", l01); ("C", l01)], [0; 1; 1#2; 1#2]%Q, ["A"]))].
Lemma lone_case : fusable VNumpy ["A"] p_ab [part_of m_lone D_ac] /\ one_class None p_ab [part_of m_lone D_ac] /\ lonely ["A"] (part_of m_lone D_ac) "E" /\
  fusion_roots plain_order [m_ab; m_lone] ["A"] None = Raise NetworkXError /\
  answered (fusion_roots plain_order [m_lone; m_ab] ["A"] None) D_abc [("E", SInt 0)] = Some (1 # 5)%Q.
Proof.
  split; [apply (fusableb_sound ["A"] m_ab D_ab [(m_lone, D_ac)]); vm_compute; reflexivity|].
  split; [left; split; [reflexivity|]; intros p [<-|[<-|[]]]; vm_compute; reflexivity|]. split.
  { split; [vm_compute; auto|]. split; [intros [E|[]]; discriminate|]. intros y. split; intros A; vm_compute in A; destruct A as [A|[]]; congruence. }
  split; vm_compute; reflexivity.
Qed.

(** causal models: U -> X and U -> Y *)
Definition m_ux : pgm := scm_of VNumpy (graph_of [("U", "X")]) [("U", ([("U", l01)], [1#4; 3#4]%Q, [])); ("X", ([("U", l01); ("X", l01)], [0; 1; 1; 0]%Q, ["U"]))] [] None false.
Definition m_uy : pgm := scm_of VNumpy (graph_of [("U", "Y")]) [("U", ([("U", l01)], [1#4; 3#4]%Q, [])); ("Y", ([("U", l01); ("Y", l01)], [0; 1; 1; 0]%Q, ["U"]))] [] None false.
Definition p_ux : part := part_of m_ux [("U", l01); ("X", l01)].
Definition p_uy : part := part_of m_uy [("U", l01); ("Y", l01)].
Definition endogenous_of (m : res pgm) : list var := match m with Ok m => scm_endogenous m | Raise _ => [] end.
Lemma scm_case : fusable VNumpy ["U"] p_ux [p_uy] /\ one_class (Some ["X"; "Y"]) p_ux [p_uy] /\
  answered (fusion_roots plain_order [m_ux; m_uy] ["U"] (Some ["X"; "Y"])) [("U", l01); ("X", l01); ("Y", l01)] [("X", SInt 0); ("Y", SInt 0)] = Some (3 # 4)%Q /\
  answered (fusion_roots plain_order [m_ux; m_uy] ["U"] (Some ["X"; "Y"])) [("U", l01); ("X", l01); ("Y", l01)] [("X", SInt 0); ("Y", SInt 1)] = Some 0%Q /\
  endogenous_of (fusion_roots plain_order [m_ux; m_uy] ["U"] None) = ["X"].
Proof.
  split; [apply (fusableb_sound ["U"] m_ux [("U", l01); ("X", l01)] [(m_uy, [("U", l01); ("Y", l01)])]); vm_compute; reflexivity|].
  split.
  { right. exists ["X"], false. split; [vm_compute; reflexivity|]. split; [intros p [<-|[]]; exists ["Y"], false; vm_compute; reflexivity|].
    intros p x [<-|[<-|[]]] N M; cbn [must_decide] in M; destruct M as [<-|[<-|[]]].
    - apply zero_oneb_sound; [apply wf_mfb_sound|]; vm_compute; reflexivity.
    - exfalso. vm_compute in N. destruct N as [N|[N|[]]]; discriminate.
    - exfalso. vm_compute in N. destruct N as [N|[N|[]]]; discriminate.
    - apply zero_oneb_sound; [apply wf_mfb_sound|]; vm_compute; reflexivity. }
  split; [vm_compute; reflexivity|]. split; vm_compute; reflexivity.
Qed.

(** a common node that is no root of the first model, at the second place *)
Definition m_rs : pgm := bn_of VNumpy (graph_of [("R", "S")]) [("R", ([("R", l01)], [1#4; 3#4]%Q, [])); ("S", ([("R", l01); ("S", l01)], [1#3; 2#3; 1#2; 1#2]%Q, ["R"]))].
Definition m_st : pgm := bn_of VNumpy (graph_of [("R", "T"); ("S", "T")])
  [("R", ([("R", l01)], [1#2; 1#2]%Q, [])); ("S", ([("S", l01)], [1#5; 4#5]%Q, []));
   ("T", ([("R", l01); ("S", l01); ("T", l01)], [0; 1; 1#2; 1#2; 1#3; 2#3; 1; 0]%Q, ["R"; "S"]))].
Definition arcs_of (m : res pgm) : list (var * var) := match m with Ok m => edges (m_graph m) | Raise _ => [] end.
Lemma unchecked_root : arc (m_graph m_rs) "R" "S" /\ In "S" (nodes (m_graph m_st)) /\
  arcs_of (fusion_roots plain_order [m_rs; m_st] ["R"; "S"] None) = [("R", "S"); ("R", "T"); ("S", "T")] /\
  fusion_roots plain_order [m_rs; m_st] ["S"; "R"] None = Raise ValueError.
Proof. split; [vm_compute; auto|]. split; [vm_compute; auto|]. split; vm_compute; reflexivity. Qed.

(** a common node that is not listed *)
Definition m_ab' : pgm := bn_of VNumpy (graph_of [("A", "B")]) [("A", ([("A", l01)], [1#4; 3#4]%Q, [])); ("B", ([("A", l01); ("B", l01)], [1; 0; 0; 1]%Q, ["A"]))].
Lemma common_variable :
  answered (Ok m_ab) D_ab [("B", SInt 0)] = Some (11 # 24)%Q /\ answered (Ok m_ab') D_ab [("B", SInt 0)] = Some (1 # 4)%Q /\
  answered (fusion_roots plain_order [m_ab; m_ab'] ["A"] None) D_ab [("B", SInt 0)] = Some (1 # 4)%Q /\
  answered (fusion_roots plain_order [m_ab'; m_ab] ["A"] None) D_ab [("B", SInt 0)] = Some (11 # 24)%Q.
Proof. repeat split; vm_compute; reflexivity. Qed.
