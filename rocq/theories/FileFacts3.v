(** Saving and reading models. *)

From Coq Require Import String Ascii Bool Arith ZArith QArith Qcanon Lia Permutation List.
From Verif Require Import PyBase Num DomainModel NdArray StoreModel NumStore FactorModel GraphModel ModelModel PgmpyModel UaiModel ConvModel FileModel
  PyFacts Spec DomainFacts StoreSpec StoreFacts StoreOps PropFacts1 GraphSpec GraphFacts FactorSpec ModelSpec ModelFacts FactorFacts FactorFacts2 FactorFacts3
  DataFacts BuildFacts NetSpec UaiSpec CausalSpec ConvSpec ConvFacts PgmpySpec PgmpyFacts PgmpyFacts2 PgmpyFacts3 FileSpec FileFacts FileFacts2.
From Coq Require Import List.
Import ListNotations.
Local Open Scope nat_scope.
Local Arguments eqd : simpl never.

(** ** Names of files *)

Lemma append_length a b : String.length (a ++ b) = String.length a + String.length b.
Proof. induction a as [|x a IH]; [reflexivity|]. cbn [append String.length]. rewrite IH. reflexivity. Qed.
Lemma substring_all b : substring 0 (String.length b) b = b.
Proof. induction b as [|x b IH]; [reflexivity|]. cbn [String.length substring]. now rewrite IH. Qed.
Lemma substring_end a b : substring (String.length a) (String.length b) (a ++ b) = b.
Proof.
  induction a as [|x a IH].
  - apply substring_all.
  - cbn [append String.length substring]. exact IH.
Qed.
Lemma ends_with_app q s : ends_with s (q ++ s) = true.
Proof.
  unfold ends_with. rewrite append_length. rewrite (proj2 (Nat.leb_le _ _)) by lia.
  replace (String.length q + String.length s - String.length s) with (String.length q) by lia. rewrite substring_end. apply String.eqb_refl.
Qed.
Lemma split_string p n : n <= String.length p -> p = (substring 0 n p ++ substring n (String.length p - n) p)%string.
Proof.
  revert p. induction n as [|n IH]; intros p L.
  - cbn. rewrite Nat.sub_0_r. replace (substring 0 0 p) with EmptyString by (destruct p; reflexivity). cbn. now rewrite substring_all.
  - destruct p as [|x p]; [cbn in L; lia|]. cbn [substring String.length append Nat.sub]. f_equal. apply IH. cbn in L. lia.
Qed.
Lemma ends_with_spec s p : ends_with s p = true <-> exists q, p = (q ++ s)%string.
Proof.
  split.
  - unfold ends_with. rewrite andb_true_iff, Nat.leb_le, String.eqb_eq. intros [L E].
    exists (substring 0 (String.length p - String.length s) p). rewrite <- E at 2.
    rewrite (split_string p (String.length p - String.length s)) at 1 by lia. f_equal. f_equal. lia.
  - intros (q & ->). apply ends_with_app.
Qed.
Lemma list_of_app a b : list_ascii_of_string (a ++ b) = list_ascii_of_string a ++ list_ascii_of_string b.
Proof. induction a as [|x a IH]; [reflexivity|]. cbn. now rewrite IH. Qed.
Lemma other_end s t q : (forall a b, rev (list_ascii_of_string s) ++ a <> rev (list_ascii_of_string t) ++ b) -> ends_with s (q ++ t) = false.
Proof.
  intros H. destruct (ends_with s (q ++ t)) eqn:E; [|reflexivity]. exfalso. apply ends_with_spec in E as (q' & E).
  apply (f_equal list_ascii_of_string) in E. rewrite !list_of_app in E. apply (f_equal (@rev ascii)) in E. rewrite !rev_app_distr in E.
  now apply (H (rev (list_ascii_of_string q')) (rev (list_ascii_of_string q))).
Qed.
Lemma named_bif fmt p : named_as fmt p -> ends_with ".uai" p = false /\
  ends_with ".xmlbif" p = (match fmt with Bif => false | XmlBif => true end) /\
  (fmt = Bif -> ends_with ".bif" p = true).
Proof.
  intros (q & ->). destruct fmt.
  - split; [apply other_end; intros a b; cbn; discriminate|]. split; [apply other_end; intros a b; cbn; discriminate|]. intros _. apply ends_with_app.
  - split; [apply other_end; intros a b; cbn; discriminate|]. split; [apply ends_with_app|discriminate].
Qed.

(** ** Tables with names of states *)

Lemma same_get f o o' : wf_mf f -> full (mf_domain f) o -> (forall w, In w (mf_vars f) -> dget w o' = dget w o) -> mf_get_value f o' = mf_get_value f o.
Proof. intros (Ws & _) Fo E. unfold mf_get_value. now apply get_value_agree. Qed.

(** every assignment of names comes from one of states *)
Lemma unlabel label (d : domain) o' : NoDup (keys d) -> full (relabel label d) o' ->
  exists o, full d o /\ forall w, In w (keys d) -> dget w (relabel_obs label o) = dget w o'.
Proof.
  intros Nd. induction d as [|[v l] d IH]; intros Fo.
  - exists []. split; [intros w l []|intros w []].
  - inversion Nd as [|? ? N1 N2]; subst. destruct IH as (o & Fr & Hr); [exact N2|intros w k J; apply Fo; now right|].
    destruct (Fo v (map (fun s => SStr (label s)) l)) as (s' & E & J); [now left|]. apply in_map_iff in J as (s & <- & Js).
    exists ((v, s) :: o). split.
    + intros w k [J | J].
      * injection J as <- <-. exists s. cbn [dget]. now rewrite eqd_refl.
      * cbn [dget]. rewrite eqd_neq; [now apply Fr|]. intros ->. apply N1, keys_In. eauto.
    + intros w [<- | J]; cbn [relabel_obs map dget fst snd].
      * now rewrite eqd_refl.
      * rewrite eqd_neq; [now apply Hr|]. intros ->. contradiction.
Qed.

Lemma names_zero_one label f f' : wf_mf f -> wf_mf f' -> same_but_names label f f' -> zero_one f -> zero_one f'.
Proof.
  intros Wf Wf' (P & _ & Sv) Z o' Fo'. assert (Nd : NoDup (keys (mf_domain f))) by apply Wf.
  assert (Fr : full (relabel label (mf_domain f)) o') by (intros w k J; apply Fo'; now apply (Permutation_in _ (Permutation_sym P))).
  destruct (unlabel label (mf_domain f) o' Nd Fr) as (o & Fo & Ho). destruct (Sv o Fo) as (x & E1 & E2).
  rewrite (same_get f' (relabel_obs label o) o').
  - rewrite E2. destruct (Z o Fo) as [Q | Q]; rewrite Q in E1; injection E1 as <-; auto.
  - exact Wf'.
  - intros w k J. apply (Permutation_in _ P) in J. now apply (relabel_full label (mf_domain f) o Fo).
  - intros w J. symmetry. apply Ho. unfold mf_vars in J. rewrite <- (relabel_keys label). apply (Permutation_in _ (Permutation_map fst P) J).
Qed.

Lemma names_joint label F F' vs o : (forall v, In v vs -> same_but_names label (F v) (F' v) /\ full (mf_domain (F v)) o) ->
  joint F' vs (relabel_obs label o) = joint F vs o.
Proof.
  intros H. unfold joint. f_equal. apply map_ext_in. intros v J. destruct (H v J) as ((_ & _ & Sv) & Fo). destruct (Sv o Fo) as (x & E1 & E2).
  unfold entry. now rewrite E1, E2.
Qed.

(** StructuralCausalModel.from_model for tables that need not be normalised. *)
Lemma from_tabled b D F : tabled b D F -> (forall x v, arc (m_graph b) x v -> zero_one (F v)) ->
  exists m endo, scm_from_model b = Ok m /\ m_kind m = KScm endo true /\ m_graph m = m_graph b /\ children_of (m_graph b) endo /\ tabled m D F.
Proof.
  intros (Wg & Ac & WD & SD & NF & SF & Hv) Z. set (g := m_graph b) in *. assert (He := nonroots g Wg).
  destruct (scm_build D g true true None (m_factor_dict b) F (proj1 WD) Wg Ac) as (m & Em & (Bg & Bf & Bd & Bs & Bh) & _ & Bk).
  - intros v f I. apply factor_dict_In in I as [Iv Sv]; [|exact NF|].
    + apply SF in Iv. destruct (Hv v Iv) as (Sf & Wf & Lf & Rf & Df). assert (f = FM (F v)) by (unfold stored in *; congruence). split; [auto|].
      split; [exact Iv|]. split; [assert (J : In v (mf_left (F v))) by (apply Lf; now left); now apply mf_left_In in J|]. split; [exact Df|].
      split; [apply (usable_wf _ (proj1 (proj2 Wf)))|]. intros _. split; [exact Lf|]. split; [exact Rf|]. intros endo cast Ek Ie. injection Ek as <- <-.
      apply He in Ie as (x & A). destruct (is_degenerate_ok (F v) Wf) as (d & Ed & Hd). rewrite Ed. f_equal. apply Hd. eauto.
    + intros w Iw. apply SF in Iw. destruct (Hv w Iw). eauto.
  - intros v Iv. rewrite factor_dict_keys. now apply SF.
  - exists m, (scm_endo g None). split; [exact Em|]. split; [exact Bk|]. split; [exact Bg|]. split; [exact He|].
    unfold tabled. rewrite Bg. split; [exact Wg|]. split; [exact Ac|]. split; [exact WD|]. split; [exact SD|]. rewrite Bf. split; [apply Wg|].
    split; [intros y; tauto|]. intros v Iv. split; [now apply Bs|]. now apply Hv.
Qed.

Section Files.
  Variables (parent absolute : string -> string).
  Variables (render : format -> pgnet -> res string) (parse : format -> string -> res pgnet).
  Variable idx : list state -> state -> res nat.
  Variable emptied : bool.
  Variables (fstr : num -> string) (fparse : string -> res num) (dflt : vtype).
  Notation sav := (save parent absolute render emptied fstr dflt).
  Notation rd := (read parse idx fparse dflt).

  Lemma write_ok w p text : writable_path parent w p ->
    exists w', file_write parent w p text = (w', Ok tt) /\ only_file w w' p /\ file_read w' p = Ok text /\ assert_file_exists w' p = Ok tt.
  Proof.
    intros [Jp Np]. unfold file_write. apply mem_In in Jp. apply mem_nIn in Np. rewrite Np, Jp.
    assert (E : path_exists w (parent p) = true) by (unfold path_exists; rewrite Jp; apply orb_true_r). rewrite E. cbn [negb].
    eexists. split; [reflexivity|]. split; [split; [reflexivity|]|split].
    - intros q N. cbn [w_files]. rewrite dget_dset. now rewrite eqd_neq.
    - unfold file_read. cbn [w_files]. now rewrite dget_dset, eqd_refl.
    - unfold assert_file_exists, path_exists. cbn [w_files w_dirs].
      assert (J : mem p (keys (dset p text (w_files w))) = true).
      { apply mem_In, keys_In. exists text. apply dget_In. now rewrite dget_dset, eqd_refl. }
      now rewrite J.
  Qed.

  Lemma net_saved fmt w m p n label : writable_path parent w p -> to_pgmpy m = Ok n -> carried label (render fmt) (parse fmt) n ->
    exists w' n' ts, write_net parent render emptied fmt w m p = (w', Ok tt) /\ only_file w w' p /\
      read_net parse idx dflt fmt w' p = to_bcause idx n' dflt /\ wf_graph (pn_graph n') /\
      (forall x y, arc (pn_graph n') x y <-> arc (pn_graph n) x y) /\ Permutation ts (pn_cpds n') /\ Forall2 (restated label) (pn_cpds n) ts.
  Proof.
    intros Hw En (text & n' & ts & Er & Ep & Wg & Ag & P & H2). destruct (write_ok w p text Hw) as (w' & Ew & Ow & Rf & Ex). exists w', n', ts.
    split; [|split; [exact Ow|split; [|auto]]].
    - unfold write_net, assert_file_exists, path_exists. destruct Hw as [Jp _]. apply mem_In in Jp. rewrite Jp, orb_true_r, En, Er. exact Ew.
    - unfold read_net. rewrite Ex, Rf. cbn [bind]. rewrite Ep. reflexivity.
  Qed.

  Lemma save_bif fmt w m p arg : named_as fmt p ->
    sav w m p arg = (fst (write_model parent render emptied fmt w m p),
                     let* _ := snd (write_model parent render emptied fmt w m p) in Ok (absolute p)).
  Proof.
    intros Hn. destruct (named_bif fmt p Hn) as (E1 & E2 & E3). unfold save. rewrite E1, E2. destruct fmt; [rewrite (E3 eq_refl)|].
    - destruct (write_model parent render emptied Bif w m p). reflexivity.
    - destruct (write_model parent render emptied XmlBif w m p). reflexivity.
  Qed.
  Lemma read_bif fmt w p causal : named_as fmt p ->
    rd causal w p = if causal then read_causal parse idx dflt fmt w p else read_net parse idx dflt fmt w p.
  Proof.
    intros Hn. destruct (named_bif fmt p Hn) as (E1 & E2 & E3). unfold read. rewrite E1, E2. destruct fmt; [rewrite (E3 eq_refl)|]; reflexivity.
  Qed.

  Section Net.
    Variables (m : pgm) (D : domain) (F : var -> mfactor) (label : state -> string).
    Hypothesis T : tabled m D F.
    Hypothesis Al : forall v l, In (v, l) D -> aligned (F v) v /\ square (F v) (length l).
    Hypothesis Fi : forall v l, In (v, l) D -> finds idx (map (fun s => SStr (label s)) l).
    Let g := m_graph m.
    Let vs := keys (m_factors m).

    Lemma converted : to_pgmpy m = Ok (MkPg (g_copy g) (map (tab F) vs)).
    Proof.
      apply (to_pgmpy_ok index_by_name m D F dflt T). intros v l J. destruct (Al v l J). split; [assumption|]. split; [assumption|].
      apply by_name_finds, (proj2 (proj1 (proj2 (proj2 T))) v l J).
    Qed.

    Lemma net_file fmt w p : writable_path parent w p -> (forall n, to_pgmpy m = Ok n -> carried label (render fmt) (parse fmt) n) -> no_isolated g ->
      exists w' m' F', write_net parent render emptied fmt w m p = (w', Ok tt) /\ only_file w w' p /\
        read_net parse idx dflt fmt w' p = Ok m' /\ m_kind m' = KBn /\ tabled m' (relabel label D) F' /\
        same_set (nodes (m_graph m')) (nodes g) /\ (forall x y, arc (m_graph m') x y <-> arc g x y) /\
        forall v, In v (nodes g) -> same_but_names label (F v) (F' v) /\ mf_vtype (F' v) = dflt.
    Proof.
      intros Hw Hc NI. destruct (net_saved fmt w m p _ label Hw converted (Hc _ converted)) as (w' & n' & ts & Ew & Ow & Er & Wg & Ag & P & H2).
      cbn [pn_graph pn_cpds] in Ag, H2. destruct n' as [g' cs]. cbn [pn_graph pn_cpds] in *.
      destruct (net_read idx m D F dflt label T Al Fi g' Wg) with (ts := ts) (cs := cs) as (m' & F' & Em & R); [|exact NI|exact P|exact H2|].
      - intros x y. rewrite Ag. apply (copy_arc m D F T).
      - exists w', m', F'. split; [exact Ew|]. split; [exact Ow|]. split; [rewrite Er; exact Em|exact R].
    Qed.
    Lemma net_lost fmt w p : writable_path parent w p -> (forall n, to_pgmpy m = Ok n -> carried label (render fmt) (parse fmt) n) ->
      (exists v, isolated g v) -> exists w', write_net parent render emptied fmt w m p = (w', Ok tt) /\ only_file w w' p /\
        read_net parse idx dflt fmt w' p = Raise NetworkXError.
    Proof.
      intros Hw Hc NI. destruct (net_saved fmt w m p _ label Hw converted (Hc _ converted)) as (w' & n' & ts & Ew & Ow & Er & Wg & Ag & P & H2).
      cbn [pn_graph pn_cpds] in Ag, H2. destruct n' as [g' cs]. cbn [pn_graph pn_cpds] in *. exists w'. split; [exact Ew|]. split; [exact Ow|].
      rewrite Er. apply (net_isolated idx m D F dflt label T Al Fi g' Wg) with (ts := ts); [|exact NI|exact P|exact H2].
      intros x y. rewrite Ag. apply (copy_arc m D F T).
    Qed.
  End Net.

  Lemma bif_ok : forall fmt w m D F p arg label, m_kind m = KBn -> tabled m D F ->
    (forall v l, In (v, l) D -> aligned (F v) v /\ square (F v) (length l) /\ finds idx (map (fun s => SStr (label s)) l)) ->
    no_isolated (m_graph m) -> named_as fmt p -> writable_path parent w p ->
    (forall n, to_pgmpy m = Ok n -> carried label (render fmt) (parse fmt) n) ->
    exists w' m' F', sav w m p arg = (w', Ok (absolute p)) /\ only_file w w' p /\
      rd false w' p = Ok m' /\ m_kind m' = KBn /\ tabled m' (relabel label D) F' /\
      same_set (nodes (m_graph m')) (nodes (m_graph m)) /\ (forall x y, arc (m_graph m') x y <-> arc (m_graph m) x y) /\
      forall v, In v (nodes (m_graph m)) -> same_but_names label (F v) (F' v) /\ mf_vtype (F' v) = dflt.
  Proof.
    intros fmt w m D F p arg label K T A NI Hn Hw Hc.
    destruct (net_file m D F label T (fun v l J => conj (proj1 (A v l J)) (proj1 (proj2 (A v l J)))) (fun v l J => proj2 (proj2 (A v l J))) fmt w p Hw Hc NI)
      as (w' & m' & F' & Ew & Ow & Er & R). exists w', m', F'. rewrite (save_bif fmt w m p arg Hn), (read_bif fmt w' p false Hn).
    unfold write_model. rewrite K, Ew. cbn [fst snd bind]. auto.
  Qed.

  Lemma isolated_ok : forall fmt w m D F p arg label, m_kind m = KBn -> tabled m D F ->
    (forall v l, In (v, l) D -> aligned (F v) v /\ square (F v) (length l) /\ finds idx (map (fun s => SStr (label s)) l)) ->
    (exists v, isolated (m_graph m) v) -> named_as fmt p -> writable_path parent w p ->
    (forall n, to_pgmpy m = Ok n -> carried label (render fmt) (parse fmt) n) ->
    exists w', sav w m p arg = (w', Ok (absolute p)) /\ rd false w' p = Raise NetworkXError.
  Proof.
    intros fmt w m D F p arg label K T A NI Hn Hw Hc.
    destruct (net_lost m D F label T (fun v l J => conj (proj1 (A v l J)) (proj1 (proj2 (A v l J)))) (fun v l J => proj2 (proj2 (A v l J))) fmt w p Hw Hc NI)
      as (w' & Ew & Ow & Er). exists w'. rewrite (save_bif fmt w m p arg Hn), (read_bif fmt w' p false Hn).
    unfold write_model. rewrite K, Ew. cbn [fst snd bind]. auto.
  Qed.

  Lemma causal_ok : forall fmt w m endo cast b D F p arg label, m_kind m = KScm endo cast -> scm_to_bnet m = Ok b -> tabled b D F ->
    (forall x v, arc (m_graph b) x v -> zero_one (F v)) ->
    (forall v l, In (v, l) D -> aligned (F v) v /\ square (F v) (length l) /\ finds idx (map (fun s => SStr (label s)) l)) ->
    no_isolated (m_graph b) -> named_as fmt p -> writable_path parent w p ->
    (forall n, to_pgmpy b = Ok n -> carried label (render fmt) (parse fmt) n) ->
    exists w' m' F' endo', sav w m p arg = (w', Ok (absolute p)) /\ only_file w w' p /\
      rd true w' p = Ok m' /\ m_kind m' = KScm endo' true /\ tabled m' (relabel label D) F' /\ children_of (m_graph b) endo' /\
      same_set (nodes (m_graph m')) (nodes (m_graph b)) /\ (forall x y, arc (m_graph m') x y <-> arc (m_graph b) x y) /\
      forall v, In v (nodes (m_graph b)) -> same_but_names label (F v) (F' v) /\ mf_vtype (F' v) = dflt.
  Proof.
    intros fmt w m endo cast b D F p arg label K Eb T Z A NI Hn Hw Hc.
    destruct (net_file b D F label T (fun v l J => conj (proj1 (A v l J)) (proj1 (proj2 (A v l J)))) (fun v l J => proj2 (proj2 (A v l J))) fmt w p Hw Hc NI)
      as (w' & m1 & F' & Ew & Ow & Er & K1 & T1 & Nn & Na & Sf).
    destruct (from_tabled m1 (relabel label D) F' T1) as (m' & endo' & Em & Km & Gm & Ch & Tm).
    { intros x v J. apply Na in J. assert (Iv : In v (nodes (m_graph b))) by (apply (proj1 T) in J; apply J).
      apply (names_zero_one label (F v)); [|apply T1, Nn, Iv|now apply Sf|now apply (Z x)]. now apply T. }
    exists w', m', F', endo'. rewrite (save_bif fmt w m p arg Hn), (read_bif fmt w' p true Hn).
    unfold write_model. rewrite K, Eb, Ew. cbn [fst snd bind]. split; [reflexivity|]. split; [exact Ow|]. split; [unfold read_causal; rewrite Er; exact Em|].
    split; [exact Km|]. split; [exact Tm|]. rewrite Gm. split; [|auto]. intros v. rewrite (Ch v). split; intros (x & J); exists x; now apply Na.
  Qed.

  (** A file of this form is read as the text of it. *)
  Lemma uai_ok : forall w m p arg text, (exists q, p = (q ++ ".uai")%string) -> writable_path parent w p -> save_uai fstr dflt m arg = Ok text ->
    exists w', sav w m p arg = (w', Ok (absolute p)) /\ only_file w w' p /\
      rd false w' p = bn_read_uai fparse dflt text /\ rd true w' p = scm_read_uai fparse dflt text.
  Proof.
    intros w m p arg text (q & Ep) Hw Et. destruct (write_ok w p text Hw) as (w' & Ew & Ow & Rf & _). exists w'.
    assert (E : ends_with ".uai" p = true) by (rewrite Ep; apply ends_with_app). unfold save, read. rewrite E. unfold write_uai. rewrite Et.
    unfold assert_file_exists, path_exists. destruct Hw as [Jp _]. apply mem_In in Jp. rewrite Jp, orb_true_r, Ew. cbn [bind]. split; [reflexivity|].
    split; [exact Ow|]. rewrite Rf. split; reflexivity.
  Qed.

  (** ** Errors *)

  Lemma no_folder_ok : forall w m p arg, path_exists w (parent p) = false -> exists e, sav w m p arg = (w, Raise e).
  Proof.
    intros w m p arg E. assert (N : forall fmt m, write_net parent render emptied fmt w m p = (w, Raise FileNotFoundError)).
    { intros fmt m1. unfold write_net, assert_file_exists. now rewrite E. }
    assert (M : forall fmt, exists e, write_model parent render emptied fmt w m p = (w, Raise e)).
    { intros fmt. unfold write_model. destruct (m_kind m); [rewrite N; eauto|]. destruct (scm_to_bnet m); [rewrite N|]; eauto. }
    unfold save. destruct (ends_with ".uai" p).
    - unfold write_uai. destruct (save_uai fstr dflt m arg); [|eexists; reflexivity]. unfold assert_file_exists. rewrite E. eexists. reflexivity.
    - destruct (ends_with ".xmlbif" p); [destruct (M XmlBif) as (e & ->); eexists; reflexivity|].
      destruct (ends_with ".bif" p); [destruct (M Bif) as (e & ->); eexists; reflexivity|]. eexists. reflexivity.
  Qed.
  Lemma no_folder_bif : forall fmt w m p arg, m_kind m = KBn -> named_as fmt p -> path_exists w (parent p) = false ->
    sav w m p arg = (w, Raise FileNotFoundError).
  Proof.
    intros fmt w m p arg K Hn E. rewrite (save_bif fmt w m p arg Hn). unfold write_model, write_net, assert_file_exists. now rewrite K, E.
  Qed.
  Lemma no_file_ok : forall causal w p, (exists q, p = (q ++ ".uai")%string) \/ (exists fmt, named_as fmt p) -> path_exists w p = false ->
    rd causal w p = Raise FileNotFoundError.
  Proof.
    intros causal w p Hn E. destruct Hn as [(q & Ep) | (fmt & Hn)].
    - assert (Q : ends_with ".uai" p = true) by (rewrite Ep; apply ends_with_app). unfold read. rewrite Q. unfold file_read.
      unfold path_exists in E. apply orb_false_iff in E as [E1 E2]. rewrite E2. apply mem_nIn in E1.
      destruct (dget p (w_files w)) eqn:G; [|reflexivity]. exfalso. apply E1, keys_In. exists s. now apply dget_In.
    - rewrite (read_bif fmt w p causal Hn). unfold read_causal, read_net, assert_file_exists. rewrite E. destruct causal; reflexivity.
  Qed.
  Lemma other_name_ok : forall causal w m p arg, ~ (exists q, p = (q ++ ".uai")%string) -> ~ (exists fmt, named_as fmt p) ->
    sav w m p arg = (w, Raise ValueError) /\ rd causal w p = Raise ValueError.
  Proof.
    intros causal w m p arg N1 N2.
    assert (E1 : ends_with ".uai" p = false) by (destruct (ends_with ".uai" p) eqn:E; [|reflexivity]; exfalso; now apply N1, ends_with_spec).
    assert (E2 : ends_with ".xmlbif" p = false) by (destruct (ends_with ".xmlbif" p) eqn:E; [|reflexivity]; exfalso; apply N2; exists XmlBif; now apply ends_with_spec).
    assert (E3 : ends_with ".bif" p = false) by (destruct (ends_with ".bif" p) eqn:E; [|reflexivity]; exfalso; apply N2; exists Bif; now apply ends_with_spec).
    unfold save, read. rewrite E1, E2, E3. split; reflexivity.
  Qed.
  Lemma unconverted_ok : forall fmt w m p arg e, m_kind m = KBn -> named_as fmt p -> path_exists w (parent p) = true -> to_pgmpy m = Raise e ->
    sav w m p arg = (w, Raise e).
  Proof.
    intros fmt w m p arg e K Hn E Ec. rewrite (save_bif fmt w m p arg Hn). unfold write_model, write_net, assert_file_exists. now rewrite K, E, Ec.
  Qed.
  Lemma folder_ok : forall fmt w m p arg n text, m_kind m = KBn -> named_as fmt p -> path_exists w (parent p) = true -> In p (w_dirs w) ->
    to_pgmpy m = Ok n -> render fmt n = Ok text -> sav w m p arg = (w, Raise OSError).
  Proof.
    intros fmt w m p arg n text K Hn E J Ec Er. rewrite (save_bif fmt w m p arg Hn). unfold write_model, write_net, assert_file_exists.
    rewrite K, E, Ec, Er. unfold file_write. apply mem_In in J. now rewrite J.
  Qed.
End Files.
