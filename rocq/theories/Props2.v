(** Properties C05 C06 C07 C08 C09 C16 C39. *)
From Verif Require Import Str Data Tarmi Rafsi Core Api Lib Spec Shapes Decomp Basic Vowels Katna Dict Errs Builder Jvokaha Fuel Raises Inv.

(** ** C05: GISMU means exactly the five-letter root shape *)
Definition gismu_form (mz : bool) (v : str) : Prop :=
  (exists c1 v1 c2 c3 v2, v = [c1; v1; c2; c3; v2] /\ consonant c1 /\ vowel v1 /\ permissible mz c2 c3 /\ vowel v2)
  \/ (exists c1 c2 v1 c3 v2, v = [c1; c2; v1; c3; v2] /\ initial_pair c1 c2 /\ vowel v1 /\ consonant c3 /\ vowel v2).
Theorem C05_gismu_shape : forall lk st w,
  gismu_form (allow_mz st) (standard_spelling w) <->
  exists pieces, analyse_brivla lk st w = Ok (GISMU, pieces).
Proof.
  intros lk st w. unfold gismu_form. rewrite <- is_gismu_spec. split.
  - intro H. exists [standard_spelling w].
    assert (Hw : w <> []) by (intros ->; discriminate H).
    rewrite analyse_brivla_eq. unfold analyse_body. rewrite normalise_ok by exact Hw. cbn [bind].
    destruct (gismu_len _ _ H) as (a & b & c & d & e & E & He). rewrite E. cbn [last_opt].
    rewrite (v_f0 _ He), He. cbn [negb andb]. rewrite <- E, H. reflexivity.
  - intros [ps H]. apply analyse_inv in H. inversion H; subst; try assumption;
    match goal with G : _ = GISMU |- _ => destruct (is_consonant _); discriminate G
                  | G : GISMU = _ |- _ => destruct (is_consonant _); discriminate G end.
Qed.
Theorem C05_gismu_pieces : forall lk st w pieces,
  analyse_brivla lk st w = Ok (GISMU, pieces) -> pieces = [standard_spelling w].
Proof.
  intros lk st w ps H. apply analyse_inv in H. inversion H; subst; try reflexivity;
    match goal with G : _ = GISMU |- _ => destruct (is_consonant _); discriminate G
                  | G : GISMU = _ |- _ => destruct (is_consonant _); discriminate G end.
Qed.
Example C05_example : analyse_brivla Unbound default_settings (L "Klama") = Ok (GISMU, [L "klama"])
  /\ analyse_brivla Unbound default_settings (L "jamza") <> Ok (GISMU, [L "jamza"])
  /\ analyse_brivla Unbound (mkSettings STANDARD false CLUSTER false true) (L "jamza") = Ok (GISMU, [L "jamza"]).
Proof. repeat split; vm_compute; congruence. Qed.
Print Assumptions C05_gismu_shape.
Print Assumptions C05_gismu_pieces.

(** ** C06: spelling variants are the same word *)
(** two non-empty spellings with the same standard form *)
Definition variants (w w' : str) : Prop :=
  w <> [] /\ w' <> [] /\ standard_spelling w = standard_spelling w'.
Theorem C06_analyser_spelling : forall lk st w w', variants w w' ->
  analyse_brivla lk st w = analyse_brivla lk st w'
  /\ is_brivla lk st w = is_brivla lk st w'
  /\ get_veljvo lk st w = get_veljvo lk st w'.
Proof.
  intros lk st w w' (H & H' & E). pose proof (analyse_spelling lk st w w' H H' E) as G.
  split; [exact G|]. unfold is_brivla, Core.is_brivla, get_veljvo. rewrite G. split; reflexivity.
Qed.
Theorem C06_builder_spelling : forall lk gen st ws ws', Forall2 variants ws ws' ->
  get_lujvo lk gen st (TList ws) = get_lujvo lk gen st (TList ws')
  /\ get_lujvo_with_analytics lk gen st (TList ws) = get_lujvo_with_analytics lk gen st (TList ws').
Proof.
  intros lk gen st ws ws' H.
  assert (G : process_tanru (TList ws) = process_tanru (TList ws')).
  { cbn. induction H as [|w w' ws ws' (H1 & H2 & H3) _ IH]; [reflexivity|]. cbn.
    rewrite !normalise_ok by assumption. rewrite H3, IH. reflexivity. }
  unfold get_lujvo, get_lujvo_with_analytics. rewrite G. split; reflexivity.
Qed.
Example C06_example : variants (L ".LI,hai") (L "li'ai").
Proof. repeat split; try discriminate. Qed.
Print Assumptions C06_analyser_spelling.
Print Assumptions C06_builder_spelling.

(** ** C07: every API call terminates *)
(** [analyse lk limit] and [jvokaha lk limit] are the mutually recursive Python
    functions run with a limit on the depth of recursion; exceeding it is
    [OutOfFuel], which no handler catches. *)
Theorem C07_recursion_depth : forall lk st w limit, 2 * length w + 8 <= limit ->
  analyse lk limit st w = analyse_brivla lk st w /\ analyse lk limit st w <> Err OutOfFuel.
Proof.
  intros lk st w limit H.
  assert (E : analyse lk limit st w = analyse_brivla lk st w).
  { apply analyse_big. pose proof (spelling_length w). lia. }
  split; [exact E|]. rewrite E. intro G. apply errs_analyse_brivla in G as [G|[_ G]]; cbn in G; intuition discriminate.
Qed.
Theorem C07_splitter_depth : forall lk yh cs gl mz w limit, 3 <= limit ->
  jvokaha lk limit yh cs gl mz w = jvokaha lk 3 yh cs gl mz w /\ jvokaha lk limit yh cs gl mz w <> Err OutOfFuel.
Proof.
  intros lk yh cs gl mz w limit H. rewrite !jvokaha_jvk by lia. split; [reflexivity|].
  intro G. apply errs_jvk in G as [G|[_ G]]; cbn in G; intuition discriminate.
Qed.
Theorem C07_builder_depth : forall lk gen st ws limit, 2 * length (concat ws) + 10 <= limit ->
  get_lujvo_from_list lk (analyse lk limit) (jvokaha lk limit) ws gen st = lujvo_from_list lk gen st ws
  /\ lujvo_from_list lk gen st ws <> Err OutOfFuel.
Proof.
  intros lk gen st ws limit H. rewrite lujvo_from_list_any by lia. rewrite <- lujvo_from_list_eq.
  split; [reflexivity|]. intro G. apply errs_lujvo_from_list in G as [G|[_ G]]; cbn in G; intuition discriminate.
Qed.
Theorem C07_api_terminates : forall lk gen st w t,
  is_brivla lk st w <> Err OutOfFuel
  /\ get_veljvo lk st w <> Err OutOfFuel
  /\ score_lujvo lk st w <> Err OutOfFuel
  /\ get_lujvo lk gen st t <> Err OutOfFuel
  /\ get_lujvo_with_analytics lk gen st t <> Err OutOfFuel.
Proof.
  intros lk gen st w t. repeat split; intro G;
    first [apply errs_is_brivla in G|apply errs_get_veljvo in G|apply errs_score_lujvo in G
          |apply errs_get_lujvo in G|apply errs_get_lujvo_with_analytics in G];
    destruct G as [G|[_ G]]; cbn in G; intuition discriminate.
Qed.
(** the results are those of the recursive definition, with no limit *)
Theorem C07_recursion_equation : forall lk st w,
  analyse_brivla lk st w = analyse_body (analyse_brivla lk) (jvokaha lk 3) st w.
Proof.
  intros. rewrite (analyse_brivla_eq lk st w) at 1. 
  apply (analyse_body_cong (length (standard_spelling w))); [intros ? ? ?; reflexivity| |lia].
  intros ? ? ? ? ?. symmetry. apply jvokaha_jvk. lia.
Qed.
(** a word whose analysis does recurse (brivla suffixes of a zi'evla candidate) *)
Example C07_example : analyse Bound 1 default_settings (L "malskidrarka") = Err OutOfFuel
  /\ analyse_brivla Bound default_settings (L "malskidrarka") <> Err OutOfFuel.
Proof. repeat split; vm_compute; congruence. Qed.
Print Assumptions C07_recursion_depth.
Print Assumptions C07_splitter_depth.
Print Assumptions C07_builder_depth.
Print Assumptions C07_api_terminates.
Print Assumptions C07_recursion_equation.

(** ** C08: analyse_brivla raises only NotBrivlaError *)
(** False of the code, in both readings: *)
Theorem C08_only_NotBrivlaError_refuted : forall lk, exists w e,
  analyse_brivla lk default_settings w = Err e /\ e <> NotBrivlaError.
Proof. intro lk. exists [], IndexError. destruct lk; (split; [vm_compute; reflexivity|discriminate]). Qed.
Theorem C08_nonempty_refuted :
  analyse_brivla Bound default_settings (L "i'yyn") = Err IndexError
  /\ analyse_brivla Bound default_settings (L "taly'ee") = Err DecompositionError
  /\ analyse_brivla Unbound default_settings (L "brivlatengo'u") = Err NameError.
Proof. repeat split; vm_compute; reflexivity. Qed.
(** What holds: nothing else is raised; NameError only because of the missing
    import. *)
Theorem C08_exceptions_partial : forall lk st w e, analyse_brivla lk st w = Err e ->
  e = NotBrivlaError \/ e = IndexError \/ e = DecompositionError \/ (lk = Unbound /\ e = NameError).
Proof. intros lk st w e H. apply errs_analyse_brivla in H as [H|H]; cbn in H; intuition auto. Qed.
Print Assumptions C08_only_NotBrivlaError_refuted.
Print Assumptions C08_exceptions_partial.

(** ** C09: is_brivla always answers *)
Theorem C09_always_answers_refuted : forall lk, exists w e, is_brivla lk default_settings w = Err e.
Proof. intro lk. exists [], IndexError. destruct lk; vm_compute; reflexivity. Qed.
Theorem C09_nonempty_refuted :
  is_brivla Bound default_settings (L "la'yya") = Err IndexError
  /\ is_brivla Bound default_settings (L "caby'aa") = Err DecompositionError.
Proof. split; vm_compute; reflexivity. Qed.
Theorem C09_exceptions_partial : forall lk st w e, is_brivla lk st w = Err e ->
  e = IndexError \/ e = DecompositionError \/ (lk = Unbound /\ e = NameError).
Proof. intros lk st w e H. apply errs_is_brivla in H as [H|H]; cbn in H; intuition auto. Qed.
(** when it answers, it answers whether analyse_brivla accepts the word as a brivla *)
Theorem C09_meaning : forall lk st w b, is_brivla lk st w = Ok b ->
  (b = true <-> exists t pieces, analyse_brivla lk st w = Ok (t, pieces) /\ t <> CMEVLA).
Proof.
  intros lk st w b H. unfold is_brivla, Core.is_brivla in H.
  destruct (analyse_brivla lk st w) as [[t ps]|e].
  - injection H as <-. split.
    + intro G. exists t, ps. split; [reflexivity|]. intros ->. discriminate.
    + intros (t' & ps' & E & G). injection E as <- <-. destruct t; try reflexivity. congruence.
  - destruct e; try discriminate. injection H as <-. split; [discriminate|]. intros (t & ps & E & _). discriminate.
Qed.
Print Assumptions C09_always_answers_refuted.
Print Assumptions C09_exceptions_partial.
Print Assumptions C09_meaning.

(** ** C16: ending of the built word *)
Theorem C16_ending : forall lk gen st t w, get_lujvo lk gen st t = Ok w ->
  ends_in (if gen then consonant else vowel) w.
Proof.
  intros lk gen st t w H. unfold get_lujvo in H. inv_bind H. inv_bind H. destruct x0 as [[w0 sc] ix].
  injection H as ->. rewrite lujvo_from_list_eq in E0. inv_bind E0. inv_bind E0. destruct x1 as [[w1 sc1] ix1].
  assert (w1 = w).
  { destruct gen; [congruence|]. destruct lk; [discriminate|]. inv_bind E0. destruct x1; [discriminate|congruence]. }
  subst w1. apply best_word_chain in E2 as (ch & c & l & _ & _ & _ & _ & _ & _ & _ & Hl & Hv).
  apply last_opt_some in Hl as [u ->]. exists u, l. split; [reflexivity|].
  destruct gen; [apply is_consonant_spec|apply is_vowel_spec]; exact Hv.
Qed.
Example C16_example :
  get_lujvo Bound false default_settings (TStr (L "lujvo zbasu bangu")) = Ok (L "jvozbabau")
  /\ get_lujvo Unbound true default_settings (TStr (L "lujvo zbasu bangu")) = Ok (L "jvozbaban").
Proof. split; vm_compute; reflexivity. Qed.
Print Assumptions C16_ending.

(** ** C39: exceptions of the builder *)
(** False: IndexError escapes for some literal rafsi. *)
Theorem C39_builder_exceptions_refuted : exists t e,
  get_lujvo Bound false default_settings t = Err e
  /\ t = TStr (L "ctelair- klama")
  /\ ~ In e [NoLujvoFoundError; NonLojbanCharacterError; NotZihevlaError; InvalidClusterError].
Proof. exists (TStr (L "ctelair- klama")), IndexError. split; [vm_compute; reflexivity|]. split; [reflexivity|]. cbn. intuition discriminate. Qed.
(** What holds: besides the documented exceptions only IndexError and
    DecompositionError (and NameError from the missing import) occur; in
    particular the assertion of jvozba.py:137 never fails. *)
Theorem C39_builder_exceptions_partial : forall lk gen st t e,
  get_lujvo lk gen st t = Err e \/ get_lujvo_with_analytics lk gen st t = Err e ->
  In e [NoLujvoFoundError; NonLojbanCharacterError; NotZihevlaError; InvalidClusterError;
        DecompositionError; IndexError]
  \/ (lk = Unbound /\ e = NameError).
Proof. intros lk gen st t e [H|H]; [apply errs_get_lujvo in H|apply errs_get_lujvo_with_analytics in H]; exact H. Qed.
Print Assumptions C39_builder_exceptions_refuted.
Print Assumptions C39_builder_exceptions_partial.
