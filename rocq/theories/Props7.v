(** Properties C21 C29 C30 C37: get_veljvo, glides, slinku'i, clusters. *)
From Verif Require Import Str Data Tarmi Rafsi Core Api Lib Spec Shapes Decomp Basic Vowels Katna Dict Errs Builder Jvokaha Fuel Raises Inv Parts Clusters Zihevla Forms Chain Score Alt Lujvo Slinku Compound Whole Glides Props5 Props6.

(** ** C21: the entries of get_veljvo *)
(** options under which get_veljvo asks whether a piece is a word *)
Definition word_settings (st : settings) : settings := mkSettings (y_hyphens st) false CLUSTER false (allow_mz st).

(** [e] is an entry for the piece [p]: the dictionary word that has [p] as rafsi;
    the dictionary gismu that [p] lacks a vowel of; the piece itself if it is a
    word; the piece with a dash if it lacks the final a of a word; otherwise the
    piece between dashes. *)
Inductive entry_of (lk : binding) (st : settings) (p : str) : str -> Prop :=
| e_rafsi w rs : In (w, rs) RAFSI_LIST -> In p rs -> entry_of lk st p w
| e_gismu v rs : length p = 4 -> vowel v -> In (p ++ [v], rs) RAFSI_LIST -> entry_of lk st p (p ++ [v])
| e_word : (forall w rs, In (w, rs) RAFSI_LIST -> ~ In p rs) -> is_brivla lk (word_settings st) p = Ok true -> entry_of lk st p p
| e_short_word : (forall w rs, In (w, rs) RAFSI_LIST -> ~ In p rs) -> is_brivla lk (word_settings st) (p ++ L "a") = Ok true ->
    entry_of lk st p (p ++ L "-")
| e_other : (forall w rs, In (w, rs) RAFSI_LIST -> ~ In p rs) -> is_brivla lk (word_settings st) p = Ok false ->
    entry_of lk st p (L "-" ++ p ++ L "-").

Lemma entry_nonnil : forall lk st p e, p <> [] -> entry_of lk st p e -> e <> [].
Proof.
  intros lk st p e Hp H X. destruct H; subst; try (destruct p; discriminate); try contradiction.
  assert (G : forallb (fun kv => negb (str_eqb (fst kv) [])) RAFSI_LIST = true) by (vm_compute; reflexivity).
  rewrite forallb_forall in G. specialize (G _ H). discriminate.
Qed.

Lemma selrafsi_at_sound : forall lk st n i x nx e, x <> [] ->
  selrafsi_at lk (y_hyphens st) (allow_mz st) n i x nx = Ok e -> entry_of lk st x e.
Proof.
  intros lk st n i x nx e Hx H. unfold selrafsi_at in H. destruct x as [|x0 xs] eqn:Ex; [congruence|]. rewrite <- Ex in *. clear Ex. fold (word_settings st) in H. cbv zeta in H.
  destruct (search_selrafsi_from_rafsi x) as [s|] eqn:Es.
  { injection H as <-. apply search_sound in Es as [(rs & H1 & H2)|(H4 & v & rs & Hv & -> & H5)]; [eapply e_rafsi; eauto|eapply e_gismu; eauto]. }
  assert (N : forall w rs, In (w, rs) RAFSI_LIST -> ~ In x rs).
  { intros w rs H1 H2. rewrite (search_complete _ _ _ H1 H2) in Es. discriminate. }
  inv_bind H. rename x1 into by_, E into Eb. inv_bind H. rename x1 into b1, E into E1. destruct b1.
  { injection H as <-. destruct by_; [|discriminate]. apply e_short_word; assumption. }
  inv_bind H. rename x1 into b2, E into E2. destruct b2.
  { injection H as <-. apply e_word; assumption. }
  inv_bind H. rename x1 into b3, E into E3. destruct b3; injection H as <-.
  - destruct (i =? n - 1); [|discriminate]. apply e_short_word; assumption.
  - apply e_other; assumption.
Qed.

Lemma selrafsi_loop_sound : forall lk st n l i es, Forall (fun p => p <> []) l ->
  selrafsi_loop lk (y_hyphens st) (allow_mz st) n i l = Ok es -> Forall2 (entry_of lk st) (rafsi_pieces l) es.
Proof.
  intros lk st n. induction l as [|x l IH]; intros i es F H; cbn [selrafsi_loop] in H.
  - injection H as <-. constructor.
  - inversion F; subst. inv_bind H. rename x0 into s, E into Es. inv_bind H. rename x0 into ss, E into Ess. specialize (IH _ _ H3 Ess).
    unfold rafsi_pieces in *. cbn [filter]. assert (Eh : mems x HYPHENS = is_hyphen x).
    { apply eq_true_iff_eq. rewrite mems_In, is_hyphen_spec. unfold hyphen, HYPHENS. cbn. tauto. }
    rewrite Eh in Es. destruct (is_hyphen x); cbn [negb].
    + unfold selrafsi_at in Es. injection Es as <-. injection H as <-. exact IH.
    + pose proof (selrafsi_at_sound _ _ _ _ _ _ _ H2 Es) as J. pose proof (entry_nonnil _ _ _ _ H2 J) as Ne. destruct s; [congruence|]. injection H as <-. constructor; assumption.
Qed.

Theorem C21_one_entry_per_piece : forall lk st w es, get_veljvo lk st w = Ok es ->
  exists t ps, analyse_brivla lk st w = Ok (t, ps) /\ In t [LUJVO; EXTENDED_LUJVO; CMEVLA]
    /\ Forall2 (entry_of lk st) (rafsi_pieces ps) es.
Proof.
  intros lk st w es H. unfold get_veljvo in H. destruct (analyse_brivla lk st w) as [[t ps]|e] eqn:E; [|discriminate]. cbn [bind] in H.
  assert (T : In t [LUJVO; EXTENDED_LUJVO; CMEVLA]) by (cbn; destruct t; try discriminate; auto).
  assert (S : selrafsi_list_from_rafsi_list lk (y_hyphens st) (allow_mz st) ps = Ok es) by (destruct t; try discriminate; exact H).
  exists t, ps. split; [reflexivity|]. split; [exact T|]. unfold selrafsi_list_from_rafsi_list in S. eapply selrafsi_loop_sound; [|exact S].
  assert (G : Forall (nonempty_piece (exp_rafsi_shapes st) (allow_mz st)) ps) by (apply (accepted_pieces _ _ _ _ _ E); intros ->; cbn in T; intuition discriminate).
  eapply Forall_impl; [|exact G]. intros p [X _]. exact X.
Qed.

Example C21_example :
  get_veljvo Bound default_settings (L "spageti'ybacyzdani") = Ok (map L ["spageti"; "bancu"; "zdani"]%string)
  /\ get_veljvo Bound default_settings (L "brivlatengo'u") = Ok (map L ["bridi"; "valsi"; "tcena"; "-go'u-"]%string)
  /\ get_veljvo Bound default_settings (L "brodyspageti") = Ok (map L ["brod-"; "spageti"]%string).
Proof. vm_compute. repeat split. Qed.

(** ** C30: no accepted word is a slinku'i *)
Lemma slinkuhi_false : forall lk yh mz v c t, Core.is_slinkuhi (jvk lk) yh mz v = Ok false -> v = c :: t -> is_consonant c = true ->
  forall ps, jvk lk yh CLUSTER false mz (L "to" ++ v) <> Ok ps.
Proof.
  intros lk yh mz v c t H -> Hc ps J. unfold Core.is_slinkuhi in H. cbn [idx nth_error bind] in H. rewrite (k_f0 _ Hc) in H. rewrite J in H. discriminate.
Qed.

Lemma gismu_not_slinkuhi : forall lk yh mz v, is_gismu v mz = true -> forall ps, jvk lk yh CLUSTER false mz (L "to" ++ v) <> Ok ps.
Proof.
  intros lk yh mz v G ps J. apply jvk_cll_lujvo in J as (gen & correct & Y). pose proof (x_cut _ _ _ _ _ _ _ _ _ Y) as Cp.
  assert (Ca : cut (rn_ok yh) (hy_ok yh) mz None [v]).
  { split; [|exact I]. left. apply is_gismu_spec in G as [(c1 & v1 & c2 & c3 & v2 & -> & G)|(c1 & c2 & v1 & c3 & v2 & -> & G)].
    - exists "CVCCV"%string. split; [constructor; apply G|reflexivity].
    - exists "CCVCV"%string. split; [constructor; apply G|reflexivity]. }
  destruct (to_cut _ _ _ _ _ Cp Ca) as (c & P & -> & E & Hc); [|apply (x_two _ _ _ _ _ _ _ _ _ Y)|discriminate|].
  { cbn [concat]. rewrite app_nil_r. apply (x_concat _ _ _ _ _ _ _ _ _ Y). }
  destruct Cp as [_ CP]. cbn [concat] in E. rewrite app_nil_r in E.
  assert (PB : plain_before (Some [116%N; 111%N; c])).
  { intros q Q X. injection Q as <-. apply shaped_cvv_tarmi in X. rewrite shaped3_tarmi in X; [discriminate|reflexivity|reflexivity|exact Hc]. }
  destruct P as [|p1 P1]; [rewrite E in G; discriminate|].
  apply is_gismu_spec in G as [(c1 & v1 & c2 & c3 & v2 & -> & G)|(c1 & c2 & v1 & c3 & v2 & -> & G)]; injection E as <- E; decompose [and] G; bfacts.
  - eapply cut_vowel; [exact CP|symmetry; exact E|assumption].
  - destruct (cut_consonant' _ _ _ _ _ _ _ _ CP PB (eq_sym E)) as (s & Hs & Hp); [assumption|]. destruct CP as [_ CP].
    change (concat (p1 :: P1)) with (p1 ++ concat P1) in E.
    inversion Hs; subst; bfacts; cbn [app] in E; injection E; intros; subst; try clash.
    destruct P1 as [|p2 P2]; [discriminate|]. eapply cut_vowel; [exact CP|symmetry; eassumption|assumption].
Qed.

Lemma spelling_letters : forall w, Forall (fun c => c <> 104%N /\ c <> 44%N) (standard_spelling w).
Proof.
  intro w. unfold standard_spelling. cbv zeta. apply Forall_forall. intros c H. apply filter_In in H as [H1 H2]. apply in_map_iff in H1 as (d & E & _).
  apply negb_true_iff, N.eqb_neq in H2. split; [|exact H2]. destruct (N.eqb_spec d 104%N); [subst c; discriminate|congruence].
Qed.
Lemma spelling_after : forall u w, low u -> Forall (fun c => c <> 104%N /\ c <> 44%N) u -> hd 0%N u <> 46%N -> u <> [] ->
  standard_spelling (u ++ standard_spelling w) = u ++ standard_spelling w.
Proof.
  intros u w Hl Hf Hd Hn. assert (L : low (u ++ standard_spelling w)) by (apply low_app; split; [exact Hl|apply spelling_low]).
  assert (F : Forall (fun c => c <> 104%N /\ c <> 44%N) (u ++ standard_spelling w)) by (apply Forall_app; split; [exact Hf|apply spelling_letters]).
  destruct u as [|c u]; [congruence|]. cbn [app hd] in *. unfold standard_spelling at 1. cbv zeta. destruct (N.eqb_spec c 46%N) as [|_]; [contradiction|].
  rewrite (low_lower _ L). clear -F. induction F as [|d s [F1 F2] F IH]; [reflexivity|]. cbn [map filter]. destruct (N.eqb_spec d 104%N); [contradiction|]. destruct (N.eqb_spec d 44%N); [contradiction|].
  cbn [negb]. f_equal. exact IH.
Qed.

Lemma accepted_no_cut : forall lk st w t ps c u, analyse_brivla lk st w = Ok (t, ps) -> t <> CMEVLA ->
  standard_spelling w = c :: u -> is_consonant c = true ->
  forall qs, jvk lk (y_hyphens st) CLUSTER false (allow_mz st) (L "to" ++ standard_spelling w) <> Ok qs.
Proof.
  intros lk st w t ps c u H Ht Ev Hc qs' J. pose proof H as H0. apply analyse_inv in H. set (v := standard_spelling w) in *.
  inversion H as [G|l ps' E1 E2 E3 E4 J' |l c' e t' E1 E2 E3 J' Hca Ei Ev' Ny Ck|l c' e t' ps' E1 E2 E3 E4 J' Hca Ei Ev' H2 HC Et]; subst.
  - eapply gismu_not_slinkuhi; [exact G|exact J].
  - destruct (is_consonant l) eqn:El; [congruence|]. apply jvk_cll_lujvo in J' as (gen & correct & Y).
    destruct (x_last _ _ _ _ _ _ _ _ _ Y) as (s & l' & Es & Eg). rewrite Es, last_opt_app in E1. injection E1 as ->. rewrite El in Eg. subst gen.
    destruct lk.
    + pose proof (x_word _ _ _ _ _ _ _ _ _ Y) as Hw. unfold expected_word in Hw. inv_bind Hw. destruct x as [[? ?] ?]. discriminate.
    + eapply lujvo_not_slinkuhi; [exact Y|exact J].
  - destruct (C31_zihevla_rules _ _ _ _ H0) as (_ & _ & _ & _ & _ & _ & syl & _ & _ & _ & S). rewrite slinkuhi_api in S.
    eapply slinkuhi_false; [exact S|exact Ev|exact Hc|exact J].
  - unfold analyse_compound in HC. inv_bind HC. dif HC; [discriminate|]. rewrite Ev in Ei. injection Ei as <-. rewrite (k_f0 _ Hc) in HC. cbn [bind] in HC.
    inv_bind HC. destruct x0; [discriminate|]. eapply slinkuhi_false; [eassumption|exact Ev|exact Hc|exact J].
Qed.

Theorem C30_no_slinkuhi : forall lk st w t ps c u, analyse_brivla lk st w = Ok (t, ps) -> t <> CMEVLA ->
  standard_spelling w = c :: u -> consonant c ->
  forall qs, analyse_brivla lk (mkSettings (y_hyphens st) false CLUSTER false (allow_mz st)) (L "to" ++ standard_spelling w) <> Ok (LUJVO, qs).
Proof.
  intros lk st w t ps c u H Ht Ev Hc qs X. apply is_consonant_spec in Hc.
  assert (J : exists qs', jvk lk (y_hyphens st) CLUSTER false (allow_mz st) (L "to" ++ standard_spelling w) = Ok qs').
  { apply analyse_inv in X. rewrite spelling_after in X by (repeat constructor; discriminate).
    inversion X as [|l' qs' E1 E2 E3 E4 J| |l' c' e' t' qs' E1 E2 E3 E4 J Hca Ei Ev' H2 HC Et]; subst; [exists qs; exact J|]. destruct (is_consonant l'); discriminate. }
  destruct J as (qs' & J). exact (accepted_no_cut _ _ _ _ _ _ _ H Ht Ev Hc _ J).
Qed.

(** words that are rejected only because they are slinku'i *)
Example C30_example :
  (exists ps, analyse_brivla Bound default_settings (L "spageti") = Ok (ZIhEVLA, ps))
  /\ (exists ps, analyse_brivla Bound default_settings (L "paslinku'i") = Ok (LUJVO, ps))
  /\ analyse_brivla Bound default_settings (L "slinku'i") = Err NotBrivlaError
  /\ (exists ps, analyse_brivla Bound default_settings (L "bradybau") = Ok (LUJVO, ps))
  /\ (exists ps, analyse_brivla Bound default_settings (L "brivlatengo'u") = Ok (LUJVO, ps)).
Proof. repeat split; try eexists; vm_compute; reflexivity. Qed.

(** ** C29: the option glides *)
(** two settings that agree on everything but [glides] *)
Definition same_but_glides (st st' : settings) : Prop :=
  y_hyphens st = y_hyphens st' /\ exp_rafsi_shapes st = exp_rafsi_shapes st' /\ consonants st = consonants st' /\ allow_mz st = allow_mz st'.

Lemma same_with : forall st st', same_but_glides st st' -> st = with_glides st (glides st) /\ st' = with_glides st (glides st').
Proof. intros [y e c g m] [y' e' c' g' m'] (H1 & H2 & H3 & H4). cbn in *. subst. split; reflexivity. Qed.

(** Without experimental shapes the option has no effect on the builder. *)
Theorem C29_builder : forall lk gen st st' t, same_but_glides st st' -> exp_rafsi_shapes st = false ->
  get_lujvo lk gen st t = get_lujvo lk gen st' t /\ get_lujvo_with_analytics lk gen st t = get_lujvo_with_analytics lk gen st' t.
Proof.
  intros lk gen st st' t S H. destruct (same_with _ _ S) as [-> ->]. set (g := glides st). set (g' := glides st').
  assert (E : get_lujvo_with_analytics lk gen (with_glides st g) t = get_lujvo_with_analytics lk gen (with_glides st g') t).
  { unfold get_lujvo_with_analytics. destruct (process_tanru t); cbn [bind]; [|reflexivity]. apply builder_glides. exact H. }
  split; [|exact E]. rewrite !get_lujvo_fst, E. reflexivity.
Qed.

(** Nor on which words are accepted, as what, with which pieces, components and
    score.  Missing from the full claim: that a rejected word is rejected with the
    same exception, which is false, see [C29_exception_refuted]. *)
Theorem C29_analysis_partial : forall lk st st' w, same_but_glides st st' -> exp_rafsi_shapes st = false ->
  (forall r, analyse_brivla lk st w = Ok r <-> analyse_brivla lk st' w = Ok r)
  /\ (forall r, get_veljvo lk st w = Ok r <-> get_veljvo lk st' w = Ok r)
  /\ (forall r, score_lujvo lk st w = Ok r <-> score_lujvo lk st' w = Ok r)
  /\ (is_brivla lk st w = Ok true <-> is_brivla lk st' w = Ok true).
Proof.
  intros lk st st' w S H. destruct (same_with _ _ S) as [-> ->]. set (g := glides st). set (g' := glides st'). clearbody g g'. clear S st'.
  assert (A : forall g g' r, analyse_brivla lk (with_glides st g) w = Ok r -> analyse_brivla lk (with_glides st g') w = Ok r) by (intros; eapply analyse_glides; eassumption).
  assert (V : forall g g' r, get_veljvo lk (with_glides st g) w = Ok r -> get_veljvo lk (with_glides st g') w = Ok r).
  { clear g g'. intros g g' r Hr. unfold get_veljvo in *. inv_bind Hr. rewrite (A _ g' _ E). exact Hr. }
  assert (C : forall g g' r, score_lujvo lk (with_glides st g) w = Ok r -> score_lujvo lk (with_glides st g') w = Ok r).
  { clear g g'. intros g g' r Hr. unfold score_lujvo in *. inv_bind Hr. rewrite (V _ g' _ E). cbn [bind]. inv_bind Hr. rewrite (A _ g' _ E0). exact Hr. }
  assert (B : forall g g', is_brivla lk (with_glides st g) w = Ok true -> is_brivla lk (with_glides st g') w = Ok true).
  { clear g g'. intros g g' Hr. unfold is_brivla, Core.is_brivla in *. destruct (analyse_brivla lk (with_glides st g) w) as [r|e] eqn:E; [|destruct e; discriminate].
    rewrite (A _ g' _ E). exact Hr. }
  repeat split; intros; eauto.
Qed.

(** "bacyiaspa'yyba" is no word either way, but one run ends in NotBrivlaError and
    the other, whose indexing tools.py:352 meets the empty part between the two y,
    in IndexError. *)
Theorem C29_exception_refuted : exists st st' w, same_but_glides st st' /\ exp_rafsi_shapes st = false
  /\ analyse_brivla Bound st w = Err NotBrivlaError /\ analyse_brivla Bound st' w = Err IndexError
  /\ is_brivla Bound st w = Ok false /\ is_brivla Bound st' w = Err IndexError.
Proof.
  exists (mkSettings STANDARD false CLUSTER true false), (mkSettings STANDARD false CLUSTER false false), (L "bacyiaspa'yyba").
  repeat split; vm_compute; reflexivity.
Qed.

(** the hypotheses are met, by a word with a part that starts with a glide *)
Example C29_example :
  map (fun g => analyse_brivla Bound (mkSettings STANDARD false CLUSTER g false) (L "bacyiaspa")) [true; false]
    = [Ok (EXTENDED_LUJVO, [L "bac"; L "y"; L "iaspa"]); Ok (EXTENDED_LUJVO, [L "bac"; L "y"; L "iaspa"])].
Proof. vm_compute. reflexivity. Qed.
(** with experimental shapes the option matters *)
Example C29_needs_exp :
  map (fun g => is_brivla Bound (mkSettings STANDARD true CLUSTER g false) (L "bacyia")) [true; false] = [Ok true; Ok false].
Proof. vm_compute. reflexivity. Qed.

Print Assumptions C21_one_entry_per_piece.
Print Assumptions C30_no_slinkuhi.
Print Assumptions C29_builder.
Print Assumptions C29_analysis_partial.
Print Assumptions C29_exception_refuted.
