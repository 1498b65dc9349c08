(** Properties C49 and C50: the names made of rafsi the library accepts, and those
    it builds from given rafsi, are the ones the rules of NameSpec.v prescribe. *)
From Verif Require Import Str Data Tarmi Rafsi Core Api Lib Spec Shapes Decomp Basic Vowels Katna Dict Errs Builder Jvokaha Slinku Fuel Raises Inv Parts Clusters Forms Chain Score Alt Lujvo Optimal Props1 Props2 Props3 Total Onset Pinned Found Props4 Props5 Props8 Props9 Tosm Joint Swap Unique Round Recast RuleSpec Rules Rules2 Props16 NameSpec NameRules NameCut.

Lemma cll_name_named : forall yh cs gl mz w ps u, cll_lujvo Bound yh cs gl mz w ps true u ->
  exists rs, cll_rafsi_list mz rs /\ 2 <= length rs /\ named yh mz true true rs ps.
Proof.
  intros yh cs gl mz w ps u X. pose proof (x_cut _ _ _ _ _ _ _ _ _ X) as C. pose proof (x_two _ _ _ _ _ _ _ _ _ X) as L. pose proof (x_concat _ _ _ _ _ _ _ _ _ X) as Ec.
  set (rs := rafsi_of ps) in *. assert (F : Forall (cll mz) rs) by (eapply cut_rafsi_cll; exact C). pose proof (cut_short _ _ _ _ _ C) as S. fold rs in S.
  pose proof (x_word _ _ _ _ _ _ _ _ _ X) as G. fold rs in G. unfold expected_word in G. inv_bind G. destruct x as [[w' sc] ix]. injection G as ->.
  pose proof (expected_end _ _ _ _ _ _ _ _ F L E) as K. pose proof (expected_name _ _ _ _ _ _ _ _ F L S K E) as Eu. cbv zeta in Eu.
  exists rs. split; [exact F|]. split; [exact L|].
  assert (Ne : rs <> []) by (intros Y; rewrite Y in L; cbn in L; lia).
  pose proof (pieces_named yh mz true rs true F S K Ne) as PH. pose proof (pieces_word_false (mkSettings yh false cs gl mz) yh rs) as PW. cbn [allow_mz] in PW. rewrite <- Eu in PW.
  assert (CP : cut (rn_ok yh) (hy_ok yh) mz None (rule_pieces yh mz false rs)) by (eapply named_cut; [exact PH|exact F|tauto]).
  destruct (yset_eqb yh FORCE_Y) eqn:Ey.
  - assert (Ey' : yh = FORCE_Y) by (destruct yh; try discriminate; reflexivity).
    replace ps with (rule_pieces yh mz false rs); [exact PH|]. eapply cut_unique_all; [exact CP|exact C|]. rewrite PW, Ec. apply (x_force _ _ _ _ _ _ _ _ _ X Ey').
  - assert (Ny : yh <> FORCE_Y) by (intro Y; rewrite Y in Ey; discriminate). destruct (x_drops _ _ _ _ _ _ _ _ _ X Ny) as (qs & Q & Q3). apply jvokaha_2_spec in Q as [Q1 Q2].
    assert (qs = rule_pieces yh mz false rs) by (eapply cut_unique_all; [exact Q2|exact CP|congruence]). subst qs.
    clearbody rs. clear Eu PW Q1 Q2 CP PH X E. destruct rs as [|r rs']; [contradiction|]. destruct (pieces_head yh mz false r rs') as [P EP]. rewrite EP in Q3.
    inversion Q3 as [|? ? ? ps' D|u0 q o' p' corr other Ho Hq Hu D E1 E2 E3]; subst; [|destruct u0; discriminate].
    apply (drops_named _ _ _ _ true []); try assumption; [tauto| |apply (proj2 C)]. intros P' EP'. rewrite EP in EP'. injection EP' as <-. exact D.
Qed.
Lemma named_cll_name : forall yh cs gl mz rs ps, (Z.of_nat (length (concat ps)) <= 10 ^ 96)%Z -> cll_rafsi_list mz rs -> 2 <= length rs ->
  named yh mz true true rs ps -> exists u, cll_lujvo Bound yh cs gl mz (concat ps) ps true u.
Proof.
  intros yh cs gl mz rs ps Hb F L H. destruct (named_short _ _ _ _ _ _ H F) as [S K]. set (st := mkSettings yh false cs gl mz).
  assert (C : cut (rn_ok yh) (hy_ok yh) mz None ps) by (eapply named_cut; [exact H|exact F|tauto]).
  pose proof (named_rafsi _ _ _ _ _ _ H F) as Er. assert (Ne : rs <> []) by (intros ->; cbn in L; lia).
  pose proof (pieces_named yh mz true rs true F S K Ne) as PH.
  assert (CP : cut (rn_ok yh) (hy_ok yh) mz None (rule_pieces yh mz false rs)) by (eapply named_cut; [exact PH|exact F|tauto]).
  pose proof (pieces_word_false st yh rs) as PW. change (allow_mz st) with mz in PW.
  assert (D : drops [] (rule_pieces yh mz false rs) ps) by (eapply named_drops; [exact H|exact F|discriminate]).
  pose proof (drops_length _ _ _ D) as Ld. rewrite PW in Ld.
  assert (Hu : expected_word Bound yh cs gl mz true rs = Ok (word_of (canon st rs))) by (apply expected_names; try assumption; fold st; clear -Hb Ld; lia).
  exists (word_of (canon st rs)). split.
  - reflexivity.
  - exact C.
  - rewrite Er. exact L.
  - destruct (named_ends _ _ _ _ _ _ H) as (s & l & E & Hl). exists s, l. split; [exact E|]. symmetry. apply is_consonant_spec. exact Hl.
  - rewrite Er. exact Hu.
  - intro Ey. rewrite <- PW. f_equal. symmetry. eapply named_strict; [left; exact Ey|exact H|exact F].
  - intros _. exists (rule_pieces yh mz false rs). split; [apply jvokaha_2_spec; auto|exact D].
  - unfold expected_word in Hu. inv_bind Hu. destruct x as [[w' sc] ix]. injection Hu as ->.
    destruct (expected_cut _ _ _ _ _ _ _ _ _ F S E) as (qs & Q1 & Q2 & Q3 & Q4).
    assert (Eq : rule_pieces yh mz false rs = qs) by (apply (cut_unique_all (rn_ok yh) true mz); [apply cut_hy in CP; exact CP|exact Q1|congruence]).
    rewrite Eq in D. apply (drops_alternates _ _ _ _ _ _ D C Q4).
Qed.

Lemma named_long : forall yh mz opt first rs ps, named yh mz opt first rs ps -> Forall (cll mz) rs -> 2 <= length rs -> 6 <= length (concat ps).
Proof.
  intros yh mz opt first rs ps H F L. inversion H as [? ? Hv|? r g rest h ps' Hl Hk H']; subst; [cbn in L; lia|]. inversion F as [|? ? Hr F']; subst. inversion F' as [|? ? Hg F'']; subst.
  destruct (named_head _ _ _ _ _ _ H') as (g' & rs' & ps2 & Eg & ->). injection Eg as <- <-. apply cll_len in Hr. apply cll_len in Hg.
  cbn [concat]. rewrite concat_app. cbn [concat]. rewrite !app_length. lia.
Qed.

(** ** C49 *)
(** Every word that is at least two CLL rafsi joined by the rules for names is
    classified CMEVLA, with these pieces. *)
Theorem C49_rules_suffice : forall st w ps rs, (Z.of_nat (length (standard_spelling w)) <= 10 ^ 96)%Z ->
  concat ps = standard_spelling w -> cll_rafsi_list (allow_mz st) rs -> 2 <= length rs ->
  named (y_hyphens st) (allow_mz st) true true rs ps ->
  analyse_brivla Bound st w = Ok (CMEVLA, ps).
Proof.
  intros st w ps rs Hb Ec F L H. rewrite <- Ec in Hb. destruct (named_cll_name (y_hyphens st) (consonants st) (glides st) _ _ _ Hb F L H) as [u X]. apply cll_lujvo_jvk in X.
  destruct (named_ends _ _ _ _ _ _ H) as (s & l & El & Hl). apply is_consonant_spec in Hl. pose proof (named_long _ _ _ _ _ _ H F L) as L6.
  rewrite analyse_brivla_eq. unfold analyse_body. rewrite normalise_ok by (intros ->; rewrite Ec in El; destruct s; discriminate). cbn [bind]. rewrite <- Ec.
  rewrite El at 1. rewrite last_opt_app, Hl. cbn [negb andb].
  destruct (is_gismu (concat ps ++ [c_a]) (allow_mz st)) eqn:Eg.
  - exfalso. apply gismu_len in Eg as (a & b & c & d & e & Eg & _). apply (f_equal (@length char)) in Eg. rewrite app_length in Eg. clear -Eg L6. cbn in Eg. unfold char, str in *. lia.
  - rewrite X. reflexivity.
Qed.
(** Conversely a name without y is accepted only if it is such a word. *)
Theorem C49_names_obey : forall st w ps, analyse_brivla Bound st w = Ok (CMEVLA, ps) -> ~ In c_y (standard_spelling w) ->
  concat ps = standard_spelling w /\ exists rs, cll_rafsi_list (allow_mz st) rs /\ 2 <= length rs
    /\ named (y_hyphens st) (allow_mz st) true true rs ps.
Proof.
  intros st w ps H Ny. apply analyse_inv in H. inversion H as [|l ps' A1 A2 A3 A4 A5 E1 E2| |l c e t ps' A1 A2 A3 A4 A5 A6 A7 A8 A9 A10 A11 E1 E2]; subst.
  - destruct (is_consonant l) eqn:El; [|discriminate]. apply jvk_cll_lujvo in A5 as (gen & u & X).
    destruct (x_last _ _ _ _ _ _ _ _ _ X) as (s & l' & Es & Eg). apply last_opt_some in A1 as [s' Es']. rewrite Es' in Es. apply app_inj_tail in Es as [_ <-]. rewrite El in Eg. subst gen.
    split; [apply (x_concat _ _ _ _ _ _ _ _ _ X)|]. eapply cll_name_named. exact X.
  - exfalso. rewrite (split_on_none _ _ Ny) in A9. cbn in A9. lia.
Qed.
(** both directions, for names without y *)
Theorem C49_names_rules : forall st w ps, (Z.of_nat (length (standard_spelling w)) <= 10 ^ 96)%Z -> ~ In c_y (standard_spelling w) ->
  analyse_brivla Bound st w = Ok (CMEVLA, ps) <->
  concat ps = standard_spelling w /\ exists rs, cll_rafsi_list (allow_mz st) rs /\ 2 <= length rs
    /\ named (y_hyphens st) (allow_mz st) true true rs ps.
Proof.
  intros st w ps Hb Ny. split; [intro H; apply C49_names_obey; assumption|]. intros (Ec & rs & F & L & H). eapply C49_rules_suffice; eassumption.
Qed.
(** With y there are more names: the r after the first rafsi is not allowed by the
    rules, but the analysis of what stands between two y asks for it. *)
Theorem C49_with_y : analyse_brivla Bound default_settings (L "sairbakykul") = Ok (CMEVLA, Ls ["sai"; "r"; "bak"; "y"; "kul"]%string)
  /\ analyse_brivla Bound default_settings (L "sairbakkul") = Err NotBrivlaError
  /\ ~ exists rs, cll_rafsi_list false rs /\ named STANDARD false true true rs (Ls ["sai"; "r"; "bak"; "y"; "kul"]%string).
Proof.
  split; [vm_compute; reflexivity|]. split; [vm_compute; reflexivity|]. intros (rs & F & H). pose proof (named_rafsi _ _ _ _ _ _ H F) as E. vm_compute in E. subst rs.
  assert (X : named STANDARD false true true (Ls ["sai"; "bak"; "kul"]%string) (L "sai" :: [L "r"] ++ Ls ["bak"; "y"; "kul"]%string)) by exact H. clear H.
  remember (L "sai" :: [L "r"] ++ Ls ["bak"; "y"; "kul"]%string) as ps eqn:Ep. inversion X as [? ? Hv|? r g rest h ps' Hl Hk H' E1 E2 E3]; clear X.
  rewrite Ep in E3. injection E3 as E3. destruct (named_head _ _ _ _ _ _ H') as (r' & ? & ps2 & Er & Ep'). injection Er as <- _. rewrite Ep' in E3. clear H'.
  destruct Hk as [K|K|o K1 K2 K3 K4 K5]; cbn [app] in E3; [discriminate|discriminate|].
  destruct (K5 eq_refl) as [K|K]; apply cll_tarmi in K; vm_compute in K; discriminate.
Qed.

(** ** C50 *)
(** What get_lujvo makes of given CLL rafsi (at least two, five-letter ones only at
    the end) when asked for a name: the name with just the y that are needed, and
    none when the last rafsi ends in a vowel. *)
Theorem C50_literal_names : forall st rs w, cll_rafsi_list (allow_mz st) rs -> 2 <= length rs -> long_only_last rs ->
  (Z.of_nat (length w) <= 10 ^ 96)%Z ->
  get_lujvo Bound true (plain st) (literally rs) = Ok w <->
  exists ps, named (y_hyphens st) (allow_mz st) false true rs ps /\ w = concat ps.
Proof.
  intros st rs w F L S Hb. apply (long_only_short _ _ F) in S. rewrite get_lujvo_literally by exact F.
  assert (Ne : rs <> []) by (intros ->; cbn in L; lia).
  pose proof (pieces_word_false (plain st) (y_hyphens st) rs) as PW. change (allow_mz (plain st)) with (allow_mz st) in PW. split.
  - intro H. unfold expected_word in H. inv_bind H. destruct x as [[w' sc] ix]. injection H as ->.
    pose proof (expected_end _ _ _ _ _ _ _ _ F L E) as K. exists (rule_pieces (y_hyphens st) (allow_mz st) false rs). split; [apply pieces_named; assumption|].
    rewrite PW. exact (expected_name _ _ _ _ _ _ _ _ F L S K E).
  - intros (ps & H & ->). destruct (named_short _ _ _ _ _ _ H F) as [_ K]. apply named_strict in H; [|right; reflexivity|exact F]. subst ps. rewrite PW in *.
    apply expected_names; assumption.
Qed.

(** concrete cases: no y against the tosmabru pattern, no r needed after sai *)
Example C49_example :
  (cll_rafsi_list false (Ls ["sai"; "tos"; "mab"; "dun"]%string) /\ named STANDARD false true true (Ls ["sai"; "tos"; "mab"; "dun"]%string) (Ls ["sai"; "tos"; "mab"; "dun"]%string)
   /\ analyse_brivla Bound default_settings (L "saitosmabdun") = Ok (CMEVLA, Ls ["sai"; "tos"; "mab"; "dun"]%string))
  /\ analyse_brivla Bound default_settings (L "sairblan") = Ok (CMEVLA, Ls ["sai"; "r"; "blan"]%string)
  /\ analyse_brivla Bound default_settings (L "saiblan") = Ok (CMEVLA, Ls ["sai"; "blan"]%string)
  /\ analyse_brivla Bound default_settings (L "sairkul") = Err NotBrivlaError.
Proof.
  assert (F : cll_rafsi_list false (Ls ["sai"; "tos"; "mab"; "dun"]%string)) by (repeat (constructor; [rafsi_tac|]); constructor).
  split; [|repeat split; vm_compute; reflexivity]. split; [exact F|]. split; [|vm_compute; reflexivity].
  apply (pieces_named STANDARD false true (Ls ["sai"; "tos"; "mab"; "dun"]%string) true); [exact F|repeat split|exists (L "du"), 110%N; split; reflexivity|discriminate].
Qed.
Example C50_example :
  get_lujvo Bound true default_settings (literally (Ls ["tos"; "mab"; "ctuk"; "kul"]%string)) = Ok (L "tosmabyctukykul")
  /\ get_lujvo Bound true default_settings (literally (Ls ["mau"; "bakni"]%string)) = Err NoLujvoFoundError.
Proof. vm_compute. auto. Qed.
Print Assumptions C49_names_rules.
Print Assumptions C49_rules_suffice.
Print Assumptions C50_literal_names.
