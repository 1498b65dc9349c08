(** Theorems C44 and C45: the CLL lujvo the library accepts, and the lujvo it
    builds from given rafsi, are exactly those the rules of CLL 4.6 prescribe
    (RuleSpec.v). *)
From Verif Require Import Str Data Tarmi Rafsi Core Api Lib Spec Shapes Decomp Basic Vowels Katna Dict Errs Builder Jvokaha Slinku Fuel Raises Inv Parts Clusters Forms Chain Score Alt Lujvo Optimal Props1 Props2 Props3 Total Onset Pinned Found Props4 Props5 Props8 Props9 Tosm Joint Swap Unique Round Recast RuleSpec Rules Rules2.

(** with forced 'y and the cluster requirement, a lujvo has a rafsi other than CVV
    and CV'V *)
Definition has_cluster_rafsi (st : settings) (rs : list str) : Prop :=
  y_hyphens st = FORCE_Y -> consonants st = CLUSTER -> Exists (fun r => ~ vowel_pair (allow_mz st) r) rs.
Definition cll_rafsi_list (mz : bool) (rs : list str) : Prop := Forall (fun r => exists s, cll_rafsi mz s r) rs.

Lemma lively_iff : forall st rs, cll_rafsi_list (allow_mz st) rs -> (lively (plain st) rs <-> has_cluster_rafsi st rs).
Proof.
  intros st rs F. unfold lively, has_cluster_rafsi, plain. cbn [y_hyphens consonants].
  assert (K : consonants st = CLUSTER -> forall r, In r rs -> (cr (plain st) r = 2 <-> ~ vowel_pair (allow_mz st) r)).
  { intros Ec r Hr. unfold cll_rafsi_list in F. rewrite Forall_forall in F. pose proof (cll_is _ _ r (F r Hr) eq_refl) as K. split.
    - intros E V. unfold cr, plain, credit in E. cbn [consonants glides] in E. rewrite Ec in E. destruct V as [V|V]; apply cll_tarmi in V; cbn in V; rewrite V in E; discriminate.
    - intro V. destruct (cr_cases (plain st) r) as [E|[[_ E]|(_ & _ & E)]]; [exact E|contradiction|]. exfalso. apply V. destruct E as [E|E]; rewrite E in K; [left|right]; exact K. }
  assert (M : forall (P Q : str -> Prop), (forall r, In r rs -> (P r <-> Q r)) -> Exists P rs -> Exists Q rs).
  { intros P Q H X. rewrite Exists_exists in *. destruct X as (r & I & X). exists r. split; [exact I|]. apply H; assumption. }
  split; intros H Ey Ec; (eapply M; [|apply H; assumption]); intros r Hr; [|symmetry]; apply K; assumption.
Qed.
Lemma hyph_short : forall yh mz opt first rs ps, hyphenated yh mz opt first rs ps -> cll_rafsi_list mz rs -> short_before_last rs /\ calm_end rs.
Proof.
  intros yh mz opt first rs ps H. induction H as [first r (s & v & E & V)|first r g rest h ps Hl Hk H IH]; intro F.
  - split; [exact I|]. exists s, v. split; [exact E|apply is_vowel_spec; exact V].
  - inversion F as [|? ? Hr F']; subst. destruct (IH F') as [A B]. split; [|exact B]. split; [|exact A]. eapply len_short; [exact Hr|exact Hl].
Qed.
Lemma drops_length : forall u qs ps, drops u qs ps -> length (concat qs) <= length (concat ps).
Proof. intros u qs ps H. induction H as [|? ? ? ? D IH|? ? ? ? ? ? Ho Hq Hu D IH]; cbn [concat]; rewrite ?app_length; lia. Qed.

(** five-letter rafsi only at the end *)
Definition long_only_last (rs : list str) : Prop := forall a r b, rs = a ++ r :: b -> b <> [] -> length r < 5.
Lemma long_only_short : forall mz rs, cll_rafsi_list mz rs -> (long_only_last rs <-> short_before_last rs).
Proof.
  intros mz rs F. induction F as [|r rs Hr F IH]; [split; [intros _; exact I|intros _ [|? ?] r b E; discriminate]|]. destruct rs as [|g rest].
  - split; [intros _; exact I|]. intros _ [|x a] y b E N; [injection E as _ E; congruence|destruct a; discriminate].
  - split.
    + intro H. split; [eapply len_short; [exact Hr|]; apply (H [] r (g :: rest)); [reflexivity|discriminate]|]. apply IH. intros a x b E N. apply (H (r :: a) x b); [cbn; congruence|exact N].
    + intros [H1 H2] [|x a] y b E N; [injection E as <- _; eapply short_len; eassumption|]. injection E as <- E. apply (proj2 IH H2 a y b E N).
Qed.

(** ** C45 *)
(** What get_lujvo makes of given CLL rafsi (at least two, five-letter ones only at
    the end): the word with just the hyphens that are needed; no word when the last
    rafsi ends in a consonant, or when (FORCE_Y, CLUSTER) no rafsi has a cluster. *)
Theorem C45_literal_rafsi : forall st rs w, cll_rafsi_list (allow_mz st) rs -> 2 <= length rs -> long_only_last rs ->
  (Z.of_nat (length w) <= 10 ^ 96)%Z ->
  get_lujvo Bound false (plain st) (literally rs) = Ok w <->
  has_cluster_rafsi st rs /\ exists ps, hyphenated (y_hyphens st) (allow_mz st) false true rs ps /\ w = concat ps.
Proof.
  intros st rs w F L S Hb. apply (long_only_short _ _ F) in S. rewrite get_lujvo_literally by exact F.
  pose proof (pieces_word (plain st) rs L) as PW. change (y_hyphens (plain st)) with (y_hyphens st) in PW. change (allow_mz (plain st)) with (allow_mz st) in PW. split.
  - intro H. unfold expected_word in H. inv_bind H. destruct x as [[w' sc] ix]. rewrite (expected_passes _ _ _ _ _ _ _ _ F E) in H. cbn [bind] in H. injection H as ->.
    pose proof (expected_calm _ _ _ _ _ _ _ _ F L E) as C. pose proof (expected_lively _ _ _ _ _ _ _ _ F E) as Li. split; [apply lively_iff; assumption|].
    exists (rule_pieces (y_hyphens st) (allow_mz st) true rs). split; [apply pieces_hyph; [exact F|exact S|exact C|intros ->; cbn in L; lia]|].
    rewrite PW. exact (expected_rule _ _ _ _ _ _ _ _ F L S C Li E).
  - intros (Hc & ps & H & ->). destruct (hyph_short _ _ _ _ _ _ H F) as [_ C].
    assert (Ep : ps = rule_pieces (y_hyphens st) (allow_mz st) true rs).
    { clear -H F. revert F. induction H as [first r Hv|first r g rest h ps Hl Hk H IH]; intro F; [reflexivity|]. inversion F as [|? ? Hr F']; subst.
      rewrite pieces_more. f_equal. rewrite <- (IH F'). f_equal. apply link_strict in Hk as [Hk|(_ & Hk & _)]; [exact Hk|discriminate|exact Hr|exact F'|eapply len_short; eassumption]. }
    rewrite Ep, PW in Hb |- *. apply expected_rules; try assumption. apply lively_iff; assumption.
Qed.

(** ** C44 *)
Lemma gismu_five : forall lk st w q, analyse_brivla lk st w = Ok (GISMU, q) -> length (standard_spelling w) = 5.
Proof.
  intros lk st w q H. assert (G : gismu_form (allow_mz st) (standard_spelling w)) by (apply (C05_gismu_shape lk); exists q; exact H).
  destruct G as [(a & b & c & d & e & -> & _)|(a & b & c & d & e & -> & _)]; reflexivity.
Qed.
(** a word is classified LUJVO only if its pieces are CLL rafsi hyphenated by the rules *)
Theorem C44_lujvo_obey : forall st w ps, analyse_brivla Bound st w = Ok (LUJVO, ps) ->
  concat ps = standard_spelling w /\ exists rs, cll_rafsi_list (allow_mz st) rs /\ 2 <= length rs
    /\ hyphenated (y_hyphens st) (allow_mz st) true true rs ps /\ has_cluster_rafsi st rs.
Proof.
  intros st w ps H. apply C41_cll_lujvo_characterised in H as (_ & _ & Ec & C & L & u & G & HF & HD). split; [exact Ec|].
  assert (Ern : match y_hyphens st with FORCE_Y => false | _ => true end = rn_ok (y_hyphens st)) by (destruct (y_hyphens st); reflexivity).
  assert (Ehy : match y_hyphens st with STANDARD => false | _ => true end = hy_ok (y_hyphens st)) by (destruct (y_hyphens st); reflexivity).
  rewrite Ern, Ehy in *. clear Ern Ehy. pose proof (cut_pieces _ _ _ _ _ C) as Ep. rewrite <- Ep in *. set (rs := rafsi_of ps) in *.
  assert (F : cll_rafsi_list (allow_mz st) rs) by (eapply cut_rafsi_cll; exact C). pose proof (cut_short _ _ _ _ _ C) as S. fold rs in S.
  rewrite get_lujvo_literally in G by exact F. unfold expected_word in G. inv_bind G. destruct x as [[w' sc] ix]. rewrite (expected_passes _ _ _ _ _ _ _ _ F E) in G. cbn [bind] in G. injection G as ->.
  pose proof (expected_calm _ _ _ _ _ _ _ _ F L E) as K. pose proof (expected_lively _ _ _ _ _ _ _ _ F E) as Li.
  pose proof (expected_rule _ _ _ _ _ _ _ _ F L S K Li E) as Eu. change (mkSettings (y_hyphens st) false (consonants st) (glides st) (allow_mz st)) with (plain st) in *.
  pose proof (pieces_word (plain st) rs L) as PW. change (y_hyphens (plain st)) with (y_hyphens st) in PW. change (allow_mz (plain st)) with (allow_mz st) in PW. rewrite <- Eu in PW.
  exists rs. split; [exact F|]. split; [exact L|]. split; [|apply lively_iff; assumption].
  assert (Ne : rs <> []) by (intros X; rewrite X in L; cbn in L; lia).
  pose proof (pieces_hyph (y_hyphens st) (allow_mz st) true rs true F S K Ne) as PH.
  assert (CP : cut (rn_ok (y_hyphens st)) (hy_ok (y_hyphens st)) (allow_mz st) None (rule_pieces (y_hyphens st) (allow_mz st) true rs)) by (eapply hyph_cut; [exact PH|exact F|tauto]).
  destruct (yset_eqb (y_hyphens st) FORCE_Y) eqn:Ey.
  - assert (Ey' : y_hyphens st = FORCE_Y) by (destruct (y_hyphens st); try discriminate; reflexivity).
    replace ps with (rule_pieces (y_hyphens st) (allow_mz st) true rs); [exact PH|].
    eapply cut_unique_all; [exact CP|exact C|]. rewrite PW, Ec. auto.
  - assert (Ny : y_hyphens st <> FORCE_Y) by (intro X; rewrite X in Ey; discriminate). destruct (HD Ny) as (qs & Q1 & Q2 & Q3).
    assert (qs = rule_pieces (y_hyphens st) (allow_mz st) true rs) by (eapply cut_unique_all; [exact Q2|exact CP|congruence]). subst qs.
    clearbody rs. clear Eu PW Q1 Q2 CP PH HF HD. destruct rs as [|r rs']; [contradiction|]. destruct (pieces_head (y_hyphens st) (allow_mz st) true r rs') as [P EP]. rewrite EP in Q3.
    inversion Q3 as [|? ? ? ps' D|u0 q o' p' corr other Ho Hq Hu D E1 E2 E3]; subst; [|destruct u0; discriminate].
    apply (drops_hyph _ _ _ _ true []); try assumption; [tauto| |apply (proj2 C)]. intros P' EP'. rewrite EP in EP'. injection EP' as <-. exact D.
Qed.
(** and every such word (of at most 10^96 letters) is classified LUJVO, with these pieces *)
Theorem C44_rules_suffice : forall st w ps rs, (Z.of_nat (length (standard_spelling w)) <= 10 ^ 96)%Z ->
  concat ps = standard_spelling w -> cll_rafsi_list (allow_mz st) rs -> 2 <= length rs ->
  hyphenated (y_hyphens st) (allow_mz st) true true rs ps -> has_cluster_rafsi st rs ->
  analyse_brivla Bound st w = Ok (LUJVO, ps).
Proof.
  intros st w ps rs Hb Ec F L H Hc. destruct (hyph_short _ _ _ _ _ _ H F) as [S K]. apply lively_iff in Hc; [|exact F].
  assert (C : cut (rn_ok (y_hyphens st)) (hy_ok (y_hyphens st)) (allow_mz st) None ps) by (eapply hyph_cut; [exact H|exact F|tauto]).
  pose proof (hyph_rafsi _ _ _ _ _ _ H F) as Er. pose proof (cut_pieces _ _ _ _ _ C) as Ep. rewrite Er in Ep.
  assert (Ne : rs <> []) by (intros ->; cbn in L; lia).
  pose proof (pieces_hyph (y_hyphens st) (allow_mz st) true rs true F S K Ne) as PH.
  assert (CP : cut (rn_ok (y_hyphens st)) (hy_ok (y_hyphens st)) (allow_mz st) None (rule_pieces (y_hyphens st) (allow_mz st) true rs)) by (eapply hyph_cut; [exact PH|exact F|tauto]).
  pose proof (pieces_word (plain st) rs L) as PW. change (y_hyphens (plain st)) with (y_hyphens st) in PW. change (allow_mz (plain st)) with (allow_mz st) in PW.
  assert (D : drops [] (rule_pieces (y_hyphens st) (allow_mz st) true rs) ps) by (eapply hyph_drops; [exact H|exact F|discriminate]).
  pose proof (drops_length _ _ _ D) as Ld. rewrite PW, Ec in Ld.
  apply C41_cll_lujvo_characterised.
  assert (Ern : match y_hyphens st with FORCE_Y => false | _ => true end = rn_ok (y_hyphens st)) by (destruct (y_hyphens st); reflexivity).
  assert (Ehy : match y_hyphens st with STANDARD => false | _ => true end = hy_ok (y_hyphens st)) by (destruct (y_hyphens st); reflexivity).
  rewrite Ern, Ehy. clear Ern Ehy. rewrite <- Ep. split; [rewrite <- Ec; eapply hyph_ends; exact H|]. split; [|split; [exact Ec|split; [exact C|split; [exact L|]]]].
  - intros q G. apply gismu_five in G. rewrite <- Ec in G. clear -G F L H. assert (6 <= length (concat ps)); [|lia].
    inversion H as [? ? Hv|? r g rest h ps' Hl Hk H']; subst; [cbn in L; lia|]. inversion F as [|? ? Hr F']; subst. inversion F' as [|? ? Hg F'']; subst.
    destruct (hyph_head _ _ _ _ _ _ H') as (g' & rs' & ps2 & Eg & ->). injection Eg as <- <-. apply cll_len in Hr. apply cll_len in Hg.
    cbn [concat]. rewrite concat_app. cbn [concat]. rewrite !app_length. lia.
  - exists (rule_word (plain st) rs). rewrite get_lujvo_literally by exact F. split; [|split].
    + apply expected_rules; try assumption. clear -Hb Ld. change (mkSettings (y_hyphens st) false (consonants st) (glides st) (allow_mz st)) with (plain st). lia.
    + intro Ey. rewrite <- PW, <- Ec. f_equal. rewrite Ey in *. symmetry. eapply hyph_force; eassumption.
    + intros _. exists (rule_pieces (y_hyphens st) (allow_mz st) true rs). auto.
Qed.
(** both directions together *)
Theorem C44_lujvo_rules : forall st w ps, (Z.of_nat (length (standard_spelling w)) <= 10 ^ 96)%Z ->
  analyse_brivla Bound st w = Ok (LUJVO, ps) <->
  concat ps = standard_spelling w /\ exists rs, cll_rafsi_list (allow_mz st) rs /\ 2 <= length rs
    /\ hyphenated (y_hyphens st) (allow_mz st) true true rs ps /\ has_cluster_rafsi st rs.
Proof.
  intros st w ps Hb. split; [apply C44_lujvo_obey|]. intros (Ec & rs & F & L & H & Hc). eapply C44_rules_suffice; eassumption.
Qed.

Ltac rafsi_tac := eexists; constructor; first [apply is_consonant_spec; reflexivity|apply is_vowel_spec; reflexivity|apply initial_spec; reflexivity|apply valid_pairs_spec; reflexivity|cbn; auto 6].
(** the concrete case: tos-y-mabru, where y is needed because of the tosmabru
    pattern only; kla-mau-bakni with and without the r that is not needed *)
Example C44_example :
  (cll_rafsi_list false (Ls ["tos"; "mabru"]%string) /\ hyphenated STANDARD false true true (Ls ["tos"; "mabru"]%string) (Ls ["tos"; "y"; "mabru"]%string)
   /\ ~ needs_y false (L "tos") (L "mabru") /\ tosmabru false (L "tos") [L "mabru"]
   /\ analyse_brivla Bound default_settings (L "tosymabru") = Ok (LUJVO, Ls ["tos"; "y"; "mabru"]%string)
   /\ analyse_brivla Bound default_settings (L "tosmabru") = Err NotBrivlaError)
  /\ analyse_brivla Bound default_settings (L "klamaubakni") = Ok (LUJVO, Ls ["kla"; "mau"; "bakni"]%string)
  /\ analyse_brivla Bound default_settings (L "klamaurbakni") = Ok (LUJVO, Ls ["kla"; "mau"; "r"; "bakni"]%string)
  /\ analyse_brivla Bound default_settings (L "klamaunbakni") = Ok (ZIhEVLA, [L "klamaunbakni"])
  /\ analyse_brivla Bound default_settings (L "maubakni") = Err NotBrivlaError.
Proof.
  assert (F : cll_rafsi_list false (Ls ["tos"; "mabru"]%string)).
  { constructor; [rafsi_tac|]. constructor; [rafsi_tac|]. constructor. }
  split; [|repeat split; vm_compute; reflexivity]. split; [exact F|].
  assert (K : cll_rafsi false "CVC" (L "tos")) by (constructor; first [apply is_consonant_spec; reflexivity|apply is_vowel_spec; reflexivity]).
  split; [|split; [|split; [|split; vm_compute; reflexivity]]].
  - apply (pieces_hyph STANDARD false true (Ls ["tos"; "mabru"]%string) true); [exact F|split; [reflexivity|exact I]|exists (L "mabr"), 117%N; split; reflexivity|discriminate].
  - intros [H|[H|[_ H]]]; [inversion H|inversion H|]. apply clash_joins in H; [discriminate|exact K|]. inversion F as [|? ? _ F']. inversion F'; assumption.
  - apply tosm_spec; [inversion F; assumption|exact K|reflexivity].
Qed.
Example C45_example :
  get_lujvo Bound false default_settings (literally (Ls ["tos"; "mabru"]%string)) = Ok (L "tosymabru")
  /\ get_lujvo Bound false (mkSettings FORCE_Y false CLUSTER false false) (literally (Ls ["mau"; "bakni"]%string)) = Ok (L "mau'ybakni")
  /\ get_lujvo Bound false (mkSettings FORCE_Y false CLUSTER false false) (literally (Ls ["mau"; "doi"]%string)) = Err NoLujvoFoundError
  /\ get_lujvo Bound false default_settings (literally (Ls ["mau"; "doi"]%string)) = Ok (L "maurdoi").
Proof. vm_compute. auto. Qed.
Print Assumptions C44_lujvo_rules.
Print Assumptions C45_literal_rafsi.
