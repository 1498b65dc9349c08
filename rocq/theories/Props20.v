(** Property C51: tanru of gismu and zi'evla always give a lujvo.  Property C52:
    being a zi'evla depends on two of the options only. *)
From Verif Require Import Str Data Tarmi Rafsi Core Api Lib Spec Shapes Decomp Basic Vowels Katna Dict Errs Builder Jvokaha Fuel Raises Inv Parts Clusters Zihevla Forms Chain Score Alt Lujvo Slinku Compound Whole Optimal Props1 Props2 Props3 Total Onset Pinned Found Props4 Props5 Props6 Props8 Props9 Props10 Joint Swap Unique Round Props12 Ext Ext2 Ext3 Ext4 Props14 RuleSpec Rules Rules2 Props16 ZiCut Props17 Mixed.

(** ** C51 *)
(** a gismu, or a zi'evla; when mz is allowed, a zi'evla without mz (see
    C46_mz_exception for what such words can do) *)
Definition root_word (st : settings) (w : str) : Prop :=
  gismu_form (allow_mz st) (standard_spelling w)
  \/ ((exists ps, analyse_brivla Bound st w = Ok (ZIhEVLA, ps)) /\ (allow_mz st = true -> ~ contains (standard_spelling w) (L "mz"))).

Lemma root_word_root : forall st w, (Z.of_nat (length (standard_spelling w)) <= 10 ^ 96)%Z -> root_word st w -> root st (standard_spelling w).
Proof.
  intros st w Hb [G|[[ps H] Hm]]; [left; apply is_gismu_spec; exact G|right]. pose proof (letters_spelling _ (C04_lojban_letters _ _ _ _ _ H)) as Es.
  destruct (C31_zihevla_rules _ _ _ _ H) as (_ & L4 & _).
  split; [|split; [exact Es|split; [|exact Hb]]].
  - exists ps. rewrite (analyse_spelling Bound st (standard_spelling w) w); [exact H|intro X; rewrite X in L4; cbn in L4; lia|intros ->; cbn in L4; lia|exact Es].
  - destruct (allow_mz st) eqn:Em; [apply Hm; reflexivity|]. eapply zihevla_no_mz; eassumption.
Qed.
Lemma length_in : forall (vs : list str) v, In v vs -> length v <= length (concat vs).
Proof. induction vs as [|u vs IH]; intros v H; [destruct H|]. cbn [concat]. rewrite app_length. destruct H as [->|H]; [lia|]. specialize (IH _ H). lia. Qed.
Lemma roots : forall st ws, (Z.of_nat (length (concat (map standard_spelling ws))) <= 10 ^ 96)%Z -> Forall (root_word st) ws -> Forall (root st) (map standard_spelling ws).
Proof.
  intros st ws Hb F. apply Forall_map. rewrite Forall_forall in *. intros w Hw. apply root_word_root; [|apply F; exact Hw].
  pose proof (length_in (map standard_spelling ws) (standard_spelling w) (in_map _ _ _ Hw)). lia.
Qed.
Lemma root_clean : forall st v, root st v -> clean v.
Proof.
  intros st v [G|Z].
  - eapply ordinary_clean. right. apply is_gismu_spec. exact G.
  - destruct (zword_letters _ _ Z) as [Z1 Z2]. split; [exact Z1|]. intro X. rewrite Forall_forall in Z2. apply Z2 in X. discriminate.
Qed.

Theorem C51_brivla_tanru : forall gen st t ws, words_of t ws -> 2 <= length ws ->
  (Z.of_nat (length (concat (map standard_spelling ws))) <= 10 ^ 96)%Z ->
  Forall (root_word st) ws -> (gen = true -> gismu_form (allow_mz st) (standard_spelling (last ws []))) ->
  exists w, get_lujvo Bound gen st t = Ok w.
Proof.
  intros gen st t ws Hw H2 Hb F Hg. pose proof (roots _ _ Hb F) as R.
  destruct (clean_builder gen st t ws Hw) as (rll & Er & Eb).
  { apply (proj1 (Forall_map standard_spelling (root st) ws)) in R. eapply Forall_impl; [|exact R]. intro w. apply root_clean. }
  destruct (root_best gen st (map standard_spelling ws) rll R) as (w & sc & ix & E); [rewrite map_length; exact H2| |exact Hb|exact Er|].
  { intro G. specialize (Hg G). apply is_gismu_spec in Hg. assert (El : last (map standard_spelling ws) [] = standard_spelling (last ws [])); [|rewrite El; exact Hg].
    clear. induction ws as [|w [|w' ws] IH]; [reflexivity..|]. exact IH. }
  exists w. rewrite E in Eb. cbn [bind] in Eb.
  assert (Es : gen = false -> slinkuhi Bound (y_hyphens st) (allow_mz st) w = Ok false).
  { intros ->. eapply mixed_passes; [|exact Er|exact E]. eapply Forall_impl; [|exact R]. intros v [G|Z]; [left; right; apply is_gismu_spec; exact G|right; exact Z]. }
  unfold get_lujvo_with_analytics in Eb. unfold get_lujvo. destruct (process_tanru t); [|destruct gen; [discriminate|]; rewrite (Es eq_refl) in Eb; discriminate]. cbn [bind] in *. rewrite Eb.
  destruct gen; [reflexivity|]. rewrite (Es eq_refl). reflexivity.
Qed.

(** The premise about the last word of a name cannot be dropped: a tanru that ends
    in a zi'evla the dictionary has no rafsi for never gives a name. *)
Theorem C51_no_name : forall st t ws w ps, words_of t (ws ++ [w]) -> analyse_brivla Bound st w = Ok (ZIhEVLA, ps) ->
  (Z.of_nat (length (standard_spelling w)) <= 10 ^ 96)%Z ->
  (forall rs, In (standard_spelling w, rs) RAFSI_LIST -> rs = []) -> forall n, get_lujvo Bound true st t <> Ok n.
Proof.
  intros st t ws w ps Hw H Hb Hd n X. rewrite get_lujvo_fst in X. destruct (get_lujvo_with_analytics Bound true st t) as [[[n' sc] ix]|] eqn:E; [|discriminate].
  destruct (analytics_best _ _ _ _ _ _ _ _ Hw E) as (rll & Er & Eb). rewrite map_app in Er. cbn [map] in Er. clear X E Hw.
  destruct (best_word_construction _ _ _ _ _ _ _ _ Er Eb) as (ch & c & pcs & K).
  destruct (k_end _ _ _ _ _ _ _ _ _ _ K) as (s & l & En & Hl). destruct (k_built _ _ _ _ _ _ _ _ _ _ K) as (w0 & r & ty & B). destruct (b_last _ _ _ _ _ _ _ _ B) as (ps' & Ep & _).
  pose proof (k_source _ _ _ _ _ _ _ _ _ _ K) as S. rewrite Ep in S. apply Forall2_app_inv_l in S as (l1 & l2 & _ & S & El). inversion S as [|? ? ? ? S1 S2]; subst. inversion S2; subst.
  apply app_inj_tail in El as [_ <-]. cbn [fst snd] in S1. set (v := standard_spelling w) in *.
  pose proof (C04_lojban_letters _ _ _ _ _ H) as F. destruct (C31_zihevla_rules _ _ _ _ H) as (_ & L4 & _ & (u & x & Ev & Hx) & _). fold v in F, L4, Ev.
  assert (Nd : last_opt v <> Some c_dash). { rewrite Ev, last_opt_app. intro X. injection X as ->. apply is_vowel_spec in Hx. discriminate. }
  assert (Ha : analyse_brivla Bound (ana_settings st) v = Ok (ZIhEVLA, ps)).
  { apply (zihevla_any st); [|reflexivity|reflexivity|fold v; rewrite (letters_spelling _ F); exact Hb].
    rewrite (analyse_spelling Bound st v w); [exact H|intro X; rewrite X in L4; cbn in L4; lia|intros ->; cbn in L4; lia|apply letters_spelling; exact F]. }
  assert (G : r = v).
  { inversion S1 as [? ? ? X|? ? X|? X|? X|? rs X1 X2 X3 X4|? ? X1 X2 X3|? ? X1 X2 X3]; subst; try contradiction; [|congruence|reflexivity].
    rewrite (Hd _ X3) in X4. destruct X4. }
  pose proof (b_word _ _ _ _ _ _ _ _ B) as Bw. rewrite (k_word _ _ _ _ _ _ _ _ _ _ K), app_nil_r, G, Ev, app_assoc in Bw. apply app_inj_tail in Bw as [_ <-].
  apply is_vowel_spec in Hx. eapply vowel_not_consonant; eassumption.
Qed.
(** three words, every option of the library that makes the two zi'evla zi'evla;
    and a tanru without a name *)
Example C51_example :
  let ws := map L ["spageti"; "Iglu"; "kulnu"]%string in
  words_of (TList ws) ws /\ Forall (root_word default_settings) ws
  /\ get_lujvo Bound false default_settings (TList ws) = Ok (L "spageti'y'iglu'yklu")
  /\ get_lujvo Bound true default_settings (TList ws) = Ok (L "spageti'y'iglu'ykuln")
  /\ get_lujvo Bound true default_settings (TList (map L ["kulnu"; "spageti"]%string)) = Err NoLujvoFoundError.
Proof.
  split; [reflexivity|]. split; [|repeat split; vm_compute; reflexivity].
  apply Forall_cons; [right; split; [eexists; vm_compute; reflexivity|discriminate]|].
  apply Forall_cons; [right; split; [eexists; vm_compute; reflexivity|discriminate]|].
  apply Forall_cons; [left; apply is_gismu_spec; vm_compute; reflexivity|apply Forall_nil].
Qed.
Print Assumptions C51_brivla_tanru.
Print Assumptions C51_no_name.

(** ** C52 *)
(** Whether a word is a zi'evla does not depend on the options
    exp_rafsi_shapes, consonants and glides. *)
Theorem C52_zihevla_options : forall yh mz e c g e' c' g' w ps, (Z.of_nat (length (standard_spelling w)) <= 10 ^ 96)%Z ->
  analyse_brivla Bound (mkSettings yh e c g mz) w = Ok (ZIhEVLA, ps) <-> analyse_brivla Bound (mkSettings yh e' c' g' mz) w = Ok (ZIhEVLA, ps).
Proof. intros yh mz e c g e' c' g' w ps Hb. split; intro H; (eapply zihevla_any; [exact H|reflexivity|reflexivity|exact Hb]). Qed.
(** the two others matter *)
Example C52_example :
  analyse_brivla Bound (mkSettings STANDARD true ONE_CONSONANT true false) (L "spageti") = Ok (ZIhEVLA, [L "spageti"])
  /\ analyse_brivla Bound (mkSettings STANDARD false CLUSTER false false) (L "spageti") = Ok (ZIhEVLA, [L "spageti"])
  /\ analyse_brivla Bound (mkSettings STANDARD false CLUSTER false false) (L "spamzeti") = Err NotBrivlaError
  /\ analyse_brivla Bound (mkSettings STANDARD false CLUSTER false true) (L "spamzeti") = Ok (ZIhEVLA, [L "spamzeti"]).
Proof. vm_compute. repeat split. Qed.
Print Assumptions C52_zihevla_options.
