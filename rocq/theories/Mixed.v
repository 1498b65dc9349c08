(** Tanru of gismu and zi'evla: a word is always found, and it passes the
    slinku'i test. *)
From Verif Require Import Str Data Tarmi Rafsi Core Api Lib Spec Shapes Decomp Basic Vowels Katna Dict Errs Builder Jvokaha Fuel Raises Inv Parts Clusters Zihevla Forms Chain Score Alt Lujvo Slinku Compound Whole Optimal Props1 Props2 Props3 Total Onset Pinned Found Props4 Props5 Props6 Props8 Props9 Props10 Joint Swap Unique Round Props12 Ext Ext2 Ext3 Ext4 Props14 RuleSpec Rules Rules2 Props16 ZiCut Props17.

(** ** Words hyphenated by the rules, seen from their letters y *)
Lemma app_split : forall (A r X Y : str), A ++ X = r ++ Y -> (exists D, A = r ++ D /\ Y = D ++ X) \/ (exists c D, r = A ++ c :: D /\ X = (c :: D) ++ Y).
Proof.
  induction A as [|a A IH]; intros r X Y H.
  - destruct r as [|c r]; [left; exists []; auto|right]. exists c, r. auto.
  - destruct r as [|b r]; [left; exists (a :: A); auto|]. cbn in H. injection H as -> H. destruct (IH _ _ _ H) as [(D & -> & E)|(c & D & -> & E)].
    + left. exists D. auto.
    + right. exists c, D. auto.
Qed.
Lemma cll_no_y : forall mz r, cll mz r -> ~ In c_y r.
Proof. intros mz r H. pose proof (run_no_y mz [r] (Forall_cons _ H (Forall_nil _))) as N. cbn [concat] in N. rewrite app_nil_r in N. exact N. Qed.
Lemma cll_end : forall mz r s, cll mz r -> r <> s ++ [c_h].
Proof.
  intros mz r s [sh H] E. assert (G : exists u l, r = u ++ [l] /\ (is_vowel l = true \/ is_consonant l = true)).
  { inversion H; subst; bfacts; first [ eexists [_; _], _; split; [reflexivity|auto; fail] | eexists [_; _; _], _; split; [reflexivity|auto; fail] | eexists [_; _; _; _], _; split; [reflexivity|auto; fail] ]. }
  destruct G as (u & l & -> & Hl). apply app_inj_tail in E as [_ ->]. destruct Hl; discriminate.
Qed.
Lemma hyph_hy : forall yh mz opt first rs ps, hyphenated yh mz opt first rs ps -> Forall (cll mz) rs ->
  forall A B, concat ps = A ++ c_h :: c_y :: B -> vowel_pair mz A.
Proof.
  intros yh mz opt first rs ps H. assert (G : Forall (cll mz) rs -> forall A B, concat ps = A ++ c_h :: c_y :: B -> first = true /\ vowel_pair mz A); [|intros F A B E; apply (G F A B E)].
  induction H as [first r He|first r g rest h ps L5 Hl Hh IH]; intros F A B E; inversion F as [|? ? Hr F']; subst.
  - exfalso. cbn [concat] in E. rewrite app_nil_r in E. apply (cll_no_y _ _ Hr). rewrite E. apply in_or_app. right. right. left. reflexivity.
  - cbn [concat] in E. rewrite concat_app in E. symmetry in E. apply app_split in E as [(D & -> & E)|(c & D & -> & E)].
    2:{ exfalso. cbn in E. injection E as <- E. destruct D as [|d D]; [exact (cll_end _ _ _ Hr eq_refl)|]. injection E as <- _.
        apply (cll_no_y _ _ Hr). apply in_or_app. right. right. left. reflexivity. }
    specialize (IH F'). inversion Hl; subst; cbn [concat app] in E.
    + destruct D as [|d D]; [discriminate|]. cbn in E. injection E as <- E. destruct (IH _ _ E); discriminate.
    + destruct (IH _ _ E); discriminate.
    + destruct D as [|d D]; cbn in E; [|destruct (IH D B) as [X _]; [|discriminate X]].
      * exfalso. match goal with O : rn_before _ _ |- _ => destruct O as [[-> _]|[-> _]] end; discriminate.
      * match goal with O : rn_before _ _ |- _ => destruct O as [[-> _]|[-> _]] end; cbn in E; injection E as _ E; exact E.
    + destruct D as [|d [|d' D]]; cbn in E.
      * rewrite app_nil_r. split; auto.
      * discriminate.
      * injection E as _ _ E. destruct (IH _ _ E); discriminate.
Qed.
Lemma hyph_y : forall yh mz opt first rs ps, hyphenated yh mz opt first rs ps -> Forall (cll mz) rs ->
  forall A X, concat ps = A ++ c_y :: X -> ~ In c_y X ->
  exists rs' ps', hyphenated yh mz opt false rs' ps' /\ Forall (cll mz) rs' /\ concat ps' = X.
Proof.
  intros yh mz opt first rs ps H. induction H as [first r He|first r g rest h ps L5 Hl Hh IH]; intros F A X E Nx; inversion F as [|? ? Hr F']; subst.
  - exfalso. cbn [concat] in E. rewrite app_nil_r in E. apply (cll_no_y _ _ Hr). rewrite E. apply in_or_app. right. left. reflexivity.
  - cbn [concat] in E. rewrite concat_app in E. symmetry in E. apply app_split in E as [(D & -> & E)|(c & D & -> & E)].
    2:{ exfalso. cbn in E. injection E as <- E. apply (cll_no_y _ _ Hr). apply in_or_app. right. left. reflexivity. }
    specialize (IH F'). inversion Hl; subst; cbn [concat app] in E.
    + destruct D as [|d D]; cbn in E; injection E as E; [exists (g :: rest), ps; auto|]. eapply IH; eassumption.
    + eapply IH; eassumption.
    + match goal with O : rn_before _ _ |- _ => destruct O as [[-> _]|[-> _]] end; destruct D as [|d D]; cbn in E; try discriminate; injection E as _ E; eapply IH; eassumption.
    + destruct D as [|d [|d' D]]; cbn in E; [discriminate| |].
      * injection E as _ E. exists (g :: rest), ps. auto.
      * injection E as _ _ E. eapply IH; eassumption.
Qed.
Lemma hyph_cut_start : forall yh mz opt rs ps, hyphenated yh mz opt false rs ps -> Forall (cll mz) rs -> cut (rn_ok yh) (hy_ok yh) mz None ps.
Proof.
  intros yh mz opt rs ps H F. pose proof (hyph_cut _ _ _ _ _ _ H F (Some []) ltac:(split; discriminate)) as C.
  destruct (hyph_head _ _ _ _ _ _ H) as (r & rs' & P & -> & ->). destruct C as [C1 C2]. split; [|exact C2]. left.
  pose proof (Forall_inv F) as Hr. destruct C1 as [(sh & Hs & C1)|(q & _ & Lq & X)].
  2:{ exfalso. apply cll_len in Hr. destruct X as [-> |[[_ ->]|(_ & _ & [[-> _]|[-> _]])]]; cbn in Hr; lia. }
  exists sh. split; [exact Hs|]. destruct Hs; try exact C1. intros _ t ->. inversion H as [|? ? ? ? h ps' L5 Hl Hh]; subst.
  inversion Hl; subst; cbn [app] in *; try discriminate.
  - subst. destruct (hyph_head _ _ _ _ _ _ Hh) as (g' & ? & ? & E1 & E2). injection E1 as <- _. injection E2 as <- _.
    pose proof (Forall_inv (Forall_inv_tail F)) as [? X]. inversion X; subst; discriminate.
  - match goal with O : rn_before _ _ |- _ => destruct O as [[-> _]|[-> _]] end; discriminate.
Qed.

(** ** Being a zi'evla depends on two of the options only *)
Lemma pairs_y : forall mz rs ps, hyphenated FORCE_Y mz true true rs ps -> 2 <= length rs -> Forall (vowel_pair mz) rs -> In c_y (concat ps).
Proof.
  intros mz rs ps H L2 F. inversion H as [? r He|? r g rest h ps' L5 Hl Hh]; subst; [cbn in L2; lia|]. cbn [concat]. apply in_or_app. right. rewrite concat_app. apply in_or_app. left.
  inversion Hl; subst; cbn; auto; try contradiction.
  match goal with X : vowel_pair mz r -> _ |- _ => destruct (X (Forall_inv F) eq_refl) as [_ K] end.
  exfalso. pose proof (Forall_inv (Forall_inv_tail F)) as V. destruct V as [V|V]; pose proof (cll_shape _ _ _ _ K V); discriminate.
Qed.
Theorem zihevla_any : forall st st' w ps, analyse_brivla Bound st w = Ok (ZIhEVLA, ps) -> y_hyphens st' = y_hyphens st -> allow_mz st' = allow_mz st ->
  (Z.of_nat (length (standard_spelling w)) <= 10 ^ 96)%Z -> analyse_brivla Bound st' w = Ok (ZIhEVLA, ps).
Proof.
  intros st st' w ps H Ey Em Hb. destruct (C31_zihevla_rules _ _ _ _ H) as (_ & L4 & Ny & _).
  assert (NE : forall s, analyse_brivla Bound s w <> Err NameError).
  { intros s X. apply analyse_total in X; [|intros ->; cbn in L4; lia|exact Ny]. destruct X as [X|[]]; discriminate. }
  apply C31_zihevla_characterised in H; [|apply NE]. cbv zeta in H. destruct H as (E & _ & Ev & G & NL & R). apply C31_zihevla_characterised; [apply NE|]. cbv zeta.
  split; [exact E|]. split; [exact L4|]. split; [exact Ev|]. split; [|split; [|rewrite Ey, Em; exact R]].
  - intros q X. assert (K := proj2 (C05_gismu_shape Bound st' w) (ex_intro _ q X)). rewrite Em in K. apply (C05_gismu_shape Bound st) in K as [q' K]. exact (G _ K).
  - intros q X. apply C44_lujvo_obey in X as (Ec & rs & F & L2 & Hh & _). rewrite Ey, Em in *. apply (NL q). apply (C44_rules_suffice st w q rs); auto.
    intros EF _. rewrite EF in Hh. destruct (pairs_or _ _ F) as [V|V]; [|exact V]. exfalso. apply Ny. rewrite <- Ec. eapply pairs_y; eassumption.
Qed.

(** ** The slinku'i test *)
(** a zi'evla the builder is given *)
Definition zword (st : settings) (v : str) : Prop :=
  (exists ps, analyse_brivla Bound st v = Ok (ZIhEVLA, ps)) /\ standard_spelling v = v /\ ~ contains v (L "mz") /\ (Z.of_nat (length v) <= 10 ^ 96)%Z.
Lemma zword_any : forall st st' v, y_hyphens st' = y_hyphens st -> allow_mz st' = allow_mz st -> zword st v -> zword st' v.
Proof.
  intros st st' v Ey Em ([ps H] & Es & Hm & Hb). split; [|auto]. exists ps. eapply zihevla_any; [exact H|exact Ey|exact Em|]. rewrite Es. exact Hb.
Qed.
Lemma zword_letters : forall st v, zword st v -> is_only_lojban_characters v = true /\ Forall (fun c => is_lojban_letter c = true) v.
Proof.
  intros st v ([ps H] & Es & _). pose proof (C04_lojban_letters _ _ _ _ _ H) as F. destruct (C31_zihevla_rules _ _ _ _ H) as (_ & L4 & Ny & _). rewrite Es in *.
  assert (G : Forall (fun c => is_lojban_letter c = true) v).
  { apply Forall_forall. intros c Hc. rewrite Forall_forall in F. specialize (F c Hc). unfold is_lojban_letter.
    destruct F as [F|[F|[->| ->]]]; [apply is_vowel_spec in F; rewrite F, ?orb_true_r; reflexivity|apply is_consonant_spec in F; rewrite F, ?orb_true_r; reflexivity|reflexivity|contradiction]. }
  split; [|exact G]. unfold is_only_lojban_characters. destruct v; [cbn in L4; lia|]. apply forallb_forall. apply Forall_forall. exact G.
Qed.
Lemma zword_uncut : forall st v ps, zword st v -> concat ps = v -> ~ cut (rn_ok (y_hyphens st)) (hy_ok (y_hyphens st)) (allow_mz st) None ps.
Proof.
  intros st v ps ([qs H] & Es & Hm & Hb) E. apply (zihevla_uncut st v qs ps H); rewrite Es; assumption.
Qed.
Lemma zword_other : forall st v, zword st v -> rafsi_tarmi v = OTHER_RAFSI.
Proof.
  intros st v Z. apply (z_other (with_exp st false)). apply zihevla_zi; [reflexivity|apply (zword_letters _ _ Z)|]. split.
  - destruct (zword_any st (mkSettings (y_hyphens st) false CLUSTER false (allow_mz st)) v eq_refl eq_refl Z) as [X _]. exact X.
  - intros ps E C. apply (zword_uncut st v ps Z E). unfold rn_ok, hy_ok. cbn [with_exp y_hyphens allow_mz] in C. destruct (y_hyphens st); exact C.
Qed.
Definition zp (st : settings) (p : pc) : Prop := p_t p = LONG_BRIVLA /\ zword st (p_r p).

Lemma z_spell : forall gen st n rest fi p q, linked gen st n fi p rest -> In q (p :: map snd rest) -> zp st q -> p_suf (last (map snd rest) p) = [] ->
  (exists A B, spell p rest = A ++ p_r q ++ c_h :: c_y :: B)
  \/ (exists A l, (l = [] \/ l = [c_h]) /\ spell p rest = A ++ c_y :: l ++ p_r q)
  \/ (rest = [] /\ q = p).
Proof.
  intros gen st n. induction rest as [|[g q'] r IH]; intros fi p q Hl Hi Hz Hs; [right; right; destruct Hi as [->|[]]; auto|].
  destruct Hl as [Hl Hr]. destruct Hi as [<-|Hi].
  - left. pose proof (l_suf _ _ _ _ _ _ _ Hl) as S. destruct Hz as [Ht _]. rewrite Ht in S. exists [], (g ++ prefix_of false (p_r q') ++ spell q' r).
    cbn [spell app]. unfold gap_of. inversion S as [? ? X|? X ?|? X ?|? ? ?| | | |? X|? ? X|? ? ? X| | | |]; subst; try discriminate; try (destruct X as [X|[X|X]]; discriminate); try (destruct X as [X|X]; discriminate).
    cbn [app]. rewrite <- !app_assoc. reflexivity.
  - rewrite last_snd in Hs. destruct (IH false q' q Hr Hi Hz Hs) as [(A & B & E)|[(A & l & El & E)|[-> ->]]].
    + left. exists (p_r p ++ gap_of p g q' ++ A), B. cbn [spell]. rewrite E, <- !app_assoc. reflexivity.
    + right. left. exists (p_r p ++ gap_of p g q' ++ A), l. split; [exact El|]. cbn [spell]. rewrite E, <- !app_assoc. reflexivity.
    + right. left. cbn [spell map last snd] in *. rewrite Hs, app_nil_r. pose proof (suffixed_hys _ _ _ _ (l_suf _ _ _ _ _ _ _ Hl)) as Hh.
      assert (Ns : p_suf p <> []).
      { intro X. destruct (l_bare _ _ _ _ _ _ _ Hl X) as [_ Y]. apply Y. eapply zword_other. exact (proj2 Hz). }
      pose proof (l_gap _ _ _ _ _ _ _ Hl) as Hg. apply gap_cases in Hg. unfold gap_of. destruct (p_suf p) as [|c s]; [congruence|]. cbn [forallb] in Hh.
      apply andb_true_iff in Hh as [Hc _].
      destruct Hg as [X|[X|[X|(t & l & _ & E & _ & El)]]]; [discriminate|injection X as -> _; discriminate..|].
      exists (p_r p ++ t), l. split; [exact El|]. rewrite E, <- !app_assoc. reflexivity.
Qed.
Theorem mixed_passes : forall st vs rll w sc ix, Forall (fun v => ordinary (allow_mz st) v \/ zword st v) vs ->
  get_rafsi_list_list (analyse_brivla Bound) (jvk Bound) st vs = Ok rll -> best_word false st rll = Ok (w, sc, ix) ->
  slinkuhi Bound (y_hyphens st) (allow_mz st) w = Ok false.
Proof.
  intros st vs rll w sc ix Ho Hr Hb. destruct (best_word_construction _ _ _ _ _ _ _ _ Hr Hb) as (choice & c & ps & K).
  destruct (chain_linked _ _ _ _ _ (k_chain _ _ _ _ _ _ _ _ _ _ K) (Nat.eq_le_incl _ _ (k_len _ _ _ _ _ _ _ _ _ _ K)) ps (k_pieces _ _ _ _ _ _ _ _ _ _ K))
    as (p & rest & -> & Hn & Hl & Esp).
  rewrite (k_word _ _ _ _ _ _ _ _ _ _ K) in Esp.
  assert (Hv : ends_vowel w).
  { destruct (k_end _ _ _ _ _ _ _ _ _ _ K) as (s & l & -> & Hl'). exists l. split; [apply last_opt_app|exact Hl']. }
  assert (Hs0 : p_suf (last (map snd rest) p) = []).
  { destruct (k_built _ _ _ _ _ _ _ _ _ _ K) as (w0 & r & t & B). destruct (b_last _ _ _ _ _ _ _ _ B) as (ps' & X & _).
    assert (last (map snd rest) p = (r, t, [])) as Z.
    { transitivity (last (p :: map snd rest) p); [destruct rest; [congruence|reflexivity]|]. unfold pc in *. rewrite X. apply last_last. }
    unfold pc in *. rewrite Z. reflexivity. }
  assert (D : Forall (smooth (allow_mz st)) (p :: map snd rest) \/ exists q, In q (p :: map snd rest) /\ zp st q).
  { pose proof (k_source _ _ _ _ _ _ _ _ _ _ K) as Hs. clear -Hs Ho. unfold pc in *. set (ps := p :: map snd rest) in *. clearbody ps. revert Ho.
    induction Hs as [|v [[r t] suf] vs ps Hv Hs IH]; intro Ho; [left; constructor|]. apply Forall_cons_iff in Ho as [Ho1 Ho2].
    assert (E : smooth (allow_mz st) (r, t, suf) \/ zp st (r, t, suf)).
    { destruct Ho1 as [Ho1|Z]; [left; eapply source_smooth; eassumption|]. cbn [fst snd] in Hv. destruct (zword_letters _ _ Z) as [Zo Zl].
      assert (Nd : last_opt v <> Some c_dash). { intro X. apply last_opt_some in X as [s ->]. apply Forall_app in Zl as [_ Zl]. apply Forall_inv in Zl. discriminate. }
      assert (Za : zword (ana_settings st) v) by (apply (zword_any st); [reflexivity|reflexivity|exact Z]).
      inversion Hv as [? ? ? X|? ? X|? X|? X|? rs X1 X2 X3 X4|? ? X1 X2 X3|? ? X1 X2 X3]; subst; try contradiction.
      - left. eapply source_smooth; [|eapply src_dict; eassumption]. left. exists rs, r. auto.
      - destruct Za as [[? Za] _]. congruence.
      - right. split; [reflexivity|exact Z]. }
    destruct E as [E|E]; [|right; eexists; split; [left; reflexivity|exact E]].
    destruct (IH Ho2) as [G|(q & G1 & G2)]; [left; constructor; assumption|right; exists q; split; [right; exact G1|exact G2]]. }
  destruct D as [D|(q & Hq & Hz)].
  { apply onset_passes; [|exact Hv]. rewrite Esp in *. eapply spell_onset; [exact Hl|exact D|exact Hs0|exact Hv]. }
  destruct (slinkuhi_total (y_hyphens st) (allow_mz st) w Hv) as [[] Hb']; [exfalso|exact Hb'].
  unfold slinkuhi, Core.is_slinkuhi in Hb'. inv_bind Hb'. clear E. destruct (is_vowel x) eqn:Hx; [discriminate|].
  destruct (jvk Bound (y_hyphens st) CLUSTER false (allow_mz st) (L "to" ++ w)) as [arr|e] eqn:J; [clear Hb'|destruct e; discriminate].
  pose proof Hv as (l & El & Hlv). apply last_opt_some in El as [s Ew].
  assert (C : concat arr = L "to" ++ w /\ cut (rn_ok (y_hyphens st)) (hy_ok (y_hyphens st)) (allow_mz st) None arr).
  { rewrite jvk_eq in J. inv_bind J. destruct (length (rafsi_of x0) =? 1); [discriminate|]. inv_bind J. inv_bind J. inv_bind J. inv_bind J. destruct x4; [|discriminate]. injection J as <-. apply jvokaha_2_sound. assumption. }
  destruct C as [Ca Cc]. assert (L4 : 4 <= length (p_r q)).
  { destruct Hz as [_ ([qs Za] & Zs & _)]. destruct (C31_zihevla_rules _ _ _ _ Za) as (_ & L4 & _). rewrite Zs in L4. exact L4. }
  pose proof (z_spell _ _ _ _ _ _ _ Hl Hq Hz Hs0) as W. assert (Lw : 5 <= length w).
  { rewrite Esp. destruct W as [(A & B & ->)|[(A & l0 & _ & ->)|[E _]]]; [| |contradiction]; repeat (rewrite app_length; cbn [length]); lia. }
  assert (A : analyse_brivla Bound (mkSettings (y_hyphens st) false CLUSTER false (allow_mz st)) (L "to" ++ w) = Ok (LUJVO, arr)).
  { apply (jvk_accepted _ _ _ (L "to" ++ s) l); [apply letters_spelling; rewrite <- Ca; eapply cut_all_letters; exact Cc|rewrite Ew; apply app_assoc|exact Hlv| |exact J].
    destruct (is_gismu (L "to" ++ w) (allow_mz st)) eqn:G; [|reflexivity]. apply gismu_len in G as (a & b & d & e & f & G & _). exfalso. apply (f_equal (@length _)) in G. rewrite app_length in G. cbn [length] in G. change (length (L "to")) with 2 in G. lia. }
  apply C44_lujvo_obey in A as (_ & rs & F & L2 & Hh & _). cbn [y_hyphens allow_mz] in *.
  destruct Hz as [Ht Z]. destruct (zword_letters _ _ Z) as [_ Zl].
  destruct W as [(A & B & E)|[(A & l0 & El0 & E)|[E _]]]; [| |contradiction].
  - rewrite Esp, E, app_assoc, app_assoc in Ca. pose proof (hyph_hy _ _ _ _ _ _ Hh F _ _ Ca) as V.
    assert (6 <= length ((L "to" ++ A) ++ p_r q)) by (rewrite !app_length; change (length (L "to")) with 2; lia). clear -V H. set (X := (L "to" ++ A) ++ p_r q) in *. clearbody X. destruct V as [V|V]; inversion V; subst X; cbn in H; lia.
  - rewrite Esp, E, app_assoc in Ca.
    destruct (hyph_y _ _ _ _ _ _ Hh F _ _ Ca) as (rs' & ps' & Hh' & F' & E').
    { intro X. apply in_app_or in X as [X|X]; [destruct El0 as [-> | ->]; cbn in X; intuition discriminate|]. rewrite Forall_forall in Zl. apply Zl in X. discriminate. }
    destruct El0 as [-> | ->].
    + apply (zword_uncut st (p_r q) ps' Z E'). eapply hyph_cut_start; eassumption.
    + destruct (hyph_head _ _ _ _ _ _ Hh') as (r0 & ? & ? & -> & ->). pose proof (Forall_inv F') as Hr0. destruct Hr0 as [sh Hr0]. destruct (ZiCut.cll_first _ _ _ Hr0) as (a1 & a2 & -> & Ha1).
      cbn in E'. injection E' as -> _. apply is_consonant_spec in Ha1. discriminate.
Qed.

(** ** A word is found *)
Lemma fine_words : forall st fi la v forms, last_opt v <> Some c_dash ->
  rafsi_list_for (analyse_brivla Bound) (jvk Bound) st fi la v = Ok forms -> Forall (fine (consonants st)) forms.
Proof.
  intros st fi la v forms Hd H. apply Forall_forall. intros [f n] Hin.
  destruct (forms_source _ _ _ _ _ _ _ H Hin) as (r & t & fs & Hs & Hf & Hi).
  pose proof (source_usable _ _ _ _ _ Hs) as U.
  assert (G : 3 <= length r /\ t <> EXPERIMENTAL_RAFSI).
  { destruct Hs as [r t ps Hl Hfi Er Ho Hr Ha Ht|r ps Hl Hfi Er Ho Hr Hta Ha|r Hl Hfi Er Ho Hr Hta Hex' Hz|r Hl Hfi Er Hv|r rs Hl Ho Hdi Hr|r ps Hl Ho Ha Er|t ps Hl Ho Ha Ht]; try contradiction; (split; [|discriminate]).
    - eapply (valid_length _ (allow_mz st)), dict_valid; eassumption.
    - destruct (only_Forall _ Ho) as [_ HF]. pose proof (accepted_len _ _ _ _ _ Ha (or_intror eq_refl)) as G. rewrite lojban_spelling in G by exact HF. subst r. unfold dropl. rewrite firstn_length. lia.
    - destruct (only_Forall _ Ho) as [_ HF]. pose proof (accepted_len _ _ _ _ _ Ha Ht) as G. rewrite lojban_spelling in G by exact HF. lia. }
  destruct G as [Hl Ht]. destruct (forms_shape _ _ _ _ _ _ _ _ _ (usable_ne _ _ _ U) Hf Hi) as (suf & Ef & Hsuf & Hk).
  apply (piece_fine st fi la _ (r, t, suf)); [|exact Ht|exact Hl]. split; [exact U|]. auto.
Qed.
Lemma list_fine_words : forall st vs rll, Forall (fun v => last_opt v <> Some c_dash) vs ->
  get_rafsi_list_list (analyse_brivla Bound) (jvk Bound) st vs = Ok rll -> Forall (Forall (fine (consonants st))) rll.
Proof.
  intros st vs rll F H. unfold get_rafsi_list_list in H. destruct (list_list_nth _ _ _ _ _ _ _ H) as [_ N1].
  apply Forall_forall. intros fs Hin. apply In_nth_error in Hin as [k Hk]. apply N1 in Hk as (v & Hv & Hf).
  eapply fine_words; [|exact Hf]. rewrite Forall_forall in F. apply F. eapply nth_error_In. exact Hv.
Qed.

Definition root (st : settings) (v : str) : Prop := is_gismu v (allow_mz st) = true \/ zword st v.
Lemma zword_no_dash : forall st v, zword st v -> last_opt v <> Some c_dash.
Proof. intros st v Z X. apply last_opt_some in X as [s ->]. destruct (zword_letters _ _ Z) as [_ F]. apply Forall_app in F as [_ F]. apply Forall_inv in F. discriminate. Qed.
Lemma root_no_dash : forall st v, root st v -> last_opt v <> Some c_dash.
Proof.
  intros st v [G|Z]; [|exact (zword_no_dash _ _ Z)]. destruct (gismu_cll _ _ G) as (_ & _ & Hl & _). destruct (only_last _ Hl) as (l & El & Ed). rewrite El. intro X. injection X as ->. discriminate.
Qed.
Lemma zword_shape : forall st v, zword st v -> 4 <= length v /\ exists s l, v = s ++ [l] /\ is_vowel l = true.
Proof.
  intros st v ([ps H] & Es & _). destruct (C31_zihevla_rules _ _ _ _ H) as (_ & L4 & _ & (s & l & E & Hl) & _). rewrite Es in *. split; [exact L4|]. exists s, l. split; [exact E|apply is_vowel_spec; exact Hl].
Qed.
Lemma zword_source : forall st v, zword st v -> source Bound st v v LONG_BRIVLA.
Proof.
  intros st v Z. destruct (zword_any st (ana_settings st) v eq_refl eq_refl Z) as [[ps H] _].
  eapply src_long; [exact (zword_no_dash _ _ Z)|apply (zword_letters _ _ Z)|exact H|left; reflexivity].
Qed.
Lemma zword_forms : forall st fi la v forms, zword st v ->
  rafsi_list_for (analyse_brivla Bound) (jvk Bound) st fi la v = Ok forms -> In (prefix_of fi v ++ v ++ (if la then [] else [c_h; c_y]), 2) forms.
Proof.
  intros st fi la v forms Z H. destruct (zword_letters _ _ Z) as [Hl _]. destruct (only_last _ Hl) as (l & El & Ed).
  destruct (zword_any st (ana_settings st) v eq_refl eq_refl Z) as [[ps Ha] _].
  unfold rafsi_list_for in H. cbv zeta in H. unfold idx_last at 1 in H. rewrite El in H. cbn [bind] in H. rewrite Ed, Hl in H. cbn [negb] in H.
  inv_bind H. clear E. rewrite Ha in H. cbn [bind] in H. inv_bind H. rename E into Eg. injection H as <-. apply in_or_app. right. cbn [app].
  assert (Pre : (if fi then Ok v else c <- idx v 0;; Ok (if is_vowel c && negb (is_glide v) then c_h :: v else v)) = Ok (prefix_of fi v ++ v)).
  { destruct fi; [reflexivity|]. destruct v as [|c s]; [discriminate|]. cbn [idx nth_error bind]. unfold prefix_of. cbn [hd]. destruct (_ && _); reflexivity. }
  unfold get_rafsi_for_rafsi in Eg. rewrite Pre in Eg. cbn [bind] in Eg. destruct la; injection Eg as <-; [rewrite app_nil_r; left; reflexivity|rewrite app_assoc; left; reflexivity].
Qed.
Lemma zword_first : forall st v, zword st v -> y_form (v ++ [c_h; c_y], 2) /\ 5 <= length (v ++ [c_h; c_y]) /\ plain_first (v ++ [c_h; c_y]) /\ tarmi_ignoring_hyphen (v ++ [c_h; c_y]) <> CVC.
Proof.
  intros st v Z. pose proof (source_usable _ _ _ _ _ (zword_source _ _ Z)) as U. destruct (zword_shape _ _ Z) as [L4 _].
  assert (T : tarmi_ignoring_hyphen (v ++ [c_h; c_y]) = OTHER_RAFSI).
  { unfold tarmi_ignoring_hyphen. rewrite (strip_first st v LONG_BRIVLA [c_h; c_y] U); [eapply zword_other; exact Z|]. apply suf_long_hy; auto. }
  split; [split; [reflexivity|exists (v ++ [c_h]); cbn [fst]; rewrite <- app_assoc; reflexivity]|]. split; [rewrite app_length; cbn; lia|].
  unfold plain_first. rewrite T. split; [split; [reflexivity|]|discriminate]. intros (X & _). rewrite app_length in X. cbn [length] in X. lia.
Qed.

Lemma root_mid : forall st fi v forms, root st v -> rafsi_list_for (analyse_brivla Bound) (jvk Bound) st fi false v = Ok forms ->
  exists x, In x forms /\ y_form x /\ length (fst x) <= 2 * length v
    /\ (fi = true -> 5 <= length (fst x) /\ plain_first (fst x) /\ tarmi_ignoring_hyphen (fst x) <> CVC).
Proof.
  intros st fi v forms [G|Z] H.
  - destruct (gismu_forms _ _ _ _ _ G H) as [K _]. destruct (gismu_yf _ _ G) as (Y1 & Y2 & Y3 & Y4). exists (yf v). split; [exact (K eq_refl)|]. split; [exact Y1|].
    assert (length v = 5) by (destruct (gismu_len _ _ G) as (? & ? & ? & ? & ? & -> & _); reflexivity). split; [lia|]. intros _. split; [lia|auto].
  - pose proof (zword_forms _ _ _ _ _ Z H) as K. cbv iota in K. eexists. split; [exact K|]. destruct (zword_shape _ _ Z) as [L4 _]. cbn [fst].
    split; [split; [reflexivity|exists (prefix_of fi v ++ v ++ [c_h]); cbn [fst]; rewrite <- !app_assoc; reflexivity]|]. split.
    + rewrite !app_length. assert (length (prefix_of fi v) <= 1) by (destruct (prefix_cases fi v) as [->|[-> _]]; cbn; lia). cbn [length]. lia.
    + intros ->. destruct (zword_first _ _ Z) as (_ & Z1 & Z2 & Z3). cbn [prefix_of app]. auto.
Qed.
Lemma root_last : forall gen st v forms, root st v -> (gen = true -> is_gismu v (allow_mz st) = true) ->
  rafsi_list_for (analyse_brivla Bound) (jvk Bound) st false true v = Ok forms ->
  exists x, In x forms /\ snd x = 2 /\ length (fst x) <= 2 * length v /\ exists s l, fst x = s ++ [l] /\ if gen then is_consonant l = true else is_vowel l = true.
Proof.
  intros gen st v forms R Hg H. assert (C : is_gismu v (allow_mz st) = true \/ (gen = false /\ zword st v)).
  { destruct R as [R|R]; [left; exact R|]. destruct gen; [left; apply Hg; reflexivity|right; auto]. }
  destruct C as [G|[-> Z]].
  - destruct (gismu_forms _ _ _ _ _ G H) as [_ K]. destruct (K eq_refl) as [K1 K2]. destruct (gismu_cll _ _ G) as (Gc & Gc' & _ & T1 & T2).
    assert (length v = 5) by (destruct (gismu_len _ _ G) as (? & ? & ? & ? & ? & -> & _); reflexivity).
    exists (final gen v). unfold final. cbn [fst snd]. split; [destruct gen; assumption|]. split; [reflexivity|]. split; [destruct gen; [unfold dropl; rewrite firstn_length|]; lia|]. destruct gen.
    + destruct Gc' as [s Hs]. rewrite (cll_tarmi _ _ _ Hs) in T2. inversion Hs; subst; bfacts; try (destruct T2; discriminate); (eexists [_; _; _], _; split; [reflexivity|assumption]).
    + destruct Gc as [s Hs]. rewrite (cll_tarmi _ _ _ Hs) in T1. inversion Hs; subst; bfacts; try (destruct T1; discriminate); (eexists [_; _; _; _], _; split; [reflexivity|assumption]).
  - pose proof (zword_forms _ _ _ _ _ Z H) as K. cbv iota in K. eexists. split; [exact K|]. destruct (zword_shape _ _ Z) as [L4 (s & l & E & Hl)]. cbn [fst snd]. split; [reflexivity|]. split.
    + rewrite !app_length. assert (length (prefix_of false v) <= 1) by (destruct (prefix_cases false v) as [->|[-> _]]; cbn; lia). cbn [length]. lia.
    + exists (prefix_of false v ++ s), l. rewrite app_nil_r. split; [|exact Hl]. rewrite <- app_assoc, <- E. reflexivity.
Qed.
Lemma root_choice : forall gen st n mid vl i rll, 1 <= i -> Forall (root st) (mid ++ [vl]) -> (gen = true -> is_gismu vl (allow_mz st) = true) -> i + length mid = n - 1 ->
  rafsi_list_list_loop (analyse_brivla Bound) (jvk Bound) st n i (mid ++ [vl]) = Ok rll ->
  exists fs x, Forall2 (@In (str * nat)) (fs ++ [x]) rll /\ Forall y_form fs /\ snd x = 2 /\ (exists s l, fst x = s ++ [l] /\ if gen then is_consonant l = true else is_vowel l = true)
    /\ length (word_of (fs ++ [x])) <= 2 * length (concat (mid ++ [vl])).
Proof.
  intros gen st n mid vl. induction mid as [|v mid IH]; intros i rll H1 F Hg Hi H; cbn [app length rafsi_list_list_loop] in *; inv_bind H; rename x into l, E into El; inv_bind H; rename x into r, E into Er; injection H as <-.
  - injection Er as <-. replace (i =? n - 1) with true in El by (symmetry; apply Nat.eqb_eq; lia). replace (i =? 0) with false in El by (symmetry; apply Nat.eqb_neq; lia).
    destruct (root_last gen _ _ _ (Forall_inv F) Hg El) as (x & X1 & X2 & X3 & X4). exists [], x. cbn [app]. split; [apply Forall2_cons; [exact X1|apply Forall2_nil]|]. split; [apply Forall_nil|]. split; [exact X2|]. split; [exact X4|].
    unfold word_of. cbn [map concat]. rewrite !app_nil_r. exact X3.
  - replace (i =? n - 1) with false in El by (symmetry; apply Nat.eqb_neq; lia). replace (i =? 0) with false in El by (symmetry; apply Nat.eqb_neq; lia).
    destruct (root_mid _ _ _ _ (Forall_inv F) El) as (y & Y1 & Y2 & Y3 & _). destruct (IH (S i) r) as (fs & x & G1 & G2 & G3 & G4 & G5); [lia|exact (Forall_inv_tail F)|exact Hg|lia|exact Er|].
    exists (y :: fs), x. cbn [app]. split; [apply Forall2_cons; assumption|]. split; [apply Forall_cons; assumption|]. split; [exact G3|]. split; [exact G4|].
    unfold word_of in *. cbn [map concat]. rewrite !app_length in *. lia.
Qed.

Theorem root_best : forall gen st vs rll, Forall (root st) vs -> 2 <= length vs -> (gen = true -> is_gismu (last vs []) (allow_mz st) = true) ->
  (Z.of_nat (length (concat vs)) <= 10 ^ 96)%Z ->
  get_rafsi_list_list (analyse_brivla Bound) (jvk Bound) st vs = Ok rll -> exists w sc ix, best_word gen st rll = Ok (w, sc, ix).
Proof.
  intros gen st vs rll F H2 Hg Hb Hr. assert (Hne : vs <> []) by (destruct vs; [cbn in H2; lia|discriminate]).
  destruct (exists_last Hne) as (l & vl & ->). destruct l as [|v0 mid]; [cbn in H2; lia|]. rewrite last_last in Hg.
  assert (Hfine : Forall (Forall (fine (consonants st))) rll) by (eapply list_fine_words; [eapply Forall_impl; [|exact F]; apply root_no_dash|exact Hr]).
  pose proof Hr as Hr'. unfold get_rafsi_list_list in Hr'. cbn [app rafsi_list_list_loop] in Hr'. inv_bind Hr'. rename x into l0, E into E0. inv_bind Hr'. rename x into rl, E into E1. injection Hr' as <-.
  set (n := length ((v0 :: mid) ++ [vl])) in *. assert (En : n = S (S (length mid))) by (unfold n; rewrite app_length; cbn; lia).
  change (length (v0 :: mid ++ [vl])) with n in *.
  replace (0 =? n - 1) with false in E0 by (symmetry; apply Nat.eqb_neq; lia). cbn [Nat.eqb] in E0. pose proof (Forall_inv F) as F0. pose proof (Forall_inv_tail F) as F1.
  destruct (root_mid _ _ _ _ F0 E0) as (f0 & Y0 & Y1 & Y2 & Y3). destruct (Y3 eq_refl) as (P1 & P2 & P3). clear Y3.
  destruct (root_choice gen st n mid vl 1 rl) as (fs & x & G1 & G2 & G3 & (s & l & Ex & Hl) & G5); [lia|exact F1|exact Hg|lia|exact E1|].
  destruct (chain_y gen st (length (l0 :: rl)) f0 fs Y1 P1 P2 P3 G2 x G3) as (c & C1 & C2 & C3 & C4 & C5 & C6); [exact (fun Z0 => app_cons_not_nil s [] l (eq_trans (eq_sym Z0) Ex))|].
  assert (El : last_opt (c_word c) = Some l) by (rewrite C4, app_comm_cons, word_snoc, Ex, app_assoc; apply last_opt_app).
  assert (Hlen : (Z.of_nat (length (c_word c)) <= 2 * Z.of_nat (length (concat ((v0 :: mid) ++ [vl]))))%Z).
  { rewrite C4. unfold word_of in *. cbn [map concat app]. rewrite !app_length in *. clear -Y2 G5. refine (Z.le_trans _ _ _ (inj_le _ _ (Nat.add_le_mono _ _ _ _ Y2 G5)) _). lia. }
  destruct (best_word_optimal gen st (l0 :: rl) (f0 :: fs ++ [x]) c l) as [G|[_ G]];
    [exact Hfine|apply Forall2_cons; assumption|exact C1|exact C2|exact C3|exact El|exact Hl| |].
  - destruct G as (w & sc & ix & G & _). eauto.
  - exfalso. unfold BEST_INIT in G. clear -G C5 Hlen Hb. assert (10 ^ 100 = 10000 * 10 ^ 96)%Z by reflexivity. lia.
Qed.
