(** Property C26 for every compound: what score_lujvo computes, and when it is the
    score the builder returns. *)
From Verif Require Import Str Data Tarmi Rafsi Core Api Lib Spec Shapes Decomp Basic Vowels Katna Dict Errs Builder Jvokaha Fuel Raises Inv Parts Clusters Zihevla Forms Chain Score Alt Lujvo Slinku Compound Whole Optimal Props1 Props2 Props4 Props5 Props6 Props7 Total Onset Pinned Found Props8 Swap Unique Round Props12 Props13 Ext Ext2 Ext3 Ext4 Props14 RuleSpec Rules Rules2 Props16 ZiCut Props17 Mixed Props20 Props21.

(** ** No piece but a hyphen ends in an apostrophe *)
Definition unquoted (p : str) : Prop := hyphen p \/ last_opt p <> Some c_h.
Lemma cll_unquoted : forall mz s p, cll_rafsi mz s p -> last_opt p <> Some c_h.
Proof.
  intros mz s p H. pose proof (cll_tail mz p (ex_intro _ s H)) as (u & l & -> & Hl). rewrite last_opt_app. intro X. injection X as ->. destruct Hl; discriminate.
Qed.
Lemma cut_unquoted : forall rn hy mz ps prev, cut rn hy mz prev ps -> Forall unquoted ps.
Proof.
  intros rn hy mz. induction ps as [|p ps IH]; intros prev H; [constructor|]. destruct H as [H G]. constructor; [|exact (IH _ G)].
  destruct H as [(s & Hs & _)|(q & _ & _ & H)]; [right; eapply cll_unquoted; exact Hs|left].
  unfold hyphen; cbn [map In]; destruct H as [->|[[_ ->]|(_ & _ & [[-> _]|[-> _]])]]; auto 10.
Qed.
Lemma copy_unquoted : forall st cm ys i part cl p, part_tail st cm ys i part cl = Ok p -> last_opt (p_copy p) <> Some c_h.
Proof.
  intros st cm ys i part cl p H. unfold part_tail in H. inv_bind H. destruct (idx_last_ok _ _ _ E) as [s ->]. destruct (N.eqb x c_h) eqn:Ex.
  - inv_bind H. inv_bind H. destruct (is_vowel x1) eqn:Hv; [|discriminate]. injection H as <-. cbn [p_copy].
    destruct (idx_last_ok _ _ _ E1) as [s' ->]. rewrite last_opt_app. intro X. injection X as ->. discriminate Hv.
  - assert (G : p_copy p = s ++ [x]) by (destruct (_ || _) in H; injection H as <-; reflexivity). rewrite G, last_opt_app. intro X. injection X as ->. discriminate Ex.
Qed.
Lemma part_unquoted : forall ana jvk st cm ys i p0 a a', part_case ana jvk st cm ys i p0 a a' ->
  exists h new, (h = [] \/ h = [c_h]) /\ (hd 0%N p0 <> c_h -> h = [])
    /\ a_parts a' = with_hyphen a (start_hyphen i a ++ h) ++ new /\ Forall unquoted new
    /\ (a_hyphen a' = [] \/ a_hyphen a' = [c_h]).
Proof.
  intros ana jvk st cm ys i p0 a a' H.
  assert (HH : forall h part, p0 = h ++ part -> part_head i p0 (start_hyphen i a) = Ok (part, start_hyphen i a ++ h) ->
    (h = [] \/ h = [c_h]) /\ (hd 0%N p0 <> c_h -> h = [])).
  { intros h part E1 E2. pose proof (part_head_h _ _ _ _ _ E2 E1) as G. split; [exact G|]. intro N. destruct G as [G|G]; [exact G|].
    subst h. rewrite E1 in N. cbn in N. congruence. }
  destruct H as [h part E1 E2 Ht|h part p found num cl E1 E2 Ht Hne Et Hc Ek Ej Hf Hv Hn Hto Hst|h part p num cl t E1 E2 Ht Hne Et Ek Ez];
    destruct (HH _ _ E1 E2) as [H1 H2]; exists h.
  - exists [part]. repeat split; try assumption; cbn [a_hyphen]; auto. constructor; [|constructor]. right.
    apply tarmi_CVC in Ht as (x & y & z & -> & Hx & Hy & Hz). cbn [last_opt]. intro X. injection X as ->. discriminate Hz.
  - exists found. repeat split; try assumption; cbn [a_hyphen]; [|eapply part_tail_hyphen; exact Et].
    apply jvokaha_2_spec in Ej as [_ Ecut]. eapply cut_unquoted. exact Ecut.
  - exists [p_copy p]. repeat split; try assumption; cbn [a_hyphen]; [|eapply part_tail_hyphen; exact Et]. constructor; [|constructor]. right. eapply copy_unquoted. exact Et.
Qed.
Lemma with_hyphen_unquoted : forall i a h, Forall unquoted (a_parts a) -> (i = 0 -> a_hyphen a = [] /\ h = []) ->
  a_hyphen a = [] \/ a_hyphen a = [c_h] -> h = [] \/ h = [c_h] -> Forall unquoted (with_hyphen a (start_hyphen i a ++ h)).
Proof.
  intros i a h F H0 H1 H2. unfold with_hyphen. destruct (start_hyphen i a ++ h) as [|x xs] eqn:En; [exact F|].
  destruct i as [|i].
  - exfalso. destruct (H0 eq_refl) as [A ->]. unfold start_hyphen in En. cbn [Nat.eqb] in En. rewrite A in En. discriminate.
  - destruct (nh_hyphen (S i) a h ltac:(lia) H1 H2) as [_ N]. rewrite En in N. apply Forall_app. split; [exact F|]. constructor; [|constructor]. left. apply is_hyphen_spec. exact N.
Qed.
Lemma loop_unquoted : forall ana jvk st cm ys parts i a a', analyse_loop ana jvk st cm ys i parts a = Ok a' ->
  (i = 0 -> hd 0%N (hd [] parts) <> c_h /\ a_hyphen a = []) -> a_hyphen a = [] \/ a_hyphen a = [c_h] ->
  Forall unquoted (a_parts a) -> Forall unquoted (a_parts a').
Proof.
  intros ana jvk st cm ys. induction parts as [|p parts IH]; intros i a a' H H0 H1 F; cbn [analyse_loop] in H.
  - injection H as <-. exact F.
  - inv_bind H. rename x into a1. apply analyse_part_inv in E. destruct (part_unquoted _ _ _ _ _ _ _ _ _ E) as (h & new & P1 & P2 & P3 & P4 & P5).
    apply (IH (S i) a1 a' H); [discriminate|exact P5|]. rewrite P3. apply Forall_app. split; [|exact P4].
    apply with_hyphen_unquoted; auto. intros Hi. destruct (H0 Hi) as [G1 G2]. split; [exact G2|apply P2; exact G1].
Qed.
Lemma accepted_unquoted : forall lk st w t ps, analyse_brivla lk st w = Ok (t, ps) -> t <> GISMU -> t <> ZIhEVLA -> Forall unquoted ps.
Proof.
  intros lk st w t ps H N1 N2. apply analyse_inv in H. set (v := standard_spelling w) in *. clearbody v.
  inversion H as [|l qs E1 E2 E3 E4 J| |l c e t' qs E1 E2 E3 E4 J Hca Ei Ev H2 HC Et]; subst; try contradiction.
  - apply jvk_cll_lujvo in J as (gen & correct & X). eapply cut_unquoted. exact (x_cut _ _ _ _ _ _ _ _ _ X).
  - apply idx0_ok in Ei as [s0 Es]. unfold analyse_compound in HC. inv_bind HC. dif HC; [discriminate|]. inv_bind HC. inv_bind HC. dif HC; [discriminate|]. injection HC as <-.
    assert (Hcy : c <> c_y) by (intros ->; discriminate).
    destruct (split_first c_y v c s0 Es Hcy) as (r & ps' & Esp).
    eapply (loop_unquoted _ _ _ _ _ _ 0 _ _ E); cbn [a_parts a_hyphen]; auto.
    intros _. split; [|reflexivity]. rewrite Esp. cbn. intros ->. discriminate.
Qed.

(** ** The sum over the pieces *)
Lemma zi_head : forall middle mz w syl c s, zi_text middle mz [] w syl -> w = c :: s -> is_vowel c || is_consonant c = true.
Proof.
  intros middle mz w syl c s H E. remember [] as b eqn:Eb. destruct H as [b|b r w syl [N [F _]] _ _ _ _|b r w l syl [N [F _]] _ _ _ _|b w syl Hb _ _]; [discriminate| | |].
  - destruct r as [|x r]; [congruence|]. injection E as Ex _; subst x. inversion F as [|? ? Hc _]; subst. apply is_consonant_spec in Hc. rewrite Hc, orb_true_r. reflexivity.
  - destruct r as [|x r]; [congruence|]. injection E as Ex _; subst x. inversion F as [|? ? Hc _]; subst. apply is_vowel_spec in Hc. rewrite Hc. reflexivity.
  - subst b. destruct Hb as (u & x & E' & _). destruct u; discriminate.
Qed.
Lemma piece_head : forall exp mz p c s, lujvo_piece exp mz p -> p = c :: s -> hyphen p \/ is_vowel c || is_consonant c = true.
Proof.
  intros exp mz p c s H E. destruct H as [H|s' H|q syl Hq [T _] _|q syl _ Hq [T _ _ _]]; [left; exact H|right..].
  - assert (Hc : consonant c) by (destruct H; injection E as Ec Es; subst; try assumption; match goal with X : initial_pair _ _ |- _ => apply initial_c in X as [X _]; exact X end).
    apply is_consonant_spec in Hc. rewrite Hc, orb_true_r. reflexivity.
  - subst p. destruct Hq as [-> | ->]; eapply zi_head; try exact T; cbn [app]; reflexivity.
  - subst p. destruct Hq as [-> | ->]; eapply zi_head; try exact T; cbn [app]; reflexivity.
Qed.
Definition tidy (p : str) : Prop := hyphen p \/ (p <> [] /\ strip_hyphens p = p).
Lemma accepted_tidy : forall lk st w t ps, analyse_brivla lk st w = Ok (t, ps) -> t <> GISMU -> t <> ZIhEVLA -> Forall tidy ps.
Proof.
  intros lk st w t ps H N1 N2. pose proof (accepted_pieces _ _ _ _ _ H N1 N2) as A. pose proof (accepted_unquoted _ _ _ _ _ H N1 N2) as B.
  apply Forall_forall. intros p Hp. rewrite Forall_forall in A, B. destruct (A p Hp) as [Ne Lp]. destruct (B p Hp) as [Hh|Hl]; [left; exact Hh|].
  destruct (piece_no_y _ _ _ Lp) as [Hh|Ny]; [left; exact Hh|]. destruct p as [|c s] eqn:Ep; [congruence|].
  destruct (piece_head _ _ _ _ _ Lp eq_refl) as [Hh|Hc]; [left; exact Hh|]. right. split; [exact Ne|].
  destruct (last_opt (c :: s)) as [l|] eqn:El; [|apply last_opt_none in El; discriminate]. pose proof El as El'. apply last_opt_some in El' as [s' Es].
  unfold strip_hyphens. rewrite <- (app_nil_r (c :: s)) at 1. apply (strip_mid is_hy [] (c :: s) [] c s l s'); try reflexivity; [apply vc_not_hy; exact Hc|exact Es|].
  unfold is_hy. destruct (N.eqb l c_h) eqn:X; [apply N.eqb_eq in X; subst l; congruence|]. destruct (N.eqb l c_y) eqn:Y; [|reflexivity].
  exfalso. apply N.eqb_eq in Y. subst l. apply Ny. rewrite Es. apply in_or_app. right. left. reflexivity.
Qed.

Lemma piece_sum : forall ps, Forall tidy ps ->
  fold_right Z.add 0%Z (map piece_score ps) = (base (concat ps) - 100 * plain_y ps - 10 * Spec.total (map rank_of (rafsi_pieces ps)))%Z.
Proof.
  induction ps as [|p ps IH]; intro F; [reflexivity|]. inversion F as [|? ? Hp F']; subst. specialize (IH F'). cbn [map fold_right concat]. rewrite IH, base_app. clear IH F F'.
  unfold plain_y, rafsi_pieces. cbn [filter]. destruct (is_hyphen p) eqn:Eh; cbn [negb].
  - apply is_hyphen_spec in Eh. unfold hyphen in Eh. cbn [map In] in Eh.
    destruct Eh as [<-|[<-|[<-|[<-|[<-|[<-|[]]]]]]].
    + change (str_eqb (L "y") (L "y")) with true. change (piece_score (L "y")) with 1000%Z. change (base (L "y")) with 1100%Z. cbn [length]. lia.
    + change (str_eqb (L "y") (L "n")) with false. change (piece_score (L "n")) with 1000%Z. change (base (L "n")) with 1000%Z. cbv match. lia.
    + change (str_eqb (L "y") (L "r")) with false. change (piece_score (L "r")) with 1000%Z. change (base (L "r")) with 1000%Z. cbv match. lia.
    + change (str_eqb (L "y") (L "'y")) with false. change (piece_score (L "'y")) with 2100%Z. change (base (L "'y")) with 2100%Z. cbv match. lia.
    + change (str_eqb (L "y") (L "y'")) with false. change (piece_score (L "y'")) with 2100%Z. change (base (L "y'")) with 2100%Z. cbv match. lia.
    + change (str_eqb (L "y") (L "'y'")) with false. change (piece_score (L "'y'")) with 3100%Z. change (base (L "'y'")) with 3100%Z. cbv match. lia.
  - destruct Hp as [Hp|[Ne Hs]]; [apply is_hyphen_spec in Hp; congruence|].
    assert (E : piece_score p = (base p - 10 * rank_of p)%Z /\ str_eqb (L "y") p = false).
    { unfold piece_score. split.
      - destruct (mems p _) eqn:E; [|rewrite score_base, Hs; reflexivity].
        apply mems_In in E. cbn in E. destruct E as [<-|[<-|[<-|[<-|[]]]]]; try discriminate Eh. congruence.
      - apply str_eqb_neq. intros <-. discriminate Eh. }
    destruct E as [-> ->]. cbn [map]. unfold Spec.total. cbn [fold_right]. lia.
Qed.

(** What score_lujvo computes for every compound and every name it accepts. *)
Theorem C26_score_compound : forall st w t ps, analyse_brivla Bound st w = Ok (t, ps) -> t = LUJVO \/ t = EXTENDED_LUJVO \/ t = CMEVLA -> standard_spelling w = w ->
  exists ks bonus, Forall2 rank (filter (fun p => negb (is_hyphen p)) ps) ks
  /\ (bonus = 0%Z \/ bonus = 1%Z) /\ (bonus = 1%Z <-> word_tie w)
  /\ score_lujvo Bound st w = Ok (1000 * Z.of_nat (length w) + 100 * (occurrences letter_y w - plain_y ps) - 10 * Spec.total ks - vowels_in w - bonus)%Z.
Proof.
  intros st w t ps H Ht Hw. exists (map rank_of (rafsi_pieces ps)), (tiebreak w). split; [|split; [apply tiebreak_cases|split; [apply tiebreak_word|]]].
  - fold (rafsi_pieces ps). induction (rafsi_pieces ps); constructor; [apply rank_spec|assumption].
  - destruct (C43_decomposed _ _ _ _ H Ht) as [(es & G & _) _]. unfold score_lujvo. rewrite G. cbn [bind]. rewrite H. cbn [bind]. f_equal.
    pose proof (C01_decomposition_lossless _ _ _ _ _ H) as Ec. rewrite Hw in Ec.
    rewrite piece_sum, Ec, base_spec by (eapply accepted_tidy; [exact H| |]; intros ->; intuition discriminate). lia.
Qed.

(** The score of a built word (of any kind) and score_lujvo of it, whenever the
    analyser accepts the word with the returned boundaries: they differ by 100 for each
    hyphen "y" and by the bonus, which score_lujvo gives only to words of just two
    stretches. *)
Theorem C26_difference : forall gen st t w sc ix kind ps,
  get_lujvo_with_analytics Bound gen st t = Ok (w, sc, ix) ->
  analyse_brivla Bound st w = Ok (kind, ps) -> kind = LUJVO \/ kind = EXTENDED_LUJVO \/ kind = CMEVLA -> get_rafsi_indices ps = ix ->
  exists b b', (b = 0%Z \/ b = 1%Z) /\ (b = 1%Z <-> tie w ix) /\ (b' = 0%Z \/ b' = 1%Z) /\ (b' = 1%Z <-> word_tie w)
  /\ score_lujvo Bound st w = Ok (sc - 100 * plain_y ps + b - b')%Z.
Proof.
  intros gen st t w sc ix kind ps H A1 Hk A2. destruct (C13_score _ _ _ _ _ _ _ H) as (ks & b & S1 & S2 & S3 & S4).
  pose proof (built_spelling _ _ _ _ _ _ _ H) as Hsp. pose proof (C01_decomposition_lossless _ _ _ _ _ A1) as Cw. rewrite Hsp in Cw.
  destruct (C26_score_compound _ _ _ _ A1 Hk Hsp) as (ks' & b' & T1 & T2 & T3 & T4).
  pose proof (rafsi_indices_spec ps) as [Hix _]. rewrite A2, Cw in Hix.
  assert (Ek : ks = ks').
  { rewrite <- Hix in T1. clear -S1 T1. revert ks' T1. induction S1 as [|x k ix ks Hk S1 IH]; intros ks' T1; cbn [map] in T1; inversion T1; subst; [reflexivity|].
    f_equal; [|apply IH; assumption]. etransitivity; [apply rank_det; eassumption|symmetry; apply rank_det; eassumption]. }
  subst ks'. exists b, b'. split; [exact S2|]. split; [exact S3|]. split; [exact T2|]. split; [exact T3|]. rewrite T4. f_equal. rewrite S4. lia.
Qed.
(** So they are equal exactly when there is no hyphen "y" and both give the bonus
    or neither does. *)
Theorem C26_agrees_exactly : forall gen st t w sc ix kind ps,
  get_lujvo_with_analytics Bound gen st t = Ok (w, sc, ix) ->
  analyse_brivla Bound st w = Ok (kind, ps) -> kind = LUJVO \/ kind = EXTENDED_LUJVO \/ kind = CMEVLA -> get_rafsi_indices ps = ix ->
  score_lujvo Bound st w = Ok sc <-> ~ In (L "y") ps /\ (tie w ix <-> word_tie w).
Proof.
  intros gen st t w sc ix kind ps H A1 Hk A2. destruct (C26_difference _ _ _ _ _ _ _ _ H A1 Hk A2) as (b & b' & B1 & B2 & B3 & B4 & ->).
  assert (Y : plain_y ps = 0%Z <-> ~ In (L "y") ps).
  { unfold plain_y. split.
    - intros E X. assert (In (L "y") (filter (str_eqb (L "y")) ps)) by (apply filter_In; split; [exact X|reflexivity]).
      destruct (filter _ ps); [contradiction|cbn [length] in E; lia].
    - intro X. destruct (filter (str_eqb (L "y")) ps) as [|q l] eqn:E; [reflexivity|exfalso]. assert (Q : In q (filter (str_eqb (L "y")) ps)) by (rewrite E; left; reflexivity).
      apply filter_In in Q as [Q1 Q2]. apply str_eqb_eq in Q2. subst q. exact (X Q1). }
  assert (Pn : (0 <= plain_y ps)%Z) by (unfold plain_y; lia). rewrite <- Y, <- B2, <- B4. split.
  - intro E. assert (E' : (sc - 100 * plain_y ps + b - b' = sc)%Z) by congruence. clear E Y. assert (plain_y ps = 0 /\ b = b')%Z as [E1 E2] by (clear -E' B1 B3 Pn; destruct B1 as [-> | ->], B3 as [-> | ->]; lia). subst b'. tauto.
  - intros [E1 E2]. f_equal. assert (b = b') by (destruct B1 as [-> | ->], B3 as [-> | ->]; try reflexivity; exfalso; [pose proof (proj2 E2 eq_refl)|pose proof (proj1 E2 eq_refl)]; discriminate). lia.
Qed.
(** The hypotheses hold for all tanru of the words and rafsi of C19. *)
Theorem C26_components_partial : forall st t ws w sc ix,
  words_of t ws -> Forall (fun v => component Bound st (standard_spelling v) /\ (Z.of_nat (length (standard_spelling v)) < 10 ^ 96)%Z) ws ->
  get_lujvo_with_analytics Bound false st t = Ok (w, sc, ix) ->
  exists ps b b', concat ps = w /\ map (substring w) ix = filter (fun p => negb (is_hyphen p)) ps
  /\ (b = 0%Z \/ b = 1%Z) /\ (b = 1%Z <-> tie w ix) /\ (b' = 0%Z \/ b' = 1%Z) /\ (b' = 1%Z <-> word_tie w)
  /\ score_lujvo Bound st w = Ok (sc - 100 * plain_y ps + b - b')%Z.
Proof.
  intros st t ws w sc ix Hw F H. destruct (C19_options_accepted_partial _ _ _ _ _ _ _ Hw F H) as (kind & ps & Hk & Hi & A).
  specialize (A (exp_rafsi_shapes st)). replace (mkSettings _ _ _ _ _) with st in A by (destruct st; reflexivity).
  destruct (C26_difference _ _ _ _ _ _ _ _ H A ltac:(tauto) Hi) as (b & b' & D). pose proof (C01_decomposition_lossless _ _ _ _ _ A) as Cw. rewrite (built_spelling _ _ _ _ _ _ _ H) in Cw.
  pose proof (rafsi_indices_spec ps) as [Hix _]. rewrite Hi, Cw in Hix. exists ps, b, b'. split; [exact Cw|]. split; [exact Hix|exact D].
Qed.
(** spageti bakni zdani: 100 for the y; spageti klama: equal; a name: 100 for the y *)
Example C26_compound_example :
  get_lujvo_with_analytics Bound false default_settings (TStr (L "spageti bakni zdani")) = Ok (L "spageti'ybakyzda", 16075%Z, [(0, 7); (9, 12); (13, 16)])
  /\ analyse_brivla Bound default_settings (L "spageti'ybakyzda") = Ok (EXTENDED_LUJVO, map L ["spageti"; "'y"; "bak"; "y"; "zda"]%string)
  /\ score_lujvo Bound default_settings (L "spageti'ybakyzda") = Ok 15975%Z
  /\ get_lujvo_with_analytics Bound false default_settings (TStr (L "spageti klama")) = Ok (L "spageti'ykla", 12026%Z, [(0, 7); (9, 12)])
  /\ score_lujvo Bound default_settings (L "spageti'ykla") = Ok 12026%Z
  /\ get_lujvo_with_analytics Bound true default_settings (TStr (L "bakni zdani ckule")) = Ok (L "bakyzdakul", 9927%Z, [(0, 3); (4, 7); (7, 10)])
  /\ score_lujvo Bound default_settings (L "bakyzdakul") = Ok 9827%Z.
Proof. repeat split; vm_compute; reflexivity. Qed.
Print Assumptions C26_score_compound.
Print Assumptions C26_difference.
Print Assumptions C26_agrees_exactly.
Print Assumptions C26_components_partial.
