(** Properties C43 and C26: every accepted compound can be decomposed and scored; how the two scores differ. *)
From Verif Require Import Str Data Tarmi Rafsi Core Api Lib Spec Shapes Decomp Basic Vowels Katna Dict Errs Builder Jvokaha Fuel Raises Inv Parts Clusters Zihevla Forms Chain Score Alt Lujvo Slinku Compound Whole Optimal Props1 Props2 Props4 Props5 Props6 Props7 Total Onset Pinned Found Props8 Swap Unique Round Props12.

(** ** Pieces without y *)
Lemma zi_no_y : forall middle mz b w syl, zi_text middle mz b w syl -> ~ In c_y w.
Proof.
  intros middle mz b w syl H. induction H as [b|b r w syl [_ [F _]] _ _ _ _ IH|b r w l syl [_ [F _]] _ _ _ _ IH|b w syl _ _ _ IH]; intro X.
  - exact X.
  - apply in_app_or in X as [X|X]; [|exact (IH X)]. rewrite Forall_forall in F. specialize (F _ X). apply is_consonant_spec in F. discriminate.
  - apply in_app_or in X as [X|X]; [|exact (IH X)]. rewrite Forall_forall in F. specialize (F _ X). apply is_vowel_spec in F. discriminate.
  - destruct X as [X|X]; [discriminate|exact (IH X)].
Qed.
Lemma piece_no_y : forall exp mz p, lujvo_piece exp mz p -> hyphen p \/ ~ In c_y p.
Proof.
  intros exp mz p H. destruct H as [H|s H|q syl Hq [T _] _|q syl _ Hq [T _ _ _]]; [left; exact H|right..].
  - intro X. pose proof (cll_lojban mz p (ex_intro _ s H)) as F. rewrite Forall_forall in F. specialize (F _ X). discriminate.
  - apply zi_no_y in T. destruct Hq as [-> | ->]; [exact T|]. intro X. apply T, in_or_app. auto.
  - apply zi_no_y in T. destruct Hq as [-> | ->]; [exact T|]. intro X. apply T, in_or_app. auto.
Qed.
Lemma is_brivla_total : forall st x, x <> [] -> low x -> ~ In c_y x -> exists b, is_brivla Bound st x = Ok b.
Proof.
  intros st x H1 H2 H3. pose proof (analyse_total st x H1 (spelling_no_y _ H2 H3)) as E. unfold is_brivla, Core.is_brivla.
  destruct (analyse_brivla Bound st x) as [[t ps]|e]; [eauto|]. specialize (E _ eq_refl). destruct E as [<-|[]]. eauto.
Qed.
Lemma selrafsi_total : forall yh mz n l i, n = i + length l -> Forall (fun p => p <> [] /\ low p /\ (hyphen p \/ ~ In c_y p)) l ->
  exists es, selrafsi_loop Bound yh mz n i l = Ok es.
Proof.
  intros yh mz n. induction l as [|x l IH]; intros i En F; [eexists; reflexivity|]. cbn [length] in En.
  destruct (IH (S i)) as [es Es]; [lia|exact (Forall_inv_tail F)|]. cbn [selrafsi_loop]. rewrite Es, hyphens_spec.
  match goal with |- context [selrafsi_at ?a ?b ?c ?d ?e ?f ?g] => assert (G : exists s, selrafsi_at a b c d e f g = Ok s) end; [|destruct G as [s ->]; cbn [bind]; destruct s; eauto].
  destruct (Forall_inv F) as (X1 & X2 & X3). destruct (is_hyphen x) eqn:Eh; [eexists; reflexivity|].
  destruct X3 as [X3|X3]; [apply is_hyphen_spec in X3; congruence|].
  unfold selrafsi_at. cbv zeta. destruct x as [|x0 x']; [congruence|]. set (x := x0 :: x') in *.
  destruct (search_selrafsi_from_rafsi x); [eauto|].
  match goal with |- context [bind (if i <? n - 2 then ?a else ?b) _] => assert (B : exists by_, (if i <? n - 2 then a else b) = Ok by_) end.
  { destruct (Nat.ltb_spec i (n - 2)) as [Hi|_]; [|eauto]. destruct l as [|y l]; [cbn [length] in En; lia|]. cbn [nth_error].
    apply Forall_inv_tail, Forall_inv in F as (Y & _). destruct y; [congruence|]. cbn. eauto. }
  destruct B as [by_ ->]. cbn [bind].
  set (st := mkSettings yh false CLUSTER false mz).
  destruct (is_brivla_total st (x ++ [c_a])) as [b1 B1].
  { destruct x; discriminate. } { apply low_app. split; [exact X2|repeat constructor]. } { intro Q. apply in_app_or in Q as [Q|[Q|[]]]; [exact (X3 Q)|discriminate]. }
  destruct (is_brivla_total st x X1 X2 X3) as [b2 B2]. rewrite B1, B2.
  destruct by_, b1, b2, (i =? n - 1); cbn [bind]; eauto.
Qed.

(** Once the functions are bound, no accepted compound makes get_veljvo or score_lujvo fail. *)
Theorem C43_decomposed : forall st w t ps, analyse_brivla Bound st w = Ok (t, ps) -> t = LUJVO \/ t = EXTENDED_LUJVO \/ t = CMEVLA ->
  (exists es, get_veljvo Bound st w = Ok es /\ length es = length (filter (fun p => negb (is_hyphen p)) ps)) /\ exists s, score_lujvo Bound st w = Ok s.
Proof.
  intros st w t ps H Ht.
  assert (G : exists es, get_veljvo Bound st w = Ok es).
  { unfold get_veljvo. rewrite H. cbn [bind].
    assert (F : Forall (fun p => p <> [] /\ low p /\ (hyphen p \/ ~ In c_y p)) ps).
    { assert (A : Forall (nonempty_piece (exp_rafsi_shapes st) (allow_mz st)) ps) by (eapply accepted_pieces; [exact H|intros ->; intuition discriminate|intros ->; intuition discriminate]).
      pose proof (C01_decomposition_lossless _ _ _ _ _ H) as C. pose proof (spelling_low w) as Lw. rewrite <- C in Lw. clear -A Lw.
      induction A as [|p ps [P1 P2] A IH]; [constructor|]. cbn [concat] in Lw. apply low_app in Lw as [L1 L2]. constructor; [|exact (IH L2)].
      split; [exact P1|]. split; [exact L1|]. eapply piece_no_y. exact P2. }
    destruct (selrafsi_total (y_hyphens st) (allow_mz st) (length ps) ps 0 eq_refl F) as [es Es].
    exists es. unfold selrafsi_list_from_rafsi_list. destruct Ht as [-> |[-> | ->]]; exact Es. }
  destruct G as [es G]. split; [|unfold score_lujvo; rewrite G; cbn [bind]; rewrite H; cbn [bind]; eauto].
  exists es. split; [exact G|]. apply C21_one_entry_per_piece in G as (t' & ps' & G1 & _ & G2). rewrite H in G1. injection G1 as <- <-. apply Forall2_length in G2. symmetry. exact G2.
Qed.
Example C43_example :
  analyse_brivla Bound default_settings (L "spageti'ybacyzdani") = Ok (EXTENDED_LUJVO, map L ["spageti"; "'y"; "bac"; "y"; "zdani"]%string)
  /\ score_lujvo Bound default_settings (L "spageti'ybacyzdani") = Ok 18014%Z.
Proof. split; vm_compute; reflexivity. Qed.
Print Assumptions C43_decomposed.

(** * C26 *)
Definition plain_y (ps : list str) : Z := Z.of_nat (length (filter (str_eqb (L "y")) ps)).
(** the word is a CVV rafsi and one stretch shaped CCV, CVC, CCVC or CVCC *)
Definition word_tie (w : str) : Prop :=
  shaped "CVV" (substring w (0, 3)) /\ exists p, In p ["CCV"; "CVC"; "CCVC"; "CVCC"]%string /\ shaped p (substring w (3, length w)).

Lemma rank_det : forall s k, rank s k -> k = rank_of s.
Proof.
  intros s k H. destruct H as [(p & H1 & H2)|[-> H]].
  - cbn in H1. repeat (destruct H1 as [H1|H1]; [injection H1 as <- <-;
      match goal with X : shaped ?q s |- _ => 
        first [apply (shaped_rafsi_tarmi s CVCCV) in X; [|discriminate]; unfold rank_of; rewrite X; reflexivity
              |apply (shaped_rafsi_tarmi s CVCC) in X; [|discriminate]; unfold rank_of; rewrite X; reflexivity
              |apply (shaped_rafsi_tarmi s CCVCV) in X; [|discriminate]; unfold rank_of; rewrite X; reflexivity
              |apply (shaped_rafsi_tarmi s CCVC) in X; [|discriminate]; unfold rank_of; rewrite X; reflexivity
              |apply (shaped_rafsi_tarmi s CVC) in X; [|discriminate]; unfold rank_of; rewrite X; reflexivity
              |apply (shaped_rafsi_tarmi s CVhV) in X; [|discriminate]; unfold rank_of; rewrite X; reflexivity
              |apply (shaped_rafsi_tarmi s CCV) in X; [|discriminate]; unfold rank_of; rewrite X; reflexivity
              |apply (shaped_rafsi_tarmi s CVV) in X; [|discriminate]; unfold rank_of; rewrite X; reflexivity] end|]). destruct H1.
  - destruct (rank_spec s) as [(p & H1 & H2)|[E _]]; [|symmetry; exact E]. exfalso. exact (H _ _ H1 H2).
Qed.

Lemma cut_score : forall rn hy mz ps prev, cut rn hy mz prev ps ->
  fold_right Z.add 0%Z (map piece_score ps) = (base (concat ps) - 100 * plain_y ps - 10 * Spec.total (map rank_of (rafsi_pieces ps)))%Z.
Proof.
  intros rn hy mz. induction ps as [|p ps IH]; intros prev H; [reflexivity|]. destruct H as [H G]. specialize (IH _ G). cbn [map fold_right concat]. rewrite IH, base_app. clear IH G.
  unfold plain_y, rafsi_pieces. cbn [filter]. destruct H as [(s & Hs & _)|(q & _ & _ & H)].
  - assert (C : cll mz p) by (exists s; exact Hs). rewrite (cll_not_hyphen _ _ C). cbn [negb map].
    assert (E : piece_score p = (base p - 10 * rank_of p)%Z /\ str_eqb (L "y") p = false).
    { pose proof (strip_suffix _ p [] C eq_refl) as S. rewrite app_nil_r in S. apply cll_len in C. unfold piece_score.
      destruct (mems p _) eqn:E; [apply mems_In in E; cbn in E; exfalso; repeat destruct E as [<-|E]; try destruct E; cbn in C; lia|].
      rewrite score_base, S. split; [reflexivity|]. apply str_eqb_neq. intros <-. cbn in C. lia. }
    destruct E as [-> ->]. unfold Spec.total. cbn [fold_right]. lia.
  - destruct H as [->|[[_ ->]|(_ & _ & [[-> _]|[-> _]])]].
    + change (str_eqb (L "y") (L "y")) with true. change (is_hyphen (L "y")) with true. change (piece_score (L "y")) with 1000%Z. change (base (L "y")) with 1100%Z. cbn [negb length]. lia.
    + change (str_eqb (L "y") (L "'y")) with false. change (is_hyphen (L "'y")) with true. change (piece_score (L "'y")) with 2100%Z. change (base (L "'y")) with 2100%Z. cbn [negb]. lia.
    + change (str_eqb (L "y") (L "n")) with false. change (is_hyphen (L "n")) with true. change (piece_score (L "n")) with 1000%Z. change (base (L "n")) with 1000%Z. cbn [negb]. cbv match. lia.
    + change (str_eqb (L "y") (L "r")) with false. change (is_hyphen (L "r")) with true. change (piece_score (L "r")) with 1000%Z. change (base (L "r")) with 1000%Z. cbn [negb]. cbv match. lia.
Qed.

Lemma tiebreak_word : forall w, tiebreak w = 1%Z <-> word_tie w.
Proof.
  intro w.
  assert (E : substring w (3, length w) = skipn 3 w) by (unfold substring; cbn [fst snd]; apply firstn_all2; rewrite skipn_length; lia).
  unfold word_tie. rewrite E. change (substring w (0, 3)) with (firstn 3 w). split.
  - intro H. apply tiebreak_one in H as (T1 & T2 & _). split; [apply (rafsi_tarmi_shaped _ CVV); [discriminate|exact T1]|].
    destruct (rafsi_tarmi (skipn 3 w)) eqn:X; try discriminate; match type of X with _ = ?x => exists (shape_pat x); split; [cbn; auto|apply rafsi_tarmi_shaped; [discriminate|exact X]] end.
  - intros [T1 (p & Hp & T2)]. apply (shaped_rafsi_tarmi _ CVV) in T1; [|discriminate]. unfold tiebreak. rewrite T1. cbn in Hp.
    destruct Hp as [<-|[<-|[<-|[<-|[]]]]];
      [apply (shaped_rafsi_tarmi _ CCV) in T2|apply (shaped_rafsi_tarmi _ CVC) in T2|apply (shaped_rafsi_tarmi _ CCVC) in T2|apply (shaped_rafsi_tarmi _ CVCC) in T2]; try discriminate; rewrite T2; reflexivity.
Qed.

(** What score_lujvo computes: the lujvo score, without the 100 for each hyphen "y", and
    with the bonus only if the whole word is the CVV rafsi and one stretch. *)
Theorem C26_score_lujvo : forall st w ps, analyse_brivla Bound st w = Ok (LUJVO, ps) -> standard_spelling w = w ->
  exists ks bonus, Forall2 rank (filter (fun p => negb (is_hyphen p)) ps) ks
  /\ (bonus = 0%Z \/ bonus = 1%Z) /\ (bonus = 1%Z <-> word_tie w)
  /\ score_lujvo Bound st w = Ok (1000 * Z.of_nat (length w) + 100 * (occurrences letter_y w - plain_y ps) - 10 * Spec.total ks - vowels_in w - bonus)%Z.
Proof.
  intros st w ps H Hw. exists (map rank_of (rafsi_pieces ps)), (tiebreak w). split; [|split; [apply tiebreak_cases|split; [apply tiebreak_word|]]].
  - fold (rafsi_pieces ps). induction (rafsi_pieces ps); constructor; [apply rank_spec|assumption].
  - destruct (C43_decomposed _ _ _ _ H (or_introl eq_refl)) as [(es & G & _) _]. unfold score_lujvo. rewrite G. cbn [bind]. rewrite H. cbn [bind]. f_equal.
    pose proof H as A5. apply C41_cll_lujvo_characterised in A5. cbv zeta in A5. destruct A5 as (_ & _ & A5 & A6 & _). rewrite Hw in A5.
    rewrite (cut_score _ _ _ _ _ A6), A5, base_spec. lia.
Qed.
Example C26_score_example : analyse_brivla Bound default_settings (L "bacyzdani") = Ok (LUJVO, map L ["bac"; "y"; "zdani"]%string)
  /\ standard_spelling (L "bacyzdani") = L "bacyzdani"
  /\ score_lujvo Bound default_settings (L "bacyzdani") = Ok (1000 * 9 - 10 * (5 + 3) - 3)%Z.
Proof. repeat split; vm_compute; reflexivity. Qed.

Lemma word_two : forall rn hy mz ps, cut rn hy mz None ps -> 2 <= length (rafsi_pieces ps) -> word_tie (concat ps) ->
  length (rafsi_pieces ps) = 2 /\ exists p0 rest, ps = p0 :: rest /\ length p0 = 3 /\ is_hyphen p0 = false.
Proof.
  intros rn hy mz ps H L2 T. apply tiebreak_word, tiebreak_one in T as (T1 & T2 & T3 & T4).
  destruct ps as [|p0 ps]; [cbn in L2; lia|]. pose proof H as H0. destruct H as [H G]. destruct H as [(s & Hs & _)|(q & E & _)]; [|discriminate].
  assert (C0 : cll mz p0) by (exists s; exact Hs).
  assert (L3 : length p0 = 3).
  { clear -Hs T1. apply tarmi_CVV in T1 as (a & b & d & E & Ha & Hb & Hd). cbn [concat] in E. destruct Hs; cbn [app firstn length] in *; bfacts; injection E; clear E; intros; subst; try reflexivity; try clash; discriminate. }
  assert (Lp : forall ps prev, cut rn hy mz prev ps -> 3 * length (rafsi_pieces ps) <= length (concat ps)).
  { clear. induction ps as [|p ps IH]; intros prev H; [cbn; lia|]. destruct H as [H G]. specialize (IH _ G). unfold rafsi_pieces in *. cbn [filter concat]. rewrite app_length.
    destruct (is_hyphen p) eqn:E; cbn [negb length]; [lia|]. destruct H as [(s & Hs & _)|(q & _ & _ & H)].
    - assert (C : cll mz p) by (exists s; exact Hs). apply cll_len in C. lia.
    - destruct H as [->|[[_ ->]|(_ & _ & [[-> _]|[-> _]])]]; discriminate. }
  pose proof (Lp _ _ H0). split; [lia|]. exists p0, ps. split; [reflexivity|]. split; [exact L3|]. eapply cll_not_hyphen. exact C0.
Qed.

Lemma built_spelling : forall lk gen st t w sc ix, get_lujvo_with_analytics lk gen st t = Ok (w, sc, ix) -> standard_spelling w = w.
Proof.
  intros lk gen st t w sc ix H. destruct (C17_clusters lk gen st t w) as [F _]; [rewrite get_lujvo_fst, H; reflexivity|].
  apply word_spelling. eapply Forall_impl; [|exact F]. intros c Hc. unfold word_letter, is_lojban_letter.
  destruct Hc as [Hc|[Hc|[-> | ->]]]; [apply is_vowel_spec in Hc|apply is_consonant_spec in Hc|reflexivity|reflexivity]; rewrite Hc, ?orb_true_r; reflexivity.
Qed.

(** The score of a built word and score_lujvo of it: they differ by 100 for each
    hyphen "y", and by the bonus of words with three rafsi or more. *)
Theorem C26_difference_partial : forall lk st t ws w sc ix,
  exp_rafsi_shapes st = false -> words_of t ws -> Forall (fun v => no_zihevla lk st (standard_spelling v)) ws ->
  get_lujvo_with_analytics lk false st t = Ok (w, sc, ix) ->
  exists ps extra, analyse_brivla lk st w = Ok (LUJVO, ps)
  /\ (extra = 0%Z \/ extra = 1%Z) /\ (extra = 1%Z <-> tie w ix /\ 2 < length ws)
  /\ score_lujvo lk st w = Ok (sc - 100 * plain_y ps + extra)%Z.
Proof.
  intros lk st t ws w sc ix Hex Hw Hz H. pose proof (C12_index_list _ _ _ _ _ _ _ _ Hw H) as (I1 & _ & _ & (i2 & r2 & I2) & _).
  destruct (C13_score _ _ _ _ _ _ _ H) as (ks & b & S1 & S2 & S3 & S4).
  destruct (C19_accepted_partial _ _ _ _ _ _ _ Hex Hw Hz H) as (ps & A1 & A2).
  assert (lk = Bound) as ->.
  { destruct lk; [exfalso|reflexivity]. destruct (analytics_best _ _ _ _ _ _ _ _ Hw H) as (rll & Er & Eb).
    unfold get_lujvo_with_analytics in H. inv_bind H. apply process_ok in E. rewrite (words_raw _ _ Hw) in E. subst x.
    rewrite lujvo_from_list_eq, Er in H. cbn [bind] in H. rewrite Eb in H. discriminate. }
  pose proof (built_spelling _ _ _ _ _ _ _ H) as Hsp.
  pose proof (C01_decomposition_lossless _ _ _ _ _ A1) as Cw. rewrite Hsp in Cw.
  destruct (C26_score_lujvo _ _ _ A1 Hsp) as (ks' & b' & T1 & T2 & T3 & T4).
  pose proof (rafsi_indices_spec ps) as [Hix _]. rewrite A2, Cw in Hix.
  assert (Ek : ks = ks').
  { rewrite <- Hix in T1. clear -S1 T1. revert ks' T1. induction S1 as [|x k ix ks Hk S1 IH]; intros ks' T1; cbn [map] in T1; inversion T1; subst; [reflexivity|].
    f_equal; [|apply IH; assumption]. etransitivity; [apply rank_det; eassumption|symmetry; apply rank_det; eassumption]. }
  subst ks'.
  pose proof A1 as A5. apply C41_cll_lujvo_characterised in A5. cbv zeta in A5. destruct A5 as (_ & _ & _ & A6 & A7 & _).
  assert (Lx : length ix = length (rafsi_pieces ps)) by (unfold rafsi_pieces; rewrite <- Hix, map_length; reflexivity).
  assert (Tw : word_tie w <-> tie w ix /\ length ix = 2).
  { split.
    - intro T. pose proof T as [T' (p & Tp & T'')]. rewrite <- Cw in T. destruct (word_two _ _ _ _ A6 A7 T) as (L2 & p0 & rest & E0 & L0 & N0). split; [|lia].
      assert (Eix : exists x, ix = [(0, 3); x]).
      { rewrite <- Lx in L2. unfold get_rafsi_indices in A2. rewrite E0 in A2. cbn [rafsi_indices_loop] in A2. rewrite hyphens_spec, N0 in A2. rewrite L0 in A2. rewrite <- A2 in L2. cbn [app length Nat.add] in A2, L2. rewrite <- A2.
        match type of L2 with S (length ?l) = 2 => destruct l as [|x [|]]; try discriminate end. eauto. }
      destruct Eix as [[i e] Eix]. rewrite Eix in I2. destruct r2 as [|? [|? [|]]]; try discriminate. injection I2 as <- <- ->.
      exists i, (length w), [], p. rewrite Eix. repeat split; auto.
    - intros [(i & e & rest & p & E1 & E2 & E3 & E4 & _) L2]. rewrite E1 in L2. destruct rest; [|discriminate]. rewrite E1 in I2.
      destruct r2 as [|? [|? [|]]]; try discriminate. injection I2 as _ _ ->. split; [exact E2|]. exists p. auto. }
  assert (L2 : 2 <= length ix) by (rewrite Lx; exact A7). rewrite <- I1.
  exists ps, (b - b')%Z. split; [exact A1|]. split; [|split].
  - destruct S2 as [-> | ->], T2 as [-> | ->]; auto. exfalso. destruct (proj1 Tw (proj1 T3 eq_refl)) as [X _]. apply S3 in X. discriminate.
  - split.
    + intro E. destruct S2 as [-> | ->], T2 as [-> | ->]; try discriminate E. split; [apply S3; reflexivity|].
      destruct (Nat.eq_dec (length ix) 2) as [Q|Q]; [|lia]. exfalso. assert (X : 0%Z = 1%Z) by (apply T3, Tw; split; [apply S3; reflexivity|exact Q]). discriminate.
    + intros [X Y]. apply S3 in X. subst b. destruct T2 as [-> | ->]; [reflexivity|]. exfalso. destruct (proj1 Tw (proj1 T3 eq_refl)) as [_ Q]. lia.
  - rewrite T4. f_equal. rewrite S4. lia.
Qed.
(** pa sufti: 100 for the y; gleki kurji bau: the bonus *)
Example C26_difference_example :
  get_lujvo_with_analytics Bound false default_settings (TStr (L "pa sufti")) = Ok (L "pavysfu", 6978%Z, [(0, 3); (4, 7)])
  /\ score_lujvo Bound default_settings (L "pavysfu") = Ok 6878%Z
  /\ get_lujvo_with_analytics Bound false default_settings (TStr (L "gleki kurji -bau-")) = Ok (L "geirkujbau", 9784%Z, [(0, 3); (4, 7); (7, 10)])
  /\ score_lujvo Bound default_settings (L "geirkujbau") = Ok 9785%Z.
Proof. repeat split; vm_compute; reflexivity. Qed.

(** So the two agree on words without y, up to that bonus. *)
Theorem C26_agrees_partial : forall lk st t ws w sc ix,
  exp_rafsi_shapes st = false -> words_of t ws -> Forall (fun v => no_zihevla lk st (standard_spelling v)) ws ->
  get_lujvo_with_analytics lk false st t = Ok (w, sc, ix) -> ~ In letter_y w -> length ws = 2 ->
  score_lujvo lk st w = Ok sc.
Proof.
  intros lk st t ws w sc ix Hex Hw Hz H Hy L2. destruct (C26_difference_partial _ _ _ _ _ _ _ Hex Hw Hz H) as (ps & extra & A1 & A2 & A3 & A4).
  rewrite A4. f_equal. assert (extra = 0%Z) as -> by (destruct A2 as [A2|A2]; [exact A2|]; apply A3 in A2 as [_ A2]; lia).
  pose proof (C01_decomposition_lossless _ _ _ _ _ A1) as Cw.
  assert (Ey : plain_y ps = 0%Z); [|lia]. unfold plain_y. destruct (filter (str_eqb (L "y")) ps) as [|p l] eqn:E; [reflexivity|exfalso].
  assert (Hp : In p (filter (str_eqb (L "y")) ps)) by (rewrite E; left; reflexivity). apply filter_In in Hp as [Hp Ep]. apply str_eqb_eq in Ep. subst p.
  assert (X : In letter_y (standard_spelling w)) by (rewrite <- Cw; apply in_concat; exists (L "y"); split; [exact Hp|left; reflexivity]).
  rewrite (built_spelling _ _ _ _ _ _ _ H) in X. exact (Hy X).
Qed.
Theorem C26_refuted : exists t w sc ix s, get_lujvo_with_analytics Bound false default_settings t = Ok (w, sc, ix)
  /\ score_lujvo Bound default_settings w = Ok s /\ s <> sc.
Proof.
  exists (TStr (L "pa sufti")), (L "pavysfu"), 6978%Z, [(0, 3); (4, 7)], 6878%Z. split; [vm_compute; reflexivity|]. split; [vm_compute; reflexivity|discriminate].
Qed.
Print Assumptions C26_score_lujvo.
Print Assumptions C26_difference_partial.
Print Assumptions C26_agrees_partial.
Print Assumptions C26_refuted.
