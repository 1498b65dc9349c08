(** On words without y, analyse_brivla raises nothing but NotBrivlaError. *)
From Verif Require Import Str Data Tarmi Rafsi Core Api Lib Spec Shapes Decomp Basic Vowels Katna Dict Errs Builder Jvokaha Fuel Raises Inv Parts Clusters Zihevla Forms Chain Score Alt Lujvo Slinku Optimal Props5.

(** ** jvokaha_2 *)
Definition not_r_end (w : str) : Prop := forall s, w <> s ++ [c_r].
Lemma not_r_skip : forall k w, not_r_end w -> not_r_end (skipn k w).
Proof. intros k w H s E. apply (H (firstn k w ++ s)). rewrite <- app_assoc, <- E. symmetry. apply firstn_skipn. Qed.
Lemma hyphen_len_ok : forall yh prev w, not_r_end w -> exists k, hyphen_len yh prev w = Ok k.
Proof.
  intros yh prev w H. unfold hyphen_len. destruct prev as [prev|]; [|eauto]. destruct w as [|l0 w]; [eauto|].
  destruct (negb _); [|eauto]. destruct (N.eqb l0 c_y); [eauto|].
  assert (G : exists b, (if yset_eqb yh FORCE_Y then Ok false
                 else if str_eqb (firstn 2 (l0 :: w)) (L "nr") then Ok true
                 else if N.eqb l0 c_r then l1 <- idx (l0 :: w) 1 ;; Ok (is_consonant l1 && negb (N.eqb l1 c_r))
                 else Ok false) = Ok b).
  { destruct (yset_eqb _ _); [eauto|]. destruct (str_eqb _ _); [eauto|]. destruct (N.eqb l0 c_r) eqn:E; [|eauto].
    destruct w as [|l1 w]; [|cbn [idx nth_error bind]; eauto]. apply N.eqb_eq in E. subst l0. exfalso. apply (H []). reflexivity. }
  destruct G as [b ->]. cbn [bind]. destruct (b && _); [eauto|]. destruct (_ && _); eauto.
Qed.
Lemma j2_no_index : forall f yh mz orig w acc, not_r_end w -> jvokaha2_loop f yh mz orig w acc <> Err IndexError.
Proof.
  induction f as [|f IH]; intros yh mz orig w acc H; [discriminate|]. cbn [jvokaha2_loop].
  destruct w as [|c0 w]; [discriminate|]. destruct (hyphen_len_ok yh (last_opt acc) _ H) as [k ->]. cbn [bind].
  destruct k as [k|]; [apply IH, not_r_skip, H|]. cbv zeta.
  repeat match goal with
  | |- Err _ <> _ => discriminate
  | |- Ok _ <> _ => discriminate
  | |- jvokaha2_loop f _ _ _ _ _ <> _ => apply IH, not_r_skip, H
  | |- (if ?b then _ else _) <> _ => destruct b
  end.
Qed.
Lemma vowel_not_r : forall w l, last_opt w = Some l -> is_vowel l = true -> not_r_end w.
Proof.
  intros w l H Hl s E. subst w. rewrite last_opt_app in H. injection H as <-. discriminate.
Qed.
Definition exn_eq_dec : forall a b : exn, {a = b} + {a <> b}.
Proof. decide equality. Defined.
Definition JV : exn -> Prop := only [DecompositionError; InvalidClusterError; NotBrivlaError].
Lemma errs_j2_end : forall yh mz w, not_r_end w -> errs JV (jvokaha_2 yh mz w).
Proof.
  intros yh mz w H e E. pose proof (errs_jvokaha_2 yh mz w e E) as G. cbn in G. unfold JV, only.
  destruct (exn_eq_dec e IndexError) as [->|N]; [destruct (j2_no_index _ _ _ _ _ _ H E)|]. cbn. intuition congruence.
Qed.

(** ** The comparison of the two decompositions *)
Lemma compare_total : forall corr other i f, alternates f corr ->
  rafsi_pieces corr = rafsi_pieces (skipn i other) -> i <= length other -> exists b, compare_loop corr other i = Ok b.
Proof.
  induction corr as [|part corr IH]; intros other i f Ha E Hi; [cbn; eauto|]. cbn [compare_loop].
  destruct (nth_error other i) as [o|] eqn:En.
  2:{ exfalso. apply nth_error_None in En. rewrite skipn_all2 in E by exact En. clear -Ha E. unfold rafsi_pieces in E. cbn [filter] in E.
      cbn [alternates] in Ha. destruct (is_hyphen part); [|discriminate]. destruct Ha as [_ Ha]. cbn [negb] in E.
      destruct corr as [|p corr]; [discriminate Ha|]. cbn in Ha, E. destruct (is_hyphen p); [destruct Ha; discriminate|discriminate]. }
  unfold idxl at 1. rewrite En. cbn [bind].
  assert (Hs : skipn i other = o :: skipn (S i) other).
  { clear -En. revert i En. induction other as [|x other IH]; intros [|i] En; try discriminate; cbn in *; [congruence|apply IH; exact En]. }
  assert (Hl : i < length other) by (apply nth_error_Some; rewrite En; discriminate).
  assert (Hf : exists f', alternates f' corr).
  { cbn [alternates] in Ha. destruct (is_hyphen part); [exists false; apply Ha|exists true; exact Ha]. }
  destruct Hf as [f' Hf].
  destruct (str_eqb part o) eqn:Ep.
  { apply str_eqb_eq in Ep. subst o. rewrite Hs in E. eapply IH; [exact Hf| |lia].
    unfold rafsi_pieces in E |- *. cbn [filter] in E. destruct (is_hyphen part); cbn [negb] in E; [exact E|injection E as E; exact E]. }
  cbv zeta. match goal with |- context [if ?b then S i else i] => destruct b eqn:Eb end.
  - repeat (apply andb_t in Eb as [Eb ?]). match goal with G : mems o _ = true |- _ => rename G into Ho end.
    match goal with G : (i <? length other - 1) = true |- _ => apply Nat.ltb_lt in G; rename G into Hi2 end.
    destruct (nth_error other (S i)) as [o'|] eqn:En'; [|apply nth_error_None in En'; lia]. unfold idxl. rewrite En'. cbn [bind].
    destruct (str_eqb part o') eqn:Ep'; [|eauto]. apply str_eqb_eq in Ep'. subst o'.
    assert (Hs' : skipn (S i) other = part :: skipn (S (S i)) other).
    { clear -En'. revert En'. generalize (S i) as j. clear i. intro i. revert i. induction other as [|x other IH]; intros [|i] En; try discriminate; cbn in *; [congruence|apply IH; exact En]. }
    rewrite Hs, Hs' in E. eapply IH; [exact Hf| |lia].
    assert (Hh : is_hyphen o = true).
    { apply mems_In in Ho. cbn in Ho. destruct Ho as [<-|[<-|[]]]; reflexivity. }
    unfold rafsi_pieces in E |- *. cbn [filter] in E. rewrite Hh in E. cbn [negb] in E.
    destruct (is_hyphen part); cbn [negb] in E; [exact E|injection E as E; exact E].
  - unfold idxl. rewrite En. cbn [bind]. rewrite Ep. eauto.
Qed.

(** ** The expected word *)
Lemma best_total : forall gen st rll, Forall (Forall (fine (consonants st))) rll -> 2 <= length rll ->
  errs (only [NoLujvoFoundError]) (best_word gen st rll).
Proof.
  intros gen st rll F H. destruct rll as [|l0 [|l1 rll]]; cbn in H; try lia.
  destruct (table_total gen st _ _ _ F) as [t Et]. unfold best_word. rewrite Et. cbn [bind].
  destruct (pick_best _ _ _ _); es.
Qed.
Lemma piece_forms_len : forall cs gl n rs i rll, piece_forms_loop cs gl n i rs = Ok rll -> length rll = length rs.
Proof.
  induction rs as [|r rs IH]; intros i rll E; cbn in E; [injection E as <-; reflexivity|].
  inv_bind E. inv_bind E. injection E as <-. cbn. f_equal. eapply IH. eassumption.
Qed.
Lemma expected_total : forall yh cs gl mz gen rs, Forall (cll mz) rs -> 2 <= length rs ->
  errs (only [NoLujvoFoundError]) (expected_entry yh cs gl mz gen rs).
Proof.
  intros yh cs gl mz gen rs F H. unfold expected_entry. destruct (piece_forms_ok cs gl mz rs F) as [rll E]. rewrite E. cbn [bind].
  set (st := mkSettings yh false cs gl mz).
  assert (G : get_rafsi_list_list (analyse_brivla Bound) (jvk Bound) st (map dashed rs) = Ok rll)
    by (rewrite rafsi_list_list_dashed by exact F; exact E).
  apply best_total; [exact (list_fine Bound st _ _ eq_refl G)|].
  unfold piece_forms in E. apply piece_forms_len in E. lia.
Qed.
Lemma expected_end : forall yh cs gl mz rs w sc ix, expected_entry yh cs gl mz false rs = Ok (w, sc, ix) ->
  exists l, last_opt w = Some l /\ is_vowel l = true.
Proof.
  intros yh cs gl mz rs w sc ix H. unfold expected_entry in H. inv_bind H.
  apply best_word_chain in H as (ch & c & l & _ & _ & _ & _ & _ & _ & _ & El & Hl). eauto.
Qed.

(** ** jvokaha *)
Lemma cut_all_nonnil : forall rn hy mz ps prev, cut rn hy mz prev ps -> Forall (fun p => p <> []) ps.
Proof.
  induction ps as [|p ps IH]; intros prev H; constructor; [eapply cut_nonnil; exact H|]. destruct H as [_ H]. eapply IH. exact H.
Qed.
Lemma jvk_end_gen : forall yh cs gl mz w, (exists l, last_opt w = Some l /\ is_vowel l = true) ->
  (forall arr w' sc ix, jvokaha_2 yh mz w = Ok arr -> expected_entry yh cs gl mz false (rafsi_of arr) = Ok (w', sc, ix) ->
     errs (only []) (slinkuhi Bound yh mz w')) ->
  errs JV (jvk Bound yh cs gl mz w).
Proof.
  intros yh cs gl mz w (l & El & Hl) HS. rewrite jvk_eq. apply errs_bind; [apply errs_j2_end; eapply vowel_not_r; eassumption|].
  intros arr Ha. destruct (length (rafsi_of arr) =? 1) eqn:E1; [apply errs_err; left; reflexivity|]. apply Nat.eqb_neq in E1.
  destruct (jvokaha_2_sound _ _ _ _ Ha) as [Hc Hcut].
  assert (Hne : arr <> []) by (intros ->; cbn in Hc; subst w; discriminate).
  destruct (cut_first _ _ _ _ Hcut Hne) as (p0 & rest & Earr & Hp0 & _).
  assert (H2 : 2 <= length (rafsi_of arr)).
  { subst arr. rewrite rafsi_of_first in E1 |- * by (apply cll_len in Hp0; lia). cbn in *. lia. }
  destruct (last_opt arr) as [piece|] eqn:Ep; [|apply last_opt_none in Ep; congruence]. unfold idx_last at 1. rewrite Ep. cbn [bind].
  assert (Elp : last_opt piece = Some l).
  { apply last_opt_some in Ep as [s Es]. rewrite Es, concat_app in Hc. cbn [concat] in Hc. rewrite app_nil_r in Hc.
    destruct piece as [|x piece]; [|rewrite <- Hc, last_opt_app_ne in El by discriminate; exact El].
    exfalso. apply cut_all_nonnil in Hcut. rewrite Es in Hcut. apply Forall_app in Hcut as [_ Hcut]. inversion Hcut; congruence. }
  unfold idx_last. rewrite Elp. cbn [bind].
  replace (is_consonant l) with false by (symmetry; apply (v_f0 l Hl)).
  pose proof (cut_rafsi_cll _ _ _ _ _ Hcut) as F.
  unfold expected_word. pose proof (expected_total yh cs gl mz false _ F H2) as T.
  destruct (expected_entry yh cs gl mz false (rafsi_of arr)) as [[[w' sc] ix]|e] eqn:He; cbn [bind].
  2:{ destruct (T e eq_refl) as [<-|[]]. apply errs_err; left; reflexivity. }
  specialize (HS arr w' sc ix Ha He). destruct (slinkuhi Bound yh mz w') as [b|e] eqn:Es; [|destruct (HS e eq_refl)]. cbn [bind].
  destruct b; [apply errs_err; left; reflexivity|]. cbn [bind].
  apply errs_bind; [|intros b _; destruct b; [apply errs_ok|apply errs_err; left; reflexivity]].
  destruct (yset_eqb yh FORCE_Y) eqn:EF; [apply errs_ok|].
  destruct (expected_end _ _ _ _ _ _ _ _ He) as (l' & El' & Hl').
  apply errs_bind; [apply errs_j2_end; eapply vowel_not_r; eassumption|]. intros corr Hcorr.
  destruct (jvokaha_2_sound _ _ _ _ Hcorr) as [Hcc Hccut].
  destruct (expected_cut _ _ _ _ _ _ _ _ _ F (cut_short _ _ _ _ _ Hcut) He) as (qs & Q1 & Q2 & Q3 & Q4).
  assert (corr = qs) as -> by (eapply cut_unique_all; [eapply cut_hy; exact Hccut|exact Q1|congruence]).
  unfold compare_lujvo_pieces. destruct (compare_total qs arr 0 false Q4) as [b ->]; [|lia|apply errs_ok].
  cbn [skipn]. rewrite <- (cut_pieces _ _ _ _ _ Q1), <- (cut_pieces _ _ _ _ _ Hcut). exact Q3.
Qed.
Definition ends_vowel (w : str) : Prop := exists l, last_opt w = Some l /\ is_vowel l = true.
Lemma ends_app : forall a w, ends_vowel w -> ends_vowel (a ++ w).
Proof.
  intros a w (l & El & Hl). exists l. split; [|exact Hl]. rewrite last_opt_app_ne; [exact El|]. intros ->. discriminate.
Qed.
Lemma jvk_to_end : forall yh cs gl mz u, ends_vowel u -> errs JV (jvk Bound yh cs gl mz (L "to" ++ u)).
Proof.
  intros yh cs gl mz u Hu. apply jvk_end_gen; [apply ends_app; exact Hu|]. intros arr w' sc ix Ha He.
  destruct (jvokaha_2_sound _ _ _ _ Ha) as [Hc Hcut].
  destruct arr as [|p0 ps].
  { apply expected_nonempty in He. cbn in He. lia. }
  destruct (cut_first _ _ _ _ Hcut ltac:(discriminate)) as (p & rest & E & _ & (a & b & c & t & Ep & _)).
  injection E as -> ->. subst p. cbn in Hc. injection Hc as -> -> _.
  rewrite rafsi_of_first in He by (cbn; lia). destruct (expected_prefix _ _ _ _ _ _ _ _ _ _ He) as [v ->].
  unfold slinkuhi.
  assert (G : Core.is_slinkuhi (jvk Bound) yh mz (L "to" ++ c :: t ++ v) = Ok false).
  { destruct (slinkuhi_toto Bound 2 2 yh mz (c :: t ++ v)) as [G _].
    unfold Core.is_slinkuhi in *. rewrite jvokaha_jvk in G by lia. exact G. }
  cbn in G |- *. rewrite G. apply errs_ok.
Qed.
(** the slinku'i test always answers on a word that ends in a vowel *)
Theorem slinkuhi_total : forall yh mz w, ends_vowel w -> exists b, slinkuhi Bound yh mz w = Ok b.
Proof.
  intros yh mz w H. unfold slinkuhi, Core.is_slinkuhi.
  destruct w as [|c w]; [destruct H as (l & El & _); discriminate|]. cbn [idx nth_error bind].
  destruct (is_vowel c); [eauto|]. pose proof (jvk_to_end yh CLUSTER false mz _ H) as G. pose proof (errs_jvk_to Bound yh CLUSTER false mz (c :: w)) as G'.
  destruct (jvk _ _ _ _ _ _) as [a|e]; [cbn; eauto|]. specialize (G e eq_refl). specialize (G' e eq_refl).
  destruct G as [<-|[<-|[<-|[]]]]; cbn; eauto. destruct G' as [G'|[G' _]]; [cbn in G'; intuition discriminate|discriminate].
Qed.
Theorem jvk_total : forall yh cs gl mz w, ends_vowel w -> errs JV (jvk Bound yh cs gl mz w).
Proof.
  intros yh cs gl mz w H. apply jvk_end_gen; [exact H|]. intros arr w' sc ix _ He.
  destruct (slinkuhi_total yh mz w' (expected_end _ _ _ _ _ _ _ _ He)) as [b ->]. apply errs_ok.
Qed.

(** ** check_zihevla_or_rafsi *)
Lemma zloop_total : forall f mz copy v z, length v <= f -> copy <> [] -> z_pos z + length v = length copy ->
  errs (only [NotZihevlaError]) (zloop f mz copy v z).
Proof.
  induction f as [|f IH]; intros mz copy v z H Hc Hp.
  - destruct v; [cbn [zloop]; es|cbn in H; lia].
  - destruct v as [|v0 vr]; [cbn [zloop]; es|].
    cbn [zloop]. destruct (is_consonant v0) eqn:Ec.
    { cbv zeta. pose proof (drop_while_lt is_consonant v0 vr Ec). pose proof (take_drop_while is_consonant (v0 :: vr)) as T.
      apply (f_equal (@length _)) in T. rewrite app_length in T.
      repeat match goal with |- errs _ (if ?b then _ else _) => destruct b end;
        try (apply errs_err; left; reflexivity); (apply IH; [cbn [length] in *; lia|exact Hc|cbn [z_pos]; lia]). }
    destruct (is_vowel v0) eqn:Ev.
    { cbv zeta. pose proof (drop_while_lt is_vowel v0 vr Ev). pose proof (take_drop_while is_vowel (v0 :: vr)) as T.
      apply (f_equal (@length _)) in T. rewrite app_length in T.
      destruct (split_vowel_cluster _) as [sy|e] eqn:Es.
      - apply errs_bind.
        { destruct (z_pos z =? 0) eqn:E0; [unfold idx_last; destruct (last_opt copy) eqn:El; [es|apply last_opt_none in El; congruence]|].
          apply Nat.eqb_neq in E0. unfold idx. destruct (nth_error copy (z_pos z - 1)) eqn:En; [es|]. apply nth_error_None in En. cbn [length] in *. lia. }
        intros prev _.
        repeat match goal with |- errs _ (if ?b then _ else _) => destruct b end;
          try (apply errs_err; left; reflexivity); (apply IH; [cbn [length] in *; lia|exact Hc|cbn [z_pos]; lia]).
      - apply split_vowel_cluster_err in Es. subst e. apply errs_err. left; reflexivity. }
    repeat match goal with |- errs _ (if ?b then _ else _) => destruct b end;
      try (apply errs_err; left; reflexivity); (apply IH; [cbn [length] in *; lia|exact Hc|cbn [z_pos length] in *; lia]).
Qed.

Definition no_y (w : str) : Prop := ~ In c_y w.
Lemma spelling_no_y : forall u, low u -> no_y u -> no_y (standard_spelling u).
Proof.
  intros u Hl Hy H. unfold standard_spelling in H. apply filter_In in H as [H _]. apply in_map_iff in H as (x & Ex & Hx).
  assert (G : x = c_y) by (destruct (N.eqb x 104); [discriminate|exact Ex]). subst x. apply Hy.
  destruct u as [|c u]; [destruct Hx|]. inversion Hl; subst.
  destruct (N.eqb c 46); rewrite low_lower in Hx by assumption; [right|]; exact Hx.
Qed.

Section Check.
Variable n : nat.
Hypothesis IHn : forall st u, u <> [] -> low u -> no_y u -> length u < n -> errs (only [NotBrivlaError]) (analyse_brivla Bound st u).

Lemma suffix_total : forall st v k, low v -> no_y v -> length v <= n -> 1 <= k -> k < length v ->
  exists b, Core.is_brivla (analyse_brivla Bound) st (skipn k v) = Ok b.
Proof.
  intros st v k Hl Hy Hn H1 H2. unfold Core.is_brivla.
  assert (G : errs (only [NotBrivlaError]) (analyse_brivla Bound st (skipn k v))).
  { apply IHn; [|apply low_skipn; exact Hl| |rewrite skipn_length; lia].
    - intro E. apply (f_equal (@length _)) in E. rewrite skipn_length in E. cbn in E. lia.
    - intro H. apply Hy. rewrite <- (firstn_skipn k v). apply in_or_app. right. exact H. }
  destruct (analyse_brivla _ _ _) as [[t l]|e]; [eauto|]. destruct (G e eq_refl) as [<-|[]]. eauto.
Qed.
Lemma falls_total : forall yh v p is_, low v -> no_y v -> length v <= n -> p < length v ->
  Forall (fun i => i < p) is_ -> exists b, falls_apart (analyse_brivla Bound) yh v p is_ = Ok b.
Proof.
  intros yh v p is_ Hl Hy Hn Hp H. induction H as [|i is_ Hi His IH]; [cbn; eauto|]. cbn [falls_apart].
  unfold idx. destruct (nth_error v (p - i)) eqn:E; [|apply nth_error_None in E; lia]. cbn [bind].
  destruct (_ || _); [|exact IH].
  destruct (suffix_total (dflt_y yh) v (p - i)) as [b ->]; try assumption; try lia. cbn [bind]. destruct b; [eauto|exact IH].
Qed.
Lemma check_total : forall req yh exp mz v, low v -> no_y v -> length v <= n -> ends_vowel v ->
  errs (only [NotZihevlaError]) (check_zihevla_or_rafsi (analyse_brivla Bound) (jvk Bound) req yh exp mz v).
Proof.
  intros req yh exp mz v Hl Hy Hn Hv. unfold check_zihevla_or_rafsi.
  destruct v as [|c0 v]; [destruct Hv as (l & El & _); discriminate|].
  destruct (req && _); [apply errs_err; left; reflexivity|]. apply errs_bind.
  { apply zloop_total; [lia|discriminate|reflexivity]. }
  intros z Hz. destruct (zloop_sound _ _ _ _ _ _ _ Hz (zinv_start _)) as (syl & _ & _ & I & _). pose proof (zi_cl _ _ _ _ I) as CL.
  assert (LP : forall p, z_cluster z = Some p -> p + 2 <= length (c0 :: v)).
  { intros p Ez. rewrite Ez in CL. destruct CL as (u & w & (E & (a & b & t & Ew & _) & _) & Lu & _). rewrite E, Ew, app_length. cbn [length]. lia. }
  clear CL. apply errs_bind.
  { destruct (_ && _); [apply errs_err; left; reflexivity|]. destruct (2 <? _); [|es]. destruct (z_cluster z) as [p|]; [|es].
    destruct (0 <? p) eqn:Ep; [|es]. apply Nat.ltb_lt in Ep.
    assert (Lp : p < length (c0 :: v)) by (specialize (LP p eq_refl); lia).
    destruct (suffix_total (dflt_y yh) (c0 :: v) p) as [b ->]; try assumption. cbn [bind]. destruct b; [apply errs_err; left; reflexivity|].
    destruct (falls_total yh (c0 :: v) p (seq 1 (p - 1))) as [b' ->]; try assumption.
    { apply Forall_forall. intros i Hi. apply in_seq in Hi. lia. }
    cbn [bind]. destruct b'; [apply errs_err; left; reflexivity|es]. }
  intros _ _. cbn [idx nth_error bind]. destruct (z_cluster z) as [p|].
  - apply errs_bind.
    { destruct (is_vowel c0); [|es]. specialize (LP p eq_refl). destruct v as [|c1 v']; [cbn in LP; lia|]. cbn [nth_error bind]. apply errs_ok. }
    intros vc _. destruct vc; [es|]. destruct (slinkuhi_total yh mz _ Hv) as [b Hb]. unfold slinkuhi in Hb. rewrite Hb. cbn [bind].
    destruct b; [apply errs_err; left; reflexivity|es].
  - repeat match goal with |- errs _ (if ?b then _ else _) => destruct b end; try (apply errs_err; left; reflexivity). es.
Qed.
End Check.

(** ** analyse_brivla *)
Lemma analyse_total_n : forall n st u, u <> [] -> no_y (standard_spelling u) -> length (standard_spelling u) < n ->
  errs (only [NotBrivlaError]) (analyse_brivla Bound st u).
Proof.
  induction n as [|n IH]; intros st u Hne Hy Hn; [lia|]. rewrite analyse_brivla_eq. unfold analyse_body.
  rewrite normalise_ok by exact Hne. cbn [bind].
  pose proof (spelling_low u) as Hl'. set (v := standard_spelling u) in *. clearbody v.
  destruct (last_opt v) as [l|] eqn:El; [|apply errs_err; left; reflexivity]. cbv zeta.
  destruct (negb (is_consonant l) && negb (is_vowel l)) eqn:Ecv; [apply errs_err; left; reflexivity|].
  destruct (is_consonant l && is_gismu _ _); [apply errs_err; left; reflexivity|]. destruct (negb (is_consonant l) && is_gismu _ _); [es|].
  assert (G : errs (only [NotBrivlaError]) (analyse_other (analyse_brivla Bound) (jvk Bound) st (is_consonant l) v)).
  { unfold analyse_other. destruct v as [|v0 v]; [discriminate|]. cbn [idx nth_error bind].
    destruct (negb (is_vowel v0 || is_consonant v0)); [apply errs_err; left; reflexivity|]. cbv zeta.
    rewrite split_on_none by exact Hy. cbn [length Nat.eqb]. destruct (is_consonant l) eqn:Ec; [apply errs_err; left; reflexivity|].
    assert (G : errs (only [NotZihevlaError]) (check_zihevla_or_rafsi (analyse_brivla Bound) (jvk Bound) true (y_hyphens st) (exp_rafsi_shapes st) (allow_mz st) (v0 :: v))).
    { apply (check_total n); try assumption; [|lia|].
      - intros st' u' H1 H2 H3 H4. apply IH; [assumption|apply spelling_no_y; assumption|pose proof (spelling_length_low u' H2); lia].
      - exists l. split; [exact El|]. destruct (is_vowel l); [reflexivity|discriminate]. }
    destruct (check_zihevla_or_rafsi _ _ _ _ _ _ _) as [t|e]; [es|]. destruct (G e eq_refl) as [<-|[]]. apply errs_err; left; reflexivity. }
  pose proof (errs_jvk Bound (y_hyphens st) (consonants st) (glides st) (allow_mz st) v) as J.
  destruct (jvk _ _ _ _ _ _) as [a|e]; [es|]. destruct (J e eq_refl) as [J'|[J' _]]; [|discriminate].
  cbn in J'. destruct J' as [<-|[<-|[<-|[<-|[]]]]]; try exact G. apply errs_err; left; reflexivity.
Qed.
Theorem analyse_total : forall st w, w <> [] -> no_y (standard_spelling w) ->
  errs (only [NotBrivlaError]) (analyse_brivla Bound st w).
Proof. intros st w Hne Hy. eapply analyse_total_n; [exact Hne|exact Hy|apply Nat.lt_succ_diag_r]. Qed.
