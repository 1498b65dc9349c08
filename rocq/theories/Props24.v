(** Properties C56 and C57: is_gismu_or_lujvo, and the options on which being a
    CLL lujvo depends. *)
From Verif Require Import Str Data Tarmi Rafsi Core Api Lib Spec Shapes Decomp Basic Vowels Katna Dict Errs Builder Jvokaha Fuel Raises Inv Parts Clusters Zihevla Forms Chain Score Alt Lujvo Slinku Compound Whole Optimal Props1 Props2 Props3 Total Onset Pinned Found Props4 Props5 Props6 Glides Props8 Props9 Props10 Joint Swap Unique Round Props12 Props13 RuleSpec Rules Rules2 Props16 ZiCut Props17.

(** ** C56: is_gismu_or_lujvo agrees with analyse_brivla *)
Lemma gismu_spelled : forall v mz, is_gismu v mz = true -> standard_spelling v = v.
Proof.
  intros v mz H. apply letters_spelling. unfold is_gismu in H. destruct (is_gismu_shape v) eqn:E; [|discriminate]. clear H.
  unfold is_gismu_shape in E. destruct v as [|a [|b [|c [|d [|e [|]]]]]]; try discriminate.
  assert (K : forall x, is_consonant x = true -> lojban_letter x) by (intros x Hx; right; left; apply is_consonant_spec; exact Hx).
  assert (V : forall x, is_vowel x = true -> lojban_letter x) by (intros x Hx; left; apply is_vowel_spec; exact Hx).
  repeat match type of E with context [if ?b then _ else _] => let Q := fresh "Q" in destruct b eqn:Q; try discriminate E end.
  all: rewrite ?negb_false_iff, ?negb_true_iff, ?andb_true_iff, ?orb_true_iff in *.
  all: repeat match goal with X : _ /\ _ |- _ => destruct X end.
  all: repeat apply Forall_cons; try apply Forall_nil; auto.
Qed.

Lemma jvk_cut : forall yh cs gl mz v ps, jvk Bound yh cs gl mz v = Ok ps ->
  concat ps = v /\ cut (rn_ok yh) (hy_ok yh) mz None ps.
Proof.
  intros yh cs gl mz v ps J. rewrite jvk_eq in J. inv_bind J. destruct (length (rafsi_of x) =? 1); [discriminate|].
  inv_bind J. inv_bind J. inv_bind J. inv_bind J. destruct x3; [|discriminate]. injection J as <-. apply jvokaha_2_sound in E. exact E.
Qed.
Lemma jvk_spelled : forall yh cs gl mz v ps, jvk Bound yh cs gl mz v = Ok ps -> standard_spelling v = v.
Proof. intros yh cs gl mz v ps J. apply jvk_cut in J as [<- J]. apply letters_spelling. eapply cut_all_letters. exact J. Qed.

(** The answer True: the string is spelled in the standard way, and the analyser
    (which is given the same rules for hyphens and mz; is_gismu_or_lujvo fixes
    consonants at its default) calls it a gismu or a lujvo. *)
Theorem C56_true : forall st w, consonants st = CLUSTER ->
  is_gismu_or_lujvo Bound (y_hyphens st) (allow_mz st) w = Ok true <->
  standard_spelling w = w /\
  ((exists ps, analyse_brivla Bound st w = Ok (GISMU, ps)) \/ (exists ps, analyse_brivla Bound st w = Ok (LUJVO, ps))).
Proof.
  intros st w Hc. unfold is_gismu_or_lujvo, Core.is_gismu_or_lujvo.
  split.
  - intro H. destruct (length w <? 5) eqn:El; [discriminate|]. apply Nat.ltb_ge in El. inv_bind H.
    destruct (is_vowel x) eqn:Hv; [|discriminate]. cbn [negb] in H. destruct (is_gismu w (allow_mz st)) eqn:Hg.
    + pose proof (gismu_spelled _ _ Hg) as Es. split; [exact Es|]. left. apply C05_gismu_shape. unfold gismu_form. apply is_gismu_spec. rewrite Es. exact Hg.
    + rewrite jvokaha_jvk in H by (unfold word_fuel; lia). destruct (jvk _ _ _ _ _ w) as [ps|e] eqn:J; [|destruct e; discriminate].
      pose proof (jvk_spelled _ _ _ _ _ _ J) as Es. split; [exact Es|]. right. exists ps. rewrite analyse_brivla_eq. unfold analyse_body.
      assert (Hw : w <> []) by (intros ->; cbn in El; lia). rewrite normalise_ok by exact Hw. cbn [bind]. rewrite Es.
      replace (last_opt w) with (Some x).
      2:{ clear -E. unfold idx_last in E. destruct (last_opt w); congruence. }
      cbv zeta. rewrite (v_f0 _ Hv), Hv. cbn [negb andb]. rewrite Hg, Hc, (jvk_glides Bound _ _ _ false), J. reflexivity.
  - intros [Es H]. assert (G : is_gismu w (allow_mz st) = true \/ exists l ps, last_opt w = Some l /\ is_vowel l = true /\ is_gismu w (allow_mz st) = false /\ 5 <= length w
      /\ jvk Bound (y_hyphens st) CLUSTER false (allow_mz st) w = Ok ps).
    { destruct H as [[ps H]|[ps H]].
      - left. apply analyse_inv in H. rewrite Es in H. remember GISMU as t eqn:Et. destruct H; try discriminate; try (destruct (is_consonant l); congruence). assumption.
      - right. pose proof (C44_lujvo_obey _ _ _ H) as (Ec & rs & F & L2 & Hh & _). apply analyse_inv in H. rewrite Es in H, Ec. remember LUJVO as t eqn:Et. destruct H; try discriminate; try (destruct (is_consonant l); congruence).
        exists l, ps. rewrite Hc, (jvk_glides Bound _ _ _ false) in H3. assert (Kl : is_consonant l = false) by (destruct (is_consonant l); [discriminate|reflexivity]).
        rewrite Kl in *. repeat split; try assumption. rewrite <- Ec. clear -F L2 Hh.
        inversion Hh as [? ? Hv|? r g rest h ps' Hl Hk H']; subst; [cbn in L2; lia|]. inversion F as [|? ? Hr F']; subst. inversion F' as [|? ? Hg F'']; subst.
        destruct (hyph_head _ _ _ _ _ _ H') as (g' & rs' & ps2 & Eg & ->). injection Eg as <- <-. apply cll_len in Hr. apply cll_len in Hg.
        cbn [concat]. rewrite concat_app. cbn [concat]. rewrite !app_length. lia. }
    destruct G as [G|(l & ps & El & Hv & Hg & L5 & J)].
    + destruct (gismu_len _ _ G) as (a & b & c & d & e & -> & He). cbn [length Nat.ltb Nat.leb]. unfold idx_last. cbn [last_opt]. cbn [bind]. rewrite He. cbn [negb]. rewrite G. reflexivity.
    + replace (length w <? 5) with false by (symmetry; apply Nat.ltb_ge; lia). unfold idx_last. rewrite El. cbn [bind]. rewrite Hv. cbn [negb]. rewrite Hg.
      rewrite jvokaha_jvk by (unfold word_fuel; lia). rewrite J. reflexivity.
Qed.

(** The string begins with CCV'y and ends in a vowel. *)
Definition ccvhy (w : str) : Prop := exists a b c t, w = a :: b :: c :: L "'y" ++ t /\ initial_pair a b /\ vowel c.
Lemma j2_slinky : forall f yh mz orig w acc, jvokaha2_loop f yh mz orig w acc = Err NotBrivlaError -> ccvhy orig.
Proof.
  induction f as [|f IH]; intros yh mz orig w acc H; [discriminate|]. cbn [jvokaha2_loop] in H.
  destruct w as [|c0 w]; [discriminate|]. apply bind_err in H as [H|(k & H1 & H)].
  { apply errs_hyphen_len in H. cbn in H. intuition discriminate. }
  destruct k as [k|]; [eapply IH; exact H|]. cbv zeta in H.
  repeat match type of H with
  | Err _ = _ => discriminate H
  | Ok _ = _ => discriminate H
  | jvokaha2_loop f _ _ _ _ _ = _ => eapply IH; exact H
  | (if ?b then _ else _) = _ => let Q := fresh "Q" in destruct b eqn:Q
  end.
  match goal with G : str_eqb _ orig && _ = true |- _ => apply andb_t in G as [G1 G2] end.
  apply str_eqb_eq in G1. apply str_eqb_eq in G2. rewrite G1 in *.
  match goal with G : tarmi_eqb (rafsi_tarmi (firstn 3 _)) CCV = true |- _ =>
    apply tarmi_eqb_eq, tarmi_CCV in G as (a & b & c & Eabc & ? & ? & Hv) end.
  match goal with G : negb (mems (firstn 2 _) INITIAL) = false |- _ => apply negb_false_iff in G; rename G into GI end.
  destruct orig as [|a' [|b' [|c' [|d' [|e' t]]]]]; try discriminate G2; try discriminate Eabc.
  cbn [firstn slice skipn Nat.sub] in Eabc, G2, GI. injection Eabc as <- <- <-. injection G2 as -> ->. exists a', b', c', t.
  split; [reflexivity|]. split; [apply initial_spec; exact GI|apply is_vowel_spec; exact Hv].
Qed.
Lemma slinky_j2 : forall yh mz w, ccvhy w -> jvokaha_2 yh mz w = Err NotBrivlaError.
Proof.
  intros yh mz w (a & b & c & t & -> & Hi & Hv). apply is_vowel_spec in Hv. unfold jvokaha_2. set (w := a :: b :: c :: L "'y" ++ t).
  destruct (initial_c _ _ Hi) as [Ka Kb]. apply is_consonant_spec in Ka. apply is_consonant_spec in Kb.
  pose proof (proj2 (initial_spec a b) Hi) as Hm.
  assert (Va : is_vowel a = false) by (destruct (is_vowel a) eqn:X; [apply v_f0 in X; congruence|reflexivity]).
  assert (Vb : is_vowel b = false) by (destruct (is_vowel b) eqn:X; [apply v_f0 in X; congruence|reflexivity]).
  assert (Kc : is_consonant c = false) by (apply v_f0; exact Hv).
  assert (NH : forall x y z q, str_eqb (x :: y :: z :: q) (L "'y") = false).
  { intros x y z q. destruct (str_eqb _ _) eqn:X; [apply str_eqb_eq in X; discriminate|reflexivity]. }
  assert (T3 : rafsi_tarmi [a; b; c] = CCV).
  { unfold rafsi_tarmi. rewrite NH, Ka. cbn [negb andb]. rewrite Hv, Vb, Kb. reflexivity. }
  assert (T4 : rafsi_tarmi [a; b; c; c_h] = OTHER_RAFSI).
  { unfold rafsi_tarmi. rewrite NH, Ka, Vb. change (is_consonant c_h) with false. rewrite andb_false_r. reflexivity. }
  assert (TW : tarmi_in (rafsi_tarmi w) [CVCCV; CCVCV] = false).
  { subst w. change (L "'y" ++ t) with (c_h :: c_y :: t). unfold rafsi_tarmi. rewrite NH, Ka. cbn [negb andb]. destruct t as [|t0 t]; [|reflexivity].
    unfold is_gismu_shape. change (is_consonant c_h) with false. rewrite andb_false_r. reflexivity. }
  assert (F4 : firstn 4 w = [a; b; c; c_h]) by reflexivity. assert (F3 : firstn 3 w = [a; b; c]) by reflexivity. assert (F2 : firstn 2 w = [a; b]) by reflexivity.
  assert (S35 : slice 3 5 w = L "'y") by reflexivity.
  assert (Ew : exists x xs, w = x :: xs) by (unfold w; eauto). generalize (length w) as n. intro n. clearbody w. destruct Ew as (x & xs & Ew).
  cbn [jvokaha2_loop]. rewrite Ew at 1. change (hyphen_len yh (last_opt []) w) with (@Ok (option nat) None). cbn [bind].
  rewrite F3, T3, F4, T4, TW. change (tarmi_in OTHER_RAFSI [CVCC; CCVC]) with false. cbn [tarmi_eqb andb negb]. rewrite F2, Hm, S35, !str_eqb_refl. reflexivity.
Qed.
Lemma jvk_slinky : forall yh cs gl mz w, jvk Bound yh cs gl mz w = Err NotBrivlaError -> ccvhy w.
Proof.
  intros yh cs gl mz w H.
  assert (G : errs (fun e => e = NotBrivlaError -> ccvhy w) (jvk Bound yh cs gl mz w)); [|exact (G _ H eq_refl)].
  apply errs_jvk_gen; try discriminate.
  - intros e He ->. unfold jvokaha_2 in He. eapply j2_slinky. exact He.
  - intros arr gen w' sc ix Ha He. destruct (jvokaha_2_sound _ _ _ _ Ha) as [_ Hcut]. split.
    + intros e E ->. exfalso. unfold jvokaha_2 in E. apply j2_notbrivla in E as (a & b & c & t & Ew & Hka & Hkb).
      destruct (expected_cut _ _ _ _ _ _ _ _ _ (cut_rafsi_cll _ _ _ _ _ Hcut) (cut_short _ _ _ _ _ Hcut) He) as (qs & Q1 & Q2 & _).
      rewrite Ew in Q2. exact (cut_no_ccvhy _ _ _ _ _ _ _ _ Q1 Q2 Hka Hkb).
    + intros _. eapply errs_weaken; [apply errs_slinkuhi|]. intros e [->|[X _]]; discriminate.
Qed.
Lemma idx_last_some : forall (w : str) l, idx_last w = Ok l <-> last_opt w = Some l.
Proof. intros w l. unfold idx_last. destruct (last_opt w); split; congruence. Qed.
(** It does not always answer: the one exception it lets through is the
    NotBrivlaError of katna.py:241, for exactly the strings that begin with a CCV
    rafsi and 'y and end in a vowel. *)
Theorem C56_raises : forall yh mz w e,
  is_gismu_or_lujvo Bound yh mz w = Err e <->
  e = NotBrivlaError /\ ends_in vowel w
  /\ exists a b c t, w = a :: b :: c :: L "'y" ++ t /\ initial_pair a b /\ vowel c.
Proof.
  intros yh mz w e. unfold is_gismu_or_lujvo, Core.is_gismu_or_lujvo. split.
  - intro H. destruct (length w <? 5) eqn:El; [discriminate|]. apply bind_err in H as [H|(l & El' & H)].
    { apply idx_last_nil_err in H as [-> _]. discriminate El. }
    apply idx_last_some in El'. destruct (is_vowel l) eqn:Hv; [|discriminate]. cbn [negb] in H. destruct (is_gismu w mz); [discriminate|].
    rewrite jvokaha_jvk in H by (unfold word_fuel; lia). destruct (jvk Bound yh CLUSTER false mz w) as [ps|x] eqn:J; [discriminate|].
    pose proof (jvk_total yh CLUSTER false mz w (ex_intro _ l (conj El' Hv)) x J) as K. cbn in K.
    assert (x = NotBrivlaError /\ e = x) as [-> ->] by (destruct K as [<-|[<-|[<-|[]]]]; cbn in H; try discriminate; injection H as <-; auto).
    split; [reflexivity|]. split; [|eapply jvk_slinky; exact J]. apply last_opt_some in El' as [s ->]. exists s, l. split; [reflexivity|apply is_vowel_spec; exact Hv].
  - intros (-> & (s & l & Ew & Hv) & Hs). pose proof (slinky_j2 yh mz w Hs) as J2. assert (El : last_opt w = Some l) by (rewrite Ew; apply last_opt_app).
    assert (Hg : is_gismu w mz = false).
    { destruct Hs as (a & b & c & t & -> & _). destruct (is_gismu _ mz) eqn:G; [|reflexivity]. exfalso. apply gismu_len in G as (a' & b' & c' & d' & e' & E & He'). injection E as <- <- <- _ <- _. discriminate He'. }
    destruct Hs as (a & b & c & t & Ew' & _). replace (length w <? 5) with false by (rewrite Ew'; reflexivity).
    rewrite (proj2 (idx_last_some w l) El). cbn [bind]. apply is_vowel_spec in Hv. rewrite Hv. cbn [negb]. rewrite Hg.
    rewrite jvokaha_jvk by (unfold word_fuel; lia). rewrite jvk_eq, J2. reflexivity.
Qed.
Theorem C56_always_answers_refuted : exists w, is_gismu_or_lujvo Bound STANDARD false w = Err NotBrivlaError.
Proof. exists (L "bla'yzdani"). vm_compute. reflexivity. Qed.
Example C56_example :
  is_gismu_or_lujvo Bound STANDARD false (L "klama") = Ok true /\ is_gismu_or_lujvo Bound STANDARD false (L "brivla") = Ok true
  /\ is_gismu_or_lujvo Bound STANDARD false (L "spageti") = Ok false /\ is_gismu_or_lujvo Bound STANDARD false (L "Brivla") = Ok false
  (* the missing import of katna.py at the pinned commit *)
  /\ is_gismu_or_lujvo Unbound STANDARD false (L "brivla") = Err NameError.
Proof. repeat split; vm_compute; reflexivity. Qed.
Print Assumptions C56_true.
Print Assumptions C56_raises.

(** ** C57: the options on which being a CLL lujvo depends *)
Lemma hyph_yh : forall yh yh' mz opt first rs ps, (yh = FORCE_Y <-> yh' = FORCE_Y) ->
  hyphenated yh mz opt first rs ps -> hyphenated yh' mz opt first rs ps.
Proof.
  intros yh yh' mz opt first rs ps E H. induction H as [first r Hv|first r g rest h ps Hl Hk H IH]; constructor; try assumption.
  destruct Hk as [N|N T V|o V F R O|V F f R]; [apply link_y|apply link_none|apply link_rn|apply link_hy]; try assumption; tauto.
Qed.
Theorem C57_options : forall st st' w ps, (Z.of_nat (length (standard_spelling w)) <= 10 ^ 96)%Z ->
  allow_mz st' = allow_mz st -> (y_hyphens st = FORCE_Y <-> y_hyphens st' = FORCE_Y) ->
  (y_hyphens st = FORCE_Y -> (consonants st = CLUSTER <-> consonants st' = CLUSTER)) ->
  analyse_brivla Bound st w = Ok (LUJVO, ps) <-> analyse_brivla Bound st' w = Ok (LUJVO, ps).
Proof.
  assert (G : forall st st' w ps, (Z.of_nat (length (standard_spelling w)) <= 10 ^ 96)%Z ->
    allow_mz st' = allow_mz st -> (y_hyphens st = FORCE_Y <-> y_hyphens st' = FORCE_Y) ->
    (y_hyphens st = FORCE_Y -> (consonants st = CLUSTER <-> consonants st' = CLUSTER)) ->
    analyse_brivla Bound st w = Ok (LUJVO, ps) -> analyse_brivla Bound st' w = Ok (LUJVO, ps)).
  { intros st st' w ps Hb Em Ey Ec H. apply C44_lujvo_obey in H as (E & rs & F & L2 & Hh & Hc).
    apply (C44_rules_suffice st' w ps rs); try assumption; rewrite ?Em; try assumption.
    - eapply hyph_yh; [exact Ey|exact Hh].
    - intros F1 F2. rewrite Em. apply Hc; tauto. }
  intros st st' w ps Hb Em Ey Ec. split; apply G; try assumption; [symmetry; exact Em|tauto|]. intro F. destruct Ec; tauto.
Qed.

(** mz *)
Definition no_mz (r : str) : Prop := forall u v, r <> u ++ L "mz" ++ v.
Definition no_joint (r g : str) : Prop := forall u v, r = u ++ L "m" -> g = L "z" ++ v -> False.
Fixpoint quiet (rs : list str) : Prop :=
  match rs with
  | [] => True
  | r :: rest => no_mz r /\ match rest with [] => True | g :: _ => no_joint r g end /\ quiet rest
  end.
Lemma perm_mz : forall b b' x y, permissible b x y -> [x; y] <> L "mz" -> permissible b' x y.
Proof. unfold permissible. intros b b' x y (H1 & H2 & H3 & H4 & H5 & H6 & H7 & H8) N. repeat split; try assumption. intro X. destruct (N X). Qed.
Lemma cll_mz : forall b b' s r, cll_rafsi b s r -> no_mz r -> cll_rafsi b' s r.
Proof.
  intros b b' s r H N. destruct H as [| | | |c1 v c2 c3 K V P| |c1 v c2 c3 v' K V P V'|]; constructor; try assumption.
  - eapply perm_mz; [exact P|]. intro X. injection X as -> ->. exact (N [c1; v] [] eq_refl).
  - eapply perm_mz; [exact P|]. intro X. injection X as -> ->. exact (N [c1; v] [v'] eq_refl).
Qed.
Lemma clash_mz : forall b b' r g, clash b r g -> no_joint r g -> clash b' r g.
Proof.
  intros b b' r g (s & x & y & t & -> & -> & H) N. exists s, x, y, t. split; [reflexivity|]. split; [reflexivity|].
  destruct H as [H|H]; [left|right; exact H]. intro P. apply H. eapply perm_mz; [exact P|]. intro X. injection X as -> ->. exact (N s t eq_refl eq_refl).
Qed.
Lemma needs_mz : forall b b' r g, needs_y b r g -> no_mz r -> no_joint r g -> needs_y b' r g.
Proof.
  intros b b' r g [H|[H|[H C]]] N J; [left|right; left|right; right; split]; try (eapply cll_mz; eassumption). eapply clash_mz; eassumption.
Qed.
Lemma tos_mz : forall b b' r rs, tosmabru b r rs -> quiet (r :: rs) -> tosmabru b' r rs.
Proof.
  intros b b' r rs H. induction H as [r c1 v c2 c3 v' rest R J G I|r g k rest R J G C|r g k rest R J T IH]; intros (Nr & Jr & Q).
  - destruct Q as (Ng & _ & _). apply tos_gismu; try assumption; eapply cll_mz; eassumption.
  - destruct Q as (Ng & Jg & Q). apply tos_y; try assumption; try (eapply cll_mz; eassumption). eapply clash_mz; eassumption.
  - apply tos_more; try assumption; [eapply cll_mz; eassumption|]. apply IH. exact Q.
Qed.
Lemma vp_mz : forall b b' r, vowel_pair b r -> vowel_pair b' r.
Proof. intros b b' r [H|H]; [left|right]; inversion H; subst; constructor; assumption. Qed.
Lemma link_mz : forall yh b b' opt first r g rest h, link yh b opt first r g rest h -> quiet (r :: g :: rest) -> link yh b' opt first r g rest h.
Proof.
  intros yh b b' opt first r g rest h H Q. pose proof Q as (Nr & Jr & Ng & _).
  destruct H as [N|N T V|o V F R O|V F f R].
  - apply link_y. destruct N as [N|[N T]]; [left; eapply needs_mz; eassumption|right; split; [exact N|eapply tos_mz; eassumption]].
  - apply link_none.
    + intro X. apply N. eapply needs_mz; eassumption.
    + intros [X Y]. apply T. split; [exact X|]. eapply tos_mz; eassumption.
    + intros X Y. destruct V as [V1 V2]; [eapply vp_mz; exact X|exact Y|]. split; [exact V1|]. eapply cll_mz; eassumption.
  - apply link_rn; try assumption; [eapply vp_mz; exact V|]. destruct O as [O|[O1 O2]]; [left; exact O|right; split; [exact O1|]].
    intros [X Y]. apply O2. split; [exact X|]. eapply cll_mz; eassumption.
  - apply link_hy; try assumption; [eapply vp_mz; exact V|]. intros [X Y]. apply R. split; [exact X|]. eapply cll_mz; eassumption.
Qed.
Lemma hyph_quiet : forall yh b opt first rs ps, hyphenated yh b opt first rs ps ->
  (forall u v, concat ps <> u ++ L "mz" ++ v) -> (forall u v, concat ps <> u ++ L "myz" ++ v) -> quiet rs.
Proof.
  intros yh b opt first rs ps H. induction H as [first r Hv|first r g rest h ps Hl Hk H IH]; intros M1 M2.
  - split; [|split; exact I]. intros u v E. apply (M1 u v). cbn. rewrite app_nil_r. exact E.
  - destruct (hyph_head _ _ _ _ _ _ H) as (g' & rs' & ps' & E & ->). injection E as <- <-. cbn [concat] in M1, M2. rewrite concat_app in M1, M2. cbn [concat] in M1, M2, IH.
    split; [|split].
    + intros u v ->. apply (M1 u (v ++ concat h ++ g ++ concat ps')). rewrite <- !app_assoc. reflexivity.
    + intros u v -> ->. assert (NV : ~ vowel_pair b (u ++ L "m")).
      { intro X. remember (u ++ L "m") as r eqn:Er. assert (El : last_opt r = Some (c_m)) by (rewrite Er; apply last_opt_app). clear -X El.
        destruct X as [X|X]; inversion X; subst; cbn in El; injection El as ->.
        - match goal with D : diphthong _ |- _ => unfold diphthong in D; cbn in D; destruct D as [D|[D|[D|[D|[]]]]]; discriminate D end.
        - match goal with D : vowel c_m |- _ => apply is_vowel_spec in D; discriminate D end. }
      destruct Hk as [N|N T V|o V F R O|V F f R]; try contradiction; cbn [concat app] in M1, M2.
      * apply (M2 u (v ++ concat ps')). rewrite <- !app_assoc. reflexivity.
      * apply (M1 u (v ++ concat ps')). rewrite <- !app_assoc. reflexivity.
    + apply IH; intros u v E.
      * apply (M1 (r ++ concat h ++ u) v). rewrite E, <- !app_assoc. reflexivity.
      * apply (M2 (r ++ concat h ++ u) v). rewrite E, <- !app_assoc. reflexivity.
Qed.
Lemma hyph_mz : forall yh b b' opt first rs ps, hyphenated yh b opt first rs ps -> quiet rs -> hyphenated yh b' opt first rs ps.
Proof.
  intros yh b b' opt first rs ps H. induction H as [first r Hv|first r g rest h ps Hl Hk H IH]; intro Q; constructor; try assumption.
  - eapply link_mz; [exact Hk|exact Q].
  - apply IH. apply Q.
Qed.
Lemma quiet_each : forall rs, quiet rs -> Forall no_mz rs.
Proof. induction rs as [|r rs IH]; intro Q; [constructor|]. destruct Q as (N & _ & Q). constructor; [exact N|apply IH; exact Q]. Qed.
(** For a word in which m and z neither touch nor are separated by y alone, the
    option allow_mz does not matter. *)
Theorem C57_mz : forall st b w ps, (Z.of_nat (length (standard_spelling w)) <= 10 ^ 96)%Z ->
  (forall u v, standard_spelling w <> u ++ L "mz" ++ v) -> (forall u v, standard_spelling w <> u ++ L "myz" ++ v) ->
  analyse_brivla Bound st w = Ok (LUJVO, ps) <->
  analyse_brivla Bound (mkSettings (y_hyphens st) (exp_rafsi_shapes st) (consonants st) (glides st) b) w = Ok (LUJVO, ps).
Proof.
  assert (G : forall yh ex cs gl b b' w ps, (Z.of_nat (length (standard_spelling w)) <= 10 ^ 96)%Z ->
    (forall u v, standard_spelling w <> u ++ L "mz" ++ v) -> (forall u v, standard_spelling w <> u ++ L "myz" ++ v) ->
    analyse_brivla Bound (mkSettings yh ex cs gl b) w = Ok (LUJVO, ps) -> analyse_brivla Bound (mkSettings yh ex cs gl b') w = Ok (LUJVO, ps)).
  { intros yh ex cs gl b b' w ps Hb M1 M2 H. apply C44_lujvo_obey in H as (E & rs & F & L2 & Hh & Hc). cbn [y_hyphens allow_mz] in *.
    rewrite <- E in M1, M2. pose proof (hyph_quiet _ _ _ _ _ _ Hh M1 M2) as Q. pose proof (quiet_each _ Q) as QE.
    apply (C44_rules_suffice _ w ps rs); try assumption; cbn [y_hyphens allow_mz].
    - clear -F QE. unfold cll_rafsi_list in *. induction F as [|r rs [s Hr] F IH]; [constructor|]. inversion QE; subst. constructor; [exists s; eapply cll_mz; eassumption|apply IH; assumption].
    - eapply hyph_mz; eassumption.
    - intros F1 F2. specialize (Hc F1 F2). cbn [allow_mz] in *. clear -Hc. induction Hc as [r rs X|r rs X IH]; [apply Exists_cons_hd|apply Exists_cons_tl; exact IH].
      intro Y. apply X. eapply vp_mz. exact Y. }
  intros st b w ps Hb M1 M2. destruct st as [yh ex cs gl mz]. cbn [y_hyphens exp_rafsi_shapes consonants glides]. split; apply G; assumption.
Qed.
(** The conditions are met, and needed: m and z with y between them, and 'y with
    FORCE_Y. *)
Example C57_example :
  (forall yh cs, In yh [STANDARD; ALLOW_Y; FORCE_Y] -> In cs [CLUSTER; TWO_CONSONANTS; ONE_CONSONANT] ->
     analyse_brivla Bound (mkSettings yh true cs true true) (L "brivla") = Ok (LUJVO, [L "bri"; L "vla"]))
  /\ analyse_brivla Bound default_settings (L "camyzda") = Ok (LUJVO, [L "cam"; L "y"; L "zda"])
  /\ analyse_brivla Bound (mkSettings STANDARD false CLUSTER false true) (L "camyzda") <> Ok (LUJVO, [L "cam"; L "y"; L "zda"])
  /\ analyse_brivla Bound (mkSettings FORCE_Y false ONE_CONSONANT false false) (L "sai'ysai") = Ok (LUJVO, [L "sai"; L "'y"; L "sai"])
  /\ analyse_brivla Bound (mkSettings ALLOW_Y false ONE_CONSONANT false false) (L "sai'ysai") <> Ok (LUJVO, [L "sai"; L "'y"; L "sai"])
  /\ analyse_brivla Bound (mkSettings FORCE_Y false CLUSTER false false) (L "sai'ysai") <> Ok (LUJVO, [L "sai"; L "'y"; L "sai"]).
Proof.
  split; [intros yh cs [<-|[<-|[<-|[]]]] [<-|[<-|[<-|[]]]]; vm_compute; reflexivity|].
  repeat split; try (vm_compute; reflexivity); vm_compute; discriminate.
Qed.
Print Assumptions C57_options.
Print Assumptions C57_mz.
