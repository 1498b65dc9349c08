(** C08, C09, C39 and C55 for words with y. *)
From Verif Require Import Str Data Tarmi Rafsi Core Api Lib Spec Shapes Decomp Basic Vowels Katna Dict Errs Builder Jvokaha Fuel Raises Inv Parts Clusters Zihevla Forms Chain Score Alt Lujvo Slinku Compound Whole Optimal Props1 Props2 Props3 Total Onset Pinned Found Props4 Props5 Props6 Props8 Props9 Props10 Joint Swap Unique Round Props12 Props13 Ext Ext2 Ext3 Ext4 Props14 RuleSpec Rules Rules2 Props16 ZiCut Props17 Mixed Props20 Props21 Cli Props23 Safe.

(** ** C08 and C09 *)
(** A word is [regular] (Safe.v) if it has no yy, every vowel run after y' can be
    cut into syllables, and it does not end in r after VV, 'V or 'y. *)
Theorem C08_regular : forall st w e, w <> [] -> regular (standard_spelling w) ->
  analyse_brivla Bound st w = Err e -> e = NotBrivlaError.
Proof. intros st w e N R H. destruct (analyse_regular st w N R e H) as [<-|[]]. reflexivity. Qed.
Theorem C09_regular : forall st w, w <> [] -> regular (standard_spelling w) ->
  exists b, Api.is_brivla Bound st w = Ok b.
Proof.
  intros st w Hn R. pose proof (analyse_regular st w Hn R) as T. unfold Api.is_brivla, Core.is_brivla.
  destruct (analyse_brivla Bound st w) as [[t ps]|e]; [eauto|]. destruct (T e eq_refl) as [<-|[]]. eauto.
Qed.
(** A word in which no y is followed by y or by an apostrophe and that does not
    end in r is regular. *)
Lemma regular_simple : forall s, (forall u v, s <> u ++ L "yy" ++ v) -> (forall u v, s <> u ++ L "y'" ++ v) ->
  (forall u, s <> u ++ L "r") -> regular s.
Proof.
  intros s H1 H2 H3. split; [exact H1|]. split.
  - intros u r t E. destruct (H2 u (r ++ t) E).
  - intros u a b E. destruct (H3 (u ++ [a; b])). rewrite <- app_assoc. exact E.
Qed.
Lemma y_free_regular : forall s, ~ In letter_y s -> (forall u, s <> u ++ L "r") -> regular s.
Proof.
  intros s H H3. apply regular_simple; [| |exact H3]; intros u v ->; apply H; apply in_or_app; right; left; reflexivity.
Qed.
Corollary C08_simple : forall st w e, w <> [] ->
  (forall u v, standard_spelling w <> u ++ L "yy" ++ v) -> (forall u v, standard_spelling w <> u ++ L "y'" ++ v) ->
  (forall u, standard_spelling w <> u ++ L "r") ->
  analyse_brivla Bound st w = Err e -> e = NotBrivlaError.
Proof. intros st w e N H1 H2 H3. apply C08_regular; [exact N|apply regular_simple; assumption]. Qed.
Ltac no_cut := let E := fresh in intros; intro E;
  repeat (match type of E with _ = ?u ++ _ => destruct u as [|? u]; [discriminate E|cbn [app] in E; first [discriminate E|apply (f_equal (@tl _)) in E; cbn [tl] in E]] end).
Example C08_regular_example :
  regular (L "skamyspageti") /\ analyse_brivla Bound default_settings (L "skamyspageti") = Ok (EXTENDED_LUJVO, map L ["skam"; "y"; "spageti"]%string)
  /\ regular (L "skamyspagety") /\ analyse_brivla Bound default_settings (L "skamyspagety") = Err NotBrivlaError
  /\ Api.is_brivla Bound default_settings (L "skamyspagety") = Ok false.
Proof.
  split; [apply regular_simple; no_cut|]. split; [vm_compute; reflexivity|].
  split; [apply regular_simple; no_cut|]. split; vm_compute; reflexivity.
Qed.
(** Each of the three conditions is needed. *)
Example C08_conditions_needed :
  analyse_brivla Bound default_settings (L "tu'yyklama") = Err IndexError
  /\ analyse_brivla Bound default_settings (L "baky'aiiakla") = Err DecompositionError
  /\ analyse_brivla Bound default_settings (L "klamyctelair") = Err IndexError
  /\ Api.is_brivla Bound default_settings (L "klamyctelair") = Err IndexError.
Proof. repeat split; vm_compute; reflexivity. Qed.
Print Assumptions C08_regular.
Print Assumptions C09_regular.

(** ** C39 *)
(** The words of a tanru: plain, "abc-" or "-abc-". *)
Definition dashes (d : str) : Prop := Forall (fun c => [c] = L "-") d.
Definition no_outer_dash (b : str) : Prop := (forall t, b <> L "-" ++ t) /\ (forall t, b <> t ++ L "-").
Inductive sane_component (exp : bool) : str -> Prop :=
| sane_word w : w <> [] -> (forall t, w <> t ++ L "-") -> sane_component exp w
| sane_short b d : b <> [] -> no_outer_dash b -> d <> [] -> dashes d ->
    (forall u a c, b = u ++ [a; c] ++ L "r" -> ~ (vowel c /\ (vowel a \/ a = apostrophe))) -> sane_component exp (b ++ d)
| sane_rafsi d b d' : d <> [] \/ b = [] -> dashes d -> no_outer_dash b -> d' <> [] -> dashes d' ->
    (exp = true -> forall u a c, b = u ++ [a; c] ++ L "r" -> ~ (vowel c /\ (vowel a \/ a = apostrophe))) -> sane_component exp (d ++ b ++ d').
Lemma drop_dashes : forall d s, dashes d -> drop_while (N.eqb c_dash) (d ++ s) = drop_while (N.eqb c_dash) s.
Proof. intros d s H. induction H as [|c d Hc Hd IH]; [reflexivity|]. injection Hc as ->. exact IH. Qed.
Lemma dashes_rev : forall d, dashes d -> dashes (rev d).
Proof. intros d H. apply Forall_rev. exact H. Qed.
Lemma strip_dashes : forall d b d', dashes d -> no_outer_dash b -> dashes d' -> strip_char (N.eqb c_dash) (d ++ b ++ d') = b.
Proof.
  intros d b d' H [N1 N2] H'. unfold strip_char. rewrite drop_dashes by exact H.
  destruct b as [|c b0] eqn:Eb.
  - cbn [app]. replace d' with (d' ++ []) by apply app_nil_r. rewrite drop_dashes by exact H'. reflexivity.
  - assert (E1 : drop_while (N.eqb c_dash) ((c :: b0) ++ d') = (c :: b0) ++ d').
    { cbn [app drop_while]. destruct (N.eqb c_dash c) eqn:E; [|reflexivity]. apply N.eqb_eq in E. subst c. destruct (N1 b0 eq_refl). }
    rewrite E1, rev_app_distr, drop_dashes by (apply dashes_rev; exact H'). rewrite <- Eb in *. clear E1 Eb c b0.
    destruct b as [|x b' _] using rev_ind; [reflexivity|]. rewrite rev_app_distr. cbn [rev app drop_while].
    destruct (N.eqb c_dash x) eqn:E; [apply N.eqb_eq in E; subst x; destruct (N2 b' eq_refl)|]. cbn [rev]. rewrite rev_involutive. reflexivity.
Qed.
(** a literal "-abc-" that looks like a rafsi but has a cluster that is not allowed *)
Definition bad_literal (mz : bool) (w : str) : Prop :=
  exists d b d', w = d ++ b ++ d' /\ d <> [] /\ dashes d /\ d' <> [] /\ dashes d'
    /\ (exists p, In p ["C"; "CCV"; "CVCC"; "CCVC"; "CVCCV"; "CCVCV"]%string /\ shaped p b)
    /\ ~ exists shape, cll_rafsi mz shape b.
Definition BOK (mz : bool) (w : str) (e : exn) : Prop :=
  In e [NoLujvoFoundError; NonLojbanCharacterError; NotZihevlaError] \/ (e = InvalidClusterError /\ bad_literal mz w).
Ltac bok := apply errs_err; first [left; cbn; tauto|cbn; tauto].
Lemma fits_C : forall x, is_consonant x = true -> fits "C"%char x.
Proof. intros x H. apply is_consonant_spec in H. exact H. Qed.
Lemma fits_V : forall x, is_vowel x = true -> fits "V"%char x.
Proof. intros x H. apply is_vowel_spec in H. exact H. Qed.
Ltac shp := unfold shaped; cbn [list_ascii_of_string];
  repeat (apply Forall2_cons; [first [apply fits_C; tauto|apply fits_V; tauto]|]); apply Forall2_nil.
Lemma invalid_shape : forall b mz, is_only_lojban_characters b = true -> (forall l, last_opt b = Some l -> N.eqb l c_h = false) ->
  tarmi_eqb (rafsi_tarmi b) OTHER_RAFSI = false -> is_valid_rafsi b mz = false ->
  (exists p, In p ["C"; "CCV"; "CVCC"; "CCVC"; "CVCCV"; "CCVCV"]%string /\ shaped p b) /\ ~ exists shape, cll_rafsi mz shape b.
Proof.
  intros b mz Ho Hl Et Hv. split; [|intros [sh K]; apply cll_valid in K; congruence].
  destruct (only_Forall _ Ho) as [Hne HF]. unfold is_valid_rafsi in Hv.
  assert (SH : forall p s, In p ["C"; "CCV"; "CVCC"; "CCVC"; "CVCCV"; "CCVCV"]%string -> b = s -> shaped p s -> exists p, In p ["C"; "CCV"; "CVCC"; "CCVC"; "CVCCV"; "CCVCV"]%string /\ shaped p b).
  { intros p0 s0 I -> S. eauto. }
  destruct (rafsi_tarmi b) eqn:E; try discriminate Hv; try discriminate Et.
  - exists "C"%string. split; [cbn; tauto|]. unfold rafsi_tarmi in E. destruct b as [|x b]; [discriminate|].
    destruct (str_eqb (x :: b) (L "'y")) eqn:Ey.
    { apply str_eqb_eq in Ey. injection Ey as -> ->. inversion HF as [|? ? _ HF']; subst. inversion HF' as [|? ? K _]; subst. discriminate. }
    destruct (_ && _); [discriminate|]. destruct b as [|y b].
    + apply Forall2_cons; [|apply Forall2_nil]. apply fits_C. inversion HF as [|? ? K _]; subst. specialize (Hl x eq_refl).
      destruct (is_vowel x) eqn:Vx; [discriminate|]. clear -K Vx Hl. unfold is_lojban_letter in K.
      destruct (is_consonant x) eqn:Cx; [reflexivity|]. rewrite Vx, Hl in K. cbn [orb] in K. rewrite ?Cx in K. discriminate.
    + exfalso. clear -E. destruct b as [|y1 [|y2 [|y3 [|y4 b]]]]; [discriminate E|..|discriminate E].
      * destruct (negb (is_vowel y1)); [destruct (is_vowel y && is_consonant y1); discriminate E|]. destruct (is_vowel y); [discriminate E|]. destruct (is_consonant y); discriminate E.
      * destruct (is_vowel y); [destruct (is_vowel y2); [destruct (N.eqb y1 c_h); discriminate E|destruct (is_consonant y1 && is_consonant y2); discriminate E]|].
        destruct (is_consonant y && is_vowel y1 && is_consonant y2); discriminate E.
      * destruct (is_gismu_shape [x; y; y1; y2; y3]); [destruct (is_vowel y1); discriminate E|discriminate E].
  - apply Shapes.tarmi_CVCCV in E as (x1 & x2 & x3 & x4 & x5 & E & ?). apply (SH "CVCCV"%string _ ltac:(cbn; tauto) E). shp.
  - apply Shapes.tarmi_CVCC in E as (x1 & x2 & x3 & x4 & E & ?). apply (SH "CVCC"%string _ ltac:(cbn; tauto) E). shp.
  - apply Shapes.tarmi_CCVCV in E as (x1 & x2 & x3 & x4 & x5 & E & ?). apply (SH "CCVCV"%string _ ltac:(cbn; tauto) E). shp.
  - apply Shapes.tarmi_CCVC in E as (x1 & x2 & x3 & x4 & E & ?). apply (SH "CCVC"%string _ ltac:(cbn; tauto) E). shp.
  - apply Shapes.tarmi_CCV in E as (x1 & x2 & x3 & E & ?). apply (SH "CCV"%string _ ltac:(cbn; tauto) E). shp.
Qed.
Lemma proper_other : forall t, proper t = true -> t <> OTHER_RAFSI.
Proof. intros t H E. subst t. discriminate. Qed.
Lemma only_app : forall a b, is_only_lojban_characters a = true -> is_only_lojban_characters b = true -> is_only_lojban_characters (a ++ b) = true.
Proof. intros a b H1 H2. destruct a as [|x a]; [exact H2|]. destruct b as [|y b]; [discriminate|]. cbn [is_only_lojban_characters app] in *. change (x :: a ++ y :: b) with ((x :: a) ++ (y :: b)). rewrite forallb_app, H1, H2. reflexivity. Qed.
(** tanru words with y are turned down before they are analysed (jvozba.py:73, tools.py is_only_lojban_characters) *)
Lemma lojban_analysis : forall st w, is_only_lojban_characters w = true -> errs NB (analyse_brivla Bound st w).
Proof.
  intros st w H. destruct (only_Forall _ H) as [Hne HF]. apply analyse_total; [exact Hne|]. rewrite (lojban_spelling _ HF). intro X.
  rewrite Forall_forall in HF. apply HF in X. discriminate.
Qed.
Lemma plain_list : forall st fi la v, v <> [] -> (forall t, v <> t ++ L "-") ->
  errs (only [NonLojbanCharacterError]) (rafsi_list_for (analyse_brivla Bound) (jvk Bound) st fi la v).
Proof.
  intros st fi la v N Nd.
  pose proof (lojban_analysis (ana_settings st)) as AN.
  assert (FO : forall P r t, (t <> Tar HYPHEN /\ t <> Tar OTHER_RAFSI) -> r <> [] -> errs P (get_rafsi_for_rafsi r t fi la (consonants st) (glides st))).
  { intros P r t [Ht Ht'] Nr. destruct (forms_ok r t fi la (consonants st) (glides st)) as [fs Ef]; try assumption. rewrite Ef. apply errs_ok. }
  unfold rafsi_list_for. cbv zeta.
  destruct (last_opt v) as [l|] eqn:El; [|apply last_opt_none in El; contradiction]. unfold idx_last. rewrite El. cbn [bind].
    assert (Ed : N.eqb l c_dash = false).
    { apply N.eqb_neq. intros ->. apply last_opt_some in El as [s ->]. exact (Nd s eq_refl). }
    rewrite Ed. destruct (is_only_lojban_characters v) eqn:Ho; cbn [negb]; [|bok].
    assert (G1 : exists fs, match dict_get v with Some rs => short_rafsi_forms rs (exp_rafsi_shapes st) fi la (consonants st) (glides st) | None => Ok [] end = Ok fs).
    { destruct (dict_get v) eqn:E; [|eauto]. apply short_forms_ok. eapply dict_proper. exact E. }
    destruct G1 as [fs1 ->]. cbn [bind]. destruct (only_Forall _ Ho) as [Hne HF]. pose proof (AN v Ho) as T.
    destruct (analyse_brivla Bound (ana_settings st) v) as [[t ps]|e] eqn:E.
    2:{ destruct (T e eq_refl) as [<-|[]]. cbn [bind]. apply errs_ok. }
    cbn [bind]. apply errs_bind.
    { destruct t; try apply errs_ok. apply FO; [split; discriminate|].
      assert (X := proj2 (C05_gismu_shape Bound (ana_settings st) v) (ex_intro _ ps E)). rewrite (lojban_spelling _ HF) in X. apply is_gismu_spec in X.
      destruct (gismu_cll _ _ X) as (_ & G & _). apply cll_len in G. intro Q. rewrite Q in G. cbn in G. lia. }
    intros s _. apply errs_bind; [destruct t; try apply errs_ok; (apply FO; [split; discriminate|exact Hne])|]. intros; apply errs_ok.
Qed.
Lemma sane_list : forall st fi la v, sane_component (exp_rafsi_shapes st) v ->
  errs (BOK (allow_mz st) v) (rafsi_list_for (analyse_brivla Bound) (jvk Bound) st fi la v).
Proof.
  intros st fi la v H.
  pose proof (lojban_analysis (ana_settings st)) as AN.
  assert (FO : forall r t, (t <> Tar HYPHEN /\ t <> Tar OTHER_RAFSI) -> r <> [] -> forall P, errs P (get_rafsi_for_rafsi r t fi la (consonants st) (glides st))).
  { intros r t [Ht Ht'] Nr P. destruct (forms_ok r t fi la (consonants st) (glides st)) as [fs Ef]; try assumption. rewrite Ef. apply errs_ok. }
  destruct H as [v N Nd|b d Nb Ob Nd Hd R|d b d' Nd Hd Ob Nd' Hd' R].
  - eapply errs_weaken; [apply plain_list; assumption|]. intros e [<-|[]]. left. cbn. auto.
  - unfold rafsi_list_for. cbv zeta. assert (El : last_opt (b ++ d) = Some c_dash).
    { destruct d as [|x d] using rev_ind; [contradiction|]. rewrite app_assoc, last_opt_app. apply Forall_app in Hd as [_ Hd]. inversion Hd as [|? ? K _]; subst. injection K as ->. reflexivity. }
    unfold idx_last at 1. rewrite El. cbn [bind]. rewrite N.eqb_refl.
    assert (E0 : exists c, idx (b ++ d) 0 = Ok c /\ N.eqb c c_dash = false).
    { destruct b as [|c b]; [contradiction|]. exists c. split; [reflexivity|]. apply N.eqb_neq. intros ->. destruct Ob as [Ob _]. exact (Ob b eq_refl). }
    destruct E0 as (c & -> & Ec). cbn [bind]. rewrite Ec. cbn [negb].
    rewrite (strip_dashes [] b d (Forall_nil _) Ob Hd : strip_char (N.eqb c_dash) (b ++ d) = b).
    destruct (is_only_lojban_characters b) eqn:Ho; cbn [negb]; [|bok].
    destruct (last_opt b) as [l|] eqn:Elb; [|apply last_opt_none in Elb; contradiction]. unfold idx_last. rewrite Elb. cbn [bind].
    destruct (N.eqb l c_h); [bok|]. apply errs_bind.
    { pose proof (AN (b ++ [c_a]) (only_app b [c_a] Ho eq_refl)) as T. destruct (analyse_brivla _ _ _) as [[t ps]|e]; [apply errs_ok|]. destruct (T e eq_refl) as [<-|[]]. bok. }
    intros t _. destruct (negb _); [bok|]. apply errs_bind; [|intros _ _; apply FO; [split; discriminate|exact Nb]].
    destruct (_ && _); [|apply errs_ok]. apply errs_bind; [|intros x _; destruct x; [bok|apply errs_ok]].
    pose proof (succeeds_j2 (y_hyphens st) (allow_mz st) b Ho) as S. destruct (jvokaha_2 (y_hyphens st) (allow_mz st) b) as [x|e] eqn:Ej; [apply errs_ok|].
    destruct e; cbn in S |- *; try apply errs_ok; try (destruct (S _ eq_refl) as [S'|[]]; discriminate S').
    exfalso. apply jvokaha_2_index in Ej as (u & a1 & b1 & Eb & B). apply (R u a1 b1 Eb).
    destruct B as [[B1 B2]|[-> ->]].
    + split; [apply is_vowel_spec; exact B1|]. destruct B2 as [B2|B2]; [left; apply is_vowel_spec; exact B2|right; exact B2].
    + exfalso. destruct (only_Forall _ Ho) as [_ HF]. rewrite Forall_forall in HF. assert (X : In c_y b) by (rewrite Eb; apply in_or_app; cbn; auto). apply HF in X. discriminate.
  - unfold rafsi_list_for. cbv zeta. assert (El : last_opt (d ++ b ++ d') = Some c_dash).
    { destruct d' as [|x d'] using rev_ind; [contradiction|]. rewrite !app_assoc, last_opt_app. apply Forall_app in Hd' as [_ Hd']. inversion Hd' as [|? ? K _]; subst. injection K as ->. reflexivity. }
    unfold idx_last at 1. rewrite El. cbn [bind]. rewrite N.eqb_refl.
    assert (E0 : idx (d ++ b ++ d') 0 = Ok c_dash).
    { destruct d as [|c d]; [|inversion Hd as [|? ? K _]; subst; injection K as ->; reflexivity].
      destruct Nd as [Nd|Nd]; [contradiction|subst b]. destruct d' as [|c d']; [contradiction|]. inversion Hd' as [|? ? K _]; subst. injection K as ->. reflexivity. }
    rewrite E0. cbn [bind]. rewrite N.eqb_refl. cbn [negb]. rewrite (strip_dashes d b d' Hd Ob Hd').
    destruct (is_only_lojban_characters b) eqn:Ho; cbn [negb]; [|bok]. destruct (only_Forall _ Ho) as [Hne HF].
    destruct (last_opt b) as [l|] eqn:Elb; [|apply last_opt_none in Elb; contradiction]. unfold idx_last. rewrite Elb. cbn [bind].
    destruct (N.eqb l c_h) eqn:Elh; [bok|]. destruct (tarmi_eqb (rafsi_tarmi b) OTHER_RAFSI) eqn:Et.
    + apply errs_bind.
      { pose proof (AN b Ho) as T. destruct (analyse_brivla _ _ _) as [[t ps]|e]; [apply errs_ok|]. destruct (T e eq_refl) as [<-|[]].
        destruct (exp_rafsi_shapes st) eqn:Hx; [|apply errs_ok]. specialize (R eq_refl).
        assert (Y : no_y b) by (intro X; rewrite Forall_forall in HF; apply HF in X; discriminate).
        pose proof (check_answers false (y_hyphens st) true (allow_mz st) b (lojban_low _ Ho) Y Hne) as K.
        assert (NBE : ~ bad_end b).
        { intros (u & a1 & b1 & Eb & B). apply (R u a1 b1 Eb). destruct B as [[B1 B2]|[-> ->]].
          - split; [apply is_vowel_spec; exact B1|]. destruct B2 as [B2|B2]; [left; apply is_vowel_spec; exact B2|right; exact B2].
          - exfalso. apply Y. rewrite Eb. apply in_or_app. cbn. auto. }
        specialize (K NBE). destruct (check_zihevla_or_rafsi _ _ _ _ _ _ _) as [t|e]; [apply errs_ok|]. destruct (K e eq_refl) as [<-|[]]. bok. }
      intros [t|] _; [|bok]. apply FO; [destruct (wtype_eqb t ZIhEVLA); split; discriminate|exact Hne].
    + destruct (is_valid_rafsi b (allow_mz st)) eqn:Ev; cbn [negb].
      2:{ apply errs_err. right. split; [reflexivity|]. exists d, b, d'. split; [reflexivity|]. split; [destruct Nd as [Nd|Nd]; [exact Nd|contradiction]|]. split; [exact Hd|]. split; [exact Nd'|]. split; [exact Hd'|].
          apply invalid_shape; try assumption. intros l0 El0. congruence. }
      apply FO; [|exact Hne].
      apply valid_proper in Ev. split; intro Q; injection Q as Q; rewrite Q in Ev; discriminate.
Qed.
Lemma lists_errs : forall (P : exn -> Prop) st n vs i, Forall (fun v => forall fi la, errs P (rafsi_list_for (analyse_brivla Bound) (jvk Bound) st fi la v)) vs ->
  errs P (rafsi_list_list_loop (analyse_brivla Bound) (jvk Bound) st n i vs).
Proof.
  intros P st n vs i H. revert i. induction H as [|v vs Hv H IH]; intro i; cbn [rafsi_list_list_loop]; [apply errs_ok|].
  apply errs_bind; [apply Hv|]. intros. apply errs_bind; [apply IH|]. intros; apply errs_ok.
Qed.
Lemma sane_nonnil : forall exp v, sane_component exp v -> v <> [].
Proof. intros exp v [w N _|b d N _ _ _ _|d b d' _ _ _ N _ _]; [exact N| |]; intro E; apply app_eq_nil in E as [E E']; [exact (N E)|]. apply app_eq_nil in E' as [_ E']. exact (N E'). Qed.
Lemma builder_errs : forall (P : exn -> Prop) gen st t ws e, P NoLujvoFoundError -> words_of t ws -> 2 <= length ws ->
  Forall (fun w => standard_spelling w <> [] /\ forall fi la, errs P (rafsi_list_for (analyse_brivla Bound) (jvk Bound) st fi la (standard_spelling w))) ws ->
  get_lujvo_with_analytics Bound gen st t = Err e -> P e.
Proof.
  intros P gen st t ws e PN Hw H2 F H. unfold get_lujvo_with_analytics in H.
  destruct (process_tanru t) as [vs|e'] eqn:Ep; cbn [bind] in H.
  - apply process_ok in Ep. rewrite (words_raw _ _ Hw) in Ep. subst vs. rewrite lujvo_from_list_eq in H.
    assert (SL : errs P (get_rafsi_list_list (analyse_brivla Bound) (jvk Bound) st (map standard_spelling ws))).
    { apply lists_errs. apply Forall_map. eapply Forall_impl; [|exact F]. intros w [_ K]. exact K. }
    destruct (get_rafsi_list_list _ _ st _) as [rll|e1] eqn:Er; cbn [bind] in H; [|apply SL; congruence].
    assert (L2 : 2 <= length rll).
    { pose proof Er as Er'. unfold get_rafsi_list_list in Er'. apply list_list_nth in Er' as [L _]. rewrite <- L, map_length. exact H2. }
    pose proof (best_answers gen st rll (list_sounds _ _ _ _ Er) L2) as T. destruct (best_word gen st rll) as [[[w sc] ix]|e'] eqn:E; cbn [bind] in H.
    + destruct gen; [discriminate|]. assert (Hv : ends_vowel w).
      { destruct (best_word_chain _ _ _ _ _ _ E) as (choice & c & l & _ & _ & _ & _ & _ & _ & _ & El & Hl). exists l. split; assumption. }
      destruct (slinkuhi_total (y_hyphens st) (allow_mz st) w Hv) as [b Hb]. rewrite Hb in H. cbn [bind] in H. destruct b; [|discriminate]. replace e with NoLujvoFoundError by congruence. exact PN.
    + injection H as <-. destruct (T e' eq_refl) as [<-|[]]. exact PN.
  - exfalso. clear -Ep F Hw. unfold process_tanru in Ep. apply words_raw in Hw. unfold raw_words in Hw. rewrite Hw in Ep. clear Hw.
    assert (F' : Forall (fun w : str => w <> []) ws).
    { eapply Forall_impl; [|exact F]. intros w [S _] ->. apply S. reflexivity. }
    clear F. revert e' Ep. induction F' as [|w ws N F IH]; intros e' Ep; cbn [map_res] in Ep; [discriminate|]. rewrite normalise_ok in Ep by exact N. cbn [bind] in Ep.
    destruct (map_res normalise ws); [discriminate|]. exact (IH _ eq_refl).
Qed.
Lemma either_errs : forall gen st t e, get_lujvo Bound gen st t = Err e \/ get_lujvo_with_analytics Bound gen st t = Err e -> get_lujvo_with_analytics Bound gen st t = Err e.
Proof.
  intros gen st t e H. rewrite get_lujvo_fst in H. destruct H as [H|H]; [|exact H]. destruct (get_lujvo_with_analytics Bound gen st t) as [[[? ?] ?]|]; [discriminate|congruence].
Qed.
(** The one kind of component that makes the builder fail otherwise: "...VVr-" or
    "...'Vr-", and with exp_rafsi_shapes also "-...VVr-" or "-...'Vr-". *)
Definition odd_component (exp : bool) (w : str) : Prop :=
  (exp = true \/ forall t, w <> L "-" ++ t) /\
  exists u a b d, w = u ++ [a; b] ++ L "r" ++ L "-" ++ d /\ dashes d /\ vowel b /\ (vowel a \/ a = apostrophe).
Lemma dash_split : forall s : str, exists d t, s = d ++ t /\ dashes d /\ (forall t', t <> L "-" ++ t').
Proof.
  intro s. destruct (take_while_split (N.eqb c_dash) s) as (t & E & H & F). exists (take_while (N.eqb c_dash) s), t. split; [exact E|]. split.
  - eapply Forall_impl; [|exact F]. intros c Hc. apply N.eqb_eq in Hc. subst c. reflexivity.
  - intros t' Et. specialize (H c_dash t' Et). discriminate.
Qed.
Lemma dash_split_r : forall s : str, exists t d, s = t ++ d /\ dashes d /\ (forall t', t <> t' ++ L "-").
Proof.
  intro s. destruct (dash_split (rev s)) as (d & t & E & H & N). exists (rev t), (rev d). split; [|split].
  - rewrite <- rev_app_distr, <- E, rev_involutive. reflexivity.
  - apply dashes_rev. exact H.
  - intros t' Et. apply (N (rev t')). rewrite <- (rev_involutive t), Et, rev_app_distr. reflexivity.
Qed.
Lemma every_component : forall exp w, w <> [] -> ~ odd_component exp w -> sane_component exp w.
Proof.
  intros exp w N O. destruct (dash_split_r w) as (t & d' & -> & Hd' & Nt).
  assert (C : d' = [] \/ d' <> []) by (destruct d'; [left; reflexivity|right; discriminate]).
  destruct C as [->|Nd'].
  - rewrite app_nil_r in *. apply sane_word; assumption.
  - assert (D : exists d0, d' = L "-" ++ d0 /\ dashes d0).
    { destruct d' as [|z d']; [contradiction|]. inversion Hd' as [|? ? K K']; subst. injection K as ->. exists d'. split; [reflexivity|exact K']. }
    destruct D as (d0 & Ed & Hd0).
    destruct (dash_split t) as (d & b & -> & Hd & Nb).
    destruct d as [|x d].
    + cbn [app] in *. destruct b as [|y b].
      { refine (sane_rafsi exp [] [] d' (or_intror eq_refl) Hd (conj Nb Nt) Nd' Hd' _). intros _ u a c E. destruct u; discriminate. }
      apply sane_short; [discriminate|split; assumption|exact Nd'|exact Hd'|]. intros u a q Eq [V1 V2]. apply O. split.
      * right. intros t' Et. injection Et as -> _. exact (Nb b eq_refl).
      * exists u, a, q, d0. split; [|auto]. rewrite Eq, Ed, <- !app_assoc. reflexivity.
    + rewrite <- app_assoc. apply sane_rafsi; [left; discriminate|exact Hd| |exact Nd'|exact Hd'|].
      * split; [exact Nb|]. intros t' Et. apply (Nt ((x :: d) ++ t')). rewrite Et, app_assoc. reflexivity.
      * intros He u a c Eb [V1 V2]. apply O. split; [left; exact He|]. exists ((x :: d) ++ u), a, c, d0. split; [|auto]. rewrite Eb, Ed, <- !app_assoc. reflexivity.
Qed.
Theorem C39_exceptions : forall gen st t ws e, words_of t ws -> 2 <= length ws ->
  Forall (fun w => standard_spelling w <> [] /\ ~ odd_component (exp_rafsi_shapes st) (standard_spelling w)) ws ->
  get_lujvo Bound gen st t = Err e \/ get_lujvo_with_analytics Bound gen st t = Err e ->
  In e [NoLujvoFoundError; NonLojbanCharacterError; NotZihevlaError]
  \/ (e = InvalidClusterError /\ exists w, In w ws /\ bad_literal (allow_mz st) (standard_spelling w)).
Proof.
  intros gen st t ws e Hw H2 F H. apply either_errs in H.
  refine (builder_errs (fun e => In e [NoLujvoFoundError; NonLojbanCharacterError; NotZihevlaError]
    \/ (e = InvalidClusterError /\ exists w, In w ws /\ bad_literal (allow_mz st) (standard_spelling w))) gen st t ws e _ Hw H2 _ H); [left; left; reflexivity|].
  apply Forall_forall. intros w Iw. rewrite Forall_forall in F. destruct (F w Iw) as [A B]. split; [exact A|]. intros fi la. eapply errs_weaken; [apply sane_list, every_component; assumption|].
  intros e' [K|[K1 K2]]; [left; exact K|right; eauto].
Qed.
(** plain words, whatever the options *)
Theorem C39_plain : forall gen st t ws e, words_of t ws -> 2 <= length ws ->
  Forall (fun w => standard_spelling w <> [] /\ (forall s, standard_spelling w <> s ++ L "-")) ws ->
  get_lujvo Bound gen st t = Err e \/ get_lujvo_with_analytics Bound gen st t = Err e ->
  e = NoLujvoFoundError \/ (e = NonLojbanCharacterError /\ exists w, In w ws /\ is_only_lojban_characters (standard_spelling w) = false).
Proof.
  intros gen st t ws e Hw H2 F H. apply either_errs in H.
  refine (builder_errs (fun e => e = NoLujvoFoundError \/ (e = NonLojbanCharacterError /\ exists w, In w ws /\ is_only_lojban_characters (standard_spelling w) = false)) gen st t ws e _ Hw H2 _ H); [left; reflexivity|].
  apply Forall_forall. intros w Iw. rewrite Forall_forall in F. destruct (F w Iw) as (N & Nd). split; [exact N|]. intros fi la e' Ee.
  destruct (plain_list st fi la _ N Nd e' Ee) as [<-|[]]. right. split; [reflexivity|]. exists w. split; [exact Iw|].
  destruct (is_only_lojban_characters (standard_spelling w)) eqn:Ho; [|reflexivity]. exfalso.
  unfold rafsi_list_for in Ee. cbv zeta in Ee. destruct (only_last _ Ho) as (l & El & Ed). unfold idx_last in Ee. rewrite El in Ee. cbn [bind] in Ee. rewrite Ed, Ho in Ee. cbn [negb] in Ee.
  assert (BAD : errs (fun x => x <> NonLojbanCharacterError) (@Err (list (str * nat)) NonLojbanCharacterError)); [|exact (BAD _ eq_refl eq_refl)].
  rewrite <- Ee. clear. apply errs_bind.
  { destruct (dict_get _) as [rs|] eqn:Ed; [|apply errs_ok]. eapply errs_weaken; [apply errs_short_forms; eapply dict_proper; exact Ed|]. intros x [<-|[]]. discriminate. }
  intros ? _. apply errs_bind.
  { pose proof (errs_analyse_brivla Bound (ana_settings st) (standard_spelling w)) as G. destruct (analyse_brivla _ _ _) as [[t' x]|e]; [apply errs_ok|].
    specialize (G e eq_refl). destruct e; try apply errs_ok; apply errs_err; try discriminate. intros _. destruct G as [G|[G _]]; [cbn in G; intuition discriminate|discriminate]. }
  intros bt _. apply errs_bind.
  { destruct bt as [[]|]; try apply errs_ok. eapply errs_weaken; [apply errs_get_rafsi_other; discriminate|]. intros x [<-|[]]. discriminate. }
  intros ? _. apply errs_bind; [|intros; apply errs_ok].
  destruct bt as [[]|]; try apply errs_ok; (eapply errs_weaken; [apply errs_get_rafsi_other; discriminate|]; intros x [<-|[]]; discriminate).
Qed.
Example C39_exceptions_example :
  let ws := map L ["skamyspageti"; "spagai-"; "-bra-"; "-"; "klama"]%string in
  Forall (fun w => standard_spelling w <> [] /\ ~ odd_component true (standard_spelling w)) ws /\ words_of (TList ws) ws
  /\ get_lujvo Bound false default_settings (TList (map L ["spagai-"; "-bra-"; "klama"]%string)) = Ok (L "spagaiybrakla")
  /\ get_lujvo Bound false default_settings (TList (map L ["skamyspageti"; "klama"]%string)) = Err NonLojbanCharacterError
  /\ get_lujvo Bound false default_settings (TList (map L ["-tko-"; "klama"]%string)) = Err InvalidClusterError
  (* the conditions are needed *)
  /\ odd_component false (L "spagair-") /\ odd_component true (L "-skair-")
  /\ get_lujvo Bound false default_settings (TList (map L ["spagair-"; "klama"]%string)) = Err IndexError
  /\ get_lujvo Bound false (mkSettings STANDARD true CLUSTER false false) (TList (map L ["-skair-"; "klama"]%string)) = Err IndexError
  /\ get_lujvo Bound false default_settings (TList (map L ["-skair-"; "klama"]%string)) = Err NotZihevlaError
  /\ get_lujvo Bound false default_settings (TList (map L [""; "klama"]%string)) = Err IndexError.
Proof.
  cbv zeta. split; [|split; [reflexivity|]].
  - assert (R : forall w, (forall u a b d, w <> u ++ [a; b] ++ L "r" ++ L "-" ++ d) -> ~ odd_component true w).
    { intros w H (_ & u & a & b & d & E & _). exact (H u a b d E). }
    cbn [map]. repeat (apply Forall_cons; [split; [discriminate|]; apply R; match goal with |- context [standard_spelling ?x] => let y := eval vm_compute in (standard_spelling x) in change (standard_spelling x) with y end; no_cut|]). apply Forall_nil.
  - repeat (split; [vm_compute; reflexivity|]). split; [|split; [|repeat split; vm_compute; reflexivity]].
    + split; [right; discriminate|]. exists (L "spag"), c_a, c_i, []. split; [reflexivity|]. split; [constructor|]. split; [|left]; cbn; tauto.
    + split; [left; reflexivity|]. exists (L "-sk"), c_a, c_i, []. split; [reflexivity|]. split; [constructor|]. split; [|left]; cbn; tauto.
Qed.
Example C39_bad_literal_example : bad_literal false (L "-tko-") /\ ~ bad_literal false (L "klama") /\ ~ bad_literal false (L "spagai-").
Proof.
  assert (N : forall w, (forall t, w <> L "-" ++ t) -> ~ bad_literal false w).
  { intros w H (d & b & d' & E & Nd & Hd & _). destruct d as [|x d]; [contradiction|]. inversion Hd as [|? ? K _]; subst. injection K as ->. exact (H _ eq_refl). }
  split; [|split; apply N; discriminate]. exists (L "-"), (L "tko"), (L "-"). split; [reflexivity|].
  assert (D : dashes (L "-")) by (apply Forall_cons; [reflexivity|apply Forall_nil]).
  split; [discriminate|]. split; [exact D|]. split; [discriminate|]. split; [exact D|]. split.
  - exists "CCV"%string. split; [cbn; tauto|]. change (L "tko") with [116%N; 107%N; 111%N]. assert (is_consonant 116%N = true /\ is_consonant 107%N = true /\ is_vowel 111%N = true) by (repeat split; reflexivity). shp.
  - intros [sh K]. apply cll_valid in K. discriminate.
Qed.
Print Assumptions C39_exceptions.
Print Assumptions C39_plain.


(** ** C55: sessions with words that contain y *)
Theorem C55_katna_regular_partial : forall lines turns e,
  Forall (fun l => l = [] \/ is_command l \/ regular (standard_spelling l)) lines ->
  katna_main Bound lines = (turns, e) -> e = EndEmpty \/ (e = EndOfInput /\ length turns = S (length lines)).
Proof.
  intros lines turns e F H. apply C54_katna_session in H as [_ (n & Hn & [[-> ->]|[[-> _]|(x & l & s & _ & Hl & Ne & Nc & _ & Er & Nx)]])]; [right; auto|left; reflexivity|exfalso].
  apply nth_error_In in Hl. rewrite Forall_forall in F. destruct (F l Hl) as [X|[X|R]]; [contradiction|contradiction|].
  assert (A : forall y, analyse_brivla Bound (opts s) l = Err y -> In y caught_katna) by (intros y X; rewrite (C08_regular _ _ _ Ne R X); cbn; auto).
  apply Nx. destruct Er as [Er|Er]; [exact (A _ Er)|]. destruct (analyse_brivla Bound (opts s) l) as [[t ps]|y] eqn:E.
  - destruct (C38_get_veljvo_compounds_only Bound (opts s) l) as [K _]. destruct t.
    all: try (rewrite (K _ _ E) in Er by (cbn; tauto); injection Er as <-; cbn; auto; fail).
    3:{ exfalso. clear -E. destruct (C03_type_last_letter _ _ _ _ _ E) as [[X _]|[X _]]; [discriminate|cbn in X; intuition discriminate]. }
    all: exfalso; edestruct (C43_decomposed _ _ _ _ E) as [(es & V & _) _]; [tauto|congruence].
  - destruct (C38_get_veljvo_compounds_only Bound (opts s) l) as [_ K]. rewrite (K _ E) in Er. injection Er as <-. exact (A _ eq_refl).
Qed.
(** jvozba.py: lines of two or more components, none empty, of the odd kind or a
    literal with a bad cluster *)
Theorem C55_jvozba_words_partial : forall lines turns e,
  Forall (fun l => l = [] \/ is_command l \/ exists ws, words_of (TStr l) ws /\ 2 <= length ws
    /\ Forall (fun w => standard_spelling w <> [] /\ ~ odd_component true (standard_spelling w)
         /\ forall mz, ~ bad_literal mz (standard_spelling w)) ws) lines ->
  jvozba_main Bound lines = (turns, e) -> e = EndEmpty \/ (e = EndOfInput /\ length turns = S (length lines)).
Proof.
  intros lines turns e F H. apply C54_jvozba_session in H as [_ (n & Hn & [[-> ->]|[[-> _]|(x & l & s & _ & Hl & Ne & Nc & _ & Er & Nx)]])]; [right; auto|left; reflexivity|exfalso].
  apply nth_error_In in Hl. rewrite Forall_forall in F. destruct (F l Hl) as [X|[X|(ws & Hw & H2 & Fw)]]; [contradiction|contradiction|].
  assert (F1 : forall b, Forall (fun w => standard_spelling w <> [] /\ ~ odd_component b (standard_spelling w)) ws).
  { intro b. eapply Forall_impl; [|exact Fw]. intros w (A & B & _). split; [exact A|]. intros [_ K]. apply B. split; [left; reflexivity|exact K]. }
  apply Nx. destruct (C39_exceptions _ _ _ _ _ Hw H2 (F1 _) (or_intror Er)) as [K|[-> (w & Iw & K)]].
  - cbn in K |- *. tauto.
  - exfalso. rewrite Forall_forall in Fw. destruct (Fw w Iw) as (_ & _ & B). exact (B _ K).
Qed.
Example C55_regular_example :
  regular (standard_spelling (L "skamyspageti"))
  /\ katna_main Bound [L "skamyspageti"; L "skamyspagety"; L ""]
     = ([(L "(SFCFF) Enter a lujvo: ", [PAnalysis (EXTENDED_LUJVO, map L ["skam"; "y"; "spageti"]%string); PVeljvo (map L ["skami"; "spageti"]%string)]);
         (L "(SFCFF) Enter a lujvo: ", [PError NotBrivlaError]);
         (L "(SFCFF) Enter a lujvo: ", [])], EndEmpty).
Proof. split; [change (regular (L "skamyspageti")); apply regular_simple; no_cut|]. vm_compute. reflexivity. Qed.
Example C55_words_example :
  let l := L "spagai- klama" in let ws := map L ["spagai-"; "klama"]%string in
  (words_of (TStr l) ws /\ 2 <= length ws /\ Forall (fun w => standard_spelling w <> [] /\ ~ odd_component true (standard_spelling w)
         /\ forall mz, ~ bad_literal mz (standard_spelling w)) ws)
  /\ jvozba_main Bound [l; L "klama x"; L ""]
     = ([(L "(FSFCFF) Enter a tanru: ", [PLujvo (L "spagaiykla", 10026%Z, [(0, 6); (7, 10)])]); (L "(FSFCFF) Enter a tanru: ", [PError NoLujvoFoundError]); (L "(FSFCFF) Enter a tanru: ", [])], EndEmpty).
Proof.
  cbv zeta. split; [|vm_compute; reflexivity]. split; [|split; [cbn; lia|]].
  { assert (N : forall w : str, forallb (fun c => negb (is_space c)) w = true -> Forall (fun c => ~ is_space c = true) w).
    { intros w H. apply Forall_forall. intros c I. rewrite forallb_forall in H. specialize (H c I). apply negb_true_iff in H. congruence. }
    apply (spaced_word _ [] (L "spagai-") [L "klama"] (L " klama")); [apply Forall_nil|discriminate|apply N; reflexivity| |right; eexists; eexists; split; reflexivity].
    apply (spaced_word _ (L " ") (L "klama") [] []); [repeat constructor|discriminate|apply N; reflexivity|apply spaced_end; apply Forall_nil|left; reflexivity]. }
  assert (N : forall mz w, (forall t, w <> L "-" ++ t) -> ~ bad_literal mz w).
  { intros mz w H (d & b & d' & E & Nd & Hd & _). destruct d as [|x d]; [contradiction|]. inversion Hd as [|? ? K _]; subst. injection K as ->. exact (H _ eq_refl). }
  assert (R : forall w, (forall u a b d, w <> u ++ [a; b] ++ L "r" ++ L "-" ++ d) -> ~ odd_component true w).
  { intros w H (_ & u & a & b & d & E & _). exact (H u a b d E). }
  cbn [map]. repeat (apply Forall_cons; [split; [discriminate|]; split; [apply R; match goal with |- context [standard_spelling ?x] => let y := eval vm_compute in (standard_spelling x) in change (standard_spelling x) with y end; no_cut|intro; apply N; discriminate]|]). apply Forall_nil.
Qed.
Print Assumptions C55_katna_regular_partial.
Print Assumptions C55_jvozba_words_partial.
