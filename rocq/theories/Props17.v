(** Theorem C46: a zi'evla is never a string of rafsi; and with it C19 and C20
    for tanru of any words. *)
From Verif Require Import Str Data Tarmi Rafsi Core Api Lib Spec Shapes Decomp Basic Vowels Katna Dict Errs Builder Jvokaha Fuel Raises Inv Parts Clusters Zihevla Forms Chain Score Alt Lujvo Slinku Compound Whole Optimal Props1 Props2 Props3 Total Onset Pinned Found Props4 Props5 Props6 Props8 Props9 Props10 Joint Swap Unique Round Props12 Ext Ext2 Ext3 Ext4 Props14 RuleSpec Rules Rules2 Props16 ZiCut.

(** ** C46 *)
(** [v] is a string of rafsi, with hyphens where they may stand *)
Definition rafsi_string (yh : yset) (mz : bool) (v : str) : Prop :=
  exists ps, concat ps = v
  /\ cut (match yh with FORCE_Y => false | _ => true end) (match yh with STANDARD => false | _ => true end) mz None ps.

Theorem C46_zihevla_uncut : forall st w ps, analyse_brivla Bound st w = Ok (ZIhEVLA, ps) ->
  ~ contains (standard_spelling w) (L "mz") -> (Z.of_nat (length (standard_spelling w)) <= 10 ^ 96)%Z ->
  ~ rafsi_string (y_hyphens st) (allow_mz st) (standard_spelling w).
Proof.
  intros st w ps H Hm Hl (qs & E & Hc). refine (zihevla_uncut st w ps qs H Hm Hl E _). unfold rn_ok, hy_ok. destruct (y_hyphens st); exact Hc.
Qed.
(** words that are strings of rafsi, and no zi'evla: a lujvo, and two that fall apart *)
Example C46_example :
  (exists ps, analyse_brivla Bound default_settings (L "spageti") = Ok (ZIhEVLA, ps))
  /\ (exists ps, analyse_brivla Bound default_settings (L "brivla") = Ok (LUJVO, ps))
  /\ rafsi_string STANDARD false (L "brivla") /\ rafsi_string STANDARD false (L "tosmabru") /\ rafsi_string STANDARD false (L "maubrivla")
  /\ analyse_brivla Bound default_settings (L "tosmabru") = Err NotBrivlaError
  /\ analyse_brivla Bound default_settings (L "maubrivla") = Err NotBrivlaError.
Proof.
  assert (K : forall v ps, jvokaha_2 STANDARD false v = Ok ps -> rafsi_string STANDARD false v).
  { intros v ps J. apply jvokaha_2_spec in J as [J1 J2]. exists ps. split; [exact J1|exact J2]. }
  repeat split; try (eexists; vm_compute; reflexivity); try (eapply K; vm_compute; reflexivity); vm_compute; reflexivity.
Qed.
(** Where mz is allowed and occurs, there are such zi'evla. *)
Theorem C46_mz_exception : exists st w ps, analyse_brivla Bound st w = Ok (ZIhEVLA, ps) /\ rafsi_string (y_hyphens st) (allow_mz st) (standard_spelling w).
Proof.
  exists (mkSettings STANDARD false CLUSTER false true), (L "geisnoxaipemzo"). eexists. split; [vm_compute; reflexivity|].
  assert (J : jvokaha_2 STANDARD true (L "geisnoxaipemzo") = Ok (map L ["gei"; "sno"; "xai"; "pemzo"]%string)) by (vm_compute; reflexivity).
  apply jvokaha_2_spec in J as [J1 J2]. eexists. split; [exact J1|exact J2].
Qed.
Print Assumptions C46_zihevla_uncut.
Print Assumptions C46_mz_exception.

(** ** C19 and C20 for components that are words, of any kind *)
Definition ordinary_word (st : settings) (v : str) : Prop :=
  ~ ends_in (fun c => [c] = L "-") v /\ (allow_mz st = true -> ~ contains v (L "mz")) /\ (Z.of_nat (length v) <= 10 ^ 96)%Z.

(** a component: a word; or a rafsi, the start of a gismu or a zi'evla given literally *)
Definition component (lk : binding) (st : settings) (v : str) : Prop :=
  ordinary_word st v
  \/ (exists r s, v = L "-" ++ r ++ L "-" /\ cll_rafsi (allow_mz st) s r /\ length r <= 4)
  \/ (exists r, v = r ++ L "-" /\ gismu_form (allow_mz st) (r ++ L "a"))
  \/ (exists r ps, v = L "-" ++ r ++ L "-" /\ ~ contains r (L "-") /\ (allow_mz st = true -> ~ contains r (L "mz")) /\ (Z.of_nat (length r) <= 10 ^ 96)%Z
      /\ analyse_brivla lk (mkSettings (y_hyphens st) false CLUSTER false (allow_mz st)) r = Ok (ZIhEVLA, ps)).

Lemma zihevla_no_mz : forall st w ps, allow_mz st = false -> analyse_brivla Bound st w = Ok (ZIhEVLA, ps) -> ~ contains (standard_spelling w) (L "mz").
Proof.
  intros st w ps Em H X. apply C18_clusters in H as [H _]. destruct (H 109%N 122%N X) as (_ & _ & _ & _ & _ & _ & _ & P); [apply is_consonant_spec; reflexivity..|].
  rewrite (P eq_refl) in Em. discriminate.
Qed.
Lemma cut_all_letters : forall rn hy mz ps prev, cut rn hy mz prev ps -> Forall lojban_letter (concat ps).
Proof.
  intros rn hy mz. induction ps as [|p ps IH]; intros prev H; [apply Forall_nil|]. cbn [cut] in H. destruct H as [H Hc]. cbn [concat]. apply Forall_app. split; [|eapply IH; exact Hc].
  assert (V : forall v, vowel v -> lojban_letter v) by (intros; left; assumption).
  assert (C : forall v, consonant v -> lojban_letter v) by (intros; right; left; assumption).
  destruct H as [(s & H & _)|(q & _ & _ & [->|[[_ ->]|(_ & _ & [[-> _]|[-> _]])]])].
  - inversion H; subst; repeat match goal with I : initial_pair _ _ |- _ => apply initial_c in I as [? ?] | I : permissible _ _ _ |- _ => apply permissible_c in I as [? ?] end;
    try match goal with D : diphthong [?a; ?b] |- _ => assert (vowel a /\ vowel b) as [? ?] by (destruct D as [D|[D|[D|[D|[]]]]]; injection D as <- <-; split; apply is_vowel_spec; reflexivity) end;
    repeat (apply Forall_cons; [first [apply V; assumption|apply C; assumption|right; right; left; reflexivity]|]); apply Forall_nil.
  - apply Forall_cons; [right; right; right; reflexivity|apply Forall_nil].
  - apply Forall_cons; [right; right; left; reflexivity|]. apply Forall_cons; [right; right; right; reflexivity|apply Forall_nil].
  - apply Forall_cons; [apply C, is_consonant_spec; reflexivity|apply Forall_nil].
  - apply Forall_cons; [apply C, is_consonant_spec; reflexivity|apply Forall_nil].
Qed.
Lemma ordinary_plain : forall st v ps, (allow_mz st = true -> ~ contains v (L "mz")) -> (Z.of_nat (length v) <= 10 ^ 96)%Z -> analyse_brivla Bound (mkSettings (y_hyphens st) false CLUSTER false (allow_mz st)) v = Ok (ZIhEVLA, ps) -> plain_zihevla Bound st v.
Proof.
  intros st v ps Hm Hl H. split; [exists ps; exact H|]. intros qs E Hc.
  assert (Es : standard_spelling v = v) by (apply letters_spelling; rewrite <- E; eapply cut_all_letters; exact Hc).
  refine (C46_zihevla_uncut _ _ _ H _ _ _); [|rewrite Es; exact Hl|exists qs; rewrite Es; split; [exact E|exact Hc]].
  destruct (allow_mz st) eqn:Em; [rewrite Es; apply Hm; reflexivity|]. eapply zihevla_no_mz; [|exact H]. reflexivity.
Qed.
Lemma ordinary_either : forall st v, ordinary_word st v -> no_zihevla Bound st v \/ zihevla_component Bound st v.
Proof.
  intros st v H. destruct (analyse_brivla Bound (mkSettings (y_hyphens st) false CLUSTER false (allow_mz st)) v) as [[[] ps]|e] eqn:E.
  all: try (left; left; split; [exact (proj1 H)|]; intros q X; rewrite E in X; discriminate).
  right. destruct H as (H1 & H2 & H3). left. split; [exact H1|]. eapply ordinary_plain; eassumption.
Qed.

Theorem C19_words_accepted_partial : forall lk st t ws w sc ix,
  exp_rafsi_shapes st = false -> words_of t ws -> Forall (fun v => component lk st (standard_spelling v)) ws ->
  get_lujvo_with_analytics lk false st t = Ok (w, sc, ix) ->
  exists kind pieces, analyse_brivla lk st w = Ok (kind, pieces) /\ (kind = LUJVO \/ kind = EXTENDED_LUJVO) /\ get_rafsi_indices pieces = ix.
Proof.
  intros lk st t ws w sc ix Hex Hw Ho H. apply (C19_zihevla_accepted_partial lk st t ws w sc ix Hex Hw); [|exact H]. eapply Forall_impl; [|exact Ho]. intros v Hv. cbv beta in *.
  destruct lk; [exfalso|]; cycle 1.
  { destruct Hv as [Hv|[Hv|[Hv|(r & ps & E1 & E2 & E3 & E4 & E5)]]]; [apply ordinary_either; exact Hv|left; right; left; exact Hv|left; right; right; exact Hv|].
    right. right. exists r. split; [exact E1|]. split; [exact E2|]. eapply ordinary_plain; eassumption. }
  unfold get_lujvo_with_analytics in H. inv_bind H. rewrite lujvo_from_list_eq in H. inv_bind H. inv_bind H. destruct x1 as [[? ?] ?]. discriminate.
Qed.

Theorem C20_words_round_trip : forall lk st t ws w sc ix,
  exp_rafsi_shapes st = false -> words_of t ws ->
  Forall (fun v => ordinary_word st (standard_spelling v)
    /\ ((exists rs, In (standard_spelling v, rs) RAFSI_LIST) \/ exists ps, analyse_brivla lk (mkSettings (y_hyphens st) false CLUSTER false (allow_mz st)) (standard_spelling v) = Ok (ZIhEVLA, ps))) ws ->
  get_lujvo_with_analytics lk false st t = Ok (w, sc, ix) ->
  Forall2 (fun v range => its_own (standard_spelling v) (substring w range)) ws ix ->
  get_veljvo lk st w = Ok (map standard_spelling ws).
Proof.
  intros lk st t ws w sc ix Hex Hw Ho H. apply (C20_zihevla_round_trip lk st t ws w sc ix Hex Hw); [|exact H].
  destruct lk; [exfalso; unfold get_lujvo_with_analytics in H; inv_bind H; rewrite lujvo_from_list_eq in H; inv_bind H; inv_bind H; destruct x1 as [[? ?] ?]; discriminate|].
  eapply Forall_impl; [|exact Ho]. intros v [Hv [[rs Hd]|[ps Hz]]]; [eapply dict_back; exact Hd|]. right. destruct Hv as (H1 & H2 & H3). split; [exact H1|]. eapply ordinary_plain; eassumption.
Qed.

Lemma ordinary_by : forall st v, allow_mz st = false -> last_opt v <> Some c_dash -> (Z.of_nat (length v) <=? 10 ^ 96)%Z = true -> ordinary_word st v.
Proof. intros st v E D Hl. split; [apply no_dash; exact D|]. split; [rewrite E; discriminate|apply Z.leb_le; exact Hl]. Qed.
Example C19_words_example :
  let ws := map L ["klama"; "spageti"; "-ger-"; "-ermine-"; "brod-"; "gerku"]%string in
  let st := default_settings in
  exp_rafsi_shapes st = false /\ words_of (TList ws) ws /\ Forall (fun v => component Bound st (standard_spelling v)) ws
  /\ exists w sc ix ps, get_lujvo_with_analytics Bound false st (TList ws) = Ok (w, sc, ix) /\ analyse_brivla Bound st w = Ok (EXTENDED_LUJVO, ps).
Proof.
  cbv zeta. split; [reflexivity|]. split; [reflexivity|]. split.
  - repeat apply Forall_cons; [| | | | | |apply Forall_nil].
    1, 2, 6: left; apply ordinary_by; vm_compute; congruence.
    + right. left. exists (L "ger"), "CVC"%string. split; [reflexivity|]. split; [|cbn; lia]. constructor; [apply is_consonant_spec|apply is_vowel_spec|apply is_consonant_spec]; reflexivity.
    + right. right. right. exists (L "ermine"). eexists. split; [reflexivity|]. split; [|split; [discriminate|split; [apply Z.leb_le; reflexivity|vm_compute; reflexivity]]].
      intros (u & v & E). change (L "-") with [45%N] in E. assert (I : In 45%N (L "ermine")) by (rewrite E; apply in_or_app; right; left; reflexivity). apply memc_In in I. discriminate.
    + right. right. left. exists (L "brod"). split; [reflexivity|]. apply is_gismu_spec. reflexivity.
  - eexists; eexists; eexists; eexists. split; vm_compute; reflexivity.
Qed.
Example C20_words_example :
  let ws := map L ["mlatu"; "spageti"; "klama"]%string in
  let st := default_settings in
  Forall (fun v => ordinary_word st (standard_spelling v)
    /\ ((exists rs, In (standard_spelling v, rs) RAFSI_LIST) \/ exists ps, analyse_brivla Bound (mkSettings (y_hyphens st) false CLUSTER false (allow_mz st)) (standard_spelling v) = Ok (ZIhEVLA, ps))) ws
  /\ exists w sc ix, get_lujvo_with_analytics Bound false st (TList ws) = Ok (w, sc, ix) /\ get_veljvo Bound st w = Ok ws.
Proof.
  cbv zeta. split.
  - repeat apply Forall_cons; [| | |apply Forall_nil]; (split; [apply ordinary_by; vm_compute; congruence|]).
    + left. eexists; apply dict_get_spec; vm_compute; reflexivity.
    + right. eexists. vm_compute. reflexivity.
    + left. eexists; apply dict_get_spec; vm_compute; reflexivity.
  - eexists; eexists; eexists. split; [vm_compute; reflexivity|]. vm_compute. reflexivity.
Qed.
Print Assumptions C19_words_accepted_partial.
Print Assumptions C20_words_round_trip.
