(** Property C53: the option exp_rafsi_shapes makes no difference to what is built
    from words.  With it, C19 and C20 for every setting of the options. *)
From Verif Require Import Str Data Tarmi Rafsi Core Api Lib Spec Shapes Decomp Basic Vowels Katna Dict Errs Builder Jvokaha Fuel Raises Inv Parts Clusters Zihevla Forms Chain Score Alt Lujvo Slinku Compound Whole Optimal Props1 Props2 Props3 Total Onset Pinned Found Props4 Props5 Props6 Props8 Props9 Props10 Joint Swap Unique Round Props12 Ext Ext2 Ext3 Ext4 Props14 RuleSpec Rules Rules2 Props16 ZiCut Props17 Mixed Props20.

(** ** What the builder asks about a component *)
Definition cls (r : res (wtype * list str)) : nat :=
  match r with Ok (GISMU, _) => 1 | Ok (ZIhEVLA, _) => 2 | Ok _ => 3 | Err NotBrivlaError => 3 | Err _ => 4 end.
Lemma cls_exp : forall st b v, v <> [] -> Forall (fun c => is_lojban_letter c = true) v -> (Z.of_nat (length v) <= 10 ^ 96)%Z ->
  cls (analyse_brivla Bound (ana_settings (with_exp st b)) v) = cls (analyse_brivla Bound (ana_settings st) v)
  /\ cls (analyse_brivla Bound (ana_settings st) v) <> 4 /\ cls (analyse_brivla Bound (ana_settings (with_exp st b)) v) <> 4.
Proof.
  intros st b v Hn F Hb. pose proof (lojban_spelling _ F) as Es.
  assert (T : forall s, errs (only [NotBrivlaError]) (analyse_brivla Bound s v)).
  { intro s. apply analyse_total; [exact Hn|]. rewrite Es. intro X. rewrite Forall_forall in F. apply F in X. discriminate. }
  assert (G : forall s s', y_hyphens s' = y_hyphens s -> allow_mz s' = allow_mz s ->
    (cls (analyse_brivla Bound s v) = 1 -> cls (analyse_brivla Bound s' v) = 1) /\ (cls (analyse_brivla Bound s v) = 2 -> cls (analyse_brivla Bound s' v) = 2)
    /\ (cls (analyse_brivla Bound s v) = 1 \/ cls (analyse_brivla Bound s v) = 2 \/ cls (analyse_brivla Bound s v) = 3)).
  { intros s s' Ey Em. split; [|split].
    - intro C. destruct (analyse_brivla Bound s v) as [[[] q]|e] eqn:E; try discriminate C; [|destruct e; discriminate C].
      assert (K := proj2 (C05_gismu_shape Bound s v) (ex_intro _ q E)). rewrite <- Em in K. apply (C05_gismu_shape Bound s') in K as [q' ->]. reflexivity.
    - intro C. destruct (analyse_brivla Bound s v) as [[[] q]|e] eqn:E; try discriminate C; [|destruct e; discriminate C].
      rewrite (zihevla_any s s' v q E Ey Em); [reflexivity|]. rewrite Es. exact Hb.
    - pose proof (T s) as Ts. destruct (analyse_brivla Bound s v) as [[[] q]|e]; cbn; auto. destruct (Ts e eq_refl) as [<-|[]]. cbn. auto. }
  destruct (G (ana_settings st) (ana_settings (with_exp st b)) eq_refl eq_refl) as (A1 & A2 & A3).
  destruct (G (ana_settings (with_exp st b)) (ana_settings st) eq_refl eq_refl) as (B1 & B2 & B3). clear G T.
  destruct A3 as [A3|[A3|A3]], B3 as [B3|[B3|B3]]; try specialize (A1 A3); try specialize (A2 A3); try specialize (B1 B3); try specialize (B2 B3); try congruence; rewrite A3, B3; auto.
Qed.

Lemma dict_short_exp : forall v a b fi la cs gl,
  match dict_get v with Some rs => short_rafsi_forms rs a fi la cs gl | None => Ok [] end = match dict_get v with Some rs => short_rafsi_forms rs b fi la cs gl | None => Ok [] end.
Proof.
  intros v a b fi la cs gl. destruct (dict_get v) as [rs'|] eqn:G; [|reflexivity]. apply dict_get_spec in G.
  assert (F : Forall (fun r => rafsi_tarmi r <> OTHER_RAFSI) rs') by (apply Forall_forall; intros r Hr; exact (proj1 (cll_tarmi_ne _ _ (dict_cll true _ _ _ G Hr)))).
  rewrite (short_forms_exp rs' a), (short_forms_exp rs' b) by exact F. reflexivity.
Qed.

(** a component that is no literal rafsi of an unusual shape *)
Definition usual (st : settings) (v : str) : Prop :=
  (Z.of_nat (length v) < 10 ^ 96)%Z /\
  (~ ends_in (fun c => [c] = L "-") v
   \/ (exists c s, v = c :: s /\ [c] <> L "-")
   \/ (exists r, v = L "-" ++ r ++ L "-" /\ ~ contains r (L "-")
       /\ ((exists mz s, cll_rafsi mz s r) \/ exists ps, analyse_brivla Bound st r = Ok (ZIhEVLA, ps)))).

Lemma strip_le : forall p (s : str), length (strip_char p s) <= length s.
Proof.
  intros p s. unfold strip_char. assert (D : forall l : str, length (drop_while p l) <= length l).
  { induction l as [|a l IH]; cbn; [lia|]. destruct (p a); cbn; lia. }
  rewrite rev_length. eapply Nat.le_trans; [apply D|]. rewrite rev_length. apply D.
Qed.
Lemma usual_forms : forall st b fi la v, usual st v ->
  rafsi_list_for (analyse_brivla Bound) (jvk Bound) (with_exp st b) fi la v = rafsi_list_for (analyse_brivla Bound) (jvk Bound) st fi la v.
Proof.
  intros st b fi la v [Hb Hu]. unfold rafsi_list_for. cbv zeta. cbn [with_exp consonants glides y_hyphens allow_mz exp_rafsi_shapes].
  destruct (idx_last v) as [l|] eqn:El; [|reflexivity]. cbn [bind]. assert (El' : last_opt v = Some l) by (unfold idx_last in El; destruct (last_opt v); congruence). clear El. rename El' into El. destruct (N.eqb l c_dash) eqn:Ed.
  - destruct v as [|v0 v']; [reflexivity|]. cbn [idx nth_error bind]. set (v := v0 :: v') in *. set (r := strip_char (N.eqb c_dash) v).
    destruct (is_only_lojban_characters r) eqn:Ho; [|reflexivity]. cbn [negb]. destruct (idx_last r) as [lr|] eqn:Er; [|reflexivity]. cbn [bind].
    destruct (N.eqb lr c_h); [reflexivity|]. destruct (only_Forall _ Ho) as [Hrn HF].
    destruct (N.eqb v0 c_dash) eqn:E0; cbn [negb].
    + destruct Hu as [Hu|[(c & s & E & Hc)|(r' & Ev & Nd & Hr)]].
      * exfalso. apply Hu. apply last_opt_some in El as [s Es]. apply N.eqb_eq in Ed. exists s, l. split; [exact Es|]. rewrite Ed. reflexivity.
      * exfalso. injection E as <- _. apply N.eqb_eq in E0. apply Hc. rewrite E0. reflexivity.
      * assert (Nr : r' <> []). { intros ->. destruct Hr as [(mz & sh & Hr)|[ps Hr]]; [inversion Hr|apply analyse_nonempty in Hr; congruence]. }
        assert (Nd' : forall c, In c r' -> N.eqb c_dash c = false).
        { intros c I. apply N.eqb_neq. intros <-. apply in_split in I as (x & y & ->). apply Nd. exists x, y. reflexivity. }
        assert (Es : r = r').
        { unfold r. destruct r' as [|c s] eqn:E; [congruence|]. rewrite <- E in *. destruct (exists_last Nr) as (s' & d & E'). rewrite Ev. eapply strip_mid; try reflexivity.
          - exact E. - apply Nd'. rewrite E. left. reflexivity. - exact E'. - apply Nd'. rewrite E'. apply in_or_app. right. left. reflexivity. }
        destruct (tarmi_eqb (rafsi_tarmi r) OTHER_RAFSI) eqn:ET; [|reflexivity]. destruct Hr as [(mz & sh & Hr)|[ps Hr]].
        { exfalso. apply tarmi_eqb_eq in ET. rewrite Es in ET. exact (proj1 (cll_tarmi_ne _ _ (ex_intro _ sh Hr)) ET). }
        rewrite <- Es in Hr. assert (Hl : (Z.of_nat (length (standard_spelling r)) <= 10 ^ 96)%Z).
        { rewrite (lojban_spelling _ HF). pose proof (strip_le (N.eqb c_dash) v). fold r in H. lia. }
        rewrite (zihevla_any st (ana_settings (with_exp st b)) r ps Hr eq_refl eq_refl Hl), (zihevla_any st (ana_settings st) r ps Hr eq_refl eq_refl Hl). reflexivity.
    + destruct (cls_exp st b (r ++ [c_a])) as (C1 & C2 & C3); [destruct r; discriminate|apply Forall_app; split; [exact HF|apply Forall_cons; [reflexivity|apply Forall_nil]]| |].
      { rewrite app_length. pose proof (strip_le (N.eqb c_dash) v). fold r in H. cbn [length]. lia. }
      unfold cls in C1, C2, C3. destruct (analyse_brivla Bound (ana_settings (with_exp st b)) (r ++ [c_a])) as [[[] ?]|[]], (analyse_brivla Bound (ana_settings st) (r ++ [c_a])) as [[[] ?]|[]]; try discriminate C1; try congruence; reflexivity.
  - destruct (is_only_lojban_characters v) eqn:Ho; [|reflexivity]. cbn [negb]. rewrite (dict_short_exp v b (exp_rafsi_shapes st)). destruct (match dict_get v with Some _ => _ | None => _ end); [|reflexivity]. cbn [bind].
    destruct (only_Forall _ Ho) as [Hrn HF]. destruct (cls_exp st b v Hrn HF) as (C1 & C2 & C3); [lia|].
    unfold cls in C1, C2, C3. destruct (analyse_brivla Bound (ana_settings (with_exp st b)) v) as [[[] ?]|[]], (analyse_brivla Bound (ana_settings st) v) as [[[] ?]|[]]; try discriminate C1; try congruence; reflexivity.
Qed.
Lemma usual_lists : forall st b vs, Forall (usual st) vs ->
  get_rafsi_list_list (analyse_brivla Bound) (jvk Bound) (with_exp st b) vs = get_rafsi_list_list (analyse_brivla Bound) (jvk Bound) st vs.
Proof.
  intros st b vs F. unfold get_rafsi_list_list. generalize (length vs) 0. induction F as [|v vs Hv F IH]; intros n i; [reflexivity|].
  cbn [rafsi_list_list_loop]. rewrite (usual_forms _ _ _ _ _ Hv), IH. reflexivity.
Qed.
Lemma usual_builder : forall gen st b t ws, words_of t ws -> Forall (fun w => usual st (standard_spelling w)) ws ->
  get_lujvo_with_analytics Bound gen (with_exp st b) t = get_lujvo_with_analytics Bound gen st t.
Proof.
  intros gen st b t ws Hw F. unfold get_lujvo_with_analytics. destruct (process_tanru t) as [vs|] eqn:E; [|reflexivity]. cbn [bind]. apply process_ok in E. rewrite (words_raw _ _ Hw) in E. subst vs.
  rewrite !lujvo_from_list_eq, usual_lists by (apply Forall_map; exact F). destruct (get_rafsi_list_list _ _ st _); [|reflexivity]. cbn [bind]. rewrite best_exp. reflexivity.
Qed.

(** ** C53 *)
Theorem C53_words_only : forall gen yh c g mz e e' t ws, words_of t ws ->
  Forall (fun w => usual (mkSettings yh e c g mz) (standard_spelling w)) ws ->
  get_lujvo_with_analytics Bound gen (mkSettings yh e c g mz) t = get_lujvo_with_analytics Bound gen (mkSettings yh e' c g mz) t
  /\ get_lujvo Bound gen (mkSettings yh e c g mz) t = get_lujvo Bound gen (mkSettings yh e' c g mz) t.
Proof.
  intros gen yh c g mz e e' t ws Hw F. pose proof (usual_builder gen _ e' t ws Hw F) as E. change (with_exp (mkSettings yh e c g mz) e') with (mkSettings yh e' c g mz) in E.
  split; [symmetry; exact E|]. rewrite !get_lujvo_fst, E. reflexivity.
Qed.
(** words, a literal rafsi, the start of a word and a zi'evla given literally are
    usual; a literal rafsi of an unusual shape is what the option is about *)
Example C53_example :
  let ws := map L ["spageti"; "klama"; "-bak-"; "kuln-"; "-spageti-"; "zdani"]%string in
  words_of (TList ws) ws /\ Forall (fun w => usual default_settings (standard_spelling w)) ws
  /\ get_lujvo Bound false default_settings (TList ws) = Ok (L "spageti'yklabakykulnyspageti'yzda")
  /\ get_lujvo Bound false default_settings (TList (map L ["barda"; "-ia'u-"; "klama"]%string)) = Err NotZihevlaError
  /\ get_lujvo Bound false (mkSettings STANDARD true CLUSTER false false) (TList (map L ["barda"; "-ia'u-"; "klama"]%string)) = Ok (L "bardyia'u'ykla").
Proof.
  cbv zeta. split; [reflexivity|]. split; [|repeat split; vm_compute; reflexivity].
  assert (D : forall v, match last_opt v with Some c => negb (N.eqb c c_dash) | None => false end = true -> ~ ends_in (fun c => [c] = L "-") v).
  { intros v H (s & l & -> & E). rewrite last_opt_app in H. injection E as ->. discriminate. }
  assert (W : forall v, match last_opt v with Some c => negb (N.eqb c c_dash) | None => false end = true -> (Z.of_nat (length v) < 10 ^ 96)%Z -> usual default_settings v) by (intros v H1 H2; split; [exact H2|left; apply D; exact H1]).
  apply Forall_cons; [apply W; vm_compute; reflexivity|].
  apply Forall_cons; [apply W; vm_compute; reflexivity|].
  apply Forall_cons.
  { split; [vm_compute; reflexivity|]. right. right. exists (L "bak"). split; [reflexivity|]. split; [intros (a & b & E); destruct a as [|? [|? [|? [|? ?]]]]; discriminate|]. left. exists false. rafsi_tac. }
  apply Forall_cons; [split; [vm_compute; reflexivity|]; right; left; eexists; eexists; split; [reflexivity|discriminate]|].
  apply Forall_cons.
  { split; [vm_compute; reflexivity|]. right. right. exists (L "spageti"). split; [reflexivity|]. split; [intros (a & b & E); do 9 (destruct a as [|? a]; [discriminate|]); discriminate|]. right. eexists. vm_compute. reflexivity. }
  apply Forall_cons; [apply W; vm_compute; reflexivity|apply Forall_nil].
Qed.
Print Assumptions C53_words_only.

(** ** C19 and C20 whatever the options *)
Lemma unbound_none : forall st t w sc ix, get_lujvo_with_analytics Unbound false st t <> Ok (w, sc, ix).
Proof. intros st t w sc ix H. unfold get_lujvo_with_analytics in H. inv_bind H. rewrite lujvo_from_list_eq in H. inv_bind H. inv_bind H. destruct x1 as [[? ?] ?]. discriminate. Qed.
Lemma component_usual : forall st v, low v -> component Bound st v -> (Z.of_nat (length v) < 10 ^ 96)%Z -> usual st v.
Proof.
  intros st v Hlow [(H1 & _)|[(r & s & -> & H1 & H2)|[(r & -> & H1)|(r & ps & -> & H1 & H2 & H3 & H4)]]] Hl; (split; [exact Hl|]).
  - left. exact H1.
  - right. right. exists r. split; [reflexivity|]. split; [|left; eexists; eexists; exact H1].
    intros (x & y & ->). assert (C : cll (allow_mz st) (x ++ L "-" ++ y)) by (exists s; exact H1). apply cll_lojban in C. apply Forall_app in C as [_ C]. inversion C; subst. discriminate.
  - right. left. destruct H1 as [(a & b & c & d & e & E & X1)|(a & b & c & d & e & E & X1)].
    all: destruct r as [|r0 r]; [discriminate|]; exists r0, (r ++ L "-"); split; [reflexivity|]; intro X; injection X as ->; injection E as E0 _; rewrite <- E0 in X1; destruct X1 as [X1 _].
    + apply is_consonant_spec in X1. discriminate.
    + cbn in X1. clear -X1. intuition discriminate.
  - right. right. exists r. split; [reflexivity|]. split; [exact H1|]. right. exists ps. refine (zihevla_any _ st r ps H4 eq_refl eq_refl _).
    apply low_app in Hlow as [_ Hlow]. apply low_app in Hlow as [Hlow _]. exact (Z.le_trans _ _ _ (inj_le _ _ (spelling_length_low _ Hlow)) H3).
Qed.

Theorem C19_options_accepted_partial : forall lk st t ws w sc ix,
  words_of t ws -> Forall (fun v => component lk st (standard_spelling v) /\ (Z.of_nat (length (standard_spelling v)) < 10 ^ 96)%Z) ws ->
  get_lujvo_with_analytics lk false st t = Ok (w, sc, ix) ->
  exists kind pieces, (kind = LUJVO \/ kind = EXTENDED_LUJVO) /\ get_rafsi_indices pieces = ix
    /\ forall e, analyse_brivla lk (mkSettings (y_hyphens st) e (consonants st) (glides st) (allow_mz st)) w = Ok (kind, pieces).
Proof.
  intros lk st t ws w sc ix Hw Ho H. destruct lk; [exfalso; exact (unbound_none _ _ _ _ _ H)|].
  assert (U : Forall (fun v => usual st (standard_spelling v)) ws).
  { eapply Forall_impl; [|exact Ho]. intros v [C Hl]. apply component_usual; [apply spelling_low|exact C|exact Hl]. }
  rewrite <- (usual_builder false st false t ws Hw U) in H. set (sf := with_exp st false) in *. assert (Hex : exp_rafsi_shapes sf = false) by reflexivity.
  assert (Hz : Forall (fun v => no_zihevla Bound sf (standard_spelling v) \/ zihevla_component Bound sf (standard_spelling v)) ws).
  { eapply Forall_impl; [|exact Ho]. intros v [C _]. change (component Bound sf (standard_spelling v)) in C.
    destruct C as [Hv|[Hv|[Hv|(r & ps & E1 & E2 & E3 & E4 & E5)]]]; [apply ordinary_either; exact Hv|left; right; left; exact Hv|left; right; right; exact Hv|].
    right. right. exists r. split; [exact E1|]. split; [exact E2|]. eapply ordinary_plain; eassumption. }
  destruct (analytics_best _ _ _ _ _ _ _ _ Hw H) as (rll & Er & Eb).
  unfold get_lujvo_with_analytics in H. inv_bind H. apply process_ok in E. rewrite (words_raw _ _ Hw) in E. subst x.
  rewrite lujvo_from_list_eq, Er in H. cbn [bind] in H. rewrite Eb in H. cbn [bind] in H.
  inv_bind H. destruct x; [discriminate|].
  destruct (best_word_construction _ _ _ _ _ _ _ _ Er Eb) as (ch & c & ps & K).
  assert (M : Forall2 (mixed_at sf) (map standard_spelling ws) ps).
  { pose proof (k_source _ _ _ _ _ _ _ _ _ _ K) as S. clear -S Hz Hex. remember (map standard_spelling ws) as vs eqn:Ev. revert ws Ev Hz.
    induction S as [|v p vs ps Hp S IH]; intros ws Ev Hz; [constructor|]. destruct ws as [|w ws]; [discriminate|]. injection Ev as -> ->. inversion Hz as [|? ? Hz1 Hz2]; subst.
    constructor; [|eapply IH; [reflexivity|exact Hz2]]. destruct Hz1 as [Hz1|Hz1].
    - left. eapply no_zihevla_homely; eassumption.
    - destruct (component_piece _ _ _ _ Hex Hz1 Hp) as [G|G]; [left; exact G|right; exact G]. }
  destruct (mixed_analysed _ _ _ _ _ _ _ _ _ Hex Er Eb K M E) as (p & rest & n & kind & _ & _ & _ & _ & D & A0 & A1 & A2).
  exists kind, (alt p rest). split; [destruct D as [[_ D]|[_ D]]; auto|]. split; [exact A2|]. exact A0.
Qed.

Theorem C20_options_round_trip : forall lk st t ws w sc ix,
  words_of t ws ->
  Forall (fun v => (ordinary_word st (standard_spelling v) /\ (Z.of_nat (length (standard_spelling v)) < 10 ^ 96)%Z)
    /\ ((exists rs, In (standard_spelling v, rs) RAFSI_LIST) \/ exists ps, analyse_brivla lk (mkSettings (y_hyphens st) false CLUSTER false (allow_mz st)) (standard_spelling v) = Ok (ZIhEVLA, ps))) ws ->
  get_lujvo_with_analytics lk false st t = Ok (w, sc, ix) ->
  Forall2 (fun v range => its_own (standard_spelling v) (substring w range)) ws ix ->
  forall e, get_veljvo lk (mkSettings (y_hyphens st) e (consonants st) (glides st) (allow_mz st)) w = Ok (map standard_spelling ws).
Proof.
  intros lk st t ws w sc ix Hw Ho H Hi e. destruct lk; [exfalso; exact (unbound_none _ _ _ _ _ H)|].
  assert (U : Forall (fun v => usual st (standard_spelling v)) ws).
  { eapply Forall_impl; [|exact Ho]. intros v [[C Hl] _]. apply component_usual; [apply spelling_low|left; exact C|exact Hl]. }
  rewrite <- (usual_builder false st false t ws Hw U) in H.
  refine (back_core Bound (with_exp st false) t ws w sc ix e eq_refl Hw _ H Hi).
  eapply Forall_impl; [|exact Ho]. intros v [[Hv _] [[rs Hd]|[ps Hz]]]; [eapply dict_back; exact Hd|]. right. destruct Hv as (H1 & H2 & H3). split; [exact H1|].
  change (plain_zihevla Bound st (standard_spelling v)). eapply ordinary_plain; eassumption.
Qed.
Example C19_options_example :
  let ws := map L ["mlatu"; "spageti"; "klama"]%string in
  let st := mkSettings FORCE_Y true ONE_CONSONANT true false in
  words_of (TList ws) ws /\ Forall (fun v => component Bound st (standard_spelling v) /\ (Z.of_nat (length (standard_spelling v)) < 10 ^ 96)%Z) ws
  /\ get_lujvo_with_analytics Bound false st (TList ws) = Ok (L "latyspageti'ykla", 16075%Z, [(0, 3); (4, 11); (13, 16)])
  /\ get_veljvo Bound st (L "latyspageti'ykla") = Ok ws.
Proof.
  cbv zeta. split; [reflexivity|]. split; [|split; vm_compute; reflexivity].
  repeat apply Forall_cons; [| | |apply Forall_nil]; (split; [left; apply ordinary_by; vm_compute; congruence|vm_compute; reflexivity]).
Qed.
Print Assumptions C19_options_accepted_partial.
Print Assumptions C20_options_round_trip.
