(** Properties C19 and C20: a built lujvo is accepted, cut where the builder joined it, and gives its components back. *)
From Verif Require Import Str Data Tarmi Rafsi Core Api Lib Spec Shapes Decomp Basic Vowels Katna Dict Errs Builder Jvokaha Fuel Raises Inv Parts Clusters Zihevla Forms Chain Score Alt Lujvo Slinku Optimal Props1 Props2 Props4 Props5 Pinned Found Props8 Swap Unique Round.

(** A component that is
    - a word that is not classified as a zi'evla,
    - a rafsi of at most four letters, written "-klam-" or "-kla-", or
    - a gismu without its last vowel, written "klam-". *)
Definition no_zihevla (lk : binding) (st : settings) (v : str) : Prop :=
  (~ ends_in (fun c => [c] = L "-") v
   /\ forall ps, analyse_brivla lk (mkSettings (y_hyphens st) false CLUSTER false (allow_mz st)) v <> Ok (ZIhEVLA, ps))
  \/ (exists r s, v = L "-" ++ r ++ L "-" /\ cll_rafsi (allow_mz st) s r /\ length r <= 4)
  \/ (exists r, v = r ++ L "-" /\ gismu_form (allow_mz st) (r ++ L "a")).

Lemma dict_short : forallb (fun e => forallb (fun r => length r <=? 4) (snd e)) RAFSI_LIST = true.
Proof. vm_compute. reflexivity. Qed.
Lemma long_five : forall r, long_shape r = true -> length r = 5.
Proof.
  intros r H. unfold long_shape in H. apply tarmi_in_two in H as [H|H]; [apply tarmi_CVCCV in H|apply tarmi_CCVCV in H];
    repeat match goal with X : exists _, _ |- _ => destruct X | X : _ /\ _ |- _ => destruct X end; subst; reflexivity.
Qed.
Lemma strip_end : forall mz r, is_gismu (r ++ [c_a]) mz = true -> strip_char (N.eqb c_dash) (r ++ [c_dash]) = r /\ hd 0%N (r ++ [c_dash]) <> c_dash.
Proof.
  intros mz r H. destruct (gismu_cll _ _ H) as (_ & _ & Ho & _).
  apply gismu_len in H as (a & b & c & d & e & E & _). destruct r as [|a' [|b' [|c' [|d' [|]]]]]; try discriminate; [|exfalso; apply (f_equal (@length _)) in E; cbn in E; rewrite app_length in E; cbn in E; lia].
  injection E as -> -> -> -> <-. cbn in Ho. apply andb_t in Ho as [Ha Ho]. apply andb_t in Ho as [_ Ho]. apply andb_t in Ho as [_ Ho]. apply andb_t in Ho as [Hd _].
  apply lojban_letter_facts in Ha as (_ & _ & _ & _ & _ & Ha). apply lojban_letter_facts in Hd as (_ & _ & _ & _ & _ & Hd).
  unfold strip_char. rewrite N.eqb_sym in Ha, Hd. cbn [app rev drop_while hd]. rewrite Ha. cbn [app rev drop_while]. change (N.eqb c_dash c_dash) with true. cbv iota. rewrite Hd. split; [reflexivity|].
  intros ->. discriminate.
Qed.

Lemma no_zihevla_homely : forall st v, exp_rafsi_shapes st = false -> no_zihevla Bound st v -> homely st v.
Proof.
  intros st v Hex H r t Hs. assert (Ea : ana_settings st = mkSettings (y_hyphens st) false CLUSTER false (allow_mz st)) by (unfold ana_settings; rewrite Hex; reflexivity).
  destruct H as [[Hd Hz]|[(r' & s & Ev & Hr & L4)|(r' & Ev & Hg)]].
  - assert (Nd : last_opt v <> Some c_dash) by (intro X; apply last_opt_some in X as [u ->]; apply Hd; exists u, c_dash; split; reflexivity).
    destruct Hs as [r t ps H1|r ps H1|r H1|r H1|r rs H1 H2 H3 H4|r ps H1 H2 H3 ->|t ps H1 H2 H3 H4]; try contradiction.
    + split; [eapply dict_cll; eassumption|]. split; [left; reflexivity|]. intro L. apply long_five in L.
      pose proof dict_short as D. rewrite forallb_forall in D. specialize (D _ H3). cbn [snd] in D. rewrite forallb_forall in D. specialize (D _ H4). apply Nat.leb_le in D. lia.
    + destruct (only_Forall _ H2) as [_ HF]. assert (X := proj2 (C05_gismu_shape Bound (ana_settings st) v) (ex_intro _ ps H3)). rewrite (lojban_spelling _ HF) in X. apply is_gismu_spec in X.
      destruct (gismu_cll _ _ X) as (_ & G & _ & _ & T). split; [exact G|]. split; [right; left; auto|]. intro L. apply long_five in L. apply gismu_len in X as (? & ? & ? & ? & ? & -> & _). discriminate.
    + destruct H4 as [-> | ->]; [exfalso; rewrite Ea in H3; exact (Hz _ H3)|].
      destruct (only_Forall _ H2) as [_ HF]. assert (X := proj2 (C05_gismu_shape Bound (ana_settings st) v) (ex_intro _ ps H3)). rewrite (lojban_spelling _ HF) in X. apply is_gismu_spec in X.
      destruct (gismu_cll _ _ X) as (G & _ & _ & T & _). split; [exact G|]. split; [right; right; auto|]. auto.
  - subst v. apply source_dashed in Hs as [-> ->]; [|exists s; exact Hr]. split; [exists s; exact Hr|]. split; [left; reflexivity|]. intro L. apply long_five in L. lia.
  - subst v. change (L "-") with [c_dash] in *. change (L "a") with [c_a] in *. apply is_gismu_spec in Hg. destruct (strip_end _ _ Hg) as [S1 S2].
    destruct (gismu_cll _ _ Hg) as (_ & G & _ & _ & T). assert (Ed : dropl 1 (r' ++ [c_a]) = r').
    { unfold dropl. rewrite app_length, Nat.add_sub, firstn_app, Nat.sub_diag, firstn_all, app_nil_r. reflexivity. }
    rewrite Ed in *.
    destruct Hs as [r t ps H1 H2 -> H3 H4 H5 H6|r ps H1 H2|r H1 H2|r H1 H2|r rs H1|r ps H1|t ps H1]; try (rewrite last_opt_app in H1; congruence); try contradiction.
    rewrite S1 in *. split; [exact G|]. split; [right; left; auto|]. intro L. apply long_five in L. apply gismu_len in Hg as (? & ? & ? & ? & ? & E & _). apply (f_equal (@length _)) in E. rewrite app_length in E. cbn in E. lia.
Qed.

(** The word built from such components is accepted as a lujvo under the same
    options, and its rafsi stand where the builder says. *)
Theorem C19_accepted_partial : forall lk st t ws w sc ix,
  exp_rafsi_shapes st = false -> words_of t ws -> Forall (fun v => no_zihevla lk st (standard_spelling v)) ws ->
  get_lujvo_with_analytics lk false st t = Ok (w, sc, ix) ->
  exists pieces, analyse_brivla lk st w = Ok (LUJVO, pieces) /\ get_rafsi_indices pieces = ix.
Proof.
  intros lk st t ws w sc ix Hex Hw Hz H. destruct (analytics_best _ _ _ _ _ _ _ _ Hw H) as (rll & Er & Eb).
  unfold get_lujvo_with_analytics in H. inv_bind H. apply process_ok in E. rewrite (words_raw _ _ Hw) in E. subst x.
  rewrite lujvo_from_list_eq, Er in H. cbn [bind] in H. rewrite Eb in H. cbn [bind] in H. destruct lk; [discriminate|].
  inv_bind H. destruct x; [discriminate|].
  destruct (built_analysed st (map standard_spelling ws) rll w sc ix Hex) as (ps & arr & _ & _ & _ & A1 & A2); try assumption.
  - apply Forall_map. eapply Forall_impl; [|exact Hz]. intros v. apply no_zihevla_homely. exact Hex.
  - exists arr. auto.
Qed.
Example C19_example :
  let ws := map L ["pa"; "-zba-"; "bang-"; "klama"]%string in
  let st := default_settings in
  exp_rafsi_shapes st = false /\ words_of (TList ws) ws
  /\ Forall (fun v => no_zihevla Bound st (standard_spelling v)) ws
  /\ get_lujvo_with_analytics Bound false st (TList ws) = Ok (L "pavzbabangykla", 13886%Z, [(0, 3); (3, 6); (6, 10); (11, 14)])
  /\ analyse_brivla Bound st (L "pavzbabangykla") = Ok (LUJVO, map L ["pav"; "zba"; "bang"; "y"; "kla"]%string).
Proof.
  cbv zeta. split; [reflexivity|]. split; [reflexivity|]. split; [|split; vm_compute; reflexivity].
  assert (N : forall v, last_opt v <> Some c_dash -> ~ ends_in (fun c => [c] = L "-") v).
  { intros v H (u & c & -> & E). apply H. rewrite last_opt_app. injection E as ->. reflexivity. }
  repeat apply Forall_cons; [| | | |apply Forall_nil].
  - left. split; [apply N; vm_compute; discriminate|]. intros ps. vm_compute. discriminate.
  - right; left. exists (L "zba"), "CCV"%string. split; [reflexivity|]. split; [apply r_ccv; [apply initial_spec|apply is_vowel_spec]; reflexivity|cbn; lia].
  - right; right. exists (L "bang"). split; [reflexivity|]. apply is_gismu_spec. vm_compute. reflexivity.
  - left. split; [apply N; vm_compute; discriminate|]. intros ps. vm_compute. discriminate.
Qed.

(** In general the property fails: get_lujvo takes the literal rafsi "-tua-" (its
    two vowels are no diphthong of a rafsi) and builds "tuakla", which is no
    brivla. *)
Theorem C19_refuted : exists t w sc ix, get_lujvo_with_analytics Bound false default_settings t = Ok (w, sc, ix)
  /\ exp_rafsi_shapes default_settings = false /\ analyse_brivla Bound default_settings w = Err NotBrivlaError.
Proof.
  exists (TStr (L "-tua- klama")), (L "tuakla"), 5846%Z, [(0, 3); (3, 6)]. split; [vm_compute; reflexivity|]. split; [reflexivity|]. vm_compute. reflexivity.
Qed.
Print Assumptions C19_accepted_partial.
Print Assumptions C19_refuted.

(** * C20: from the word back to the components *)
(** [r] is a form of the dictionary word [v]: one of its rafsi, the word itself,
    or the word without its last vowel *)
Definition form_of (v r : str) : Prop :=
  exists rs, In (v, rs) RAFSI_LIST /\ (In r rs \/ r = v \/ exists c, vowel c /\ v = r ++ [c]).
(** and of no other dictionary word *)
Definition its_own (v r : str) : Prop := forall u, form_of u r -> u = v.

Lemma brod_shared : forall v, ~ its_own v (L "brod").
Proof.
  intros v H. assert (E1 : L "broda" = v).
  { apply H. destruct (dict_get (L "broda")) as [rs|] eqn:E; [|vm_compute in E; discriminate]. exists rs. split; [apply dict_get_spec; exact E|]. right; right. exists c_a. split; [apply is_vowel_spec; reflexivity|reflexivity]. }
  assert (E2 : L "brode" = v).
  { apply H. destruct (dict_get (L "brode")) as [rs|] eqn:E; [|vm_compute in E; discriminate]. exists rs. split; [apply dict_get_spec; exact E|]. right; right. exists 101%N. split; [apply is_vowel_spec; reflexivity|reflexivity]. }
  subst v. discriminate.
Qed.
Lemma dict_last : forallb (fun e => match last_opt (fst e) with Some l => negb (N.eqb l c_dash) | None => false end) RAFSI_LIST = true.
Proof. vm_compute. reflexivity. Qed.
Lemma gismu_brivla : forall lk st v, is_gismu v (allow_mz st) = true -> is_brivla lk st v = Ok true.
Proof.
  intros lk st v H. destruct (gismu_cll _ _ H) as (_ & _ & Ho & _). destruct (only_Forall _ Ho) as [_ HF].
  destruct (proj1 (C05_gismu_shape lk st v)) as [ps Hp]; [rewrite (lojban_spelling _ HF); apply is_gismu_spec; exact H|].
  unfold is_brivla, Core.is_brivla. rewrite Hp. reflexivity.
Qed.
Lemma search_five : forall r, length r = 5 -> search_selrafsi_from_rafsi r = None.
Proof.
  intros r H. destruct (search_selrafsi_from_rafsi r) as [w|] eqn:E; [exfalso|reflexivity].
  apply search_sound in E as [(rs & H1 & H2)|[H1 _]]; [|lia].
  pose proof dict_short as D. rewrite forallb_forall in D. specialize (D _ H1). cbn [snd] in D. rewrite forallb_forall in D. specialize (D _ H2). apply Nat.leb_le in D. lia.
Qed.

(** what is put for the form [r] of the component [v]; a whole gismu stands last *)
Lemma selrafsi_back : forall st v r t rs n i nx, exp_rafsi_shapes st = false -> no_zihevla Bound st v -> In (v, rs) RAFSI_LIST ->
  source Bound st v r t -> its_own v r -> (t = LONG_BRIVLA -> i = n - 1 \/ exists c s, nx = Some (c :: s) /\ c <> c_y) ->
  selrafsi_at Bound (y_hyphens st) (allow_mz st) n i r nx = Ok v.
Proof.
  intros st v r t rs n i nx Hex Hz Hd Hs Ho Hlast.
  destruct (no_zihevla_homely _ _ Hex Hz _ _ Hs) as (G & _ & Glong).
  assert (Hne : r <> []) by (apply cll_len in G; intros ->; cbn in G; lia).
  pose proof dict_last as Hl. rewrite forallb_forall in Hl. specialize (Hl _ Hd). cbn [fst] in Hl.
  match type of Hl with context[match ?x with _ => _ end] => destruct x as [l|] eqn:El end; [|discriminate Hl]. change (@last_opt char v = Some l) in El. apply negb_true_iff, N.eqb_neq in Hl.
  assert (Es : forall x, search_selrafsi_from_rafsi r = Some x -> selrafsi_at Bound (y_hyphens st) (allow_mz st) n i r nx = Ok x).
  { intros x Hx. unfold selrafsi_at. rewrite Hx. destruct r; [congruence|reflexivity]. }
  destruct Hs as [r t ps H0|r ps H0|r H0|r H0|r rs' H0 H1 H2 H3|r ps H0 H1 H2 E1|t ps H0 H1 H2 H3]; try congruence; destruct (only_Forall _ H1) as [_ HF].
  - apply Es. exact (search_complete _ _ _ H2 H3).
  - assert (X := proj2 (C05_gismu_shape Bound (ana_settings st) v) (ex_intro _ ps H2)). rewrite (lojban_spelling _ HF) in X. apply is_gismu_spec in X.
    destruct (gismu_drop _ _ X) as (d & c & Ev & Edr & Hc & L4). rewrite Edr in E1. subst r.
    destruct (search_gismu d c rs) as (v' & rs' & V1 & V2 & V3).
    + rewrite <- Ev. exact Hd.
    + exact L4.
    + apply is_vowel_spec. exact Hc.
    + apply is_gismu_spec in X. clear - X Ev. intro Q. destruct X as [(c1 & v1 & c2 & c3 & v2 & -> & G)|(c1 & c2 & v1 & c3 & v2 & -> & G)]; decompose [and] G; bfacts;
        (apply (app_inj_tail [_; _; _; _] d) in Ev as [<- _]); cbn [In] in Q; clear G;
        repeat match type of Q with _ \/ _ => destruct Q as [Q|Q] | False => destruct Q end; subst; discriminate.
    + intros ->. eapply brod_shared. exact Ho.
    + rewrite (Es _ V3). f_equal. apply Ho. exists rs'. split; [exact V2|]. right; right. exists v'. auto.
  - assert (X : is_gismu v (allow_mz st) = true /\ long_shape v = true).
    { destruct H3 as [-> | ->].
      - exfalso. unfold no_zihevla in Hz. assert (Ea : ana_settings st = mkSettings (y_hyphens st) false CLUSTER false (allow_mz st)) by (unfold ana_settings; rewrite Hex; reflexivity).
        rewrite Ea in H2. destruct Hz as [[_ Hz]|[(r & s & Ev & _)|(r & Ev & _)]]; [exact (Hz _ H2)| |]; subst v.
        + rewrite app_assoc in El. change (L "-") with [c_dash] in El. rewrite last_opt_app in El. congruence.
        + change (L "-") with [c_dash] in El. rewrite last_opt_app in El. congruence.
      - assert (X := proj2 (C05_gismu_shape Bound (ana_settings st) v) (ex_intro _ ps H2)). rewrite (lojban_spelling _ HF) in X. apply is_gismu_spec in X.
        split; [exact X|]. destruct (gismu_cll _ _ X) as (_ & _ & _ & [T|T] & _); unfold long_shape; rewrite T; reflexivity. }
    destruct X as [X LS]. specialize (Hlast eq_refl). assert (L5 := long_five _ LS).
    unfold selrafsi_at. cbv zeta. rewrite (search_five _ L5).
    assert (B := gismu_brivla Bound (mkSettings (y_hyphens st) false CLUSTER false (allow_mz st)) v X).
    destruct v as [|v0 v']; [discriminate|].
    destruct Hlast as [->|(c & s & -> & Hc)]; [rewrite (proj2 (Nat.ltb_ge _ _)) by lia; cbn [bind]; rewrite B; reflexivity|].
    apply N.eqb_neq in Hc. destruct (i <? n - 2); cbn; rewrite ?Hc; cbn; rewrite B; reflexivity.
Qed.

(** The theorem is in Props14.v; here a tanru for it and the need for its condition. *)
Example C20_example :
  let ws := map L ["mlatu"; "gerku"; "klama"]%string in
  let st := default_settings in
  exp_rafsi_shapes st = false /\ words_of (TList ws) ws
  /\ Forall (fun v => no_zihevla Bound st (standard_spelling v) /\ exists rs, In (standard_spelling v, rs) RAFSI_LIST) ws
  /\ exists w sc ix, get_lujvo_with_analytics Bound false st (TList ws) = Ok (w, sc, ix)
     /\ Forall2 (fun v range => its_own (standard_spelling v) (substring w range)) ws ix
     /\ get_veljvo Bound st w = Ok ws.
Proof.
  cbv zeta. split; [reflexivity|]. split; [reflexivity|].
  assert (N : forall v, last_opt v <> Some c_dash -> ~ ends_in (fun c => [c] = L "-") v).
  { intros v H (u & c & -> & E). apply H. rewrite last_opt_app. injection E as ->. reflexivity. }
  split.
  { repeat apply Forall_cons; [| | |apply Forall_nil];
      (split; [left; split; [apply N; vm_compute; discriminate|]; intros ps; vm_compute; discriminate|]);
      (eexists; apply dict_get_spec; vm_compute; reflexivity). }
  eexists; eexists; eexists. split; [vm_compute; reflexivity|]. split; [|vm_compute; reflexivity].
  assert (S : forall v r, forallb (fun e => negb (mems r (snd e) || str_eqb r (fst e) || str_eqb r (dropl 1 (fst e))) || str_eqb (fst e) v) RAFSI_LIST = true -> its_own v r).
  { intros v r H u (rs & H1 & H2). rewrite forallb_forall in H. specialize (H _ H1). cbn [fst snd] in H. apply orb_true_iff in H as [H|H]; [|apply str_eqb_eq; exact H].
    exfalso. apply negb_true_iff in H. apply orb_false_iff in H as [H H3]. apply orb_false_iff in H as [H H4].
    destruct H2 as [H2|[H2|(c & _ & H2)]].
    - apply mems_In in H2. congruence.
    - subst. rewrite (proj2 (str_eqb_eq u u) eq_refl) in H4. discriminate.
    - subst u. unfold dropl in H3. rewrite app_length, Nat.add_sub, firstn_app, Nat.sub_diag, firstn_all, app_nil_r, (proj2 (str_eqb_eq r r) eq_refl) in H3. discriminate. }
  repeat apply Forall2_cons; try apply Forall2_nil; apply S; vm_compute; reflexivity.
Qed.
(** the condition is needed: "brodu" has no form but the shared one *)
Theorem C20_shared_form : exists ws w sc ix,
  get_lujvo_with_analytics Bound false default_settings (TList ws) = Ok (w, sc, ix)
  /\ Forall (fun v => exists rs, In (v, rs) RAFSI_LIST) ws
  /\ get_veljvo Bound default_settings w = Ok (map L ["brod-"; "klama"]%string) /\ ws <> map L ["brod-"; "klama"]%string.
Proof.
  exists (map L ["brodu"; "klama"]%string). eexists; eexists; eexists. split; [vm_compute; reflexivity|].
  split; [repeat apply Forall_cons; [| |apply Forall_nil]; eexists; apply dict_get_spec; vm_compute; reflexivity|].
  split; [vm_compute; reflexivity|discriminate].
Qed.
Print Assumptions C20_shared_form.
