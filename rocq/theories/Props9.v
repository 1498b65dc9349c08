(** Properties C10 and C15, and what C08, C09 and C39 say about words without y. *)
From Verif Require Import Str Data Tarmi Rafsi Core Api Lib Spec Shapes Decomp Basic Vowels Katna Dict Errs Builder Jvokaha Fuel Raises Inv Parts Clusters Zihevla Forms Chain Score Alt Lujvo Slinku Optimal Props2 Props4 Props5 Props7 Total Onset Pinned Props8 Found.

(** ** C08 and C09 without y *)
(** On every non-empty word without y, upper case included, the documented
    contract holds. *)
Theorem C08_without_y : forall st w e, w <> [] -> ~ In c_y (standard_spelling w) ->
  analyse_brivla Bound st w = Err e -> e = NotBrivlaError.
Proof. intros st w e Hn Hy H. destruct (analyse_total st w Hn Hy e H) as [<-|[]]. reflexivity. Qed.
Theorem C09_without_y : forall st w, w <> [] -> ~ In c_y (standard_spelling w) ->
  exists b, Api.is_brivla Bound st w = Ok b.
Proof.
  intros st w Hn Hy. pose proof (analyse_total st w Hn Hy) as T. unfold Api.is_brivla, Core.is_brivla.
  destruct (analyse_brivla Bound st w) as [[t ps]|e]; [eauto|]. destruct (T e eq_refl) as [<-|[]]. eauto.
Qed.
(** a word with non-Lojban letters and upper case is covered *)
Example C08_C09_example :
  standard_spelling (L "KLAma") = L "klama" /\ ~ In c_y (L "klama")
  /\ Api.is_brivla Bound default_settings (L "KLAma") = Ok true
  /\ Api.is_brivla Bound default_settings (L "wiki") = Ok false
  /\ analyse_brivla Bound default_settings (L "wiki") = Err NotBrivlaError.
Proof. split; [vm_compute; reflexivity|]. split; [cbn; intuition discriminate|]. vm_compute. auto. Qed.
Print Assumptions C08_without_y.
Print Assumptions C09_without_y.

(** ** The words of a tanru *)
(** only Lojban letters, no y *)
Definition y_free (w : str) : Prop :=
  Forall (fun c => consonant c \/ vowel c \/ c = c_h) (standard_spelling w) /\ standard_spelling w <> [].
(** listed in the dictionary with at least one rafsi, or of the shape of a gismu *)
Definition known (mz : bool) (w : str) : Prop :=
  (exists rs r, In (standard_spelling w, rs) RAFSI_LIST /\ In r rs) \/ gismu_form mz (standard_spelling w).

Lemma y_free_clean : forall w, y_free w -> clean (standard_spelling w).
Proof.
  intros w [F Hn]. split.
  - unfold is_only_lojban_characters. destruct (standard_spelling w) as [|c s]; [congruence|]. apply forallb_forall. intros x Hx.
    eapply Forall_forall in F; [|exact Hx]. cbn beta in F. unfold is_lojban_letter.
    destruct F as [F|[F|F]]; [apply is_consonant_spec in F; rewrite F|apply is_vowel_spec in F; rewrite F|subst]; rewrite ?orb_true_r; reflexivity.
  - intro H. eapply Forall_forall in F; [|exact H]. cbn beta in F. destruct F as [F|[F|F]]; [apply is_consonant_spec in F|apply is_vowel_spec in F|]; discriminate.
Qed.

(** ** C39 on y-free words: the only exception is NoLujvoFoundError *)
Theorem C39_without_y : forall gen st t ws e, exp_rafsi_shapes st = false -> words_of t ws -> 2 <= length ws -> Forall y_free ws ->
  get_lujvo Bound gen st t = Err e \/ get_lujvo_with_analytics Bound gen st t = Err e -> e = NoLujvoFoundError.
Proof.
  intros gen st t ws e Hx Hw H2 F H.
  assert (H' : get_lujvo_with_analytics Bound gen st t = Err e).
  { destruct H as [H|H]; [|exact H]. unfold get_lujvo in H. unfold get_lujvo_with_analytics. destruct (process_tanru t) as [l|]; [|cbn [bind] in *; congruence]. cbn [bind] in *.
    destruct (lujvo_from_list _ _ _ _) as [[[? ?] ?]|]; [discriminate|cbn [bind] in *; congruence]. }
  clear H. destruct (clean_builder gen st t ws Hw) as (rll & Er & Eb).
  { eapply Forall_impl; [|exact F]. exact y_free_clean. }
  rewrite Eb in H'. assert (L2 : 2 <= length rll).
  { pose proof Er as Er'. unfold get_rafsi_list_list in Er'. apply list_list_nth in Er' as [L _]. rewrite <- L, map_length. exact H2. }
  pose proof (best_total gen st rll (list_fine _ _ _ _ Hx Er) L2) as T. destruct (best_word gen st rll) as [[[w sc] ix]|e'] eqn:E; cbn [bind] in H'.
  - destruct gen; [discriminate|]. assert (Hv : ends_vowel w).
    { destruct (best_word_chain _ _ _ _ _ _ E) as (choice & c & l & _ & _ & _ & _ & _ & _ & _ & El & Hl). exists l. split; assumption. }
    destruct (slinkuhi_total (y_hyphens st) (allow_mz st) w Hv) as [b Hb]. rewrite Hb in H'. cbn [bind] in H'. destruct b; congruence.
  - injection H' as <-. destruct (T e' eq_refl) as [<-|[]]. reflexivity.
Qed.

(** ** C10 *)
Theorem C10_gismu_tanru : forall gen st t ws, exp_rafsi_shapes st = false -> words_of t ws ->
  2 <= length ws -> (Z.of_nat (length ws) <= 10 ^ 96)%Z ->
  Forall (fun w => gismu_form (allow_mz st) (standard_spelling w)) ws ->
  exists w, get_lujvo Bound gen st t = Ok w.
Proof.
  intros gen st t ws Hx Hw H2 Hb F. destruct (ordinary_builder gen st t ws Hw) as (rll & Er & Eb).
  { eapply Forall_impl; [|exact F]. intros w H. right. exact H. }
  destruct (gismu_best gen st (map standard_spelling ws) rll Hx) as (w & sc & ix & E); [|rewrite map_length; assumption..|exact Er|].
  { apply Forall_map. eapply Forall_impl; [|exact F]. intros w H. apply is_gismu_spec. exact H. }
  exists w. rewrite E in Eb. unfold get_lujvo_with_analytics in Eb. unfold get_lujvo. destruct (process_tanru t); [|discriminate]. cbn [bind] in *. rewrite Eb. reflexivity.
Qed.
(** at the pinned commit the name is_slinkuhi is not bound in jvozba.py, and no
    tanru at all gives a lujvo *)
Theorem C10_pinned_refuted : forall st t w, get_lujvo Unbound false st t <> Ok w.
Proof.
  intros st t w H. unfold get_lujvo in H. inv_bind H. inv_bind H. destruct x0 as [[w' sc] ix]. rewrite lujvo_from_list_eq in E0. inv_bind E0. inv_bind E0. destruct x1 as [[? ?] ?]. discriminate.
Qed.

(** the concrete case: five gismu under the default options *)
Example C10_example :
  let ws := map L ["zdani"; "klama"; "Bakni"; "sfofa"; "mlatu"]%string in
  words_of (TList ws) ws /\ Forall (fun w => gismu_form false (standard_spelling w)) ws
  /\ get_lujvo Bound false default_settings (TList ws) = Ok (L "zdaklabaksfomlatu")
  /\ get_lujvo Unbound false default_settings (TList ws) = Err NameError.
Proof.
  cbv zeta. split; [reflexivity|]. split; [|split; vm_compute; reflexivity].
  repeat (apply Forall_cons; [apply is_gismu_spec; vm_compute; reflexivity|]). constructor.
Qed.
Print Assumptions C10_gismu_tanru.
Print Assumptions C10_pinned_refuted.

(** ** C15 *)
(** If any way of pinning components to rafsi of theirs gives a word (of at most
    10^96 letters), the tanru itself gives a word, and one that is not worse. *)
Theorem C15_found : forall gen st t ws us w' sc' ix',
  exp_rafsi_shapes st = false -> words_of t ws -> Forall (known (allow_mz st)) ws -> Forall2 (pinned (allow_mz st)) ws us ->
  get_lujvo_with_analytics Bound gen st (TList us) = Ok (w', sc', ix') -> (Z.of_nat (length w') <= 10 ^ 96)%Z ->
  exists w sc ix, get_lujvo_with_analytics Bound gen st t = Ok (w, sc, ix) /\ (sc <= sc')%Z.
Proof.
  intros gen st t ws us w' sc' ix' Hx Hw Hk Hp H Hb. destruct (ordinary_builder gen st t ws Hw Hk) as (rv & Ev & Eb).
  apply (analytics_best _ _ _ _ us) in H as (ru & Eu & Hu); [|reflexivity].
  destruct (pinned_best _ _ _ _ _ _ _ _ _ _ Hx Hp Ev Eu Hu) as [(w2 & sc2 & ix2 & E & L)|[_ E]].
  - exists w2, sc2, ix2. split; [congruence|exact L].
  - exfalso. apply best_score in Hu. unfold BEST_INIT in E. clear -E Hu Hb. assert (10 ^ 100 = 10000 * 10 ^ 96)%Z by reflexivity. lia.
Qed.
(** hence the exception of the builder means that there is none *)
Corollary C15_none : forall gen st t ws us e,
  exp_rafsi_shapes st = false -> words_of t ws -> Forall (known (allow_mz st)) ws -> Forall2 (pinned (allow_mz st)) ws us ->
  get_lujvo_with_analytics Bound gen st t = Err e ->
  forall w' sc' ix', get_lujvo_with_analytics Bound gen st (TList us) = Ok (w', sc', ix') -> (10 ^ 96 < Z.of_nat (length w'))%Z.
Proof.
  intros gen st t ws us e Hx Hw Hk Hp H w' sc' ix' H'. destruct (Z.lt_ge_cases (10 ^ 96) (Z.of_nat (length w'))) as [G|G]; [exact G|].
  destruct (C15_found gen st t ws us w' sc' ix' Hx Hw Hk Hp H' G) as (w & sc & ix & E & _). congruence.
Qed.

Lemma jvk_accepted : forall yh mz v s l ps, standard_spelling v = v -> v = s ++ [l] -> is_vowel l = true -> is_gismu v mz = false ->
  jvk Bound yh CLUSTER false mz v = Ok ps -> analyse_brivla Bound (mkSettings yh false CLUSTER false mz) v = Ok (LUJVO, ps).
Proof.
  intros yh mz v s l ps Es Ev Hl Hg H. rewrite analyse_brivla_eq. unfold analyse_body.
  assert (Hw : v <> []) by (intros ->; destruct s; discriminate). rewrite normalise_ok by exact Hw. cbn [bind]. rewrite Es.
  replace (last_opt v) with (Some l) by (rewrite Ev, last_opt_app; reflexivity). rewrite (v_f0 _ Hl), Hl. cbn [negb andb allow_mz]. rewrite Hg. cbn [y_hyphens consonants glides allow_mz]. rewrite H. reflexivity.
Qed.


Lemma drops_length : forall u a b, drops u a b -> length (concat a) <= length (concat b).
Proof.
  induction 1; [lia| |]; cbn [concat]; rewrite ?app_length in *; lia.
Qed.
(** The words ws have a lujvo that analyse_brivla accepts: then get_lujvo finds one. *)
Theorem C15_accepted : forall st t ws v ps,
  exp_rafsi_shapes st = false -> words_of t ws -> Forall (known (allow_mz st)) ws ->
  analyse_brivla Bound st v = Ok (LUJVO, ps) ->
  Forall2 (own_rafsi (allow_mz st)) (map standard_spelling ws) (rafsi_pieces ps) ->
  (Z.of_nat (length (standard_spelling v)) <= 10 ^ 96)%Z ->
  exists w sc ix sc', get_lujvo_with_analytics Bound false st t = Ok (w, sc, ix)
    /\ (exists u ix', get_lujvo_with_analytics Bound false st (literally (rafsi_pieces ps)) = Ok (u, sc', ix'))
    /\ (sc <= sc')%Z.
Proof.
  intros st t ws v ps Hx Hw Hk H Hp Hb. assert (Ep : plain st = st) by (clear -Hx; destruct st; cbn in *; subst; reflexivity).
  apply C41_cll_lujvo_characterised in H as (_ & _ & Hc & _ & _ & u & Hu & HF & HD). rewrite Ep in Hu.
  assert (Lu : length u <= length (standard_spelling v)).
  { destruct (yset_eqb (y_hyphens st) FORCE_Y) eqn:E.
    - assert (EF : y_hyphens st = FORCE_Y) by (destruct (y_hyphens st); try discriminate; reflexivity). rewrite (HF EF). lia.
    - destruct HD as (qs & <- & _ & D); [intro G; rewrite G in E; discriminate|]. rewrite <- Hc. eapply drops_length. exact D. }
  rewrite get_lujvo_fst in Hu. destruct (get_lujvo_with_analytics Bound false st (literally (rafsi_pieces ps))) as [[[u' sc'] ix']|] eqn:E; [|discriminate].
  injection Hu as ->. assert (Hq : Forall2 (pinned (allow_mz st)) ws (map (fun r => L "-" ++ r ++ L "-") (rafsi_pieces ps))).
  { clear -Hp. remember (map standard_spelling ws) as vs eqn:Ev. revert ws Ev. induction Hp as [|x y vs rs Hr Hp IH]; intros ws Ev; destruct ws as [|w ws]; try discriminate; [constructor|].
    injection Ev as -> ->. cbn [map]. constructor; [|apply IH; reflexivity]. right. exists y. split; [reflexivity|exact Hr]. }
  unfold literally in E. destruct (C15_found false st t ws _ u sc' ix' Hx Hw Hk Hq E) as (w & sc & ix & E1 & E2); [clear -Lu Hb; lia|].
  exists w, sc, ix, sc'. split; [exact E1|]. split; [exists u, ix'; reflexivity|exact E2].
Qed.

(** the hypotheses of both: baurdja is an accepted lujvo of bangu and cidja *)
Example C15_example :
  let ws := map L ["bangu"; "cidja"]%string in
  let us := map L ["-bang-"; "cidja"]%string in
  words_of (TList ws) ws /\ Forall (known false) ws /\ Forall2 (pinned false) ws us
  /\ get_lujvo_with_analytics Bound false default_settings (TList us) = Ok (L "bangydja", 8008%Z, [(0, 4); (5, 8)])
  /\ analyse_brivla Bound default_settings (L "baurdja") = Ok (LUJVO, Ls ["bau"; "r"; "dja"]%string)
  /\ Forall2 (own_rafsi false) (map standard_spelling ws) (rafsi_pieces (Ls ["bau"; "r"; "dja"]%string))
  /\ get_lujvo_with_analytics Bound false default_settings (TList ws) = Ok (L "baudja", 5846%Z, [(0, 3); (3, 6)]).
Proof.
  assert (D1 : exists rs, In (L "bangu", rs) RAFSI_LIST /\ In (L "bau") rs).
  { eexists. split; [apply dict_get_spec; vm_compute; reflexivity|vm_compute; auto]. }
  assert (D2 : exists rs, In (L "cidja", rs) RAFSI_LIST /\ In (L "dja") rs).
  { eexists. split; [apply dict_get_spec; vm_compute; reflexivity|vm_compute; auto]. }
  cbv zeta. split; [|split; [|split; [|split; [|split; [|split]]]]]; try (vm_compute; reflexivity).
  - destruct D1 as (r1 & D1 & D1'), D2 as (r2 & D2 & D2'). apply Forall_cons; [left; exists r1, (L "bau"); auto|]. apply Forall_cons; [left; exists r2, (L "dja"); auto|constructor].
  - constructor; [|constructor; [left; reflexivity|constructor]]. right. exists (L "bang"). split; [reflexivity|]. right.
    split; [apply is_gismu_spec; vm_compute; reflexivity|]. right. exists c_u. split; [apply is_vowel_spec; reflexivity|reflexivity].
  - apply Forall2_cons; [left; exact D1|]. apply Forall2_cons; [left; exact D2|constructor].
Qed.
Print Assumptions C15_found.
Print Assumptions C15_none.
Print Assumptions C15_accepted.
