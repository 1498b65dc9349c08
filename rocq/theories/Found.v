(** Words that are always found: components joined with y, and the tanru made of
    dictionary words. *)
From Verif Require Import Str Data Tarmi Rafsi Core Api Lib Spec Shapes Decomp Basic Vowels Katna Dict Errs Builder Jvokaha Fuel Raises Inv Parts Clusters Zihevla Forms Chain Score Alt Lujvo Slinku Optimal Props2 Props4 Props5 Total Onset Pinned.

(** ** Joining after a y *)
Lemma banned_y : forall t, mems (c_y :: t) BANNED_TRIPLES = false.
Proof.
  intros t. destruct (mems (c_y :: t) BANNED_TRIPLES) eqn:E; [|reflexivity]. apply mems_In in E. cbn in E.
  repeat (destruct E as [E|E]; [discriminate|]). contradiction.
Qed.
Lemma tiebreak_nonneg : forall w, (0 <= tiebreak w)%Z.
Proof. intro w. unfold tiebreak. destruct (_ && _); discriminate. Qed.
Lemma count_le : forall c s, count c s <= length s.
Proof. intros c s. unfold count. induction s as [|a s IH]; cbn; [lia|]. destruct (N.eqb c a); cbn; lia. Qed.
Lemma score_le : forall s, (score s <= 1100 * Z.of_nat (length s))%Z.
Proof.
  intro s. unfold score. pose proof (count_le c_y s). assert (0 <= if tarmi_eqb (tarmi_ignoring_hyphen s) OTHER_RAFSI then 0 else tarmi_val (tarmi_ignoring_hyphen s))%Z.
  { destruct (tarmi_ignoring_hyphen s); cbn; lia. }
  lia.
Qed.

(** a first form after which no hyphen is needed *)
Definition plain_first (w : str) : Prop :=
  tarmi_in (tarmi_ignoring_hyphen w) [CVhV; CVV] = false
  /\ ~ (length w = 5 /\ rafsi_tarmi (firstn 3 w) = CCV /\ skipn 3 w = [c_h; c_y]).

Lemma combine_y : forall s r k sc ix gen n st, 6 <= length (s ++ [c_y]) \/ plain_first (s ++ [c_y]) -> r <> [] -> ix <> [] ->
  exists c, combine (s ++ [c_y]) r k 2 sc ix 0 gen n st = Ok (Some c)
    /\ c_tos c = 0 /\ c_cons c = 2 /\ c_word c = (s ++ [c_y]) ++ r /\ (c_score c <= sc + score r)%Z /\ c_idx c <> [].
Proof.
  intros s r k sc ix gen n st Hw Hr Hix. unfold combine. cbv zeta. unfold idx_last at 1. rewrite last_opt_app. cbn [bind].
  destruct r as [|r0 r]; [congruence|]. cbn [idx nth_error bind].
  change (is_consonant c_y) with false. change (is_hy c_y) with true. cbn [andb negb].
  rewrite banned_y. destruct (exists_last Hix) as (ix' & lx & ->). unfold idx_last. rewrite last_opt_app. cbn [bind].
  assert (Esl : slice (fst lx) (fst lx) (s ++ [c_y]) = []) by (unfold slice; rewrite Nat.sub_diag; reflexivity). rewrite Esl.
  change (re_vowels []) with false. rewrite andb_false_r. cbn [andb].
  assert (Eg : glue (s ++ [c_y]) (r0 :: r) (tarmi_ignoring_hyphen (r0 :: r)) gen n (y_hyphens st) c_y r0 = Some []).
  { unfold glue. change (N.eqb c_y c_h) with false. cbv iota.
    assert (Ef : (length (s ++ [c_y]) =? 5) && tarmi_eqb (rafsi_tarmi (firstn 3 (s ++ [c_y]))) CCV && str_eqb (skipn 3 (s ++ [c_y])) [c_h; c_y] = false).
    { destruct (_ && _) eqn:E; [|reflexivity]. exfalso. apply andb_t in E as [E E3]. apply andb_t in E as [E1 E2].
      apply Nat.eqb_eq in E1. apply tarmi_eqb_eq in E2. apply str_eqb_eq in E3. destruct Hw as [Hw|[_ Hw]]; [lia|auto]. }
    rewrite Ef. destruct ((length (s ++ [c_y]) <=? 5) && negb gen) eqn:E; [|reflexivity]. apply andb_t in E as [E _]. apply Nat.leb_le in E.
    destruct Hw as [Hw|[Hw _]]; [lia|]. rewrite Hw. destruct ((n =? 2) && tarmi_eqb (tarmi_ignoring_hyphen (r0 :: r)) CCV); reflexivity. }
  rewrite Eg. cbn [next_tosmabru TOSMABRU TOSYhUhU Nat.eqb]. unfold next_tosmabru. cbn [TOSMABRU TOSYhUhU Nat.eqb].
  assert (En : next_consonants (s ++ [c_y]) (r0 :: r) [] k 2 (consonants st) (glides st) = Ok 2).
  { unfold next_consonants. cbn [str_eqb orb Nat.eqb negb]. assert (Em : Nat.min 2 (k + 2) = 2) by lia. destruct (consonants st); cbn [cset_eqb bind andb]; rewrite Em; reflexivity. }
  rewrite En. cbn [bind]. eexists. split; [reflexivity|]. cbn [c_tos c_cons c_word c_score c_idx app]. split; [reflexivity|]. split; [reflexivity|]. split; [reflexivity|].
  split; [pose proof (tiebreak_nonneg ((s ++ [c_y]) ++ r0 :: r)); change (score []) with 0%Z; lia|]. intro X. destruct (ix' ++ [lx]); discriminate.
Qed.

Definition y_form (x : str * nat) : Prop := snd x = 2 /\ exists s, fst x = s ++ [c_y].
Definition word_of (l : list (str * nat)) : str := concat (map fst l).
Lemma word_snoc : forall l x, word_of (l ++ [x]) = word_of l ++ fst x.
Proof. intros l x. unfold word_of. rewrite map_app, concat_app. cbn. rewrite app_nil_r. reflexivity. Qed.

Lemma chain_y : forall gen st n f0 fs, y_form f0 -> 5 <= length (fst f0) -> plain_first (fst f0) -> tarmi_ignoring_hyphen (fst f0) <> CVC ->
  Forall y_form fs -> forall x, snd x = 2 -> fst x <> [] ->
  exists c, chain gen st n (f0 :: fs ++ [x]) c /\ c_tos c = 0 /\ c_cons c = 2 /\ c_word c = word_of (f0 :: fs ++ [x])
    /\ (c_score c <= 1100 * Z.of_nat (length (c_word c)))%Z /\ c_idx c <> [].
Proof.
  intros gen st n [f0 n0] fs [H0 [s0 Es]] H5 Hp Ht. cbn [fst snd] in *. subst n0.
  induction fs as [|y fs IH] using rev_ind; intros Hf [x nx] Hx Hn; cbn [fst snd] in *; subst nx.
  - destruct (combine_y s0 x 2 (score f0) [(0, length (strip_hyphens f0))] gen n st) as (c & C1 & C2 & C3 & C4 & C5 & C6);
      [right; rewrite <- Es; exact Hp|exact Hn|discriminate|]. rewrite <- Es in C1, C4. exists c. cbn [app]. split; [|split; [exact C2|split; [exact C3|split; [|split; [|exact C6]]]]].
    + apply (chain_two gen st n f0 2 x 2 0 c); [|exact C1]. unfold first_tos.
      replace (tarmi_eqb (tarmi_ignoring_hyphen f0) CVC) with false; [reflexivity|]. symmetry.
      destruct (tarmi_eqb _ CVC) eqn:E; [|reflexivity]. apply tarmi_eqb_eq in E. contradiction.
    + rewrite C4. unfold word_of. cbn. rewrite app_nil_r. reflexivity.
    + rewrite C4, app_length. pose proof (score_le f0). pose proof (score_le x). lia.
  - apply Forall_app in Hf as [Hf Hy]. apply Forall_inv in Hy. pose proof Hy as [Y1 [s Ey]].
    assert (Y2 : fst y <> []) by (rewrite Ey; destruct s; discriminate).
    destruct (IH Hf y Y1 Y2) as (d & D1 & D2 & D3 & D4 & D5 & D6).
    assert (Ed : c_word d = (word_of ((f0, 2) :: fs) ++ s) ++ [c_y]).
    { rewrite D4, app_comm_cons, word_snoc, Ey, app_assoc. reflexivity. }
    assert (Hl : 6 <= length (c_word d)).
    { rewrite Ed. unfold word_of. cbn [map concat fst]. rewrite !app_length. cbn [length]. lia. }
    destruct (combine_y (word_of ((f0, 2) :: fs) ++ s) x 2 (c_score d) (c_idx d) gen 0 st) as (c & C1 & C2 & C3 & C4 & C5 & C6);
      [left; rewrite <- Ed; exact Hl|exact Hn|exact D6|]. rewrite <- Ed in C1, C4. exists c.
    split; [|split; [exact C2|split; [exact C3|split; [|split; [|exact C6]]]]].
    + rewrite app_comm_cons. eapply chain_next; [exact D1|]. rewrite D2, D3. exact C1.
    + rewrite C4, D4. change ((f0, 2) :: (fs ++ [y]) ++ [(x, 2)]) with (((f0, 2) :: fs ++ [y]) ++ [(x, 2)]). rewrite (word_snoc ((f0, 2) :: fs ++ [y])). reflexivity.
    + rewrite C4, app_length. pose proof (score_le x). lia.
Qed.

(** ** Forms of the words of the dictionary *)
Lemma forms_ok : forall r t fi la cs gl, r <> [] -> t <> Tar HYPHEN -> t <> Tar OTHER_RAFSI ->
  exists fs, get_rafsi_for_rafsi r t fi la cs gl = Ok fs.
Proof.
  intros r t fi la cs gl Hr H1 H2. unfold get_rafsi_for_rafsi.
  match goal with |- exists fs, bind ?X _ = _ => assert (G : exists r', X = Ok r' /\ r' <> []) end.
  { destruct fi; [exists r; auto|]. destruct r as [|c r]; [congruence|]. cbn [idx nth_error bind]. eexists. split; [reflexivity|]. destruct (_ && _); discriminate. }
  destruct G as (r' & -> & Hr'). cbn [bind]. destruct (exists_last Hr') as (s & l & El).
  assert (Hl : idx_last r' = Ok l) by (unfold idx_last; rewrite El, last_opt_app; reflexivity).
  assert (Hi : exists d, idx r' 0 = Ok d) by (destruct r'; [congruence|eexists; reflexivity]). destruct Hi as [d Hi].
  destruct t as [| | |[]]; try congruence; rewrite ?Hl, ?Hi; cbn [bind]; eauto;
    destruct la; cbn [negb]; eauto; try (destruct (is_vowel l); eauto; fail); destruct (cset_eqb cs CLUSTER); cbn [bind]; eauto; destruct fi; cbn [negb]; eauto; destruct (negb (is_vowel l)); eauto.
Qed.

(** a word listed with a rafsi, or of the shape of a gismu *)
Definition ordinary (mz : bool) (v : str) : Prop := (exists rs r, In (v, rs) RAFSI_LIST /\ In r rs) \/ gismu_form mz v.

Definition key_fine (k : str) : bool :=
  is_only_lojban_characters k && forallb (fun c => negb (N.eqb c c_y)) k
  && (is_gismu k false || match k with a :: b :: _ => is_consonant a && is_vowel b | _ => false end).
Lemma keys_fine : forallb (fun e => match snd e with [] => true | _ => key_fine (fst e) end) RAFSI_LIST = true.
Proof. vm_compute. reflexivity. Qed.

Lemma gismu_mono : forall v mz, is_gismu v false = true -> is_gismu v mz = true.
Proof.
  intros v [] H; [|exact H]. apply is_gismu_spec in H. apply is_gismu_spec.
  destruct H as [(c1 & v1 & c2 & c3 & v2 & E & H1 & H2 & (P1 & P2 & P3 & P4 & P5 & P6 & P7 & _) & H4)|H]; [|right; exact H].
  left. exists c1, v1, c2, c3, v2. split; [exact E|]. split; [exact H1|]. split; [exact H2|]. split; [|exact H4]. unfold permissible. intuition.
Qed.
Lemma gismu_no_y : forall v mz, is_gismu v mz = true -> no_y v.
Proof.
  intros v mz H. apply is_gismu_spec in H.
  assert (Y : forall c, consonant c \/ vowel c -> c <> c_y).
  { intros c [H'|H'] ->; [apply is_consonant_spec in H'|apply is_vowel_spec in H']; discriminate. }
  unfold no_y. destruct H as [(c1 & v1 & c2 & c3 & v2 & -> & H1 & H2 & (P1 & P2 & _) & H4)|(c1 & c2 & v1 & c3 & v2 & -> & H1 & H2 & H3 & H4)].
  - cbn. intros [X|[X|[X|[X|[X|[]]]]]]; revert X; apply Y; auto.
  - apply initial_c in H1 as [K1 K2]. cbn. intros [X|[X|[X|[X|[X|[]]]]]]; revert X; apply Y; auto.
Qed.
Lemma ordinary_fine : forall mz v, ordinary mz v -> is_only_lojban_characters v = true /\ no_y v
  /\ (is_gismu v mz = true \/ exists a b t, v = a :: b :: t /\ is_consonant a = true /\ is_vowel b = true).
Proof.
  intros mz v [(rs & r & H & Hr)|H].
  - pose proof keys_fine as K. rewrite forallb_forall in K. specialize (K _ H). cbn [fst snd] in K. destruct rs as [|r' rs]; [contradiction|].
    unfold key_fine in K. apply andb_t in K as [K K3]. apply andb_t in K as [K1 K2]. split; [exact K1|]. split.
    + intro X. rewrite forallb_forall in K2. specialize (K2 _ X). discriminate.
    + apply orb_true_iff in K3 as [K3|K3]; [left; apply gismu_mono; exact K3|]. right. destruct v as [|a [|b t]]; try discriminate.
      apply andb_t in K3 as [? ?]. eauto 10.
  - apply is_gismu_spec in H. destruct (gismu_cll _ _ H) as (_ & _ & G & _). split; [exact G|]. split; [eapply gismu_no_y; exact H|left; exact H].
Qed.

Lemma short_forms_ok : forall rs exp fi la cs gl, Forall (fun r => proper (rafsi_tarmi r) = true) rs ->
  exists fs, short_rafsi_forms rs exp fi la cs gl = Ok fs.
Proof.
  intros rs exp fi la cs gl H. induction H as [|r rs Hr H [fs IH]]; cbn [short_rafsi_forms]; [eauto|]. cbv zeta. rewrite IH.
  assert (G : exists x, (if tarmi_eqb (rafsi_tarmi r) OTHER_RAFSI && negb exp then Ok [] else get_rafsi_for_rafsi r (Tar (rafsi_tarmi r)) fi la cs gl) = Ok x).
  { destruct (_ && _); [eauto|]. apply forms_ok; [intros ->; discriminate Hr|intro X; injection X as X; rewrite X in Hr; discriminate..]. }
  destruct G as [x ->]. cbn [bind]. eauto.
Qed.

(** only Lojban letters, no y *)
Definition clean (v : str) : Prop := is_only_lojban_characters v = true /\ no_y v.
Lemma ordinary_clean : forall mz v, ordinary mz v -> clean v.
Proof. intros mz v H. destruct (ordinary_fine _ _ H) as (H1 & H2 & _). split; assumption. Qed.
Theorem clean_list : forall st fi la v, clean v ->
  exists forms, rafsi_list_for (analyse_brivla Bound) (jvk Bound) st fi la v = Ok forms.
Proof.
  intros st fi la v [Hl Hy]. destruct (only_last _ Hl) as (l & El & Ed).
  unfold rafsi_list_for. cbv zeta. unfold idx_last. rewrite El. cbn [bind]. rewrite Ed, Hl. cbn [negb].
  assert (G1 : exists fs, match dict_get v with Some rs => short_rafsi_forms rs (exp_rafsi_shapes st) fi la (consonants st) (glides st) | None => Ok [] end = Ok fs).
  { destruct (dict_get v) eqn:E; [|eauto]. apply short_forms_ok. eapply dict_proper. exact E. }
  destruct G1 as [fs1 ->]. cbn [bind]. destruct (only_Forall _ Hl) as [Hne HF].
  pose proof (analyse_total (ana_settings st) v Hne) as T. rewrite (lojban_spelling _ HF) in T. specialize (T Hy).
  destruct (analyse_brivla Bound (ana_settings st) v) as [[t ps]|e] eqn:E.
  - cbn [bind].
    assert (G2 : exists fs, match Some t with Some GISMU => get_rafsi_for_rafsi (dropl 1 v) SHORT_BRIVLA fi la (consonants st) (glides st) | _ => Ok [] end = Ok fs).
    { destruct t; eauto. apply forms_ok; try discriminate.
      assert (X := proj2 (C05_gismu_shape Bound (ana_settings st) v) (ex_intro _ ps E)). rewrite (lojban_spelling _ HF) in X. apply is_gismu_spec in X.
      destruct (gismu_cll _ _ X) as (_ & G & _). apply cll_len in G. intro Q. rewrite Q in G. cbn in G. lia. }
    destruct G2 as [fs2 ->]. cbn [bind].
    assert (G3 : exists fs, match Some t with Some GISMU | Some ZIhEVLA => get_rafsi_for_rafsi v LONG_BRIVLA fi la (consonants st) (glides st) | _ => Ok [] end = Ok fs).
    { destruct t; eauto; apply forms_ok; try discriminate; exact Hne. }
    destruct G3 as [fs3 ->]. cbn [bind]. eauto.
  - destruct (T e eq_refl) as [<-|[]]. cbn [bind]. eauto.
Qed.

Lemma source_smooth : forall st v r t suf, ordinary (allow_mz st) v -> source Bound st v r t -> smooth (allow_mz st) (r, t, suf).
Proof.
  intros st v r t suf Ho Hs. destruct (ordinary_fine _ _ Ho) as (Hl & Hy & Hg). destruct (only_last _ Hl) as (l & El & Ed).
  apply N.eqb_neq in Ed.
  destruct Hs as [r t ps H0|r ps H0|r H0|r H0|r rs _ _ H1 H2|r ps _ _ H1 ->|t ps _ _ H1 H2]; try congruence.
  - left. split; [eapply dict_cll; eassumption|left; reflexivity].
  - left. destruct (only_Forall _ Hl) as [Hne HF].
    assert (X := proj2 (C05_gismu_shape Bound (ana_settings st) v) (ex_intro _ ps H1)). rewrite (lojban_spelling _ HF) in X. apply is_gismu_spec in X.
    destruct (gismu_cll _ _ X) as (_ & G & _ & _ & T). split; [exact G|]. right; left. split; [reflexivity|exact T].
  - destruct Hg as [Hg|Hg]; [|right; exact Hg]. left. destruct (gismu_cll _ _ Hg) as (G & _ & _ & T & _). split; [exact G|]. right; right. split; [reflexivity|exact T].
Qed.

Lemma clean_lists : forall st n vs i, Forall clean vs ->
  exists rll, rafsi_list_list_loop (analyse_brivla Bound) (jvk Bound) st n i vs = Ok rll.
Proof.
  intros st n vs i H. revert i. induction H as [|v vs Hv H IH]; intro i; cbn [rafsi_list_list_loop]; [eauto|].
  destruct (clean_list st (i =? 0) (i =? n - 1) v Hv) as [x ->]. destruct (IH (S i)) as [y ->]. cbn [bind]. eauto.
Qed.

(** the word found for dictionary words passes the slinku'i test *)
Theorem ordinary_passes : forall st vs rll w sc ix, Forall (ordinary (allow_mz st)) vs ->
  get_rafsi_list_list (analyse_brivla Bound) (jvk Bound) st vs = Ok rll -> best_word false st rll = Ok (w, sc, ix) ->
  slinkuhi Bound (y_hyphens st) (allow_mz st) w = Ok false.
Proof.
  intros st vs rll w sc ix Ho Hr Hb. destruct (best_word_construction _ _ _ _ _ _ _ _ Hr Hb) as (choice & c & ps & K).
  destruct (chain_linked _ _ _ _ _ (k_chain _ _ _ _ _ _ _ _ _ _ K) (Nat.eq_le_incl _ _ (k_len _ _ _ _ _ _ _ _ _ _ K)) ps (k_pieces _ _ _ _ _ _ _ _ _ _ K))
    as (p & rest & -> & Hn & Hl & Esp).
  rewrite (k_word _ _ _ _ _ _ _ _ _ _ K) in Esp.
  assert (Hv : ends_vowel w).
  { destruct (k_end _ _ _ _ _ _ _ _ _ _ K) as (s & l & -> & Hl'). exists l. split; [apply last_opt_app|exact Hl']. }
  apply onset_passes; [|exact Hv]. rewrite Esp in *. eapply spell_onset; [exact Hl| | |exact Hv].
  - pose proof (k_source _ _ _ _ _ _ _ _ _ _ K) as Hs. clear -Hs Ho. unfold pc in *. set (ps := p :: map snd rest) in *. clearbody ps. revert Ho.
    induction Hs as [|v [[r t] suf] vs ps Hv Hs IH]; intro Ho; [constructor|]. apply Forall_cons_iff in Ho as [Ho1 Ho2]. constructor; [|auto].
    eapply source_smooth; eassumption.
  - destruct (k_built _ _ _ _ _ _ _ _ _ _ K) as (w0 & r & t & B). destruct (b_last _ _ _ _ _ _ _ _ B) as (ps' & X & _).
    assert (last (map snd rest) p = (r, t, [])) as Z.
    { transitivity (last (p :: map snd rest) p); [destruct rest; [congruence|reflexivity]|]. unfold pc in *. rewrite X. apply last_last. }
    unfold pc in *. rewrite Z. reflexivity.
Qed.

(** ** The builder on dictionary words *)
Lemma process_words : forall t ws, words_of t ws -> Forall (fun w => standard_spelling w <> []) ws -> process_tanru t = Ok (map standard_spelling ws).
Proof.
  intros t ws Hw F. unfold process_tanru. apply words_raw in Hw. unfold raw_words in Hw. rewrite Hw. clear Hw.
  induction F as [|w ws H F IH]; [reflexivity|]. cbn [map_res map].
  replace (normalise w) with (Ok (standard_spelling w)) by (symmetry; apply normalise_ok; intros ->; apply H; reflexivity).
  rewrite IH. reflexivity.
Qed.
Theorem clean_builder : forall gen st t ws, words_of t ws -> Forall (fun w => clean (standard_spelling w)) ws ->
  exists rll, get_rafsi_list_list (analyse_brivla Bound) (jvk Bound) st (map standard_spelling ws) = Ok rll
    /\ get_lujvo_with_analytics Bound gen st t =
       (let* '(w, sc, ix) := best_word gen st rll in
        if gen then Ok (w, sc, ix)
        else b <- slinkuhi Bound (y_hyphens st) (allow_mz st) w ;; if b : bool then Err NoLujvoFoundError else Ok (w, sc, ix)).
Proof.
  intros gen st t ws Hw Ho.
  assert (Ho' : Forall clean (map standard_spelling ws)) by (apply Forall_map; exact Ho).
  destruct (clean_lists st (length (map standard_spelling ws)) _ 0 Ho') as [rll Er]. exists rll. split; [exact Er|].
  unfold get_lujvo_with_analytics. rewrite (process_words t ws Hw).
  2:{ clear -Ho. induction Ho as [|w ws [H _] _ IH]; constructor; [|exact IH]. apply only_Forall in H as [H _]. exact H. }
  cbn [bind]. rewrite lujvo_from_list_eq. change (get_rafsi_list_list (analyse_brivla Bound) (jvk Bound) st (map standard_spelling ws) = Ok rll) in Er.
  rewrite Er. reflexivity.
Qed.
Theorem ordinary_builder : forall gen st t ws, words_of t ws -> Forall (fun w => ordinary (allow_mz st) (standard_spelling w)) ws ->
  exists rll, get_rafsi_list_list (analyse_brivla Bound) (jvk Bound) st (map standard_spelling ws) = Ok rll
    /\ get_lujvo_with_analytics Bound gen st t = best_word gen st rll.
Proof.
  intros gen st t ws Hw Ho.
  assert (Ho' : Forall (ordinary (allow_mz st)) (map standard_spelling ws)) by (apply Forall_map; exact Ho).
  destruct (clean_builder gen st t ws Hw) as (rll & Er & Eb).
  { eapply Forall_impl; [|exact Ho]. intros w. apply ordinary_clean. }
  exists rll. split; [exact Er|]. rewrite Eb. destruct (best_word gen st rll) as [[[w sc] ix]|e] eqn:E; [|reflexivity]. cbn [bind]. destruct gen; [reflexivity|].
  rewrite (ordinary_passes st _ rll w sc ix Ho' Er E). reflexivity.
Qed.

Lemma chain_score : forall gen st n choice c, chain gen st n choice c -> (c_score c <= 1100 * Z.of_nat (length (c_word c)))%Z.
Proof.
  induction 1 as [r0 n0 r1 n1 tos c H1 H2|l c r rc c' Hc IH H]; apply combine_word in H2 || apply combine_word in H.
  - destruct H2 as (hy & i & _ & _ & W & _ & _ & S & _). rewrite S, W, !app_length. pose proof (score_le r0). pose proof (score_le hy). pose proof (score_le r1).
    pose proof (tiebreak_nonneg (r0 ++ hy ++ r1)). lia.
  - destruct H as (hy & i & _ & _ & W & _ & _ & S & _). rewrite S, W, !app_length. pose proof (score_le hy). pose proof (score_le r).
    pose proof (tiebreak_nonneg (c_word c ++ hy ++ r)). lia.
Qed.
Lemma best_score : forall gen st rll w sc ix, best_word gen st rll = Ok (w, sc, ix) -> (sc <= 1100 * Z.of_nat (length w))%Z.
Proof.
  intros gen st rll w sc ix H. destruct (best_word_chain _ _ _ _ _ _ H) as (choice & c & l & _ & C & W & S & _). subst w sc. eapply chain_score. exact C.
Qed.

(** ** Gismu *)
Lemma gismu_forms : forall st fi la v forms, is_gismu v (allow_mz st) = true ->
  rafsi_list_for (analyse_brivla Bound) (jvk Bound) st fi la v = Ok forms ->
  (la = false -> In (dropl 1 v ++ [c_y], 2) forms) /\ (la = true -> In (dropl 1 v, 2) forms /\ In (v, 2) forms).
Proof.
  intros st fi la v forms Hg H. destruct (gismu_cll _ _ Hg) as (Hc & Hc' & Hl & T1 & T2). destruct (only_last _ Hl) as (l & El & Ed).
  unfold rafsi_list_for in H. cbv zeta in H. unfold idx_last at 1 in H. rewrite El in H. cbn [bind] in H. rewrite Ed, Hl in H. cbn [negb] in H.
  inv_bind H. rename x into short. clear E. rewrite (gismu_analysis Bound st v Hg Hl) in H. cbn [bind] in H. inv_bind H. rename x into sf, E into Es. inv_bind H. rename x into lf, E into Elg. injection H as <-.
  assert (Pre : forall r, cll (allow_mz st) r -> (if fi then Ok r else c <- idx r 0;; Ok (if is_vowel c && negb (is_glide r) then c_h :: r else r)) = Ok r).
  { intros r Hr. destruct fi; [reflexivity|]. destruct (cll_first _ _ Hr) as (a & b & c & t & -> & Ha & _). cbn [idx nth_error bind].
    replace (is_vowel a) with false; [reflexivity|]. symmetry. destruct (is_vowel a) eqn:E; [apply v_f0 in E; congruence|reflexivity]. }
  unfold get_rafsi_for_rafsi in Es, Elg. rewrite (Pre _ Hc') in Es. rewrite (Pre _ Hc) in Elg. cbn [bind] in Es, Elg.
  split; intros ->; cbn [negb] in Es, Elg.
  - injection Es as <-. apply in_or_app. right. apply in_or_app. left. left. reflexivity.
  - injection Elg as <-. inv_bind Es. rename x into c, E into Ec. split.
    + apply in_or_app. right. apply in_or_app. left.
      assert (X : is_vowel c = false).
      { unfold idx_last in Ec. destruct (last_opt (dropl 1 v)) eqn:Q; [|discriminate]. injection Ec as ->. destruct (is_vowel c) eqn:Hv; [|reflexivity]. exfalso.
        destruct Hc' as [s Hs]. rewrite (cll_tarmi _ _ _ Hs) in T2. inversion Hs; subst; bfacts; try (destruct T2; discriminate);
          match goal with X : _ = dropl 1 v |- _ => rewrite <- X in Q end; cbn in Q; injection Q as <-; clash. }
      rewrite X in Es. injection Es as <-. left. reflexivity.
    + apply in_or_app. right. apply in_or_app. right. left. reflexivity.
Qed.

Definition yf (v : str) : str * nat := (dropl 1 v ++ [c_y], 2).
Definition final (gen : bool) (v : str) : str * nat := (if gen then dropl 1 v else v, 2).
Lemma gismu_choice : forall gen st n mid vl i rll, Forall (fun v => is_gismu v (allow_mz st) = true) (mid ++ [vl]) -> i + length mid = n - 1 ->
  rafsi_list_list_loop (analyse_brivla Bound) (jvk Bound) st n i (mid ++ [vl]) = Ok rll ->
  Forall2 (@In (str * nat)) (map yf mid ++ [final gen vl]) rll.
Proof.
  intros gen st n mid vl. induction mid as [|v mid IH]; intros i rll F Hi H; cbn [app length map rafsi_list_list_loop] in *; inv_bind H; rename x into l, E into El; inv_bind H; rename x into r, E into Er; injection H as <-.
  - injection Er as <-. apply Forall2_cons; [|apply Forall2_nil]. replace (i =? n - 1) with true in El by (symmetry; apply Nat.eqb_eq; lia).
    destruct (gismu_forms _ _ _ _ _ (Forall_inv F) El) as [_ G]. destruct (G eq_refl) as [G1 G2]. unfold final. destruct gen; assumption.
  - replace (i =? n - 1) with false in El by (symmetry; apply Nat.eqb_neq; lia). destruct (gismu_forms _ _ _ _ _ (Forall_inv F) El) as [G _].
    apply Forall2_cons; [exact (G eq_refl)|]. eapply IH; [exact (Forall_inv_tail F)| |exact Er]. lia.
Qed.

Lemma gismu_yf : forall mz v, is_gismu v mz = true -> y_form (yf v) /\ length (fst (yf v)) = 5 /\ plain_first (fst (yf v)) /\ tarmi_ignoring_hyphen (fst (yf v)) <> CVC.
Proof.
  intros mz v H. destruct (gismu_cll _ _ H) as (_ & Hc & _ & _ & T). unfold yf. cbn [fst snd].
  assert (Ht : tarmi_ignoring_hyphen (dropl 1 v ++ [c_y]) = rafsi_tarmi (dropl 1 v)).
  { unfold tarmi_ignoring_hyphen. rewrite (strip_suffix _ _ _ Hc); reflexivity. }
  assert (L4 : exists a b c d, dropl 1 v = [a; b; c; d] /\ d <> c_h).
  { destruct Hc as [s Hs]. rewrite (cll_tarmi _ _ _ Hs) in T. inversion Hs; subst; bfacts; try (destruct T; discriminate);
      (eexists _, _, _, _; split; [reflexivity|]); intros ->; discriminate. }
  destruct L4 as (a & b & c & d & E & Hd).
  split; [split; [reflexivity|eexists; reflexivity]|]. split; [rewrite E; reflexivity|]. unfold plain_first. rewrite Ht. split; [split|].
  - destruct T as [-> | ->]; reflexivity.
  - rewrite E. cbn [app skipn]. intros (_ & _ & X). injection X as X. contradiction.
  - destruct T as [-> | ->]; discriminate.
Qed.

Theorem gismu_best : forall gen st vs rll, exp_rafsi_shapes st = false -> Forall (fun v => is_gismu v (allow_mz st) = true) vs -> 2 <= length vs ->
  (Z.of_nat (length vs) <= 10 ^ 96)%Z ->
  get_rafsi_list_list (analyse_brivla Bound) (jvk Bound) st vs = Ok rll -> exists w sc ix, best_word gen st rll = Ok (w, sc, ix).
Proof.
  intros gen st vs rll Hx F H2 Hb Hr. assert (Hne : vs <> []) by (destruct vs; [cbn in H2; lia|discriminate]).
  destruct (exists_last Hne) as (l & vl & ->). destruct l as [|v0 mid]; [cbn in H2; lia|]. rename H2 into H2'.
  pose proof Hr as Hr'. unfold get_rafsi_list_list in Hr'. apply (gismu_choice gen) in Hr'; [|exact F|rewrite app_length; cbn; lia].
  cbn [map app] in Hr'. pose proof (Forall_inv F) as F0. pose proof (Forall_inv_tail F) as F1. apply Forall_app in F1 as [F1 F2]. apply Forall_inv in F2.
  destruct (gismu_yf _ _ F0) as (Y1 & Y2 & Y3 & Y4).
  assert (Fm : Forall y_form (map yf mid)).
  { clear -F1. apply Forall_map. eapply Forall_impl; [|exact F1]. intros v H. apply (gismu_yf _ _ H). }
  destruct (gismu_cll _ _ F2) as (Gc & Gc' & _ & T1 & T2).
  destruct (chain_y gen st (length rll) (yf v0) (map yf mid) Y1 ltac:(rewrite Y2; apply le_n) Y3 Y4 Fm (final gen vl) eq_refl) as (c & C1 & C2 & C3 & C4 & C5 & C6).
  { unfold final. cbn [fst]. apply cll_len in Gc, Gc'. clear -Gc Gc'. destruct gen; intro X; rewrite X in *; cbn [length] in *; lia. }
  assert (Hend : exists l, last_opt (c_word c) = Some l /\ if gen then is_consonant l = true else is_vowel l = true).
  { assert (Ex : exists s l, fst (final gen vl) = s ++ [l] /\ if gen then is_consonant l = true else is_vowel l = true).
    { unfold final. cbn [fst]. destruct gen.
      - destruct Gc' as [s Hs]. rewrite (cll_tarmi _ _ _ Hs) in T2. inversion Hs; subst; bfacts; try (destruct T2; discriminate);
          (eexists [_; _; _], _; split; [reflexivity|assumption]).
      - destruct Gc as [s Hs]. rewrite (cll_tarmi _ _ _ Hs) in T1. inversion Hs; subst; bfacts; try (destruct T1; discriminate);
          (eexists [_; _; _; _], _; split; [reflexivity|assumption]). }
    destruct Ex as (s & l & Es & Hl). exists l. split; [|exact Hl]. rewrite C4, app_comm_cons, word_snoc, Es, app_assoc. apply last_opt_app. }
  destruct Hend as (l & El & Hl).
  assert (Hlen : (Z.of_nat (length (c_word c)) <= 5 * Z.of_nat (length ((v0 :: mid) ++ [vl])))%Z).
  { assert (G : forall m, Forall (fun v => is_gismu v (allow_mz st) = true) m -> length (word_of (map yf m)) = 5 * length m).
    { induction 1 as [|v m Hv _ IHm]; [reflexivity|]. unfold word_of in *. cbn [map concat length]. rewrite app_length, IHm. destruct (gismu_yf _ _ Hv) as (_ & -> & _). lia. }
    rewrite C4, app_comm_cons, word_snoc, !app_length. change (yf v0 :: map yf mid) with (map yf (v0 :: mid)). rewrite G by (constructor; assumption).
    assert (length (fst (final gen vl)) <= 5).
    { unfold final. cbn [fst]. assert (length vl <= 5) by (clear -F2; apply is_gismu_spec in F2; destruct F2 as [(?&?&?&?&?&->&_)|(?&?&?&?&?&->&_)]; cbn; lia).
      destruct gen; [|assumption]. unfold dropl. rewrite firstn_length. lia. }
    cbn [length]. lia. }
  destruct (best_word_optimal gen st rll (yf v0 :: map yf mid ++ [final gen vl]) c l) as [G|[_ G]];
    [exact (list_fine _ _ _ _ Hx Hr)|exact Hr'|exact C1|exact C2|exact C3|exact El|exact Hl| |].
  - destruct G as (w & sc & ix & G & _). eauto.
  - exfalso. unfold BEST_INIT in G. clear -G C5 Hlen Hb. assert (10 ^ 100 = 10000 * 10 ^ 96)%Z by reflexivity. lia.
Qed.
