(** The builder and the splitter do not look at which consonant and which vowel a
    word begins with, when a consonant follows.  So a CLL lujvo that begins with
    consonant, vowel, consonant stays one when "to" takes the place of the first
    two letters: what follows them is slinku'i. *)
From Verif Require Import Str Data Tarmi Rafsi Core Api Lib Spec Shapes Decomp Basic Vowels Katna Dict Errs Builder Jvokaha Slinku Fuel Raises Inv Parts Clusters Forms Chain Score Alt Lujvo Optimal Props1 Props2 Props3 Total Onset Pinned Found Props4 Props5 Props8 Props9 Tosm Joint Swap Unique Round.

(** ** One step of the builder *)
Lemma count_vowel_start : forall c v s, is_consonant c = true -> is_vowel v = true -> vowel_count (c :: v :: s) = S (vowel_count s).
Proof.
  intros c v s Hc Hv. unfold vowel_count. cbn [count].
  assert (Nc : N.eqb 97 c = false /\ N.eqb 101 c = false /\ N.eqb 105 c = false /\ N.eqb 111 c = false /\ N.eqb 117 c = false).
  { repeat split; match goal with |- N.eqb ?k c = false => destruct (N.eqb_spec k c); [subst c; discriminate|reflexivity] end. }
  destruct Nc as (-> & -> & -> & -> & ->).
  unfold is_vowel in Hv. cbn in Hv. repeat (apply orb_true_iff in Hv as [Hv|Hv]; [apply N.eqb_eq in Hv; subst v; cbn; lia|]); try discriminate.
Qed.
Lemma count_y_start : forall c v s, is_consonant c = true -> is_vowel v = true -> count c_y (c :: v :: s) = count c_y s.
Proof.
  intros c v s Hc Hv. cbn [count].
  destruct (N.eqb_spec c_y c); [subst c; discriminate|]. destruct (N.eqb_spec c_y v); [subst v; discriminate|]. reflexivity.
Qed.
Lemma drop_start : forall (c v e : char) t, is_hy e = false ->
  exists y z, drop_while is_hy (rev (c :: v :: e :: t)) = y ++ [e; v; c] /\ drop_while is_hy (rev (e :: t)) = y ++ [e] /\ z = rev y.
Proof.
  intros c v e t He.
  assert (A : forall l m, exists y, drop_while is_hy (l ++ [e]) = y ++ [e] /\ drop_while is_hy (l ++ e :: m) = y ++ e :: m).
  { induction l as [|a l IH]; intro m; cbn [app drop_while].
    - rewrite He. exists []. split; reflexivity.
    - destruct (is_hy a); [apply IH|]. exists (a :: l). split; reflexivity. }
  destruct (A (rev t) [v; c]) as (y & E1 & E2). exists y, (rev y). cbn [rev]. rewrite <- !app_assoc. cbn [app]. rewrite E2. split; [reflexivity|]. split; [exact E1|reflexivity].
Qed.
Lemma not_hy : forall c, is_consonant c = true \/ is_vowel c = true -> is_hy c = false.
Proof. intros c H. unfold is_hy. destruct (N.eqb_spec c c_h); [subst; destruct H; discriminate|]. destruct (N.eqb_spec c c_y); [subst; destruct H; discriminate|]. reflexivity. Qed.

Record start (c v e : char) : Prop := { s_c : is_consonant c = true; s_v : is_vowel v = true; s_e : is_consonant e = true }.

Lemma strip_start : forall e t, exists z, forall c v, start c v e -> strip_hyphens (c :: v :: e :: t) = c :: v :: e :: z.
Proof.
  intros e t. destruct (is_consonant e) eqn:He; [|exists []; intros c v S; rewrite (s_e _ _ _ S) in He; discriminate].
  exists (rev (removelast (drop_while is_hy (rev (e :: t))))). intros c v S.
  destruct (drop_start c v e t (not_hy e (or_introl He))) as (y & z & E1 & E2 & _).
  unfold strip_hyphens, strip_char. cbn [drop_while]. rewrite (not_hy c) by (left; apply S). rewrite E1, E2, removelast_last, rev_app_distr. reflexivity.
Qed.
Lemma tarmi_start : forall c v c' v' e t, start c v e -> start c' v' e -> rafsi_tarmi (c :: v :: e :: t) = rafsi_tarmi (c' :: v' :: e :: t)
  /\ tarmi_in (rafsi_tarmi (c :: v :: e :: t)) [CVhV; CVV] = false /\ tarmi_eqb (rafsi_tarmi (c :: v :: e :: t)) CCV = false /\ tarmi_eqb (rafsi_tarmi (c :: v :: e :: t)) CVV = false.
Proof.
  intros c v c' v' e t [Hc Hv He] [Hc' Hv' _].
  assert (K : is_vowel e = false) by (destruct (is_vowel e) eqn:E; [clash|reflexivity]).
  assert (Kh : N.eqb e c_h = false) by (destruct (N.eqb_spec e c_h); [subst; discriminate|reflexivity]).
  assert (S1 : forall s, str_eqb (c :: s) (L "'y") = false) by (intro s; cbn; destruct (N.eqb_spec c 39); [subst; discriminate|reflexivity]).
  assert (S2 : forall s, str_eqb (c' :: s) (L "'y") = false) by (intro s; cbn; destruct (N.eqb_spec c' 39); [subst; discriminate|reflexivity]).
  assert (Kv : is_consonant v = false) by (destruct (is_consonant v) eqn:E; [clash|reflexivity]).
  assert (Kv' : is_consonant v' = false) by (destruct (is_consonant v') eqn:E; [clash|reflexivity]).
  unfold rafsi_tarmi. rewrite S1, S2, Hc, Hc'. cbn [negb andb].
  destruct t as [|d [|f [|g t]]].
  - rewrite K, Hv, Hv', He. cbn. auto.
  - rewrite Hv, Hv', He, Kh. destruct (is_vowel d), (is_consonant d); cbn; auto.
  - unfold is_gismu_shape. cbn [nth_error length]. rewrite ?K, ?Hv, ?Hv', ?He, ?Kv, ?Kv', ?Hc, ?Hc'. cbn [negb andb orb].
    repeat match goal with |- context [if ?b then _ else _] => destruct b end; cbn; auto.
  - cbn. auto.
Qed.
Lemma ignoring_start : forall c v c' v' e t, start c v e -> start c' v' e ->
  tarmi_ignoring_hyphen (c :: v :: e :: t) = tarmi_ignoring_hyphen (c' :: v' :: e :: t)
  /\ tarmi_in (tarmi_ignoring_hyphen (c :: v :: e :: t)) [CVhV; CVV] = false.
Proof.
  intros c v c' v' e t S S'. destruct (strip_start e t) as [z E]. unfold tarmi_ignoring_hyphen. rewrite (E _ _ S), (E _ _ S').
  destruct (tarmi_start c v c' v' e z S S') as (A & B & _). split; assumption.
Qed.
Lemma score_start : forall c v c' v' e t, start c v e -> start c' v' e -> score (c :: v :: e :: t) = score (c' :: v' :: e :: t).
Proof.
  intros c v c' v' e t S S'. unfold score. destruct (ignoring_start c v c' v' e t S S') as [-> _].
  rewrite (count_vowel_start c v), (count_vowel_start c' v'), (count_y_start c v), (count_y_start c' v') by (apply S || apply S'). reflexivity.
Qed.
Lemma tiebreak_start : forall c v e t, start c v e -> tiebreak (c :: v :: e :: t) = 0%Z.
Proof.
  intros c v e t S. unfold tiebreak. cbn [firstn]. destruct (tarmi_start c v c v e [] S S) as (_ & _ & _ & ->). reflexivity.
Qed.
Lemma glue_start : forall c v c' v' e t r T gen n yh ll r0, start c v e -> start c' v' e ->
  glue (c' :: v' :: e :: t) r T gen n yh ll r0 = glue (c :: v :: e :: t) r T gen n yh ll r0
  /\ (forall hy, glue (c :: v :: e :: t) r T gen n yh ll r0 = Some hy -> hy = [] \/ hy = [c_y]).
Proof.
  intros c v c' v' e t r T gen n yh ll r0 S S'. unfold glue. cbn [firstn length].
  destruct (tarmi_start c v c v e [] S S) as (_ & _ & E1 & _). destruct (tarmi_start c' v' c' v' e [] S' S') as (_ & _ & E2 & _). rewrite E1, E2.
  destruct (ignoring_start c v c' v' e t S S') as [E3 E4]. rewrite <- E3, E4, !andb_false_r. cbn [andb]. split; [reflexivity|].
  intros hy H. repeat match type of H with context [if ?b then _ else _] => destruct b end; try discriminate H; injection H as <-; auto.
Qed.
Lemma last_sound_start : forall c v c' v' e t, start c v e -> last_sound (c :: v :: e :: t) = last_sound (c' :: v' :: e :: t) /\ exists l, last_sound (c :: v :: e :: t) = Ok l.
Proof.
  intros c v c' v' e t S. pose proof (not_hy e (or_introl (s_e _ _ _ S))) as He. unfold last_sound.
  destruct (drop_start c v e t He) as (y & _ & -> & E & _). destruct (drop_start c' v' e t He) as (y' & _ & -> & E' & _).
  rewrite E in E'. apply app_inv_tail in E'. subst y'. destruct y as [|a y]; cbn; split; eauto.
Qed.
(** Two consonants in the beginning already make up the count. *)
Lemma cons_start : forall c v e t r hy rc cs gl, start c v e -> hy = [] \/ hy = [c_y] -> (exists s, first_sound r = Ok s) ->
  next_consonants (c :: v :: e :: t) r hy 2 rc cs gl = Ok 2.
Proof.
  intros c v e t r hy rc cs gl S Hh [s Hr]. unfold next_consonants.
  replace (str_eqb hy [c_n] || str_eqb hy [c_r]) with false by (destruct Hh as [-> | ->]; reflexivity).
  destruct (last_sound_start c v c v e t S) as [_ [l El]].
  assert (A : forall k, Ok (if cset_eqb cs ONE_CONSONANT && (0 <? Nat.min 2 (2 + k)) then 2 else Nat.min 2 (2 + k)) = Ok 2 :> res nat).
  { intro k. replace (Nat.min 2 (2 + k)) with 2 by lia. destruct (cset_eqb cs ONE_CONSONANT); reflexivity. }
  destruct (cset_eqb cs CLUSTER); [|cbn [bind]; apply A]. destruct (negb (rc =? 2)); [|cbn [bind]; apply A].
  rewrite El, Hr. cbn [bind]. apply A.
Qed.
Lemma last_start : forall (c v e : char) (t : str), idx_last (c :: v :: e :: t) = idx_last (e :: t).
Proof. intros. unfold idx_last. reflexivity. Qed.

Lemma combine_start : forall c v c' v' e t r rc rc' sc ix tos gen n st st' d, start c v e -> start c' v' e -> (exists s, first_sound r = Ok s) ->
  y_hyphens st' = y_hyphens st -> allow_mz st' = allow_mz st ->
  combine (c :: v :: e :: t) r 2 rc sc ix tos gen n st = Ok (Some d) ->
  exists z, d = mkCand (c_tos d) 2 (c_score d) (c :: v :: e :: z) (c_idx d)
    /\ combine (c' :: v' :: e :: t) r 2 rc' sc ix tos gen n st' = Ok (Some (mkCand (c_tos d) 2 (c_score d) (c' :: v' :: e :: z) (c_idx d))).
Proof.
  intros c v c' v' e t r rc rc' sc ix tos gen n st st' d S S' Hr Ey Em H. unfold combine in *. rewrite last_start in *.
  destruct (idx_last (e :: t)) as [ll|]; [|discriminate]. cbn [bind] in *. destruct (idx r 0) as [r0|]; [|discriminate]. cbn [bind] in *.
  rewrite Ey, Em. destruct (is_consonant ll && is_consonant r0 && negb (mems [ll; r0] (valid_pairs (allow_mz st)))); [discriminate|].
  destruct (negb (is_hy ll) && N.eqb r0 c_h); [discriminate|]. destruct (mems (ll :: firstn 2 r) BANNED_TRIPLES); [discriminate|].
  destruct (negb (is_hy ll) && tarmi_eqb (tarmi_ignoring_hyphen r) OTHER_RAFSI); [discriminate|].
  destruct (idx_last ix) as [li|]; [|discriminate]. cbn [bind] in *.
  assert (P : forall w : str, slice (fst li) (fst li) w = []).
  { intro w. unfold slice. rewrite Nat.sub_diag. reflexivity. }
  rewrite !P in *. cbn [rafsi_tarmi tarmi_in existsb] in *. 
  match type of H with context [if ?b then Ok None else _] => change b with false in H end.
  match goal with |- context [if ?b then Ok None else _] => change b with false end. cbv iota in *.
  destruct (glue_start c v c' v' e t r (tarmi_ignoring_hyphen r) gen n (y_hyphens st) ll r0 S S') as [-> G].
  destruct (glue (c :: v :: e :: t) r (tarmi_ignoring_hyphen r) gen n (y_hyphens st) ll r0) as [hy|]; [|discriminate]. specialize (G hy eq_refl).
  destruct (next_tosmabru tos r (tarmi_ignoring_hyphen r) ll r0) as [tos'|]; [|discriminate].
  rewrite (cons_start c v e t r hy rc _ _ S G Hr) in H. rewrite (cons_start c' v' e t r hy rc' _ _ S' G Hr). cbn [bind app] in *.
  rewrite (tiebreak_start c v e) in H by exact S. rewrite (tiebreak_start c' v' e) by exact S'. injection H as <-. cbn [c_tos c_score c_idx length] in *.
  exists (t ++ hy ++ r). split; reflexivity.
Qed.

Lemma chain_start : forall gen st n ch d, chain gen st n ch d -> forall c v e x l, ch = (c :: v :: e :: x, 2) :: l -> start c v e ->
  Forall (fun y => exists s, first_sound (fst y) = Ok s) l ->
  exists z, d = mkCand (c_tos d) 2 (c_score d) (c :: v :: e :: z) (c_idx d)
    /\ forall c' v' st' l', start c' v' e -> y_hyphens st' = y_hyphens st -> allow_mz st' = allow_mz st -> map fst l' = map fst l ->
       chain gen st' n ((c' :: v' :: e :: x, 2) :: l') (mkCand (c_tos d) 2 (c_score d) (c' :: v' :: e :: z) (c_idx d)).
Proof.
  intros gen st n ch d C. induction C as [r0 n0 r1 n1 tos d Ht Hd|l0 d r rc d' C IH Hd]; intros c v e x l E S F.
  - injection E as -> -> <-. assert (Hr : exists s, first_sound r1 = Ok s) by (inversion F; subst; assumption).
    assert (A : forall c' v' st' rc', start c' v' e -> y_hyphens st' = y_hyphens st -> allow_mz st' = allow_mz st ->
      exists z, d = mkCand (c_tos d) 2 (c_score d) (c :: v :: e :: z) (c_idx d)
      /\ combine (c' :: v' :: e :: x) r1 2 rc' (score (c' :: v' :: e :: x)) [(0, length (strip_hyphens (c' :: v' :: e :: x)))] tos gen n st'
        = Ok (Some (mkCand (c_tos d) 2 (c_score d) (c' :: v' :: e :: z) (c_idx d)))).
    { intros c' v' st' rc' S' Ey Em. rewrite (score_start c' v' c v) by assumption.
      replace (length (strip_hyphens (c' :: v' :: e :: x))) with (length (strip_hyphens (c :: v :: e :: x))).
      - eapply combine_start; eassumption.
      - destruct (strip_start e x) as [z Ez]. rewrite !Ez by assumption. reflexivity. }
    destruct (A c v st n1 S eq_refl eq_refl) as (z & Ed & _). exists z. split; [exact Ed|].
    intros c' v' st' l' S' Ey Em El. destruct l' as [|[r1' n1'] [|? ?]]; try discriminate. cbn in El. injection El as ->.
    destruct (A c' v' st' n1' S' Ey Em) as (z' & Ed' & Hc). rewrite Ed in Ed'. injection Ed' as Ez. rewrite <- Ez in Hc.
    apply chain_two with (tos := tos); [|exact Hc].
    unfold first_tos in *. destruct (ignoring_start c v c' v' e x S S') as [<- _].
    destruct (negb (tarmi_eqb (tarmi_ignoring_hyphen (c :: v :: e :: x)) CVC) || gen); [exact Ht|]. rewrite last_start in *. exact Ht.
  - destruct l0 as [|y l0]; [apply chain_length in C; cbn in C; lia|]. cbn [app] in E. injection E as -> <-.
    apply Forall_app in F as [F1 F2]. assert (Hr : exists s, first_sound r = Ok s) by (inversion F2; subst; assumption).
    destruct (IH c v e x l0 eq_refl S F1) as (z & Ed & K). rewrite Ed in Hd. cbn [c_word c_cons c_score c_idx c_tos] in Hd.
    destruct (combine_start c v c v e z r rc rc _ _ _ _ _ st st _ S S Hr eq_refl eq_refl Hd) as (z' & Ed' & _).
    exists z'. split; [exact Ed'|]. intros c' v' st' l' S' Ey Em El.
    assert (exists l1 rc', l' = l1 ++ [(r, rc')] /\ map fst l1 = map fst l0) as (l1 & rc' & -> & El1).
    { rewrite map_app in El. destruct l' as [|y' l'] using rev_ind; [symmetry in El; apply app_eq_nil in El as [_ El]; discriminate|]. rewrite map_app in El. cbn [map] in El.
      apply app_inj_tail in El as [El1 El2]. destruct y' as [r' rc']. cbn [fst] in El2. subst r'. exists l', rc'. auto. }
    rewrite app_comm_cons. eapply chain_next; [apply (K c' v' st' l1 S' Ey Em El1)|]. cbn [c_word c_cons c_score c_idx c_tos].
    destruct (combine_start c v c' v' e z r rc rc' _ _ _ _ _ st st' _ S S' Hr Ey Em Hd) as (z2 & Ed2 & Hc).
    rewrite Ed' in Ed2. injection Ed2 as <-. exact Hc.
Qed.

(** ** The word that is expected for given rafsi *)
Lemma expected_cheapest : forall gen st rs w sc ix, exp_rafsi_shapes st = false -> Forall (cll (allow_mz st)) rs ->
  expected_entry (y_hyphens st) (consonants st) (glides st) (allow_mz st) gen rs = Ok (w, sc, ix) ->
  exists ch c, cheapest gen st (length rs) (tforms st (length rs) 0 rs) ch c /\ c_word c = w /\ c_score c = sc /\ c_idx c = ix /\ (sc < BEST_INIT)%Z.
Proof.
  intros gen st rs w sc ix Hex Fr H. unfold expected_entry in H. destruct (piece_forms (consonants st) (glides st) rs) as [ru|] eqn:Eu; [|discriminate].
  cbn [bind] in H. rewrite (exact_settings _ Hex) in H.
  rewrite <- (rafsi_list_list_dashed (analyse_brivla Bound) (jvk Bound) st rs Fr) in Eu.
  assert (Od : Forall2 (offers st) (map dashed rs) rs).
  { clear -Fr. induction Fr as [|r rs Hr F IH]; cbn [map]; constructor; [apply dashed_offers; exact Hr|exact IH]. }
  assert (Ld : length (map dashed rs) = length rs) by apply map_length.
  assert (Hoff : forall ch', tforms st (length rs) 0 rs ch' -> Forall2 (@In (str * nat)) ch' ru).
  { intros ch' T'. unfold get_rafsi_list_list in Eu. rewrite Ld in Eu. eapply offered; [exact Od|exact Eu|exact T']. }
  assert (Lu : length ru = length rs) by (unfold get_rafsi_list_list in Eu; destruct (list_list_nth _ _ _ _ _ _ _ Eu) as [Q _]; congruence).
  pose proof (list_fine _ _ _ _ Hex Eu) as Hfu.
  destruct (best_word_construction _ _ _ _ _ _ _ _ Eu H) as (ch2 & c2 & ps2 & K2).
  assert (G : Forall2 (fun r p => p_r p = r /\ p_t p = Tar (rafsi_tarmi r)) rs ps2).
  { pose proof (k_source _ _ _ _ _ _ _ _ _ _ K2) as Hs. clear -Hs Fr. revert ps2 Hs.
    induction Fr as [|r rs Hr F IH]; intros ps Hs; inversion Hs; subst; constructor; [|apply IH; assumption].
    apply source_dashed in H1; [|exact Hr]. exact H1. }
  assert (Em : map p_r ps2 = rs) by (clear -G; induction G as [|? ? ? ? [? _] G IH]; cbn [map]; congruence).
  assert (F2 : Forall (fun q => cll (allow_mz st) (p_r q) /\ kind_of (p_r q) (p_t q)) ps2).
  { clear -G Fr. revert Fr. induction G as [|r p rs ps [<- Ht] G IH]; intro F; constructor; inversion F; subst; auto. split; [assumption|]. left. exact Ht. }
  pose proof (pieces_tforms _ _ _ _ (k_pieces _ _ _ _ _ _ _ _ _ _ K2) F2) as T2. unfold pc in *. rewrite Em, Ld in T2.
  exists ch2, c2. split; [|split; [apply K2|split; [apply K2|split; [apply K2|eapply best_init; exact H]]]].
  eapply (best_cheapest gen st (length rs) ru w sc ix); try exact Hfu; try exact H; try exact Lu; try exact T2; try exact Hoff;
      try apply (k_word _ _ _ _ _ _ _ _ _ _ K2); try apply (k_score _ _ _ _ _ _ _ _ _ _ K2);
      try apply (k_tos _ _ _ _ _ _ _ _ _ _ K2); try apply (k_cons _ _ _ _ _ _ _ _ _ _ K2); try apply (k_end _ _ _ _ _ _ _ _ _ _ K2).
  rewrite <- Ld. apply (k_chain _ _ _ _ _ _ _ _ _ _ K2).
Qed.
Lemma expected_exists : forall gen st rs ch c, exp_rafsi_shapes st = false -> Forall (cll (allow_mz st)) rs ->
  tforms st (length rs) 0 rs ch -> whole gen st (length rs) ch c -> (c_score c < BEST_INIT)%Z ->
  exists w sc ix, expected_entry (y_hyphens st) (consonants st) (glides st) (allow_mz st) gen rs = Ok (w, sc, ix).
Proof.
  intros gen st rs ch c Hex Fr T (C & Ct & Cc & l & El & Vl) Hs. unfold expected_entry.
  destruct (piece_forms_ok (consonants st) (glides st) (allow_mz st) rs Fr) as [ru Eu]. rewrite Eu. cbn [bind]. rewrite (exact_settings _ Hex).
  rewrite <- (rafsi_list_list_dashed (analyse_brivla Bound) (jvk Bound) st rs Fr) in Eu.
  assert (Od : Forall2 (offers st) (map dashed rs) rs).
  { clear -Fr. induction Fr as [|r rs Hr F IH]; cbn [map]; constructor; [apply dashed_offers; exact Hr|exact IH]. }
  assert (Ld : length (map dashed rs) = length rs) by apply map_length.
  assert (Hoff : Forall2 (@In (str * nat)) ch ru).
  { unfold get_rafsi_list_list in Eu. rewrite Ld in Eu. eapply offered; [exact Od|exact Eu|exact T]. }
  assert (Lu : length ru = length rs) by (unfold get_rafsi_list_list in Eu; destruct (list_list_nth _ _ _ _ _ _ _ Eu) as [Q _]; congruence).
  pose proof (list_fine _ _ _ _ Hex Eu) as Hfu. rewrite <- Lu in C.
  destruct (best_word_optimal gen st ru ch c l Hfu Hoff C Ct Cc El Vl) as [(w2 & sc2 & ix2 & E2 & Q)|[_ Q]]; [eauto|].
  exfalso. clear -Q Hs. lia.
Qed.

Lemma tforms_recast : forall st st' n rs i ch, tforms st n i rs ch -> exists ch', tforms st' n i rs ch' /\ map fst ch' = map fst ch.
Proof.
  intros st st' n. induction rs as [|r rs IH]; intros i [|x ch] H; cbn [tforms] in H; try contradiction; [exists []; split; [exact I|reflexivity]|].
  destruct H as [(suf & Hs & ->) H]. destruct (IH _ _ H) as (ch' & T & E). exists ((r ++ suf, cr st' r) :: ch'). split; [|cbn [map fst]; rewrite E; reflexivity].
  cbn [tforms]. split; [|exact T]. exists suf. auto.
Qed.
Lemma cll_start : forall mz c v c' v' e x, start c v e -> start c' v' e -> cll mz (c :: v :: e :: x) -> cll mz (c' :: v' :: e :: x).
Proof.
  intros mz c v c' v' e x [Hc Hv He] [Hc' Hv' _] [s Hs]. exists s. apply is_consonant_spec in Hc', He. apply is_vowel_spec in Hv'.
  inversion Hs; subst; try (exfalso; bfacts; clash); constructor; assumption.
Qed.
Lemma cr_start : forall st c v e x, start c v e -> cr st (c :: v :: e :: x) = 2.
Proof.
  intros st c v e x S. unfold cr, credit. destruct (tarmi_start c v c v e x S S) as (_ & T & _).
  destruct (rafsi_tarmi (c :: v :: e :: x)); try reflexivity; discriminate.
Qed.
Lemma fine_sounds : forall cs l, Forall (fine cs) l -> Forall (fun y => exists s, first_sound (fst y) = Ok s) l.
Proof. intros cs l. apply Forall_impl. intros y (_ & (v & s & _ & H) & _). eauto. Qed.

Lemma whole_start : forall st st' n c v c' v' e x rs ch d, start c v e -> start c' v' e ->
  y_hyphens st' = y_hyphens st -> allow_mz st' = allow_mz st -> Forall (cll (allow_mz st)) rs ->
  tforms st n 0 ((c :: v :: e :: x) :: rs) ch -> whole false st n ch d ->
  exists z ch', d = mkCand (c_tos d) 2 (c_score d) (c :: v :: e :: z) (c_idx d)
    /\ tforms st' n 0 ((c' :: v' :: e :: x) :: rs) ch' /\ whole false st' n ch' (mkCand (c_tos d) 2 (c_score d) (c' :: v' :: e :: z) (c_idx d)).
Proof.
  intros st st' n c v c' v' e x rs ch d S S' Ey Em Fr T (C & Ct & Cc & l & El & Vl). destruct ch as [|y ch]; [contradiction|].
  destruct T as [(suf & Hs & ->) T]. rewrite cr_start in C by exact S.
  pose proof (fine_sounds _ _ (tforms_fine _ _ _ _ _ Fr T)) as F.
  destruct (chain_start _ _ _ _ _ C c v e (x ++ suf) ch eq_refl S F) as (z & Ed & K).
  destruct (tforms_recast st st' n rs _ ch T) as (ch' & T' & E').
  exists z, (((c' :: v' :: e :: x) ++ suf, 2) :: ch'). split; [exact Ed|]. split.
  - cbn [tforms]. split; [|exact T']. exists suf. split; [|rewrite cr_start by exact S'; reflexivity].
    destruct (tarmi_start c v c' v' e x S S') as [<- _]. exact Hs.
  - split; [apply (K c' v' st' ch' S' Ey Em E')|]. split; [exact Ct|]. split; [reflexivity|]. exists l. split; [|exact Vl].
    rewrite Ed in El. exact El.
Qed.

Theorem recast_expected : forall yh cs gl cs' gl' mz c v c' v' e x rs w sc ix, start c v e -> start c' v' e ->
  Forall (cll mz) ((c :: v :: e :: x) :: rs) -> rs <> [] ->
  expected_entry yh cs gl mz false ((c :: v :: e :: x) :: rs) = Ok (w, sc, ix) ->
  exists z, w = c :: v :: e :: z /\ expected_entry yh cs' gl' mz false ((c' :: v' :: e :: x) :: rs) = Ok (c' :: v' :: e :: z, sc, ix).
Proof.
  intros yh cs gl cs' gl' mz c v c' v' e x rs w sc ix S S' Fr Hn H.
  set (st := mkSettings yh false cs gl mz). set (st' := mkSettings yh false cs' gl' mz).
  assert (Fr' : Forall (cll mz) ((c' :: v' :: e :: x) :: rs)).
  { inversion Fr; subst. constructor; [|assumption]. apply (cll_start mz c v c' v' e x S S'). assumption. }
  assert (Frs : Forall (cll mz) rs) by (inversion Fr; assumption).
  destruct (expected_cheapest _ st _ w sc ix eq_refl Fr H) as (ch & d & M & Ew & Es & Ei & Hb).
  destruct (whole_start st st' _ c v c' v' e x rs ch d S S' eq_refl eq_refl Frs (h_in _ _ _ _ _ M) (h_whole _ _ _ _ _ M)) as (z & ch' & Ed & T' & W').
  exists z. split; [rewrite <- Ew, Ed; reflexivity|].
  destruct (expected_exists _ st' _ ch' _ eq_refl Fr' T' W') as (w2 & sc2 & ix2 & H2); [cbn [c_score]; rewrite Es; exact Hb|].
  cbn [st' y_hyphens consonants glides allow_mz] in H2. rewrite H2.
  destruct (expected_cheapest _ st' _ w2 sc2 ix2 eq_refl Fr' H2) as (ch2 & d2 & M2 & Ew2 & Es2 & Ei2 & _).
  destruct (whole_start st' st _ c' v' c v e x rs ch2 d2 S' S eq_refl eq_refl Frs (h_in _ _ _ _ _ M2) (h_whole _ _ _ _ _ M2)) as (z2 & ch3 & Ed2 & T3 & W3).
  assert (A1 : (c_score d2 <= c_score d)%Z) by (apply (h_min _ _ _ _ _ M2 _ _ T' W')).
  assert (A2 : (c_score d <= c_score d2)%Z) by (apply (h_min _ _ _ _ _ M _ _ T3 W3)).
  assert (A3 : c_score d = c_score d2) by (clear -A1 A2; lia).
  assert (M3 : cheapest false st (length ((c :: v :: e :: x) :: rs)) (tforms st (length ((c :: v :: e :: x) :: rs)) 0 ((c :: v :: e :: x) :: rs)) ch3 (mkCand (c_tos d2) 2 (c_score d2) (c :: v :: e :: z2) (c_idx d2))).
  { constructor; [exact T3|exact W3|]. intros ch4 d4 T4 W4. cbn [c_score]. rewrite <- A3. exact (h_min _ _ _ _ _ M _ _ T4 W4). }
  assert (L2 : 2 <= length ((c :: v :: e :: x) :: rs)) by (destruct rs; [congruence|cbn; lia]).
  destruct (unique false st _ _ _ _ _ Fr L2 M M3) as [U1 U2].
  cbn [c_word c_idx] in U1, U2. rewrite Ed in U1. cbn [c_word] in U1. injection U1 as <-.
  rewrite <- Ew2, <- Es2, <- Ei2, <- Ei, <- Es, Ed2. cbn [c_word c_score c_idx]. rewrite U2, A3. reflexivity.
Qed.

(** ** The whole lujvo *)
Lemma drops_start : forall u corr arr, drops u corr arr -> forall r r' u0, u = r :: u0 -> ~ (shaped "CVV" r \/ shaped "CV'V" r) -> drops (r' :: u0) corr arr.
Proof.
  intros u corr arr D. induction D as [u|u p corr arr D IH|u q o p corr arr Ho Hq Hp D IH]; intros r r' u0 E Hr.
  - constructor.
  - constructor. apply (IH r r' (u0 ++ [p])); [rewrite E; reflexivity|exact Hr].
  - destruct u as [|a u]; [cbn [app] in E; injection E as <- <-; contradiction|]. cbn [app] in E. injection E as -> <-.
    rewrite app_comm_cons. constructor; [exact Ho|exact Hq|left; discriminate|].
    apply (IH r r' ((u ++ [q]) ++ [o; p])); [reflexivity|exact Hr].
Qed.
Lemma cut_start : forall rn hy mz c v c' v' e x next, start c v e -> start c' v' e ->
  cut rn hy mz None ((c :: v :: e :: x) :: next) -> cut rn hy mz None ((c' :: v' :: e :: x) :: next).
Proof.
  intros rn hy mz c v c' v' e x next S S' [[H|(q & Q & _)] C]; [|discriminate].
  assert (Hs : forall s, cll_rafsi mz s (c :: v :: e :: x) -> cll_rafsi mz s (c' :: v' :: e :: x) /\ s <> "CVV"%string /\ s <> "CV'V"%string).
  { intros s Hs. destruct S as [Hc Hv He], S' as [Hc' Hv' _]. apply is_consonant_spec in Hc'. pose proof He as He'. apply is_consonant_spec in He'. apply is_vowel_spec in Hv'.
    split; [inversion Hs; subst; try (exfalso; bfacts; clash); constructor; assumption|].
    split; intros ->; inversion Hs; subst; bfacts; clash. }
  split; [left|].
  - destruct H as (s & Hr & Hp). destruct (Hs s Hr) as [Hr' _]. exists s. split; [exact Hr'|]. clear Hr'.
    inversion Hr; subst; try exact Hp. intros c1 v1 c2 E0. injection E0 as <- <- <-. apply (Hp _ _ _ eq_refl).
  - destruct next as [|p next]; [exact I|]. destruct C as [[H1|(q & Q & H1)] C]; (split; [|exact C]); [left; exact H1|right].
    injection Q as <-. eexists. split; [reflexivity|]. destruct H as (s & Hr & _). destruct (Hs s Hr) as (Hr' & N1 & N2).
    pose proof (not_cvv _ _ _ Hr N1 N2) as G. pose proof (not_cvv _ _ _ Hr' N1 N2) as G'.
    destruct H1 as [Hl [E|[E|(_ & Hq & _)]]]; [split; [exact Hl|auto]|split; [exact Hl|auto]|contradiction].
Qed.

Lemma alternates_start : forall (r r' : str) arr, is_hyphen r = is_hyphen r' -> alternates false (r :: arr) -> alternates false (r' :: arr).
Proof. intros r r' arr E H. cbn [alternates] in *. rewrite <- E. exact H. Qed.

Theorem recast_lujvo : forall yh cs gl cs' gl' mz c v c' v' e u arr correct, start c v e -> start c' v' e ->
  cll_lujvo Bound yh cs gl mz (c :: v :: e :: u) arr false correct ->
  exists ps, jvk Bound yh cs' gl' mz (c' :: v' :: e :: u) = Ok ps.
Proof.
  intros yh cs gl cs' gl' mz c v c' v' e u arr correct S S' Y.
  pose proof (x_concat _ _ _ _ _ _ _ _ _ Y) as Ec. pose proof (x_cut _ _ _ _ _ _ _ _ _ Y) as C.
  destruct arr as [|p next]; [discriminate|]. pose proof C as [[(s & Hs & _)|(q0 & Q & _)] C']; [|discriminate].
  assert (exists x, p = c :: v :: e :: x /\ concat next = skipn (length x) u /\ u = x ++ concat next) as (x & -> & _ & Eu).
  { cbn [concat] in Ec. assert (L3 : 3 <= length p) by (apply (cll_len mz); exists s; exact Hs).
    destruct p as [|p0 [|p1 [|p2 x]]]; try (cbn in L3; lia). cbn [app] in Ec. injection Ec as -> -> -> Ec. exists x. split; [reflexivity|]. split; [|symmetry; exact Ec].
    rewrite <- Ec, skipn_app, skipn_all, Nat.sub_diag. reflexivity. }
  assert (Hcl : cll mz (c :: v :: e :: x)) by (exists s; exact Hs).
  assert (Hcl' : cll mz (c' :: v' :: e :: x)) by (apply (cll_start mz c v c' v' e x S S' Hcl)).
  pose proof (cut_rafsi_cll _ _ _ _ _ C) as Fr.
  assert (Er : forall a b, rafsi_of ((a :: b :: e :: x) :: next) = (a :: b :: e :: x) :: rafsi_of next) by reflexivity.
  assert (Ncv : ~ (shaped "CVV" (c :: v :: e :: x) \/ shaped "CV'V" (c :: v :: e :: x))).
  { apply (not_cvv _ _ _ Hs); intros ->; destruct S; inversion Hs; subst; bfacts; clash. }
  assert (Hcv : cvv_like (hd [] (rafsi_of ((c :: v :: e :: x) :: next))) = false).
  { rewrite Er. cbn [hd]. unfold cvv_like. destruct (tarmi_start c v c v e x S S) as (_ & T & _). destruct (rafsi_tarmi (c :: v :: e :: x)); try discriminate T; reflexivity. }
  destruct (lujvo_without_rn _ _ _ _ _ _ _ _ _ Y Hcv) as (J & Rf & Ecor & Al & _).
  pose proof (x_word _ _ _ _ _ _ _ _ _ Y) as Xw. rewrite Er in Xw, Fr.
  assert (H2 : rafsi_of next <> []).
  { pose proof (x_two _ _ _ _ _ _ _ _ _ Y) as H2. rewrite Er in H2. destruct (rafsi_of next); [cbn in H2; lia|discriminate]. }
  unfold expected_word in Xw. destruct (expected_entry yh cs gl mz false ((c :: v :: e :: x) :: rafsi_of next)) as [[[w sc] ix]|] eqn:Ee; [|discriminate].
  destruct (recast_expected yh cs gl cs' gl' mz c v c' v' e x _ w sc ix S S' Fr H2 Ee) as (z & Ew & Ee').
  cbn [bind] in Xw.
  assert (w = correct) as ->.
  { destruct (slinkuhi Bound yh mz w) as [[|]|] eqn:E in Xw; cbn [bind] in Xw; congruence. }
  set (arr' := (c' :: v' :: e :: x) :: next).
  exists arr'. apply (cll_lujvo_jvk Bound yh cs' gl' mz _ _ false (c' :: v' :: e :: z)).
  constructor.
  - unfold arr'. cbn [concat app]. rewrite Eu. reflexivity.
  - exact (cut_start _ _ _ c v c' v' e x _ S S' C).
  - unfold arr'. rewrite Er. destruct (rafsi_of next); [congruence|cbn; lia].
  - destruct (x_last _ _ _ _ _ _ _ _ _ Y) as (s1 & l & E1 & E2). destruct s1 as [|a [|b s1]]; try discriminate.
    cbn [app] in E1. injection E1 as -> -> E1. exists (c' :: v' :: s1), l. split; [cbn [app]; rewrite <- E1; reflexivity|exact E2].
  - unfold arr'. rewrite Er. unfold expected_word. rewrite Ee'. cbn [bind].
    assert (Hv : ends_vowel (c' :: v' :: e :: z)).
    { assert (F' : Forall (cll mz) ((c' :: v' :: e :: x) :: rafsi_of next)) by (constructor; [exact Hcl'|inversion Fr; assumption]).
      destruct (expected_cheapest _ (mkSettings yh false cs' gl' mz) _ _ _ _ eq_refl F' Ee') as (ch & d & M & <- & _).
      destruct (h_whole _ _ _ _ _ M) as (_ & _ & _ & l & El & Vl). exists l. split; assumption. }
    rewrite (onset_passes yh mz (c' :: v' :: e :: z)); [reflexivity| |exact Hv]. apply on_cv; apply S'.
  - intro F. pose proof (x_force _ _ _ _ _ _ _ _ _ Y F) as X. rewrite Ew in X. injection X as ->. reflexivity.
  - intro F. destruct (x_drops _ _ _ _ _ _ _ _ _ Y F) as (corr & J' & D). rewrite J in J'. injection J' as <-.
    exists (filter norn arr'). assert (En : forall a b, filter norn ((a :: b :: e :: x) :: next) = (a :: b :: e :: x) :: filter norn next).
    { intros a b. cbn [filter]. rewrite norn_long. reflexivity. }
    unfold arr'. rewrite En in *. split.
    + apply jvokaha_2_spec. apply jvokaha_2_spec in J as [J1 J2]. split; [|exact (cut_start _ _ _ c v c' v' e x _ S S' J2)].
      cbn [concat app] in *. rewrite Ew in J1. injection J1 as J1. rewrite J1. reflexivity.
    + cbn [filter] in D. rewrite norn_long in D. inversion D as [|u0 p0 co ot D1|u0 q0 o p0 co ot O1 O2 O3 D1 U]; subst; [|destruct u0; discriminate].
      constructor. cbn [app] in *. eapply (drops_start _ _ _ D1); [reflexivity|exact Ncv].
  - unfold arr'. eapply alternates_start; [|exact (x_alt _ _ _ _ _ _ _ _ _ Y)]. rewrite (cll_not_hyphen _ _ Hcl), (cll_not_hyphen _ _ Hcl'). reflexivity.
Qed.

(** What is left of a CLL lujvo after a longer cmavo. *)
Theorem after_cmavo : forall yh cs gl mz b b1 t arr correct c v e x, cll_lujvo Bound yh cs gl mz ((c :: v :: e :: x) ++ b) arr false correct ->
  is_consonant c = true -> is_vowel v = true -> forallb vh (e :: x) = true -> b = b1 :: t -> is_consonant b1 = true ->
  (exists d v', t = [d; v'] /\ is_consonant d = true /\ is_vowel v' = true) \/ exists d u, t = d :: u /\ is_consonant d = true /\ mems [b1; d] INITIAL = false.
Proof.
  intros yh cs gl mz b b1 t arr correct c v e x Y Hc Hvv Hx Eb Hb1. subst b.
  pose proof (x_concat _ _ _ _ _ _ _ _ _ Y) as Ec. pose proof (x_cut _ _ _ _ _ _ _ _ _ Y) as C.
    destruct arr as [|p next]; [discriminate|]. pose proof C as [[(s & Hs & _)|(q0 & Q & _)] C']; [|discriminate].
    cbn [forallb] in Hx. apply andb_true_iff in Hx as [He Hx].
    assert (K : (s = "CVV"%string \/ s = "CV'V"%string) /\ concat next = b1 :: t).
    { cbn [app concat] in Ec. inversion Hs; subst; bfacts; cbn [app] in Ec; injection Ec; intros; subst; try clash.
      all: try (unfold vh in He; apply orb_true_iff in He as [He|He]; [clash|apply N.eqb_eq in He; subst; clash]).
      - split; [left; reflexivity|]. match goal with X : concat next = _ |- _ => rewrite (tail_clean _ _ _ _ _ _ _ _ _ C' X Hx eq_refl Hb1) in X; exact X end.
      - split; [right; reflexivity|]. match goal with X : _ :: concat next = _ |- _ => rename X into X0 end.
        destruct x as [|f x]; cbn [app] in X0; [injection X0 as X0 _; subst; clash|]. injection X0 as _ X. cbn [forallb] in Hx. apply andb_true_iff in Hx as [_ Hx].
        rewrite (tail_clean _ _ _ _ _ _ _ _ _ C' X Hx eq_refl Hb1) in X; exact X. }
    destruct K as [Ks Eb']. clear Ec.
    destruct next as [|p2 next]; [discriminate|].
    pose proof C' as [[(s2 & Hs2 & _)|(q0 & Q & _ & Hh)] C2].
    + (* directly followed by a rafsi *)
      assert (Hp : cll mz p) by (exists s; exact Hs). assert (Hp2 : cll mz p2) by (exists s2; exact Hs2).
      destruct (lujvo_linked _ _ _ _ _ _ _ Y) as (q & rest & Hl & Hr & Hcl & Eu & Ca & Em & F & Z & Hu).
      assert (Ea : exists z, alt q rest = p :: p2 :: z).
      { assert (D : drops [] (alt q rest) (p :: p2 :: next)).
        { pose proof (x_concat _ _ _ _ _ _ _ _ _ Y) as Ec. destruct (yset_eqb yh FORCE_Y) eqn:EF.
          - assert (yh = FORCE_Y) as EF' by (destruct yh; try discriminate; reflexivity).
            replace (alt q rest) with (p :: p2 :: next); [apply drops_refl|]. apply (cut_unique_all (rn_ok yh) true mz); [eapply cut_hy; exact C|exact Ca|].
            rewrite Eu, Ec. symmetry. apply (x_force _ _ _ _ _ _ _ _ _ Y EF').
          - destruct (x_drops _ _ _ _ _ _ _ _ _ Y) as (corr & J & D); [intros ->; discriminate|]. apply jvokaha_2_spec in J as [J1 J2].
            replace (alt q rest) with corr; [exact D|]. apply (cut_unique_all (rn_ok yh) true mz); [eapply cut_hy; exact J2|exact Ca|]. congruence. }
        inversion D as [|u0 p0 co ot D1|u0 q0 o p0 co ot O1 O2 O3 D1 U]; subst; [|destruct u0; discriminate].
        cbn [app] in D1. inversion D1 as [|u0 p0 co' ot D2|u0 q0 o p0 co' ot O1 O2 O3 D2 U]; subst; [eexists; reflexivity|].
        apply cll_len in Hp2. destruct O1 as [-> | ->]; cbn in Hp2; lia. }
      destruct Ea as (z & Ea). destruct rest as [|[g q2] rest]; [congruence|]. destruct Hl as [Hl _].
      assert (Eq : p_r q = p) by (cbn [alt] in Ea; congruence).
      pose proof Ea as Ea'. rewrite <- Eq in Ea'. destruct (alt_step _ _ _ _ _ _ _ _ _ _ _ Hl Hp2 Ea') as (S1 & S2 & _).
      assert (Hg : g = []).
      { cbn [alt] in Ea. injection Ea as _ Ea. unfold gap_of in Ea. rewrite S1, S2, (cll_prefix _ _ _ Hp2), app_nil_r in Ea. cbn [app] in Ea.
        destruct g as [|g0 g]; [reflexivity|exfalso]. cbn [gp app] in Ea. injection Ea as Ea _.
        destruct (l_glued _ _ _ _ _ _ _ Hl) as [? G|? G|? ? ? ? G|? ? ? ? ? G|? ? ? ? ? G]; try discriminate; apply cll_len in Hp2; rewrite <- Ea, G in Hp2; cbn in Hp2; lia. }
      assert (Hcv : true && cvv_like (p_r q) = true).
      { rewrite Eq. cbn [andb]. unfold cvv_like. rewrite (cll_tarmi _ _ _ Hs). destruct Ks as [-> | ->]; reflexivity. }
      destruct (l_glued _ _ _ _ _ _ _ Hl) as [_ _ G|G|? ? ? ? G|? ? ? ? ? G|? ? ? ? ? G]; [|rewrite S1 in G; discriminate|rewrite Hg in G; discriminate..].
      destruct (G S1 Hcv eq_refl) as [N2 T2]. rewrite S2 in T2.
      assert (next = []) as ->.
      { pose proof (x_alt _ _ _ _ _ _ _ _ _ Y) as A. cbn [alternates] in A. rewrite (cll_not_hyphen _ _ Hp), (cll_not_hyphen _ _ Hp2) in A.
        unfold rafsi_of in N2. cbn [filter] in N2. pose proof (cll_len _ _ Hp). pose proof (cll_len _ _ Hp2).
        destruct (Nat.ltb_spec 2 (length p)); [|lia]. destruct (Nat.ltb_spec 2 (length p2)); [|lia]. cbn [length] in N2.
        destruct next as [|h1 next]; [reflexivity|exfalso].
        assert (SH : forall prev l, cut (rn_ok yh) (hy_ok yh) mz prev l -> length (filter (fun x => 2 <? length x) l) = 0 -> alternates false l -> False).
        { intros prev l Cl Fl Al. destruct l as [|h l]; [discriminate|]. destruct Cl as [[(s' & Hs' & _)|(q0 & _ & _ & Hh)] _].
          - assert (cll mz h) as Hh by (exists s'; exact Hs'). apply cll_len in Hh. cbn [filter] in Fl. destruct (Nat.ltb_spec 2 (length h)); [discriminate|lia].
          - cbn [alternates] in Al. assert (is_hyphen h = true) as Hy by (destruct Hh as [->|[(_ & ->)|(_ & _ & [[-> _]|[-> _]])]]; reflexivity). rewrite Hy in Al. destruct Al; discriminate. }
        destruct C2 as [[(s' & Hs' & _)|(q0 & _ & _ & Hh)] C3].
        - assert (cll mz h1) as Hh by (exists s'; exact Hs'). apply cll_len in Hh. cbn [filter] in N2. destruct (Nat.ltb_spec 2 (length h1)); [discriminate|lia].
        - cbn [alternates] in A. assert (is_hyphen h1 = true) as Hy by (destruct Hh as [->|[(_ & ->)|(_ & _ & [[-> _]|[-> _]])]]; reflexivity). rewrite Hy in A. destruct A as [_ A].
          cbn [filter] in N2. destruct (2 <? length h1); [discriminate|]. eapply SH; [exact C3|injection N2 as N2; exact N2|exact A]. }
      left. cbn [concat] in Eb'. rewrite app_nil_r in Eb'. apply tarmi_CCV in T2 as (? & d & v' & -> & _ & Hd & Hv'). injection Eb' as _ <-. eauto.
    + injection Q as <-. cbn [concat] in Eb'. destruct Hh as [->|[(_ & ->)|(_ & _ & [(-> & t' & En)|(-> & d & t' & En & Hd & _)])]]; cbn [app L] in Eb'.
      * injection Eb' as <- _. discriminate.
      * injection Eb' as <- _. discriminate.
      * right. rewrite En in Eb'. injection Eb' as <- <-. exists 114%N, t'. split; [reflexivity|]. split; [reflexivity|]. apply no_initial_rn. auto.
      * right. rewrite En in Eb'. injection Eb' as <- <-. exists d, t'. split; [reflexivity|]. split; [apply is_consonant_spec; exact Hd|]. apply no_initial_rn. auto.
Qed.
