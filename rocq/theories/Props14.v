(** Properties C19 and C20 for compounds with zi'evla components. *)
From Verif Require Import Str Data Tarmi Rafsi Core Api Lib Spec Shapes Decomp Basic Vowels Katna Dict Errs Builder Jvokaha Fuel Raises Inv Parts Clusters Zihevla Forms Chain Score Alt Lujvo Slinku Compound Whole Optimal Props1 Props2 Props3 Total Onset Pinned Found Props4 Props5 Props6 Props8 Props9 Joint Swap Unique Round Props12 Ext Ext2 Ext3 Ext4.

(** [r] is a zi'evla under the options, and cannot be cut into rafsi *)
Definition plain_zihevla (lk : binding) (st : settings) (r : str) : Prop :=
  (exists ps, analyse_brivla lk (mkSettings (y_hyphens st) false CLUSTER false (allow_mz st)) r = Ok (ZIhEVLA, ps))
  /\ forall ps, concat ps = r ->
     ~ cut (match y_hyphens st with FORCE_Y => false | _ => true end) (match y_hyphens st with STANDARD => false | _ => true end) (allow_mz st) None ps.
(** a component that is such a word, or such a word as a literal rafsi *)
Definition zihevla_component (lk : binding) (st : settings) (v : str) : Prop :=
  (~ ends_in (fun c => [c] = L "-") v /\ plain_zihevla lk st v)
  \/ (exists r, v = L "-" ++ r ++ L "-" /\ ~ contains r (L "-") /\ plain_zihevla lk st r).

Lemma tarmi_hyphen : forall r, rafsi_tarmi r = HYPHEN -> length r <= 2.
Proof.
  intros r H. unfold rafsi_tarmi in H. destruct r as [|a r]; [cbn; lia|]. destruct (str_eqb (a :: r) (L "'y")) eqn:E; [apply str_eqb_eq in E; rewrite E; cbn; lia|].
  destruct (_ && _) in H; [discriminate|]. destruct r as [|b [|c [|d [|e [|f r]]]]]; cbn [length]; try lia;
    repeat match type of H with context[if ?x then _ else _] => destruct x end; discriminate.
Qed.
Lemma zihevla_zi : forall st r, exp_rafsi_shapes st = false -> Forall (fun c => is_lojban_letter c = true) r -> plain_zihevla Bound st r -> zi st r.
Proof.
  intros st r Hex HF [[ps Ha] Hn]. pose proof (lojban_spelling _ HF) as Es.
  destruct (C31_zihevla_rules _ _ _ _ Ha) as (_ & L4 & _ & (s & l & Er & Hl) & _ & _ & syl & [_ (cu & cv & FC & _)] & _). rewrite Es in L4, Er, FC. apply is_vowel_spec in Hl.
  pose proof (C18_clusters _ _ _ _ _ Ha) as [K1 _]. pose proof (fun a b rest => C18_initial_pair _ _ _ _ _ a b rest Ha) as K2. rewrite Es in K1, K2. cbn [allow_mz] in K1.
  apply analyse_inv in Ha. rewrite Es in Ha. remember ZIhEVLA as z eqn:Ez.
  destruct Ha as [Hg|l' ps Hlast Hcv Hg Hg' Hj|l' c e t E1 E2 E3 J Hca Ei Ev Ny Ck|l' c e t qs E1 E2 E3 E4 J Hca Ei Ev H2 AC Et]; try discriminate Ez.
  { destruct (is_consonant l'); discriminate Ez. }
  2:{ rewrite Ez in Et. destruct (is_consonant l'); discriminate Et. }
  destruct (check_types _ _ _ _ _ _ _ _ Ck) as [-> | ->]; [|apply check_rafsi_iff in Ck as (X & _); discriminate]. cbn [y_hyphens exp_rafsi_shapes allow_mz] in *.
  constructor.
  - rewrite Hex. exact Ck.
  - clear - E3 L4 Er Hl K1 K2 FC. destruct (rafsi_tarmi r) eqn:T; try reflexivity; exfalso.
    all: try (first [apply tarmi_CVC in T as (? & ? & ? & -> & _)|apply tarmi_CVV in T as (? & ? & ? & -> & _)|apply tarmi_CCV in T as (? & ? & ? & -> & _)]; cbn in L4; lia).
    + apply tarmi_hyphen in T. lia.
    + apply tarmi_CVCCV in T as (a & b & c & d & e & -> & Ha & Hb & Hc & Hd & He).
      assert (X : is_gismu [a; b; c; d; e] (allow_mz st) = true); [|congruence]. apply is_gismu_spec. left. exists a, b, c, d, e. split; [reflexivity|].
      split; [apply is_consonant_spec; exact Ha|]. split; [apply is_vowel_spec; exact Hb|]. split; [|apply is_vowel_spec; exact He].
      apply K1; [exists [a; b], [e]; reflexivity|apply is_consonant_spec; assumption..].
    + apply Shapes.tarmi_CVCC in T as (a & b & c & d & -> & Ha & Hb & Hc & Hd). apply (app_inj_tail [_; _; _] s) in Er as [_ <-]. clash.
    + apply Shapes.tarmi_CCVCV in T as (a & b & c & d & e & -> & Ha & Hb & Hc & Hd & He).
      assert (X : is_gismu [a; b; c; d; e] (allow_mz st) = true); [|congruence]. apply is_gismu_spec. right. exists a, b, c, d, e. split; [reflexivity|].
      split; [eapply K2; [reflexivity|apply is_consonant_spec; assumption..]|].
      split; [apply is_vowel_spec; exact Hc|]. split; [apply is_consonant_spec; exact Hd|apply is_vowel_spec; exact He].
    + apply Shapes.tarmi_CCVC in T as (a & b & c & d & -> & Ha & Hb & Hc & Hd). apply (app_inj_tail [_; _; _] s) in Er as [_ <-]. clash.
    + apply tarmi_CVhV in T as (a & b & c & -> & Ha & Hb & Hc). destruct FC as (Ew & (x & y & t & -> & Hx & Hy) & _). apply is_consonant_spec in Hx, Hy.
      destruct cu as [|u1 [|u2 [|u3 [|u4 cu]]]]; try discriminate Ew; try (injection Ew as; subst; clash; fail); injection Ew; intros; subst; try clash; try discriminate.
      destruct cu; discriminate.
  - exact HF.
  - exists s, l. auto.
  - intros arr Hj. apply jvokaha_2_spec in Hj as [Hj1 Hj2]. apply (Hn _ Hj1). unfold rn_ok, hy_ok in Hj2. destruct (y_hyphens st); exact Hj2.
Qed.

Lemma tarmi_letters : forall r, rafsi_tarmi r <> OTHER_RAFSI -> rafsi_tarmi r <> HYPHEN -> Forall (fun c => is_lojban_letter c = true) r.
Proof.
  intros r H H'. unfold is_lojban_letter.
  assert (X : exists t, rafsi_tarmi r = t /\ t <> OTHER_RAFSI /\ t <> HYPHEN) by eauto. clear H H'. destruct X as (t & T & H & H'). destruct t; try congruence;
  first [apply tarmi_CVCCV in T|apply tarmi_CVCC in T|apply Shapes.tarmi_CCVCV in T|apply Shapes.tarmi_CCVC in T|apply tarmi_CVC in T|apply tarmi_CVhV in T|apply tarmi_CCV in T|apply tarmi_CVV in T];
  repeat match goal with X : exists _, _ |- _ => destruct X | X : _ /\ _ |- _ => destruct X end; subst; repeat constructor; use_facts; try reflexivity.
Qed.
Lemma component_piece : forall st v r t, exp_rafsi_shapes st = false -> zihevla_component Bound st v -> source Bound st v r t ->
  homely_at st v r t \/ (t = LONG_BRIVLA /\ zi st r).
Proof.
  intros st v r t Hex H Hs. assert (Ea : ana_settings st = mkSettings (y_hyphens st) false CLUSTER false (allow_mz st)) by (unfold ana_settings; rewrite Hex; reflexivity).
  destruct H as [[Hd Hz]|(r' & Ev & Hc & Hz)].
  - assert (Nd : last_opt v <> Some c_dash) by (intro X; apply last_opt_some in X as [u ->]; apply Hd; exists u, c_dash; split; reflexivity).
    destruct Hs as [r t ps H1|r ps H1|r H1|r H1|r rs H1 H2 H3 H4|r ps H1 H2 H3 ->|t ps H1 H2 H3 H4]; try contradiction.
    + left. split; [eapply dict_cll; eassumption|]. split; [left; reflexivity|]. intro L. apply long_five in L.
      pose proof dict_short as D. rewrite forallb_forall in D. specialize (D _ H3). cbn [snd] in D. rewrite forallb_forall in D. specialize (D _ H4). apply Nat.leb_le in D. lia.
    + exfalso. destruct Hz as [[q Hq] _]. rewrite Ea in H3. congruence.
    + right. split; [reflexivity|]. apply zihevla_zi; [exact Hex|exact (proj2 (only_Forall _ H2))|exact Hz].
  - assert (Nr : r' <> []). { intros ->. destruct Hz as [[q Hq] _]. apply analyse_nonempty in Hq. congruence. }
    assert (Nd : forall c, In c r' -> N.eqb c_dash c = false).
    { intros c I. apply N.eqb_neq. intros <-. apply in_split in I as (a & b & ->). apply Hc. exists a, b. reflexivity. }
    assert (Es : strip_char (N.eqb c_dash) v = r').
    { destruct r' as [|c s] eqn:E; [congruence|]. rewrite <- E in *. destruct (exists_last Nr) as (s' & d & E'). rewrite Ev. eapply strip_mid; try reflexivity.
      - exact E. - apply Nd. rewrite E. left. reflexivity. - exact E'. - apply Nd. rewrite E'. apply in_or_app. right. left. reflexivity. }
    assert (Hv : last_opt v = Some c_dash /\ hd 0%N v = c_dash). { subst v. split; [rewrite app_assoc; apply last_opt_app|reflexivity]. } destruct Hv as [Hl Hh].
    destruct Hs as [r t ps H1 H2|r ps H1 H2 -> H3 H4 H5 H6|r H1 H2 -> H3 H4 H5 H6|r H1 H2 -> H3|r rs H1|r ps H1|t ps H1]; try contradiction; try congruence; rewrite Es in *.
    + right. split; [reflexivity|]. apply zihevla_zi; [exact Hex|exact (proj2 (only_Forall _ H3))|exact Hz].
    + exfalso. assert (HF : Forall (fun c => is_lojban_letter c = true) r').
      { apply valid_tarmi in H3. apply tarmi_letters; intro X; rewrite X in H3; discriminate. }
      pose proof (z_other _ _ (zihevla_zi _ _ Hex HF Hz)) as T. apply valid_tarmi in H3. rewrite T in H3. discriminate.
Qed.

(** the same options but for the experimental shapes *)
Definition with_exp (st : settings) (b : bool) : settings := mkSettings (y_hyphens st) b (consonants st) (glides st) (allow_mz st).
Lemma zi_exp : forall st b r, zi st r -> zi (with_exp st b) r.
Proof.
  intros st b r Z. constructor; [|apply Z..]. pose proof (z_check _ _ Z) as K. cbn [with_exp y_hyphens exp_rafsi_shapes allow_mz].
  apply check_zihevla_iff in K as (K1 & syl & K2 & K3 & K4). apply check_zihevla_iff. split; [exact K1|]. exists syl. split; [exact K2|]. split; [intros _; apply K3; auto|exact K4].
Qed.
Lemma linked_exp : forall gen st b n rest fi p, linked gen st n fi p rest -> linked gen (with_exp st b) n fi p rest.
Proof.
  induction rest as [|[g q] r IH]; intros fi p H; [exact I|]. destruct H as [L H]. split; [|apply IH; exact H]. destruct L. constructor; assumption.
Qed.
Lemma piece_exp : forall st b q, cpiece st q \/ zpiece st q -> cpiece (with_exp st b) q \/ zpiece (with_exp st b) q.
Proof. intros st b q [H|[H Z]]; [left; exact H|right; split; [exact H|apply zi_exp; exact Z]]. Qed.
Lemma lujvo_exp : forall lk st b w ps, analyse_brivla lk st w = Ok (LUJVO, ps) -> analyse_brivla lk (with_exp st b) w = Ok (LUJVO, ps).
Proof.
  intros lk st b w ps H. apply C41_cll_lujvo_characterised in H. apply C41_cll_lujvo_characterised. cbv zeta in *. destruct H as (H1 & H2 & H3). split; [exact H1|]. split; [|exact H3].
  intros q Hq. pose proof (proj2 (C05_gismu_shape lk (with_exp st b) w) (ex_intro _ q Hq)) as X. apply (C05_gismu_shape lk st w) in X as [q' X]. exact (H2 _ X).
Qed.
(** the mixed construction *)
Lemma last_in : forall A (l : list A) d, In (last l d) (d :: l).
Proof.
  intros A l d. destruct l as [|x l]; [left; reflexivity|right]. revert x. induction l as [|y l IH]; intro x; [left; reflexivity|]. right. exact (IH y).
Qed.
Definition mixed_at (st : settings) (v : str) (p : pc) : Prop := homely_at st v (p_r p) (p_t p) \/ zpiece st p.
Theorem mixed_analysed : forall st vs rll w sc ix ch c ps, exp_rafsi_shapes st = false ->
  get_rafsi_list_list (analyse_brivla Bound) (jvk Bound) st vs = Ok rll -> best_word false st rll = Ok (w, sc, ix) ->
  construction Bound false st vs w sc ix ch c ps -> Forall2 (mixed_at st) vs ps ->
  slinkuhi Bound (y_hyphens st) (allow_mz st) w = Ok false ->
  exists p rest n kind, ps = p :: map snd rest /\ linked false st n true p rest /\ concat (alt p rest) = w
      /\ Forall (fun q => cpiece st q \/ zpiece st q) ps
      /\ (homely_all st vs ps /\ kind = LUJVO \/ (exists q, In q ps /\ zpiece st q) /\ kind = EXTENDED_LUJVO)
      /\ (forall b, analyse_brivla Bound (with_exp st b) w = Ok (kind, alt p rest)) /\ analyse_brivla Bound st w = Ok (kind, alt p rest)
      /\ get_rafsi_indices (alt p rest) = ix.
Proof.
  intros st vs rll w sc ix ch c ps Hex Hr Hb K M Hs.
  assert (D : homely_all st vs ps \/ exists q, In q ps /\ zpiece st q).
  { clear -M. induction M as [|v p vs ps Hp M IH]; [left; constructor|]. destruct Hp as [Hp|Hp]; [|right; exists p; split; [left; reflexivity|exact Hp]].
    destruct IH as [IH|(q & I & Hq)]; [left; constructor; assumption|right; exists q; split; [right; exact I|exact Hq]]. }
  assert (F0 : Forall (fun q => cpiece st q \/ zpiece st q) ps).
  { clear -M. induction M as [|v q vs ps Hq M IH]; constructor; [|exact IH]. destruct Hq as [(G1 & G2 & _)|Hq]; [left; split; assumption|right; exact Hq]. }
  destruct D as [D|D].
  { destruct (construction_analysed _ _ _ _ _ _ _ _ _ Hex Hr Hb K D Hs) as (arr & p & rest & (E1 & E2 & ->) & _ & A0 & A1 & A2). exists p, rest, (length vs), LUJVO.
    split; [exact E1|]. split; [exact E2|]. split; [exact A0|]. split; [exact F0|]. split; [left; auto|]. split; [intro b; apply lujvo_exp; exact A1|]. split; assumption. }
  destruct (chain_linked_spots _ _ _ _ _ (k_chain _ _ _ _ _ _ _ _ _ _ K) (Nat.eq_le_incl _ _ (k_len _ _ _ _ _ _ _ _ _ _ K)) ps (k_pieces _ _ _ _ _ _ _ _ _ _ K))
    as (p & rest & Eps & Hrest & Hl & Ew & Ei).
  exists p, rest, (length vs), EXTENDED_LUJVO. split; [exact Eps|]. split; [exact Hl|].
  assert (Z : p_suf (last (map snd rest) p) = []).
  { destruct (k_built _ _ _ _ _ _ _ _ _ _ K) as (w0 & r & t & B). destruct (b_last _ _ _ _ _ _ _ _ B) as (ps' & E & _).
    assert (last (map snd rest) p = (r, t, [])) as X.
    { transitivity (last (p :: map snd rest) p); [destruct rest; [congruence|reflexivity]|]. unfold pc in *. rewrite <- Eps, E. apply last_last. }
    unfold pc in *. rewrite X. reflexivity. }
  assert (Ecat : concat (alt p rest) = w) by (rewrite <- (k_word _ _ _ _ _ _ _ _ _ _ K), Ew; apply alt_concat; exact Z).
  split; [exact Ecat|]. split; [exact F0|]. split; [right; auto|].
  assert (F : Forall (fun q => cpiece st q \/ zpiece st q) (p :: map snd rest)).
  { unfold pc in *. rewrite <- Eps. exact F0. }
  destruct (pieces_forms _ _ _ _ (k_pieces _ _ _ _ _ _ _ _ _ _ K)) as (p' & rest' & Eps' & Ef).
  assert (p' = p /\ rest' = map snd rest) as [-> ->] by (rewrite Eps in Eps'; injection Eps'; auto).
  destruct (chain_tosrun _ _ _ _ _ (k_chain _ _ _ _ _ _ _ _ _ _ K)) as (r0 & rs & tos & E1 & E2 & E3 & _). rewrite Ef in E1. injection E1 as <- <-.
  rewrite (k_tos _ _ _ _ _ _ _ _ _ _ K) in E3.
  pose proof (k_end _ _ _ _ _ _ _ _ _ _ K) as He. cbv iota in He.
  assert (Nn : forall q, In q (p :: map snd rest) -> p_r q <> []).
  { intros q Hq. rewrite Forall_forall in F. destruct (F _ Hq) as [[G _]|[_ G]]; [apply cll_len in G; intros X; rewrite X in G; cbn in G; lia|].
    apply zi_start in G as [G _]. intros X; rewrite X in G; cbn in G; lia. }
  assert (Lr : exists a, w = a ++ p_r (last (map snd rest) p)).
  { rewrite <- Ecat. clear. revert p. induction rest as [|[g q] r IH]; intro p; [exists []; cbn; rewrite app_nil_r; reflexivity|].
    destruct (IH q) as [a E]. cbn [alt concat]. rewrite concat_app, E. rewrite last_snd. eexists. rewrite !app_assoc. reflexivity. }
  assert (Hn : length vs = S (length rest)).
  { pose proof (k_len _ _ _ _ _ _ _ _ _ _ K) as Lk. rewrite <- Lk. rewrite <- (map_length fst ch), Ef. cbn [length]. rewrite !map_length. reflexivity. }
  assert (Hlast : exists s l, p_r (last (map snd rest) p) = s ++ [l] /\ is_vowel l = true).
  { destruct Lr as [a Ea]. destruct He as (s & l & Es & Hv).
    assert (N : p_r (last (map snd rest) p) <> []).
    { apply Nn, last_in. }
    destruct (exists_last N) as (s' & l' & E'). rewrite E' in Ea. rewrite Ea in Es. rewrite app_assoc in Es. apply app_inj_tail in Es as [_ ->]. exists s', l. auto. }
  rewrite Eps in D.
  assert (A : forall b, analyse_brivla Bound (with_exp st b) w = Ok (EXTENDED_LUJVO, alt p rest) /\ get_rafsi_indices (alt p rest) = spots 0 p rest).
  { intro b. apply (ext_read (with_exp st b) (length vs) p rest tos w); try assumption.
    - apply linked_exp. exact Hl.
    - eapply Forall_impl; [|exact F]. intros q. apply piece_exp.
    - destruct D as (q & I & [Q1 Q2]). exists q. split; [exact I|]. split; [exact Q1|apply zi_exp; exact Q2].
    - symmetry. exact Ecat. }
  split; [intro b; apply A|]. split; [|rewrite (proj2 (A true)), <- Ei; exact (k_idx _ _ _ _ _ _ _ _ _ _ K)].
  pose proof (proj1 (A (exp_rafsi_shapes st))) as A1. replace (with_exp st (exp_rafsi_shapes st)) with st in A1 by (destruct st; reflexivity). exact A1.
Qed.

(** Words of any kind and CLL rafsi: the result is a lujvo, or an extended lujvo
    when a zi'evla is part of it; its rafsi stand where the builder says. *)
Theorem C19_zihevla_accepted_partial : forall lk st t ws w sc ix,
  exp_rafsi_shapes st = false -> words_of t ws ->
  Forall (fun v => no_zihevla lk st (standard_spelling v) \/ zihevla_component lk st (standard_spelling v)) ws ->
  get_lujvo_with_analytics lk false st t = Ok (w, sc, ix) ->
  exists kind pieces, analyse_brivla lk st w = Ok (kind, pieces) /\ (kind = LUJVO \/ kind = EXTENDED_LUJVO) /\ get_rafsi_indices pieces = ix.
Proof.
  intros lk st t ws w sc ix Hex Hw Hz H. destruct (analytics_best _ _ _ _ _ _ _ _ Hw H) as (rll & Er & Eb).
  unfold get_lujvo_with_analytics in H. inv_bind H. apply process_ok in E. rewrite (words_raw _ _ Hw) in E. subst x.
  rewrite lujvo_from_list_eq, Er in H. cbn [bind] in H. rewrite Eb in H. cbn [bind] in H. destruct lk; [discriminate|].
  inv_bind H. destruct x; [discriminate|].
  destruct (best_word_construction _ _ _ _ _ _ _ _ Er Eb) as (ch & c & ps & K).
  assert (M : Forall2 (mixed_at st) (map standard_spelling ws) ps).
  { pose proof (k_source _ _ _ _ _ _ _ _ _ _ K) as S. clear -S Hz Hex. remember (map standard_spelling ws) as vs eqn:Ev. revert ws Ev Hz.
    induction S as [|v p vs ps Hp S IH]; intros ws Ev Hz; [constructor|]. destruct ws as [|w ws]; [discriminate|]. injection Ev as -> ->. inversion Hz as [|? ? Hz1 Hz2]; subst.
    constructor; [|eapply IH; [reflexivity|exact Hz2]]. destruct Hz1 as [Hz1|Hz1].
    - left. eapply no_zihevla_homely; eassumption.
    - destruct (component_piece _ _ _ _ Hex Hz1 Hp) as [G|G]; [left; exact G|right; exact G]. }
  destruct (mixed_analysed _ _ _ _ _ _ _ _ _ Hex Er Eb K M E) as (p & rest & n & kind & _ & _ & _ & _ & D & A0 & A1 & A2).
  exists kind, (alt p rest). split; [exact A1|]. split; [|exact A2]. destruct D as [[_ D]|[_ D]]; auto.
Qed.


(** * C20 *)
Lemma dict_no_vv : forallb (fun e => negb (length (fst e) =? 5) || negb (is_vowel (nth 3 (fst e) 0%N)) || tarmi_eqb (rafsi_tarmi (firstn 4 (fst e))) CVhV) RAFSI_LIST = true.
Proof. vm_compute. reflexivity. Qed.
Lemma zi_search : forall st r, zi st r -> search_selrafsi_from_rafsi r = None.
Proof.
  intros st r Z. destruct (search_selrafsi_from_rafsi r) as [w|] eqn:E; [exfalso|reflexivity].
  apply search_sound in E as [(rs & H1 & H2)|(H4 & v & rs & _ & Ew & H1)].
  - pose proof (dict_cll (allow_mz st) _ _ _ H1 H2) as C. apply cll_tarmi_ne in C as [C _]. exact (C (z_other _ _ Z)).
  - pose proof dict_no_vv as D. rewrite forallb_forall in D. specialize (D _ H1). cbn [fst] in D. rewrite Ew, app_length, H4 in D. cbn [length Nat.add Nat.eqb negb orb] in D.
    apply orb_true_iff in D as [D|D]; [|rewrite firstn_app, H4, Nat.sub_diag, app_nil_r, firstn_all2, (z_other _ _ Z) in D by lia; discriminate].
    destruct (z_end _ _ Z) as (s & l & Er & Hl). rewrite Er in D, H4. rewrite app_length in H4. cbn [length] in H4.
    assert (L3 : length s = 3) by lia. rewrite <- app_assoc, app_nth2 in D by lia. rewrite L3 in D. change (nth (3 - 3) ([l] ++ [v]) 0%N) with l in D. rewrite Hl in D. discriminate.
Qed.
Lemma zi_back : forall st v n i nx, zi st v -> plain_zihevla Bound st v -> (i = n - 1 \/ exists c s, nx = Some (c :: s) /\ c <> c_y) ->
  selrafsi_at Bound (y_hyphens st) (allow_mz st) n i v nx = Ok v.
Proof.
  intros st v n i nx Z [[ps Hp] _] Hl. unfold selrafsi_at. cbv zeta. rewrite (zi_search _ _ Z).
  assert (B : is_brivla Bound (mkSettings (y_hyphens st) false CLUSTER false (allow_mz st)) v = Ok true) by (unfold is_brivla, Core.is_brivla; rewrite Hp; reflexivity).
  pose proof (analyse_nonempty _ _ _ _ _ Hp) as Ne. destruct v as [|v0 v']; [congruence|].
  destruct Hl as [->|(c & s & -> & Hc)]; [rewrite (proj2 (Nat.ltb_ge _ _)) by lia; cbn [bind]; rewrite B; reflexivity|].
  apply N.eqb_neq in Hc. destruct (i <? n - 2); cbn; rewrite ?Hc; cbn; rewrite B; reflexivity.
Qed.
Definition back_word (lk : binding) (st : settings) (v : str) : Prop :=
  (no_zihevla lk st v /\ exists rs, In (v, rs) RAFSI_LIST) \/ (~ ends_in (fun c => [c] = L "-") v /\ plain_zihevla lk st v).

Lemma back_at : forall st v p n i nx, exp_rafsi_shapes st = false -> back_word Bound st v -> source Bound st v (fst (fst p)) (snd (fst p)) -> its_own v (p_r p) ->
  (p_t p = LONG_BRIVLA -> i = n - 1 \/ exists c s, nx = Some (c :: s) /\ c <> c_y) ->
  selrafsi_at Bound (y_hyphens st) (allow_mz st) n i (p_r p) nx = Ok v /\ v <> [].
Proof.
  intros st v p n i nx Hex [[Hz [rs Hd]]|[Hd Hz]] Hs Ho Hl.
  - split; [eapply selrafsi_back; eassumption|]. intros ->. pose proof dict_last as Hl'. rewrite forallb_forall in Hl'. specialize (Hl' _ Hd). discriminate.
  - split; [|destruct Hz as [[q Hq] _]; exact (analyse_nonempty _ _ _ _ _ Hq)].
    assert (Nd : last_opt v <> Some c_dash) by (intro X; apply last_opt_some in X as [u ->]; apply Hd; exists u, c_dash; split; reflexivity).
    assert (Ea : ana_settings st = mkSettings (y_hyphens st) false CLUSTER false (allow_mz st)) by (unfold ana_settings; rewrite Hex; reflexivity).
    change (fst (fst p)) with (p_r p) in Hs. change (snd (fst p)) with (p_t p) in Hs.
    destruct Hs as [r t ps H1|r ps H1|r H1|r H1|r rs H1 H2 H3 H4|r ps H1 H2 H3 ->|t ps H1 H2 H3 H4]; try contradiction.
    + unfold selrafsi_at. rewrite (search_complete _ _ _ H3 H4). pose proof (dict_cll (allow_mz st) _ _ _ H3 H4) as C. apply cll_len in C. destruct r; [cbn in C; lia|reflexivity].
    + exfalso. destruct Hz as [[q Hq] _]. rewrite Ea in H3. congruence.
    + apply zi_back; [apply zihevla_zi; [exact Hex|exact (proj2 (only_Forall _ H2))|exact Hz]|exact Hz|exact (Hl eq_refl)].
Qed.

Lemma ext_back : forall gen st rest p vs i n k fi, exp_rafsi_shapes st = false -> linked gen st k fi p rest -> n = i + length (alt p rest) ->
  Forall (fun q => cpiece st q \/ zpiece st q) (p :: map snd rest) ->
  Forall2 (fun v q => source Bound st v (fst (fst q)) (snd (fst q))) vs (p :: map snd rest) -> Forall (back_word Bound st) vs ->
  Forall2 its_own vs (map p_r (p :: map snd rest)) ->
  selrafsi_loop Bound (y_hyphens st) (allow_mz st) n i (alt p rest) = Ok vs.
Proof.
  intros gen st. induction rest as [|[g q] r IH]; intros p vs i n k fi Hex Hl En F Hs Hb Ho; cbn [map snd] in *;
    inversion Hs as [|v ? vs' ? Hs1 Hs2]; subst vs; inversion Ho as [|? ? ? ? Ho1 Ho2]; subst; pose proof (Forall_inv Hb) as Hb1; pose proof (Forall_inv_tail Hb) as Hb2;
    cbn [alt selrafsi_loop]; rewrite hyphens_spec, (piece_not_hyphen _ _ (Forall_inv F)).
  - inversion Hs2; subst. match goal with |- context[selrafsi_at _ _ _ ?m ?j _ ?nx] => destruct (back_at st v p m j nx Hex Hb1 Hs1 Ho1) as [A1 A2] end; [intros _; left; cbn; lia|].
    rewrite A1. cbn [bind]. destruct v; [congruence|reflexivity].
  - destruct Hl as [L Hl]. pose proof (l_gap _ _ _ _ _ _ _ L) as G1. fold (gap_of p g q) in G1.
    assert (Gh : gap_of p g q = [] \/ is_hyphen (gap_of p g q) = true).
    { destruct G1 as [E|H]; [left; exact E|right]. unfold is_hyphen. destruct (in_dec str_dec _ _) as [H'|H']; [reflexivity|]. exfalso. apply H'. exact H. }
    assert (Long : p_t p = LONG_BRIVLA -> exists s, gap_of p g q = c_h :: s).
    { intro T. pose proof (l_suf _ _ _ _ _ _ _ L) as S. rewrite T in S. unfold gap_of. inversion S as [? ? [X|[X|X]]|? ? [X|[X|X]]|? ? [X|[X|X]]|? ? [X|[X|X]]| | | |? [X|X]|? ? [X|X]|? ? ? [X|X]| | | |]; try discriminate; eexists; reflexivity. }
    match goal with |- context[selrafsi_at _ _ _ ?m ?j _ ?nx] => assert (EN : m = i + S (length (gp (gap_of p g q) ++ alt q r))) by reflexivity; set (N := m) in *; clearbody N; destruct (back_at st v p N j nx Hex Hb1 Hs1 Ho1) as [A1 A2] end.
    { intro T. right. destruct (Long T) as [s E]. rewrite E. exists c_h, s. split; [reflexivity|discriminate]. }
    rewrite A1. cbn [bind].
    assert (Rest : selrafsi_loop Bound (y_hyphens st) (allow_mz st) N (S i) (gp (gap_of p g q) ++ alt q r) = Ok vs').
    { unfold gp. destruct (gap_of p g q) as [|c s] eqn:E.
      - cbn [app]. eapply IH; try eassumption; [rewrite EN; cbn [gp app length]; lia|exact (Forall_inv_tail F)].
      - destruct Gh as [X|X]; [discriminate|]. cbn [app selrafsi_loop]. rewrite hyphens_spec, X. cbn [selrafsi_at bind].
        erewrite IH; try eassumption; [reflexivity|rewrite EN; cbn [gp app length]; lia|exact (Forall_inv_tail F)]. }
    rewrite Rest. cbn [bind]. destruct v; [congruence|reflexivity].
Qed.
Lemma alt_pieces : forall st rest p, Forall (fun q => cpiece st q \/ zpiece st q) (p :: map snd rest) -> gaps_ok p rest ->
  rafsi_pieces (alt p rest) = map p_r (p :: map snd rest).
Proof.
  intros st. induction rest as [|[g q] r IH]; intros p F G; unfold rafsi_pieces in *; cbn [alt filter map snd]; rewrite (piece_not_hyphen _ _ (Forall_inv F)); [reflexivity|].
  cbn [negb]. f_equal. destruct G as [G1 G2]. rewrite filter_app, (IH q (Forall_inv_tail F) G2).
  unfold gp. destruct (gap_of p g q) as [|c s] eqn:E; [reflexivity|]. destruct G1 as [X|X]; [discriminate|]. cbn [filter].
  replace (is_hyphen (c :: s)) with true; [reflexivity|]. symmetry. unfold is_hyphen. destruct (in_dec str_dec _ _) as [H'|H']; [reflexivity|]. exfalso. apply H'. exact X.
Qed.

Lemma back_core : forall lk st t ws w sc ix b,
  exp_rafsi_shapes st = false -> words_of t ws -> Forall (fun v => back_word lk st (standard_spelling v)) ws ->
  get_lujvo_with_analytics lk false st t = Ok (w, sc, ix) ->
  Forall2 (fun v range => its_own (standard_spelling v) (substring w range)) ws ix ->
  get_veljvo lk (with_exp st b) w = Ok (map standard_spelling ws).
Proof.
  intros lk st t ws w sc ix b Hex Hw Hz H Ho. destruct (analytics_best _ _ _ _ _ _ _ _ Hw H) as (rll & Er & Eb).
  unfold get_lujvo_with_analytics in H. inv_bind H. apply process_ok in E. rewrite (words_raw _ _ Hw) in E. subst x.
  rewrite lujvo_from_list_eq, Er in H. cbn [bind] in H. rewrite Eb in H. cbn [bind] in H. destruct lk; [discriminate|].
  inv_bind H. destruct x; [discriminate|].
  destruct (best_word_construction _ _ _ _ _ _ _ _ Er Eb) as (ch & c & ps & K). pose proof (k_source _ _ _ _ _ _ _ _ _ _ K) as S.
  assert (M : Forall2 (mixed_at st) (map standard_spelling ws) ps).
  { clear -S Hz Hex. remember (map standard_spelling ws) as vs eqn:Ev. revert ws Ev Hz.
    induction S as [|v p vs ps Hp S IH]; intros ws Ev Hz; [constructor|]. destruct ws as [|w ws]; [discriminate|]. injection Ev as -> ->. inversion Hz as [|? ? Hz1 Hz2]; subst.
    constructor; [|eapply IH; [reflexivity|exact Hz2]]. destruct Hz1 as [[Hz1 _]|Hz1].
    - left. eapply no_zihevla_homely; eassumption.
    - destruct (component_piece _ _ _ _ Hex (or_introl Hz1) Hp) as [G|G]; [left; exact G|right; exact G]. }
  destruct (mixed_analysed _ _ _ _ _ _ _ _ _ Hex Er Eb K M E) as (p & rest & n & kind & Eps & Hl & Ec & F & D & A0 & A1 & A2).
  rewrite Eps in F, S. pose proof (linked_gaps _ _ _ _ _ _ Hl) as Hg.
  assert (R : selrafsi_loop Bound (y_hyphens st) (allow_mz st) (length (alt p rest)) 0 (alt p rest) = Ok (map standard_spelling ws)).
  { eapply ext_back; try eassumption; [reflexivity| |].
    - apply Forall_map. exact Hz.
    - rewrite <- (alt_pieces _ _ _ F Hg). unfold rafsi_pieces. rewrite <- (proj1 (rafsi_indices_spec (alt p rest))), A2, Ec.
      clear - Ho. induction Ho; cbn [map]; constructor; assumption. }
  unfold get_veljvo. rewrite A0. cbn [bind]. destruct D as [[_ ->]|[_ ->]]; exact R.
Qed.


(** A tanru of dictionary words and zi'evla is got back from the word built. *)
Theorem C20_zihevla_round_trip : forall lk st t ws w sc ix,
  exp_rafsi_shapes st = false -> words_of t ws -> Forall (fun v => back_word lk st (standard_spelling v)) ws ->
  get_lujvo_with_analytics lk false st t = Ok (w, sc, ix) ->
  Forall2 (fun v range => its_own (standard_spelling v) (substring w range)) ws ix ->
  get_veljvo lk st w = Ok (map standard_spelling ws).
Proof.
  intros lk st t ws w sc ix Hex H1 H2 H3 H4. replace st with (with_exp st false) by (destruct st; cbn in *; subst; reflexivity). eapply back_core; eassumption.
Qed.

(** every dictionary word is such a component, and the option for experimental
    shapes makes no difference to its forms *)
Definition word_class (r : res (wtype * list str)) : nat :=
  match r with Ok (GISMU, _) => 1 | Ok (ZIhEVLA, _) => 2 | Err NotBrivlaError => 3 | _ => 4 end.
Definition word_check (yh : yset) (mz : bool) (e : str * list str) : bool :=
  let a := word_class (analyse_brivla Bound (mkSettings yh true CLUSTER false mz) (fst e)) in
  let b := word_class (analyse_brivla Bound (mkSettings yh false CLUSTER false mz) (fst e)) in
  (a =? b) && negb (a =? 4) && (negb (a =? 2) || match jvokaha_2 yh mz (fst e) with Err _ => true | _ => false end).
Lemma dict_check : forallb (fun e => forallb (fun yh => forallb (fun mz => word_check yh mz e) [true; false]) [STANDARD; ALLOW_Y; FORCE_Y]) RAFSI_LIST = true.
Proof. vm_compute. reflexivity. Qed.
Lemma dict_word : forall yh mz e, In e RAFSI_LIST -> word_check yh mz e = true.
Proof.
  intros yh mz e H. pose proof dict_check as D. rewrite forallb_forall in D. specialize (D _ H). rewrite forallb_forall in D.
  specialize (D yh ltac:(destruct yh; cbn; auto)). rewrite forallb_forall in D. exact (D mz ltac:(destruct mz; cbn; auto)).
Qed.
Lemma no_cut_by : forall st r e, jvokaha_2 (y_hyphens st) (allow_mz st) r = Err e -> forall ps, concat ps = r ->
  ~ cut (match y_hyphens st with FORCE_Y => false | _ => true end) (match y_hyphens st with STANDARD => false | _ => true end) (allow_mz st) None ps.
Proof.
  intros st r e H ps Hc Hcut. assert (X : jvokaha_2 (y_hyphens st) (allow_mz st) r = Ok ps); [|congruence].
  apply jvokaha_2_spec. split; [exact Hc|]. unfold rn_ok, hy_ok. destruct (y_hyphens st); exact Hcut.
Qed.
Lemma no_dash : forall v, last_opt v <> Some c_dash -> ~ ends_in (fun c => [c] = L "-") v.
Proof. intros v H (u & c & -> & E). apply H. rewrite last_opt_app. injection E as ->. reflexivity. Qed.
Lemma dict_dash : forall v rs, In (v, rs) RAFSI_LIST -> exists l, last_opt v = Some l /\ N.eqb l c_dash = false.
Proof.
  intros v rs H. pose proof dict_last as D. rewrite forallb_forall in D. specialize (D _ H). cbn [fst] in D.
  match type of D with context[match ?x with _ => _ end] => destruct x as [l|] eqn:El end; [|discriminate D]. exists l. split; [exact El|apply negb_true_iff; exact D].
Qed.
Lemma dict_back : forall st v rs, In (v, rs) RAFSI_LIST -> back_word Bound st v.
Proof.
  intros st v rs H. destruct (dict_dash _ _ H) as (l & El & Nl). assert (Nd : ~ ends_in (fun c => [c] = L "-") v) by (apply no_dash; rewrite El; intros X; injection X as ->; discriminate).
  pose proof (dict_word (y_hyphens st) (allow_mz st) _ H) as C. unfold word_check in C. cbn [fst] in C. cbv zeta in C. apply andb_t in C as [C C2]. apply andb_t in C as [C _]. apply Nat.eqb_eq in C. rewrite C in C2. clear C.
  destruct (analyse_brivla Bound (mkSettings (y_hyphens st) false CLUSTER false (allow_mz st)) v) as [[[] ps]|e] eqn:E;
    try (left; split; [left; split; [exact Nd|intros q; rewrite E; discriminate]|exists rs; exact H]).
  right. split; [exact Nd|]. split; [exists ps; exact E|]. cbn [word_class Nat.eqb negb orb] in C2. destruct (jvokaha_2 (y_hyphens st) (allow_mz st) v) eqn:J; [discriminate|]. eapply no_cut_by. exact J.
Qed.
Lemma short_forms_exp : forall rs b fi la cs gl, Forall (fun r => rafsi_tarmi r <> OTHER_RAFSI) rs ->
  short_rafsi_forms rs b fi la cs gl = short_rafsi_forms rs false fi la cs gl.
Proof.
  induction rs as [|r rs IH]; intros b fi la cs gl F; [reflexivity|]. cbn [short_rafsi_forms]. cbv zeta. rewrite (IH b); [|exact (Forall_inv_tail F)].
  destruct (tarmi_eqb (rafsi_tarmi r) OTHER_RAFSI) eqn:E; [apply tarmi_eqb_eq in E; destruct (Forall_inv F E)|]. reflexivity.
Qed.
Lemma dict_forms_exp : forall st v rs fi la, In (v, rs) RAFSI_LIST ->
  rafsi_list_for (analyse_brivla Bound) (jvk Bound) st fi la v = rafsi_list_for (analyse_brivla Bound) (jvk Bound) (with_exp st false) fi la v.
Proof.
  intros st v rs fi la H. destruct (dict_dash _ _ H) as (l & El & Nl). unfold rafsi_list_for, idx_last. rewrite El. cbn [bind]. rewrite Nl.
  destruct (negb (is_only_lojban_characters v)); [reflexivity|]. cbn [with_exp consonants glides exp_rafsi_shapes].
  assert (ES : match dict_get v with Some rs => short_rafsi_forms rs (exp_rafsi_shapes st) fi la (consonants st) (glides st) | None => Ok [] end
             = match dict_get v with Some rs => short_rafsi_forms rs false fi la (consonants st) (glides st) | None => Ok [] end).
  { destruct (dict_get v) as [rs'|] eqn:G; [|reflexivity]. apply short_forms_exp. apply dict_get_spec in G. apply Forall_forall. intros r Hr.
    exact (proj1 (cll_tarmi_ne _ _ (dict_cll true _ _ _ G Hr))). }
  rewrite ES. clear ES. match goal with |- bind ?x _ = bind _ _ => destruct x; [|reflexivity] end. cbn [bind].
  unfold ana_settings. cbn [y_hyphens exp_rafsi_shapes allow_mz with_exp].
  pose proof (dict_word (y_hyphens st) (allow_mz st) _ H) as C. unfold word_check in C. cbn [fst] in C. cbv zeta in C. apply andb_t in C as [C _]. apply andb_t in C as [C C4]. apply Nat.eqb_eq in C.
  destruct (exp_rafsi_shapes st); [|reflexivity].
  apply negb_true_iff, Nat.eqb_neq in C4. unfold word_class in *.
  destruct (analyse_brivla Bound (mkSettings (y_hyphens st) true _ _ _) v) as [[[] ?]|[]]; try congruence; cbv beta iota in C4; try congruence;
    destruct (analyse_brivla Bound (mkSettings (y_hyphens st) false _ _ _) v) as [[[] ?]|[]]; try discriminate C; reflexivity.
Qed.
Lemma dict_lists_exp : forall st vs, Forall (fun v => exists rs, In (v, rs) RAFSI_LIST) vs ->
  get_rafsi_list_list (analyse_brivla Bound) (jvk Bound) st vs = get_rafsi_list_list (analyse_brivla Bound) (jvk Bound) (with_exp st false) vs.
Proof.
  intros st vs F. unfold get_rafsi_list_list. generalize (length vs) 0. induction F as [|v vs [rs Hv] F IH]; intros n i; [reflexivity|].
  cbn [rafsi_list_list_loop]. rewrite (dict_forms_exp _ _ _ _ _ Hv), IH. reflexivity.
Qed.
Lemma best_exp : forall gen st b rll, best_word gen (with_exp st b) rll = best_word gen st rll.
Proof. intros gen [y e c g m] b rll. reflexivity. Qed.

(** Whatever the options, the components of a tanru of dictionary words are got
    back from the word built, if the form used for each is of no other word. *)
Theorem C20_round_trip : forall lk st t ws w sc ix,
  words_of t ws -> Forall (fun v => exists rs, In (standard_spelling v, rs) RAFSI_LIST) ws ->
  get_lujvo_with_analytics lk false st t = Ok (w, sc, ix) ->
  Forall2 (fun v range => its_own (standard_spelling v) (substring w range)) ws ix ->
  get_veljvo lk st w = Ok (map standard_spelling ws).
Proof.
  intros lk st t ws w sc ix Hw Hd H Ho. destruct lk.
  { exfalso. unfold get_lujvo_with_analytics in H. inv_bind H. rewrite lujvo_from_list_eq in H. inv_bind H. inv_bind H. destruct x1 as [[? ?] ?]. discriminate. }
  replace st with (with_exp (with_exp st false) (exp_rafsi_shapes st)) by (destruct st; reflexivity).
  apply (back_core Bound (with_exp st false) t ws w sc ix); try assumption; [reflexivity| |].
  - eapply Forall_impl; [|exact Hd]. intros v [rs Hv]. eapply dict_back. exact Hv.
  - unfold get_lujvo_with_analytics in *. inv_bind H. rewrite E. cbn [bind]. apply process_ok in E. rewrite (words_raw _ _ Hw) in E. subst x.
    rewrite lujvo_from_list_eq in *. rewrite <- dict_lists_exp by (apply Forall_map; exact Hd). inv_bind H. rewrite E. cbn [bind]. rewrite best_exp. exact H.
Qed.

(** ** The hypotheses can be met *)
Lemma own_by : forall v r, forallb (fun e => negb (mems r (snd e) || str_eqb r (fst e) || str_eqb r (dropl 1 (fst e))) || str_eqb (fst e) v) RAFSI_LIST = true -> its_own v r.
Proof.
  intros v r H u (rs & H1 & H2). rewrite forallb_forall in H. specialize (H _ H1). cbn [fst snd] in H. apply orb_true_iff in H as [H|H]; [|apply str_eqb_eq; exact H].
  exfalso. apply negb_true_iff in H. apply orb_false_iff in H as [H H3]. apply orb_false_iff in H as [H H4].
  destruct H2 as [H2|[H2|(c & _ & H2)]].
  - apply mems_In in H2. congruence.
  - subst. rewrite (proj2 (str_eqb_eq u u) eq_refl) in H4. discriminate.
  - subst u. unfold dropl in H3. rewrite app_length, Nat.add_sub, firstn_app, Nat.sub_diag, firstn_all, app_nil_r, (proj2 (str_eqb_eq r r) eq_refl) in H3. discriminate.
Qed.
Example C19_zihevla_example :
  let ws := map L ["klama"; "spageti"; "-ermine-"; "gerku"]%string in
  let st := default_settings in
  exp_rafsi_shapes st = false /\ words_of (TList ws) ws
  /\ Forall (fun v => no_zihevla Bound st (standard_spelling v) \/ zihevla_component Bound st (standard_spelling v)) ws
  /\ get_lujvo_with_analytics Bound false st (TList ws) = Ok (L "klamyspageti'y'ermine'yge'u", 27191%Z, [(0, 4); (5, 12); (15, 21); (23, 27)])
  /\ analyse_brivla Bound st (L "klamyspageti'y'ermine'yge'u") = Ok (EXTENDED_LUJVO, map L ["klam"; "y"; "spageti"; "'y'"; "ermine"; "'y"; "ge'u"]%string).
Proof.
  cbv zeta. split; [reflexivity|]. split; [reflexivity|]. split; [|split; vm_compute; reflexivity].
  repeat apply Forall_cons; [| | | |apply Forall_nil].
  - left. left. split; [apply no_dash; vm_compute; discriminate|]. intros ps. vm_compute. discriminate.
  - right. left. split; [apply no_dash; vm_compute; discriminate|]. split; [eexists; vm_compute; reflexivity|].
    intros ps. eapply (no_cut_by default_settings). vm_compute. reflexivity.
  - right. right. exists (L "ermine"). split; [reflexivity|]. split.
    + intros (u & v & E). change (L "-") with [45%N] in E. assert (I : In 45%N (L "ermine")) by (rewrite E; apply in_or_app; right; left; reflexivity). apply memc_In in I. discriminate.
    + split; [eexists; vm_compute; reflexivity|]. intros ps. eapply (no_cut_by default_settings). vm_compute. reflexivity.
  - left. left. split; [apply no_dash; vm_compute; discriminate|]. intros ps. vm_compute. discriminate.
Qed.
Example C20_zihevla_example :
  let ws := map L ["mlatu"; "je'ebzi"; "spageti"; "klama"]%string in
  let st := default_settings in
  exp_rafsi_shapes st = false /\ words_of (TList ws) ws /\ Forall (fun v => back_word Bound st (standard_spelling v)) ws
  /\ exists w sc ix, get_lujvo_with_analytics Bound false st (TList ws) = Ok (w, sc, ix)
     /\ Forall2 (fun v range => its_own (standard_spelling v) (substring w range)) ws ix
     /\ get_veljvo Bound st w = Ok ws.
Proof.
  cbv zeta. split; [reflexivity|]. split; [reflexivity|]. split.
  { repeat apply Forall_cons; [| | | |apply Forall_nil].
    - left. split; [left; split; [apply no_dash; vm_compute; discriminate|]; intros ps; vm_compute; discriminate|]. eexists; apply dict_get_spec; vm_compute; reflexivity.
    - right. split; [apply no_dash; vm_compute; discriminate|]. split; [eexists; vm_compute; reflexivity|]. intros ps. eapply (no_cut_by default_settings). vm_compute. reflexivity.
    - right. split; [apply no_dash; vm_compute; discriminate|]. split; [eexists; vm_compute; reflexivity|]. intros ps. eapply (no_cut_by default_settings). vm_compute. reflexivity.
    - left. split; [left; split; [apply no_dash; vm_compute; discriminate|]; intros ps; vm_compute; discriminate|]. eexists; apply dict_get_spec; vm_compute; reflexivity. }
  eexists; eexists; eexists. split; [vm_compute; reflexivity|]. split; [|vm_compute; reflexivity].
  repeat apply Forall2_cons; try apply Forall2_nil; apply own_by; vm_compute; reflexivity.
Qed.

(** The condition that a zi'evla cannot be cut is needed when mz is allowed:
    the test that a word does not fall apart does not allow mz, so that
    "geisnoxaipemzo" (gei + snoxaipemzo) passes for a zi'evla although it is cut
    into gei, sno, xai and pemzo. *)
Theorem C19_mz_refuted : exists st t ws w sc ix,
  exp_rafsi_shapes st = false /\ words_of t ws
  /\ Forall (fun v => no_zihevla Bound st (standard_spelling v) \/ exists ps, analyse_brivla Bound st v = Ok (ZIhEVLA, ps)) ws
  /\ get_lujvo_with_analytics Bound false st t = Ok (w, sc, ix) /\ analyse_brivla Bound st w = Err NotBrivlaError.
Proof.
  exists (mkSettings STANDARD false CLUSTER false true), (TList (map L ["geisnoxaipemzo"; "klama"]%string)), (map L ["geisnoxaipemzo"; "klama"]%string).
  eexists; eexists; eexists. split; [reflexivity|]. split; [reflexivity|]. split.
  { repeat apply Forall_cons; [| |apply Forall_nil].
    - right. eexists. vm_compute. reflexivity.
    - left. left. split; [apply no_dash; vm_compute; discriminate|]. intros ps. vm_compute. discriminate. }
  split; vm_compute; reflexivity.
Qed.
Print Assumptions C19_zihevla_accepted_partial.
Print Assumptions C20_zihevla_round_trip.
Print Assumptions C20_round_trip.
Print Assumptions C19_mz_refuted.
