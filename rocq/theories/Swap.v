(** Cheaper forms: a hyphen that is not needed inside a word can be left out, and
    the word stays buildable. *)
From Verif Require Import Str Data Tarmi Rafsi Core Api Lib Spec Shapes Decomp Basic Vowels Katna Dict Errs Builder Jvokaha Fuel Raises Inv Parts Clusters Forms Chain Score Alt Lujvo Optimal.

Lemma combine_make : forall (w r : str) k rc sc ix tos gen n st hy tos' m, w <> [] -> r <> [] -> ix <> [] ->
  (is_consonant (last w 0%N) && is_consonant (hd 0%N r) = true -> mems [last w 0%N; hd 0%N r] (valid_pairs (allow_mz st)) = true) ->
  hd 0%N r <> c_h -> mems (last w 0%N :: firstn 2 r) BANNED_TRIPLES = false -> tarmi_ignoring_hyphen r <> OTHER_RAFSI ->
  glue w r (tarmi_ignoring_hyphen r) gen n (y_hyphens st) (last w 0%N) (hd 0%N r) = Some hy ->
  next_tosmabru tos r (tarmi_ignoring_hyphen r) (last w 0%N) (hd 0%N r) = Some tos' ->
  next_consonants w r hy k rc (consonants st) (glides st) = Ok m ->
  combine w r k rc sc ix tos gen n st =
  Ok (Some (mkCand tos' m (sc + score hy + score r - tiebreak (w ++ hy ++ r))%Z (w ++ hy ++ r)
    (ix ++ [(length w + length hy, length w + length hy + length (strip_hyphens r))]))).
Proof.
  intros w r k rc sc ix tos gen n st hy tos' m Hw Hr Hi H1 H2 H3 H4 H5 H6 H7.
  unfold combine. cbv zeta. destruct (exists_last Hw) as (w' & ll & ->). unfold idx_last at 1. rewrite last_opt_app. cbn [bind].
  rewrite last_last in *. destruct r as [|r0 r]; [congruence|]. cbn [idx nth_error bind]. cbn [hd] in *.
  assert (E1 : is_consonant ll && is_consonant r0 && negb (mems [ll; r0] (valid_pairs (allow_mz st))) = false).
  { destruct (is_consonant ll && is_consonant r0); [|reflexivity]. apply negb_false_iff. exact (H1 eq_refl). }
  match goal with |- (if ?b then _ else _) = _ => replace b with false by (symmetry; exact E1) end. assert (E2 : N.eqb r0 c_h = false) by (apply N.eqb_neq; exact H2). rewrite E2, andb_false_r. cbv iota.
  match goal with |- (if ?b then _ else _) = _ => replace b with false by (symmetry; exact H3) end.
  assert (E3 : negb (is_hy ll) && tarmi_eqb (tarmi_ignoring_hyphen (r0 :: r)) OTHER_RAFSI = false).
  { destruct (tarmi_eqb _ OTHER_RAFSI) eqn:E; [apply tarmi_eqb_eq in E; contradiction|apply andb_false_r]. }
  rewrite E3. destruct (exists_last Hi) as (ix' & lx & ->). unfold idx_last. rewrite last_opt_app. cbn [bind].
  assert (Esl : slice (fst lx) (fst lx) (w' ++ [ll]) = []) by (unfold slice; rewrite Nat.sub_diag; reflexivity). rewrite Esl.
  change (re_vowels []) with false. rewrite andb_false_r. cbn [andb]. rewrite H5, H6, H7. cbn [bind]. rewrite Nat.add_0_r. reflexivity.
Qed.

Lemma chain_heard : forall gen st n choice c, chain gen st n choice c -> Forall (fine (consonants st)) choice -> heard c.
Proof.
  induction 1 as [r0 n0 r1 n1 tos c H1 H2|l c r rc c' Hc IH H]; intros F.
  - inversion F as [|? ? F0 F1]; subst. inversion F1 as [|? ? F2 _]; subst. pose proof (first_sound_ne _ _ F0) as N0. cbn [fst] in N0.
    destruct (combine_total r0 r1 n0 n1 (score r0) [(0, length (strip_hyphens r0))] tos gen n st) as (o & Eo & Ho); [exact N0|discriminate| |exact F2|].
    { destruct F0 as (_ & (v & s & Q & _) & _). exists v. exact Q. }
    rewrite H2 in Eo. injection Eo as <-. apply Ho. reflexivity.
  - apply Forall_app in F as [F0 F1]. inversion F1 as [|? ? F2 _]; subst. destruct (IH F0) as (I1 & I2 & I3).
    destruct (combine_total (c_word c) r (c_cons c) rc (c_score c) (c_idx c) (c_tos c) gen 0 st I1 I2 I3 F2) as (o & Eo & Ho).
    rewrite H in Eo. injection Eo as <-. apply Ho. reflexivity.
Qed.

(** two joined words that can be continued in the same ways *)
Definition matched (c c' : cand) : Prop :=
  c_tos c' = c_tos c /\ c_cons c' = c_cons c /\ last_opt (c_word c') = last_opt (c_word c).

Lemma extend_chain : forall gen st n A B d, 2 <= length A -> Forall (fine (consonants st)) (A ++ B) -> chain gen st n (A ++ B) d ->
  exists c, chain gen st n A c /\ forall A' c', 2 <= length A' -> Forall (fine (consonants st)) A' -> chain gen st n A' c' -> matched c c' ->
    exists d', chain gen st n (A' ++ B) d' /\ matched d d' /\ (c_score d' - c_score c' = c_score d - c_score c)%Z.
Proof.
  intros gen st n A B. induction B as [|x B IH] using rev_ind; intros d Hl F H.
  - rewrite app_nil_r in H. exists d. split; [exact H|]. intros A' c' _ _ C M. exists c'. rewrite app_nil_r. split; [exact C|]. split; [exact M|]. lia.
  - rewrite app_assoc in H, F. apply Forall_app in F as [F Fx]. apply Forall_inv in Fx.
    apply chain_next_inv in H as (b & Hb & H); [|rewrite app_length; lia].
    destruct (IH b Hl F Hb) as (c & Hc & K). exists c. split; [exact Hc|]. intros A' c' Hl' F' C' M.
    destruct (K A' c' Hl' F' C' M) as (b' & Hb' & (M1 & M2 & M3) & Sb).
    assert (Fb' : Forall (fine (consonants st)) (A' ++ B)) by (apply Forall_app in F as [_ F]; apply Forall_app; split; assumption).
    pose proof (chain_ripe _ _ _ _ _ Hb F) as [R1 R2 R3 R4]. pose proof (chain_ripe _ _ _ _ _ Hb' Fb') as [R1' R2' R3' R4'].
    destruct (chain_heard _ _ _ _ _ Hb' Fb') as (G1 & G2 & G3). destruct x as [r rc]. cbn [fst snd] in *.
    destruct (combine_total (c_word b') r (c_cons b) rc (c_score b') (c_idx b') (c_tos b) gen 0 st G1 G2 G3 Fx) as (o & Eo & _).
    rewrite M2 in R4'.
    destruct (combine_exchange (c_word b) (c_word b') r (c_cons b) rc (c_score b) (c_score b') (c_idx b) (c_idx b') (c_tos b) gen st d o) as (d' & -> & D1 & D2 & D3 & D4);
      try assumption; [apply Fx|symmetry; exact M3|].
    exists d'. split; [|split; [repeat split; assumption|clear -D4 Sb; lia]]. rewrite app_assoc. eapply chain_next; [exact Hb'|]. rewrite M1, M2. exact Eo.
Qed.

(** [f'] does for [f] before [g] inside a word, and costs less *)
Record eases (st : settings) (f f' : str) (k : nat) (g : str) : Prop := {
  e_hd : hd 0%N f' = hd 0%N f /\ hd 0%N f <> c_h;
  e_two : firstn 2 f' = firstn 2 f;
  e_fine : fine (consonants st) (f, k);
  e_fine' : fine (consonants st) (f', k);
  e_tarmi : tarmi_ignoring_hyphen f' <> OTHER_RAFSI;
  e_ccv : tarmi_eqb (tarmi_ignoring_hyphen f') CCV = tarmi_eqb (tarmi_ignoring_hyphen f) CCV;
  e_tos : forall tos t ll, tos <= 2 -> next_tosmabru tos f (tarmi_ignoring_hyphen f) ll (hd 0%N f) = Some t ->
    t = 0 /\ next_tosmabru tos f' (tarmi_ignoring_hyphen f') ll (hd 0%N f) = Some 0;
  e_cons : forall w hy kw gl, next_consonants w f' hy kw k (consonants st) gl = next_consonants w f hy kw k (consonants st) gl;
  e_y : last f 0%N = c_y;
  e_h : last f' 0%N <> c_h;
  e_g : hd 0%N g <> c_h /\ tarmi_ignoring_hyphen g <> OTHER_RAFSI;
  e_pair : is_consonant (last f' 0%N) && is_consonant (hd 0%N g) = true -> mems [last f' 0%N; hd 0%N g] (valid_pairs (allow_mz st)) = true;
  e_ban : mems (last f' 0%N :: firstn 2 g) BANNED_TRIPLES = false;
  e_score : (score f' + 1000 <= score f)%Z
}.

Lemma glue_plain : forall w r t gen n yh ll r0, 6 <= length w -> ll <> c_h -> glue w r t gen n yh ll r0 = Some [].
Proof.
  intros w r t gen n yh ll r0 H Hl. unfold glue. apply N.eqb_neq in Hl. rewrite Hl.
  assert (E : (length w =? 5) = false) by (apply Nat.eqb_neq; lia). rewrite E. cbn [andb].
  assert (E' : (length w <=? 5) = false) by (apply Nat.leb_gt; lia). rewrite E'. reflexivity.
Qed.
Lemma glue_same : forall w r r' t t' gen n yh ll r0, tarmi_eqb t' CCV = tarmi_eqb t CCV -> glue w r' t' gen n yh ll r0 = glue w r t gen n yh ll r0.
Proof. intros. unfold glue. rewrite H. reflexivity. Qed.
Lemma tiebreak_01 : forall w, tiebreak w = 0%Z \/ tiebreak w = 1%Z.
Proof. intro w. unfold tiebreak. destruct (_ && _); auto. Qed.
Lemma last_app_ne : forall (a b : str) d, b <> [] -> last (a ++ b) d = last b d.
Proof. intros a b d H. destruct (exists_last H) as (b' & x & ->). rewrite app_assoc, !last_last. reflexivity. Qed.
Lemma ne3 : forall (r : str), 3 <= length r -> r <> [].
Proof. intros [|] H; [cbn in H; lia|discriminate]. Qed.

(** the swap, at the second place from the end *)
Lemma swap_two : forall gen st n w f f' k g m kw sc ix tos c d, 3 <= length w -> tos <= 2 -> ix <> [] -> (exists v, last_sound w = Ok v) ->
  eases st f f' k g -> fine (consonants st) (g, m) ->
  combine w f kw k sc ix tos gen n st = Ok (Some c) ->
  combine (c_word c) g (c_cons c) m (c_score c) (c_idx c) (c_tos c) gen 0 st = Ok (Some d) ->
  exists c' d', combine w f' kw k sc ix tos gen n st = Ok (Some c')
    /\ combine (c_word c') g (c_cons c') m (c_score c') (c_idx c') (c_tos c') gen 0 st = Ok (Some d')
    /\ matched d d' /\ (c_score d' + 900 <= c_score d)%Z.
Proof.
  intros gen st n w f f' k g m kw sc ix tos c d Hw Ht Hix Hls E Fg H1 H2.
  destruct E as [Eh E2 Ef Ef' Eta Ec Eto Eco Ey Eh' [Egh Egt] Ep Eb Es]. destruct Eh as [Eh Enh].
  pose proof (combine_ripe _ _ _ _ _ _ _ _ _ _ _ Ht Hw Ef H1) as [R1 R2 R3 R4].
  pose proof (combine_word _ _ _ _ _ _ _ _ _ _ _ H1) as (hy & i & W1 & W2 & W3 & W4 & W5 & W6 & W7 & W8 & W9 & W10 & W11 & W12 & W13 & W14).
  destruct (Eto _ _ _ Ht W5) as [T0 T0'].
  assert (Hf' : f' <> []) by (apply ne3, Ef').
  pose proof (combine_make w f' kw k sc ix tos gen n st hy 0 (c_cons c) W1 Hf' Hix) as C1.
  rewrite Eh, E2 in C1. specialize (C1 W10 Enh W12 Eta). rewrite (glue_same w f f' (tarmi_ignoring_hyphen f) _ gen n _ _ _ Ec) in C1.
  specialize (C1 W4 T0'). rewrite Eco in C1. specialize (C1 W9).
  set (c' := mkCand 0 (c_cons c) (sc + score hy + score f' - tiebreak (w ++ hy ++ f'))%Z (w ++ hy ++ f') (ix ++ [(length w + length hy, length w + length hy + length (strip_hyphens f'))])) in *.
  pose proof (combine_ripe _ _ _ _ _ _ _ _ _ _ _ Ht Hw Ef' C1) as [S1 S2 S3 S4].
  pose proof (combine_word _ _ _ _ _ _ _ _ _ _ _ H2) as (hy2 & i2 & X1 & X2 & X3 & X4 & X5 & X6 & X7 & X8 & X9 & X10 & X11 & X12 & X13 & X14).
  assert (Ly : last (c_word c) 0%N = c_y) by (rewrite W3, app_assoc, last_app_ne by exact W2; exact Ey).
  rewrite Ly in X4. rewrite glue_plain in X4 by (try exact R3; discriminate). injection X4 as <-.
  rewrite T0 in X5. assert (Ed : c_tos d = 0) by (injection X5 as <-; reflexivity).
  assert (L' : last (c_word c') 0%N = last f' 0%N) by (cbn [c_word c']; rewrite app_assoc, last_app_ne by exact Hf'; reflexivity).
  assert (N2 : next_consonants (c_word c') g [] (c_cons c') m (consonants st) (glides st) = Ok (c_cons d)).
  { destruct (next_cons_exchange (c_word c) (c_word c') g [] (c_cons c) m (consonants st) (glides st) (c_cons d) R4 S4 X9) as [G|[e G]]; [exact G|exfalso].
    destruct Fg as (_ & (v & s & F1 & F2) & _). cbn [fst] in *. unfold next_consonants in G. rewrite F2 in G.
    assert (LS : exists v, last_sound (c_word c') = Ok v).
    { destruct Ef' as (_ & (v' & s' & F1' & _) & _). cbn [fst] in F1'. exists v'. cbn [c_word c']. rewrite app_assoc. apply last_sound_app. exact F1'. }
    destruct LS as [lv LS]. rewrite LS in G. cbn [bind] in G. destruct (_ || _); [discriminate|]. destruct (cset_eqb _ CLUSTER); [|discriminate]. destruct (negb _); discriminate. }
  assert (C2 : combine (c_word c') g (c_cons c') m (c_score c') (c_idx c') (c_tos c') gen 0 st =
    Ok (Some (mkCand 0 (c_cons d) (c_score c' + score [] + score g - tiebreak (c_word c' ++ [] ++ g))%Z (c_word c' ++ [] ++ g)
      (c_idx c' ++ [(length (c_word c') + length (A:=char) [], length (c_word c') + length (A:=char) [] + length (strip_hyphens g))])))).
  { apply combine_make; rewrite ?L'; try assumption.
    - apply ne3. clear -S3. lia.
    - cbn [c_idx c']. destruct ix; discriminate.
    - apply glue_plain; assumption.
    - reflexivity. }
  eexists c', _. split; [exact C1|]. split; [exact C2|]. split.
  - repeat split; cbn [c_tos c_cons c_word]; [symmetry; exact Ed|]. cbn [app]. rewrite X3. cbn [app]. rewrite !last_opt_app_ne by exact X2. reflexivity.
  - cbn [c_score]. rewrite X6. change (score []) with 0%Z. cbn [app].
    assert (L3 : 3 <= length g) by apply Fg.
    rewrite (tiebreak_long (c_word c ++ g)) by (rewrite app_length; clear -R3 L3; lia).
    rewrite (tiebreak_long (c_word c' ++ g)) by (rewrite app_length; clear -S3 L3; lia). rewrite W6. cbn [c_score c'].
    destruct (tiebreak_01 (w ++ hy ++ f)) as [->| ->], (tiebreak_01 (w ++ hy ++ f')) as [->| ->]; clear -Es; lia.
Qed.

Lemma chain_last : forall gen st n l x c, l <> [] -> Forall (fine (consonants st)) l -> chain gen st n (l ++ [x]) c ->
  exists w kw sc ix tos n', 3 <= length w /\ tos <= 2 /\ ix <> [] /\ (exists v, last_sound w = Ok v)
    /\ combine w (fst x) kw (snd x) sc ix tos gen n' st = Ok (Some c)
    /\ forall x' c', combine w (fst x') kw (snd x') sc ix tos gen n' st = Ok (Some c') -> chain gen st n (l ++ [x']) c'.
Proof.
  intros gen st n l x c Hl F H. destruct l as [|[r0 n0] [|y l]]; [congruence| |].
  - apply chain_two_inv in H as (tos & H1 & H2). cbn [fst snd] in *. exists r0, n0, (score r0), [(0, length (strip_hyphens r0))], tos, n.
    apply Forall_inv in F. split; [apply F|]. split; [eapply first_tos_le; exact H1|]. split; [discriminate|].
    split; [destruct F as (_ & (v & s & Q & _) & _); exists v; exact Q|]. split; [exact H2|].
    intros [r' n'] c' H'. cbn [fst snd] in *. apply (chain_two gen st n r0 n0 r' n' tos c'); assumption.
  - apply chain_next_inv in H as (b & Hb & H); [|cbn; lia]. pose proof (chain_ripe _ _ _ _ _ Hb F) as [R1 R2 R3 R4].
    destruct (chain_heard _ _ _ _ _ Hb F) as (G1 & G2 & G3).
    exists (c_word b), (c_cons b), (c_score b), (c_idx b), (c_tos b), 0. split; [lia|]. split; [exact R1|]. split; [exact G2|]. split; [exact G3|].
    split; [exact H|]. intros [r' n'] c' H'. eapply chain_next; [exact Hb|exact H'].
Qed.

Theorem swap_chain : forall gen st n l f f' k g m B d, l <> [] -> eases st f f' k g ->
  Forall (fine (consonants st)) (l ++ (f, k) :: (g, m) :: B) -> chain gen st n (l ++ (f, k) :: (g, m) :: B) d ->
  exists d', chain gen st n (l ++ (f', k) :: (g, m) :: B) d' /\ matched d d' /\ (c_score d' < c_score d)%Z.
Proof.
  intros gen st n l f f' k g m B d Hl E F H.
  assert (EA : forall x, l ++ x :: (g, m) :: B = ((l ++ [x]) ++ [(g, m)]) ++ B) by (intro; rewrite <- !app_assoc; reflexivity).
  rewrite EA in F, H |- *. pose proof F as F0. apply Forall_app in F as [F _]. apply Forall_app in F as [Ff Fg]. apply Forall_inv in Fg.
  assert (L2 : forall x, 2 <= length ((l ++ [x]) ++ [(g, m)])) by (intro; rewrite !app_length; cbn; lia).
  destruct (extend_chain _ _ _ _ _ _ (L2 _) F0 H) as (d1 & Hd & K).
  apply chain_next_inv in Hd as (c & Hc & Hd); [|rewrite app_length; destruct l; [congruence|cbn; lia]]. cbn [fst snd] in Hd.
  apply Forall_app in Ff as [Fl _].
  destruct (chain_last _ _ _ _ _ _ Hl Fl Hc) as (w & kw & sc & ix & tos & n' & A1 & A2 & A3 & A4 & A5 & A6). cbn [fst snd] in A5.
  destruct (swap_two _ _ _ _ _ _ _ _ _ _ _ _ _ _ _ A1 A2 A3 A4 E Fg A5 Hd) as (c' & d1' & C1 & C2 & M & S).
  destruct (K ((l ++ [(f', k)]) ++ [(g, m)]) d1' (L2 _)) as (d' & D1 & D2 & D3).
  - apply Forall_app. split; [|constructor; [exact Fg|constructor]]. apply Forall_app. split; [exact Fl|]. constructor; [apply (e_fine' _ _ _ _ _ E)|constructor].
  - eapply chain_next; [|exact C2]. apply (A6 (f', k)). exact C1.
  - exact M.
  - exists d'. split; [exact D1|]. split; [exact D2|]. clear -D3 S. lia.
Qed.
