(** The score of a built word. *)
From Verif Require Import Str Data Tarmi Rafsi Core Api Lib Spec Shapes Decomp Basic Vowels Katna Dict Errs Builder Jvokaha Fuel Raises Inv Parts Clusters Forms Chain.

Definition rank_of (s : str) : Z := if tarmi_eqb (rafsi_tarmi s) OTHER_RAFSI then 0%Z else tarmi_val (rafsi_tarmi s).
(** the part of the score that is additive in the letters *)
Definition base (w : str) : Z :=
  (1000 * Z.of_nat (length w) + 100 * Z.of_nat (count c_y w) - Z.of_nat (vowel_count w))%Z.

Lemma count_app : forall c a b, count c (a ++ b) = count c a + count c b.
Proof. induction a as [|x a IH]; intro b; [reflexivity|]. cbn [app count]. rewrite IH. lia. Qed.
Lemma base_app : forall a b, base (a ++ b) = (base a + base b)%Z.
Proof. intros. unfold base, vowel_count. rewrite app_length, !count_app. lia. Qed.
Lemma score_base : forall f, score f = (base f - 10 * rank_of (strip_hyphens f))%Z.
Proof. intro f. unfold score, base, rank_of, tarmi_ignoring_hyphen. lia. Qed.
Lemma score_gl : forall gen yh n cv suf r gl, glued gen yh n cv suf r gl -> score gl = base gl.
Proof. intros gen yh n cv suf r gl H. destruct H; subst gl; vm_compute; reflexivity. Qed.

Lemma count_occ_count : forall c w, count c w = count_occ N.eq_dec w c.
Proof.
  induction w as [|x w IH]; [reflexivity|]. cbn [count count_occ]. rewrite IH.
  destruct (N.eq_dec x c) as [->|E]; [rewrite N.eqb_refl; lia|]. destruct (N.eqb_spec c x); [congruence|lia].
Qed.
Lemma base_spec : forall w, base w = (1000 * Z.of_nat (length w) + 100 * occurrences letter_y w - vowels_in w)%Z.
Proof.
  intro w. unfold base, vowels_in, occurrences, vowel_count. rewrite !count_occ_count.
  change (L "aeiou") with [97; 101; 105; 111; 117]%N. change letter_y with c_y. cbn [map fold_right]. lia.
Qed.
Lemma rank_spec : forall s, rank s (rank_of s).
Proof.
  intro s. unfold rank_of, rank.
  assert (N : forall x, rafsi_tarmi s <> x -> shape_pat x <> "?"%string -> ~ shaped (shape_pat x) s)
    by (intros x H1 H2 H3; apply H1, shaped_rafsi_tarmi; assumption).
  assert (Y : forall x, rafsi_tarmi s = x -> shape_pat x <> "?"%string -> exists p, In (p, tarmi_val x) ranked /\ shaped p s).
  { intros x H1 H2. exists (shape_pat x). split; [|apply rafsi_tarmi_shaped; assumption].
    destruct x; cbn in H2; try congruence; cbn; tauto. }
  destruct (rafsi_tarmi s) eqn:E; try (left; match type of E with _ = ?x => refine (Y x eq_refl _); discriminate end).
  all: right; split; [reflexivity|]; intros p j Hin; cbn in Hin;
    repeat (destruct Hin as [Hin|Hin]; [injection Hin as <- <-|]); try contradiction;
    match goal with |- ~ shaped _ _ => first
      [apply (N CVCCV); discriminate|apply (N CVCC); discriminate|apply (N CCVCV); discriminate|apply (N CCVC); discriminate
      |apply (N CVC); discriminate|apply (N CVhV); discriminate|apply (N CCV); discriminate|apply (N CVV); discriminate] end.
Qed.

(** ** The two kinds of join *)
Lemma first_cvv : forall st r0 t0 suf0, usable (allow_mz st) r0 t0 -> suffixed true false t0 suf0 ->
  cvv_like r0 = true -> (t0 = Tar CVV \/ t0 = Tar CVhV) /\ (suf0 = [] \/ suf0 = [c_h]).
Proof.
  intros st r0 t0 suf0 U0 S0 Hc.
  assert (Ht0 : t0 = Tar CVV \/ t0 = Tar CVhV).
  { destruct t0 as [| | |x].
    - exfalso. eapply cvv_like_nocluster; [exact Hc|]. apply (u_cluster _ _ _ U0). auto.
    - exfalso. eapply cvv_like_nocluster; [exact Hc|]. apply (u_cluster _ _ _ U0). auto.
    - unfold cvv_like in Hc. rewrite (u_exp _ _ _ U0 eq_refl) in Hc. discriminate.
    - destruct (u_tarmi _ _ _ U0 x eq_refl) as [Hx _]. unfold cvv_like in Hc. rewrite Hx in Hc. destruct x; try discriminate; auto. }
  split; [exact Ht0|].
  inversion S0; subst; try discriminate; auto; destruct Ht0 as [Q|Q]; try discriminate; intuition (try discriminate); subst; discriminate.
Qed.
Lemma strip_first : forall st r0 t0 suf0, usable (allow_mz st) r0 t0 -> suffixed true false t0 suf0 -> strip_hyphens (r0 ++ suf0) = r0.
Proof. intros st r0 t0 suf0 U0 S0. apply (strip_usable _ _ _ [] suf0 U0); [reflexivity|eapply suffixed_hy; exact S0]. Qed.

Definition join_result (st : settings) (gen : bool) (n : nat) (w : str) (ix : list (nat * nat)) (suf : str) (cv : bool)
    (x' : str * nat) (r' suf' gl : str) (wc : nat) (rc : nat) (sc : Z) (tos : nat) (c : cand) : Prop :=
  let pre := prefix_of false r' in
  c_word c = w ++ gl ++ pre ++ r' ++ suf'
  /\ c_idx c = ix ++ [(length w + length gl + length pre, length w + length gl + length pre + length r')]
  /\ gap_ok (suf ++ gl ++ pre)
  /\ glued gen (y_hyphens st) n cv suf r' gl
  /\ (suf = [] -> pre = [] /\ rafsi_tarmi r' <> OTHER_RAFSI)
  /\ c_score c = (sc + score gl + score (fst x') - tiebreak (c_word c))%Z
  /\ (suf = [] -> gl = [] -> exists a b, last w 0%N = a /\ hd 0%N r' = b
        /\ (is_consonant a = true -> is_consonant b = true -> permissible (allow_mz st) a b)
        /\ (forall b' d s, r' ++ suf' = b' :: d :: s -> ~ forbidden_triple a b' d))
  /\ next_tosmabru tos (fst x') (rafsi_tarmi r') (last w 0%N) (hd 0%N (fst x')) = Some (c_tos c)
  /\ next_consonants w (fst x') gl wc rc (consonants st) (glides st) = Ok (c_cons c).

Lemma join_first : forall st gen n x0 x1 la1 r0 t0 suf0 r1 t1 suf1 tos c,
  piece st true false x0 (r0, t0, suf0) -> piece st false la1 x1 (r1, t1, suf1) ->
  combine (fst x0) (fst x1) (snd x0) (snd x1) (score (fst x0)) [(0, length (strip_hyphens (fst x0)))] tos gen n st = Ok (Some c) ->
  exists gl, join_result st gen n (r0 ++ suf0) [(0, length r0)] suf0 (cvv_like r0) x1 r1 suf1 gl (snd x0) (snd x1) (score (r0 ++ suf0)) tos c.
Proof.
  intros st gen n x0 x1 la1 r0 t0 suf0 r1 t1 suf1 tos c P0 P1 H. destruct P0 as (U0 & F0 & S0 & K0). cbn [prefix_of app] in F0. rewrite F0 in *.
  rewrite (strip_first _ _ _ _ U0 S0) in H.
  assert (Hc : cvv_like (strip_hyphens (r0 ++ suf0)) = true -> length (r0 ++ suf0) <= 5 /\ (suf0 = [] \/ suf0 = [c_h])).
  { rewrite (strip_first _ _ _ _ U0 S0). intro Hc. destruct (first_cvv _ _ _ _ U0 S0 Hc) as [_ Hs0]. split; [|exact Hs0].
    pose proof (cvv_like_length _ Hc). rewrite app_length. destruct Hs0 as [-> | ->]; cbn; lia. }
  destruct (join_facts st gen n (r0 ++ suf0) _ [] r0 t0 suf0 true la1 x1 r1 t1 suf1 _ _ _ _ _ eq_refl U0 S0 Hc P1 H) as (gl & J).
  exists gl. rewrite (strip_first _ _ _ _ U0 S0) in J. exact J.
Qed.

Lemma join_next : forall st gen ps w0 r t tail c x1 la1 r1 t1 suf1 c',
  built st false ps w0 r t tail c -> piece st false la1 x1 (r1, t1, suf1) ->
  combine (c_word c) (fst x1) (c_cons c) (snd x1) (c_score c) (c_idx c) (c_tos c) gen 0 st = Ok (Some c') ->
  exists gl, join_result st gen 0 (c_word c) (c_idx c) tail false x1 r1 suf1 gl (c_cons c) (snd x1) (c_score c) (c_tos c) c'
     /\ (tail = [] -> gl = [] /\ prefix_of false r1 = []) /\ gl = [].
Proof.
  intros st gen ps w0 r t tail c x1 la1 r1 t1 suf1 c' B P1 H.
  assert (Hcvf : cvv_like (strip_hyphens (c_word c)) = false) by (rewrite (built_strip _ _ _ _ _ _ _ _ B); apply big_cvv; apply (b_big _ _ _ _ _ _ _ _ B)).
  destruct (join_facts st gen 0 (c_word c) _ w0 r t tail false la1 x1 r1 t1 suf1 _ _ _ _ _ (b_word _ _ _ _ _ _ _ _ B)
     (b_usable _ _ _ _ _ _ _ _ B) (b_suffix _ _ _ _ _ _ _ _ B) ltac:(rewrite Hcvf; discriminate) P1 H) as (gl & J).
  rewrite Hcvf in J. exists gl. split; [exact J|]. destruct J as (J1 & J2 & J3 & J4 & J5 & _).
  assert (gl = []).
  { inversion J4; try assumption; try discriminate.
    destruct (suffixed_cases _ _ _ _ (b_suffix _ _ _ _ _ _ _ _ B)) as [E|[E|[E|[_ E]]]]; subst; discriminate. }
  split; [|assumption]. intro Et. split; [assumption|]. apply J5, Et.
Qed.

(** ** The tie-break *)
Lemma tiebreak_cases : forall w, tiebreak w = 0%Z \/ tiebreak w = 1%Z.
Proof. intro w. unfold tiebreak. destruct (_ && _); auto. Qed.
Lemma hy_false : forall c, is_vowel c = true \/ is_consonant c = true -> is_hy c = false.
Proof. intros c [H|H]; apply vc_not_hy; rewrite H; [reflexivity|apply orb_true_r]. Qed.
Lemma tiebreak_one : forall w, tiebreak w = 1%Z ->
  rafsi_tarmi (firstn 3 w) = CVV /\ tarmi_in (rafsi_tarmi (skipn 3 w)) [CCV; CCVC; CVC; CVCC] = true
  /\ length w <= 7 /\ Forall (fun c => is_hy c = false) w.
Proof.
  intros w H. unfold tiebreak in H. destruct (tarmi_eqb (rafsi_tarmi (firstn 3 w)) CVV) eqn:E; [|discriminate]. cbn [andb] in H.
  apply tarmi_eqb_eq in E. destruct (tarmi_in (rafsi_tarmi (skipn 3 w)) [CCV; CCVC; CVC; CVCC]) eqn:F; [|discriminate].
  split; [exact E|]. split; [reflexivity|].
  rewrite <- (firstn_skipn 3 w). apply tarmi_CVV in E as (a & b & d & -> & Ha & Hb & Hd).
  assert (G : length (skipn 3 w) <= 4 /\ Forall (fun c => is_hy c = false) (skipn 3 w)).
  { destruct (rafsi_tarmi (skipn 3 w)) eqn:Et; try discriminate.
    - apply tarmi_CVCC in Et as (x & y & z & u & -> & ? & ? & ? & ?). split; [cbn; lia|].
      repeat (apply Forall_cons; [apply hy_false; auto|]). apply Forall_nil.
    - apply tarmi_CCVC in Et as (x & y & z & u & -> & ? & ? & ? & ?). split; [cbn; lia|].
      repeat (apply Forall_cons; [apply hy_false; auto|]). apply Forall_nil.
    - apply tarmi_CVC in Et as (x & y & z & -> & ? & ? & ?). split; [cbn; lia|].
      repeat (apply Forall_cons; [apply hy_false; auto|]). apply Forall_nil.
    - apply tarmi_CCV in Et as (x & y & z & -> & ? & ? & ?). split; [cbn; lia|].
      repeat (apply Forall_cons; [apply hy_false; auto|]). apply Forall_nil. }
  destruct G as [G1 G2]. split; [rewrite app_length; cbn [length]; lia|].
  apply Forall_app. split; [|exact G2]. repeat (apply Forall_cons; [apply hy_false; auto|]). apply Forall_nil.
Qed.

Lemma suf_hy_nil : forall s, forallb is_hy s = true -> Forall (fun c => is_hy c = false) s -> s = [].
Proof. intros [|c s] H G; [reflexivity|]. cbn in H. apply andb_t in H as [H _]. inversion G; congruence. Qed.

Lemma tiebreak_next : forall st gen ps w0 r t tail c x1 la1 r1 t1 suf1 c',
  built st false ps w0 r t tail c -> piece st false la1 x1 (r1, t1, suf1) ->
  combine (c_word c) (fst x1) (c_cons c) (snd x1) (c_score c) (c_idx c) (c_tos c) gen 0 st = Ok (Some c') ->
  tiebreak (c_word c') = 0%Z.
Proof.
  intros st gen ps w0 r t tail c x1 la1 r1 t1 suf1 c' B P1 H. destruct (join_next _ _ _ _ _ _ _ _ _ _ _ _ _ _ B P1 H) as (gl & J & Jt & Jg).
  destruct J as (J1 & _ & _ & J4 & J5 & _). destruct (tiebreak_cases (c_word c')) as [E|E]; [exact E|exfalso].
  apply tiebreak_one in E as (_ & _ & L7 & Hy). rewrite J1, (b_word _ _ _ _ _ _ _ _ B) in *.
  assert (Ht : tail = []).
  { apply suf_hy_nil; [eapply suffixed_hy; exact (b_suffix _ _ _ _ _ _ _ _ B)|]. apply Forall_app in Hy as [Hy _].
    apply Forall_app in Hy as [_ Hy]. apply Forall_app in Hy as [_ Hy]. exact Hy. }
  destruct (J5 Ht) as [Hp Ho]. destruct P1 as (U1 & _). destruct (usable_length _ _ _ U1 Ho) as [L1 _].
  destruct (b_big _ _ _ _ _ _ _ _ B) as [Lb|Yb].
  - rewrite !app_length in L7. rewrite app_length in Lb. unfold str, char in *. lia.
  - apply Forall_app in Hy as [Hy _]. rewrite app_assoc in Hy. apply Forall_app in Hy as [Hy _]. rewrite Forall_forall in Hy. apply Hy in Yb. discriminate.
Qed.

Definition ranks (ps : list (str * rtype * str)) : Z := total (map rank_of (map rafsi_str ps)).
Lemma total_app : forall a b, total (a ++ b) = (total a + total b)%Z.
Proof. induction a as [|x a IH]; intro b; [reflexivity|]. cbn [app total fold_right] in *. unfold total in IH. rewrite IH. unfold total. lia. Qed.

Record scored (st : settings) (la : bool) (c : cand) (ps : list (str * rtype * str)) (r0 suf0 g r1 suf1 u : str) (rest : list (nat * nat)) : Prop := {
  s_first : exists t0, usable (allow_mz st) r0 t0 /\ suffixed true false t0 suf0;
  s_second : exists t1 la1, usable (allow_mz st) r1 t1 /\ suffixed false la1 t1 suf1;
  s_word : c_word c = (r0 ++ suf0 ++ g ++ r1 ++ suf1) ++ u;
  s_idx : c_idx c = (0, length r0) :: (length (r0 ++ suf0 ++ g), length (r0 ++ suf0 ++ g) + length r1) :: rest;
  s_rest0 : rest = [] -> u = [] /\ exists ps' t1, ps = ps' ++ [(r1, t1, suf1)];
  s_rest : forall k m rest', rest = (k, m) :: rest' -> (k = length (r0 ++ suf0 ++ g) + length r1 <-> suf1 = []);
  s_score : c_score c = (base (c_word c) - 10 * ranks ps - tiebreak (r0 ++ suf0 ++ g ++ r1 ++ suf1))%Z
}.

Lemma chain_scored : forall gen st n choice c, chain gen st n choice c -> length choice <= n ->
  forall ps, pieces st n choice ps ->
  exists r0 suf0 g r1 suf1 u rest, scored st (length choice =? n) c ps r0 suf0 g r1 suf1 u rest.
Proof.
  intros gen st n choice c H. induction H as [f0 n0 f1 n1 tos c H1 H2 | l c f k c' Hc IH H]; intros Hn ps Hps.
  - cbn [length] in *. apply pieces_two_inv in Hps as ([[r0 t0] suf0] & [[r1 t1] suf1] & -> & P0 & P1).
    assert (E0 : (0 =? n - 1) = false) by (apply Nat.eqb_neq; lia). rewrite E0 in P0.
    destruct (join_first st gen n (f0, n0) (f1, n1) _ _ _ _ _ _ _ _ _ P0 P1 H2) as (gl & J1 & J2 & J3 & J4 & J5 & J6 & J7 & J8 & J9).
    destruct P0 as (U0 & F0 & S0 & K0). destruct P1 as (U1 & F1 & S1 & K1). cbn [fst] in *.
    set (pre := prefix_of false r1) in *.
    exists r0, suf0, (gl ++ pre), r1, suf1, [], []. split.
    + eauto.
    + eauto.
    + rewrite J1, app_nil_r, <- !app_assoc. reflexivity.
    + rewrite J2. cbn [app]. do 2 f_equal. rewrite !app_length. f_equal; lia.
    + intros _. split; [reflexivity|]. exists [(r0, t0, suf0)], t1. reflexivity.
    + intros; discriminate.
    + rewrite J6. assert (Ew : c_word c = r0 ++ suf0 ++ (gl ++ pre) ++ r1 ++ suf1) by (rewrite J1, <- !app_assoc; reflexivity).
      rewrite Ew at 1. assert (Eb : base (c_word c) = (base (r0 ++ suf0) + base gl + base f1)%Z).
      { rewrite J1, F1. fold pre. rewrite !base_app. lia. }
      rewrite Eb, (score_gl _ _ _ _ _ _ _ J4), !score_base, (strip_first _ _ _ _ U0 S0), F1. unfold pre.
      rewrite (strip_usable _ _ _ _ _ U1 (prefix_hy false r1) (suffixed_hy _ _ _ _ S1)).
      unfold ranks. cbn [map rafsi_str fst total fold_right]. lia.
  - rewrite app_length in Hn. cbn [length] in Hn.
    assert (Hl : l <> []) by (pose proof (chain_length _ _ _ _ _ Hc); destruct l; [cbn in *; lia|discriminate]).
    apply pieces_snoc_inv in Hps as (ps0 & [[r' t'] suf'] & -> & Hps & P1); [|exact Hl].
    destruct (IH ltac:(lia) ps0 Hps) as (r0 & suf0 & g & r1 & suf1 & u & rest & S).
    destruct (chain_built _ _ _ _ _ Hc ltac:(lia) _ Hps) as (w0 & r & t & tail & B).
    assert (El : (length l =? n) = false) by (apply Nat.eqb_neq; lia). rewrite El in B.
    pose proof (tiebreak_next _ _ _ _ _ _ _ _ (f, k) _ _ _ _ _ B P1 H) as Tb.
    destruct (join_next _ _ _ _ _ _ _ _ (f, k) _ _ _ _ _ B P1 H) as (gl & (J1 & J2 & J3 & J4 & J5 & J6 & J7 & J8 & J9) & Jt & Jg).
    destruct P1 as (U1 & F1 & S1 & K1). cbn [fst] in *. subst gl. set (pre := prefix_of false r') in *. cbn [app length] in *.
    destruct S as [S1' S2 S3 S4 S5 S6 S7].
    exists r0, suf0, g, r1, suf1, (u ++ pre ++ r' ++ suf'), (rest ++ [(length (c_word c) + length pre, length (c_word c) + length pre + length r')]). split.
    + exact S1'.
    + exact S2.
    + rewrite J1, S3, <- !app_assoc. reflexivity.
    + rewrite J2, S4, Nat.add_0_r. reflexivity.
    + intro E. destruct rest; discriminate.
    + intros k0 m rest' E. destruct rest as [|q rest].
      * cbn [app] in E. injection E as <- _ _. destruct (S5 eq_refl) as [-> (ps' & t1 & Eps)]. rewrite S3, app_nil_r.
        destruct (b_last _ _ _ _ _ _ _ _ B) as (ps'' & Eps' & _). rewrite Eps in Eps'. apply app_inj_tail in Eps' as [_ Eps']. injection Eps' as -> _ ->.
        rewrite !app_length. split.
        -- intro E. apply length_zero_iff_nil. lia.
        -- intros Ht. destruct (Jt Ht) as [_ Hpre]. rewrite Ht. rewrite Hpre. cbn [length]. lia.
      * cbn [app] in E. injection E as -> <-. eapply S6. reflexivity.
    + rewrite J6, Tb, S7, F1. change (score []) with 0%Z. rewrite score_base. unfold pre. rewrite (strip_usable _ _ _ _ _ U1 (prefix_hy false r') (suffixed_hy _ _ _ _ S1)).
      rewrite J1. fold pre. rewrite !base_app. unfold ranks. rewrite !map_app, total_app. cbn [map rafsi_str fst total fold_right]. lia.
Qed.

Lemma scored_tie : forall st la c ps r0 suf0 g r1 suf1 u rest, scored st la c ps r0 suf0 g r1 suf1 u rest ->
  (rest = [] -> suf1 = []) ->
  (tiebreak (r0 ++ suf0 ++ g ++ r1 ++ suf1) = 1%Z <-> tie (c_word c) (c_idx c)).
Proof.
  intros st la c ps r0 suf0 g r1 suf1 u rest S Hr. destruct S as [(t0 & U0 & S0) (t1 & la1 & U1 & S1) S3 S4 S5 S6 _].
  split.
  - intro H. apply tiebreak_one in H as (T1 & T2 & _ & Hy).
    assert (E0 : suf0 = []).
    { apply suf_hy_nil; [eapply suffixed_hy; exact S0|]. apply Forall_app in Hy as [_ Hy]. apply Forall_app in Hy. apply Hy. }
    assert (E1 : suf1 = []).
    { apply suf_hy_nil; [eapply suffixed_hy; exact S1|]. do 4 apply Forall_app in Hy as [_ Hy]. exact Hy. }
    subst suf0 suf1. rewrite !app_nil_r in *. cbn [app] in *.
    destruct (bare_cases _ _ S0) as (x & -> & Hx). destruct (u_tarmi _ _ _ U0 x eq_refl) as [Ht _].
    assert (L3 : length r0 = 3).
    { destruct Hx as [->|[->|[->| ->]]].
      - apply tarmi_CVV in Ht as (? & ? & ? & -> & _). reflexivity.
      - apply tarmi_CVhV in Ht as (? & ? & ? & -> & _). exfalso. apply Forall_app in Hy as [Hy _].
        rewrite Forall_forall in Hy. specialize (Hy c_h). cbn in Hy. assert (is_hy c_h = false) by (apply Hy; auto). discriminate.
      - apply tarmi_CCV in Ht as (? & ? & ? & -> & _). reflexivity.
      - apply tarmi_CVC in Ht as (? & ? & ? & -> & _). reflexivity. }
    assert (F3 : firstn 3 (r0 ++ g ++ r1) = r0) by (rewrite <- L3, firstn_app, Nat.sub_diag, firstn_all, firstn_O, app_nil_r; reflexivity).
    assert (K3 : skipn 3 (r0 ++ g ++ r1) = g ++ r1) by (rewrite <- L3, skipn_app, skipn_all, Nat.sub_diag; reflexivity).
    rewrite F3 in T1. rewrite K3 in T2.
    assert (Hp : exists p, In p ["CCV"; "CVC"; "CCVC"; "CVCC"]%string /\ shaped p (g ++ r1)).
    { destruct (rafsi_tarmi (g ++ r1)) eqn:E; try discriminate; match type of E with _ = ?x => exists (shape_pat x); split; [cbn; auto|apply rafsi_tarmi_shaped; [discriminate|exact E]] end. }
    destruct Hp as (p & Hin & Hp).
    exists (length (r0 ++ g)), (length (r0 ++ g) + length r1), rest, p. split; [rewrite S4, L3; reflexivity|].
    assert (W1 : substring (c_word c) (0, 3) = r0).
    { rewrite S3. rewrite <- app_assoc. rewrite <- L3. apply (substring_mid [] r0). }
    assert (W2 : substring (c_word c) (3, length (r0 ++ g) + length r1) = g ++ r1).
    { rewrite S3. rewrite <- L3 at 1. rewrite <- app_assoc. replace (length (r0 ++ g) + length r1) with (length r0 + length (g ++ r1)) by (rewrite !app_length; lia).
      apply substring_mid. }
    rewrite W1, W2. split; [apply (rafsi_tarmi_shaped _ CVV); [discriminate|exact T1]|]. split; [exact Hin|]. split; [exact Hp|].
    destruct rest as [|[k m] rest]; [left; reflexivity|right]. exists m, rest. f_equal. f_equal. apply (S6 _ _ _ eq_refl). reflexivity.
  - intros (i & e & rest' & p & Ex & Hc & Hin & Hp & Hrest). rewrite S4 in Ex. injection Ex as L3 Ei Ee Er. subst rest'.
    assert (E1 : suf1 = []).
    { destruct Hrest as [Hrest|(m & q & Hrest)]; [apply Hr, Hrest|]. apply (S6 _ _ _ Hrest). exact (eq_sym Ee). }
    subst suf1. rewrite !app_nil_r in *.
    assert (W1 : substring (c_word c) (0, 3) = r0).
    { rewrite S3. rewrite <- app_assoc. rewrite <- L3. apply (substring_mid [] r0). }
    assert (W2 : substring (c_word c) (3, e) = suf0 ++ g ++ r1).
    { rewrite S3. rewrite <- L3 at 1. rewrite <- app_assoc. replace e with (length r0 + length (suf0 ++ g ++ r1)) by (rewrite <- Ee, !app_length; lia).
      apply substring_mid. }
    rewrite W1 in Hc. rewrite W2 in Hp. unfold tiebreak.
    assert (F3 : firstn 3 (r0 ++ suf0 ++ g ++ r1) = r0) by (rewrite <- L3, firstn_app, Nat.sub_diag, firstn_all, firstn_O, app_nil_r; reflexivity).
    assert (K3 : skipn 3 (r0 ++ suf0 ++ g ++ r1) = suf0 ++ g ++ r1) by (rewrite <- L3, skipn_app, skipn_all, Nat.sub_diag; reflexivity).
    rewrite F3, K3. rewrite (shaped_rafsi_tarmi _ CVV) by (discriminate || exact Hc).
    assert (T : tarmi_in (rafsi_tarmi (suf0 ++ g ++ r1)) [CCV; CCVC; CVC; CVCC] = true).
    { cbn [In] in Hin. destruct Hin as [<-|[<-|[<-|[<-|[]]]]].
      - rewrite (shaped_rafsi_tarmi _ CCV) by (discriminate || exact Hp). reflexivity.
      - rewrite (shaped_rafsi_tarmi _ CVC) by (discriminate || exact Hp). reflexivity.
      - rewrite (shaped_rafsi_tarmi _ CCVC) by (discriminate || exact Hp). reflexivity.
      - rewrite (shaped_rafsi_tarmi _ CVCC) by (discriminate || exact Hp). reflexivity. }
    rewrite T. reflexivity.
Qed.
