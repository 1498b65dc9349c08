(** The layout of a word built by the joining rules: the rafsi in order, with
    hyphens between them, and the index list that goes with it. *)
From Verif Require Import Str Data Tarmi Rafsi Core Api Lib Spec Shapes Decomp Basic Vowels Katna Dict Errs Builder Jvokaha Fuel Raises Inv Parts Clusters Forms.

(** ** Stripping hyphens *)
Lemma drop_while_app : forall p a s, forallb p a = true -> drop_while p (a ++ s) = drop_while p s.
Proof. induction a as [|c a IH]; intros s H; [reflexivity|]. cbn in *. apply andb_t in H as [-> H]. auto. Qed.
Lemma strip_mid : forall p a r b c s d s', forallb p a = true -> forallb p b = true ->
  r = c :: s -> p c = false -> r = s' ++ [d] -> p d = false -> strip_char p (a ++ r ++ b) = r.
Proof.
  intros p a r b c s d s' Ha Hb Hr Hc Hr' Hd. unfold strip_char.
  rewrite drop_while_app by exact Ha. rewrite Hr at 1. cbn [app drop_while]. rewrite Hc.
  change (c :: s ++ b) with ((c :: s) ++ b). rewrite <- Hr. rewrite rev_app_distr.
  rewrite drop_while_app. 2: { apply forallb_forall. intros x Hx. apply in_rev in Hx. rewrite forallb_forall in Hb. auto. }
  rewrite Hr', rev_app_distr. cbn [rev app drop_while]. rewrite Hd. cbn [rev]. rewrite rev_involutive. reflexivity.
Qed.
Lemma vc_not_hy : forall c, is_vowel c || is_consonant c = true -> is_hy c = false.
Proof.
  intros c H. unfold is_hy. apply orb_true_iff in H as [H|H]; apply memc_In in H; cbn in H;
    repeat (destruct H as [<-|H]; [reflexivity|]); destruct H.
Qed.
Lemma usable_ne : forall mz r t, usable mz r t -> r <> [].
Proof. intros mz r t [(c & s & -> & _) _]. discriminate. Qed.
Lemma strip_usable : forall mz r t a b, usable mz r t -> forallb is_hy a = true -> forallb is_hy b = true ->
  strip_hyphens (a ++ r ++ b) = r.
Proof.
  intros mz r t a b U Ha Hb. destruct (u_first _ _ _ U) as (c & s & E & Hc). destruct (u_last _ _ _ U) as (s' & d & E' & Hd).
  eapply strip_mid; try eassumption; apply vc_not_hy; assumption.
Qed.
Lemma prefix_cases : forall fi r, prefix_of fi r = [] \/ (prefix_of fi r = [c_h] /\ fi = false).
Proof. intros [] r; unfold prefix_of; [auto|]. destruct (_ && _); auto. Qed.
Lemma prefix_hy : forall fi r, forallb is_hy (prefix_of fi r) = true.
Proof. intros fi r. destruct (prefix_cases fi r) as [->|[-> _]]; reflexivity. Qed.
Lemma suffixed_cases : forall fi la t suf, suffixed fi la t suf ->
  suf = [] \/ suf = [c_y] \/ suf = [c_h; c_y] \/ (suf = [c_h] /\ fi = true).
Proof. intros fi la t suf H. destruct H; auto. Qed.
Lemma suffixed_hy : forall fi la t suf, suffixed fi la t suf -> forallb is_hy suf = true.
Proof. intros fi la t suf H. destruct H; reflexivity. Qed.

(** ** Shapes CVV and CV'V *)
Definition cvv_like (s : str) : bool := tarmi_in (rafsi_tarmi s) [CVhV; CVV].
Lemma cvv_like_spec : forall s, cvv_like s = true -> exists c v1 v2,
  (s = [c; v1; v2] \/ s = [c; v1; c_h; v2]) /\ is_consonant c = true /\ is_vowel v1 = true /\ is_vowel v2 = true.
Proof.
  intros s H. unfold cvv_like in H. destruct (rafsi_tarmi s) eqn:E; try discriminate.
  - apply tarmi_CVhV in E as (a & b & c & -> & Ha & Hb & Hc). exists a, b, c. auto.
  - apply tarmi_CVV in E as (a & b & c & -> & Ha & Hb & Hc). exists a, b, c. auto.
Qed.
Lemma cvv_like_nocluster : forall s, cvv_like s = true -> ~ cluster s.
Proof.
  intros s H (a & b & (u & v & E) & Ha & Hb). apply cvv_like_spec in H as (c & v1 & v2 & [-> | ->] & H1 & H2 & H3);
  apply v_f0 in H2, H3;
  (destruct u as [|? u]; [injection E; intros; subst; congruence|];
   injection E as _ E; destruct u as [|? u]; [injection E; intros; subst; congruence|];
   injection E as _ E; destruct u as [|? u]; [injection E; intros; subst; first [congruence|discriminate]|];
   injection E as _ E; destruct u as [|? u]; try discriminate E).
  injection E as _ E. destruct u; discriminate.
Qed.
Lemma cvv_like_noy : forall s, cvv_like s = true -> ~ In c_y s.
Proof.
  intros s H. apply cvv_like_spec in H as (c & v1 & v2 & [-> | ->] & H1 & H2 & H3); cbn; intros G;
    repeat (destruct G as [G|G]; [subst; discriminate|]); exact G.
Qed.
Lemma cvv_like_length : forall s, cvv_like s = true -> length s <= 4.
Proof. intros s H. apply cvv_like_spec in H as (c & v1 & v2 & [-> | ->] & _); cbn; lia. Qed.

(** ** One chosen form *)
(** [x] is a form, with its consonant count, of the rafsi [fst (fst p)] of kind
    [snd (fst p)], [snd p] being the letters added after it *)
Definition piece (st : settings) (fi la : bool) (x : str * nat) (p : str * rtype * str) : Prop :=
  match p with (r, t, suf) =>
    usable (allow_mz st) r t /\ fst x = prefix_of fi r ++ r ++ suf /\ suffixed fi la t suf
    /\ snd x = credit (consonants st) (glides st) t (fst x)
  end.

Inductive pieces (st : settings) (n : nat) : list (str * nat) -> list (str * rtype * str) -> Prop :=
| pieces_one x p : piece st true (0 =? n - 1) x p -> pieces st n [x] [p]
| pieces_snoc l ps x p : pieces st n l ps -> piece st false (length l =? n - 1) x p ->
    pieces st n (l ++ [x]) (ps ++ [p]).

Lemma pieces_length : forall st n l ps, pieces st n l ps -> length l = length ps.
Proof. induction 1; [reflexivity|]. rewrite !app_length, IHpieces. reflexivity. Qed.
Lemma pieces_snoc_inv : forall st n l x q, l <> [] -> pieces st n (l ++ [x]) q ->
  exists ps p, q = ps ++ [p] /\ pieces st n l ps /\ piece st false (length l =? n - 1) x p.
Proof.
  intros st n l x q Hl H. remember (l ++ [x]) as lx eqn:E. destruct H as [x' p H|l' ps x' p H Hp].
  - destruct l as [|a [|b l]]; [congruence|discriminate|discriminate].
  - apply app_inj_tail in E as [-> ->]. exists ps, p. auto.
Qed.
Lemma pieces_two_inv : forall st n x y q, pieces st n [x; y] q ->
  exists p p', q = [p; p'] /\ piece st true (0 =? n - 1) x p /\ piece st false (1 =? n - 1) y p'.
Proof.
  intros st n x y q H. apply (pieces_snoc_inv st n [x] y) in H as (ps & p' & -> & H & Hp); [|discriminate].
  inversion H; subst.
  - exists p, p'. auto.
  - exfalso. destruct l as [|? [|]]; [|discriminate|discriminate]. inversion H1; subst; destruct l; discriminate.
Qed.

(** ** Gaps and layouts *)
Definition rafsi_str (p : str * rtype * str) : str := fst (fst p).
Definition gap_ok (g : str) : Prop := g = [] \/ hyphen g.

Inductive layout : str -> list (nat * nat) -> list str -> str -> Prop :=
| layout_one r tail : layout (r ++ tail) [(0, length r)] [r] tail
| layout_more w ix rs tail gl pre r tail' :
    layout w ix rs tail -> gap_ok (tail ++ gl ++ pre) ->
    layout (w ++ gl ++ pre ++ r ++ tail')
      (ix ++ [(length w + length gl + length pre, length w + length gl + length pre + length r)])
      (rs ++ [r]) tail'.

Lemma layout_tail : forall w ix rs tail, layout w ix rs tail -> exists w', w = w' ++ tail.
Proof.
  intros w ix rs tail H. destruct H as [r tail|w ix rs tail gl pre r tail' H Hg]; [exists r; reflexivity|].
  exists (w ++ gl ++ pre ++ r). rewrite <- !app_assoc. reflexivity.
Qed.

Lemma ranges_snoc : forall l lo hi i j, ranges lo hi l -> hi <= i -> i <= j -> ranges lo j (l ++ [(i, j)]).
Proof.
  induction l as [|[a b] l IH]; intros lo hi i j H Hi Hj; cbn in *; [lia|].
  destruct H as (H1 & H2 & H3). repeat split; try assumption. eapply IH; eassumption.
Qed.
Lemma ranges_weaken : forall l lo hi hi', ranges lo hi l -> hi <= hi' -> ranges lo hi' l.
Proof. induction l as [|[a b] l IH]; intros lo hi hi' H Hh; cbn in *; [lia|]. destruct H as (H1 & H2 & H3). eauto. Qed.
Lemma ranges_In : forall l lo hi i j, ranges lo hi l -> In (i, j) l -> lo <= i /\ i <= j /\ j <= hi.
Proof.
  induction l as [|[a b] l IH]; intros lo hi i j H Hin; cbn in *; [contradiction|].
  destruct H as (H1 & H2 & H3).
  assert (G : forall l lo hi, ranges lo hi l -> lo <= hi).
  { clear. induction l as [|[a b] l IH]; intros lo hi H; cbn in H; [lia|]. destruct H as (H1 & H2 & H3). apply IH in H3. lia. }
  pose proof (G _ _ _ H3). destruct Hin as [E|Hin]; [injection E as -> ->; lia|]. apply IH with (1 := H3) in Hin. lia.
Qed.
Lemma substring_app : forall w u i j, j <= length w -> substring (w ++ u) (i, j) = substring w (i, j).
Proof.
  intros w u i j H. unfold substring. cbn [fst snd]. destruct (le_lt_dec j i) as [E|E].
  - replace (j - i) with 0 by lia. reflexivity.
  - rewrite skipn_app, firstn_app. rewrite skipn_length.
    replace (j - i - (length w - i)) with 0 by lia. rewrite firstn_O, app_nil_r. reflexivity.
Qed.
Lemma substring_mid : forall a b c, substring (a ++ b ++ c) (length a, length a + length b) = b.
Proof.
  intros a b c. unfold substring. cbn [fst snd]. replace (length a + length b - length a) with (length b) by lia.
  rewrite skipn_app, skipn_all, Nat.sub_diag. cbn [app skipn]. rewrite firstn_app, Nat.sub_diag, firstn_all, firstn_O, app_nil_r. reflexivity.
Qed.

Lemma layout_facts : forall w ix rs tail, layout w ix rs tail ->
  map (substring w) ix = rs
  /\ ranges 0 (length w - length tail) ix
  /\ (exists j rest, ix = (0, j) :: rest)
  /\ (exists i rest, ix = rest ++ [(i, length w - length tail)])
  /\ (forall l i j k m r, ix = l ++ (i, j) :: (k, m) :: r -> gap_ok (substring w (j, k)))
  /\ length ix = length rs.
Proof.
  intros w ix rs tail H. induction H as [r tail|w ix rs tail gl pre r tail' H IH Hg].
  - rewrite app_length. replace (length r + length tail - length tail) with (length r) by lia. split; [|split; [|split; [|split; [|split]]]].
    + cbn [map]. f_equal. exact (substring_mid [] r tail).
    + cbn. lia.
    + do 2 eexists; reflexivity.
    + exists 0, []. reflexivity.
    + intros l i j k m s E. destruct l as [|? [|]]; discriminate.
    + reflexivity.
  - destruct IH as (I1 & I2 & I3 & I4 & I5 & I6). destruct (layout_tail _ _ _ _ H) as [w' Ew].
    assert (Hlen : length (w ++ gl ++ pre ++ r ++ tail') - length tail' = length w + length gl + length pre + length r)
      by (rewrite !app_length; lia).
    rewrite Hlen. split; [|split; [|split; [|split; [|split]]]].
    + rewrite map_app. cbn [map]. f_equal.
      * rewrite <- I1. apply map_ext_in. intros [i j] Hin. apply substring_app.
        apply (ranges_In _ _ _ _ _ I2) in Hin. lia.
      * f_equal. replace (length w + length gl + length pre) with (length (w ++ gl ++ pre)) by (rewrite !app_length; lia).
        replace (w ++ gl ++ pre ++ r ++ tail') with ((w ++ gl ++ pre) ++ r ++ tail') by (rewrite <- !app_assoc; reflexivity).
        apply substring_mid.
    + eapply ranges_snoc; [exact I2|lia|lia].
    + destruct I3 as (j & rest & ->). exists j, (rest ++ [(length w + length gl + length pre, length w + length gl + length pre + length r)]). reflexivity.
    + do 2 eexists. reflexivity.
    + intros l i j k m s E. destruct s as [|q s].
      * (* the new gap *)
        change (l ++ [(i, j); (k, m)]) with (l ++ [(i, j)] ++ [(k, m)]) in E. rewrite app_assoc in E.
        apply app_inj_tail in E as [E1 E2]. injection E2 as <- <-. destruct I4 as (i' & rest & I4). rewrite I4 in E1.
        apply app_inj_tail in E1 as [_ E1]. injection E1 as _ <-.
        replace (substring _ _) with (tail ++ gl ++ pre); [exact Hg|].
        subst w. replace (length (w' ++ tail) - length tail) with (length w') by (rewrite app_length; lia).
        replace (length (w' ++ tail) + length gl + length pre) with (length w' + length (tail ++ gl ++ pre)) by (rewrite !app_length; lia).
        replace ((w' ++ tail) ++ gl ++ pre ++ r ++ tail') with (w' ++ (tail ++ gl ++ pre) ++ (r ++ tail')) by (rewrite <- !app_assoc; reflexivity).
        symmetry. apply substring_mid.
      * assert (Hs : exists s' z, q :: s = s' ++ [z]) by (destruct (exists_last (l := q :: s)) as (s' & z & Ez); [discriminate|eauto]).
        destruct Hs as (s' & z & Es). rewrite Es in E.
        replace (l ++ (i, j) :: (k, m) :: s' ++ [z]) with ((l ++ (i, j) :: (k, m) :: s') ++ [z]) in E by (rewrite <- app_assoc; reflexivity).
        apply app_inj_tail in E as [E _]. rewrite substring_app; [eapply I5; exact E|].
        assert (Hin : In (k, m) ix) by (rewrite E; apply in_or_app; right; right; left; reflexivity).
        apply (ranges_In _ _ _ _ _ I2) in Hin. lia.
    + rewrite !app_length, I6. reflexivity.
Qed.

(** ** One join *)
(** the hyphen the joining rules put between two forms; [cv]: what stands before
    is a lone CVV or CV'V rafsi *)
Inductive glued (gen : bool) (yh : yset) (n : nat) (cv : bool) (suf r' gl : str) : Prop :=
| glued_none : suf <> [c_h] -> gl = [] ->
    (suf = [] -> cv = true -> gen = false -> n = 2 /\ rafsi_tarmi r' = CCV) -> glued gen yh n cv suf r' gl
| glued_y : suf = [c_h] -> gl = [c_y] -> glued gen yh n cv suf r' gl
| glued_hy : suf = [] -> cv = true -> gen = false -> yh = FORCE_Y -> gl = [c_h; c_y] -> ~ (n = 2 /\ rafsi_tarmi r' = CCV) -> glued gen yh n cv suf r' gl
| glued_n : suf = [] -> cv = true -> gen = false -> yh <> FORCE_Y -> hd 0%N r' = c_r -> gl = [c_n] -> ~ (n = 2 /\ rafsi_tarmi r' = CCV) -> glued gen yh n cv suf r' gl
| glued_r : suf = [] -> cv = true -> gen = false -> yh <> FORCE_Y -> hd 0%N r' <> c_r -> gl = [c_r] -> ~ (n = 2 /\ rafsi_tarmi r' = CCV) -> glued gen yh n cv suf r' gl.

Lemma last_app_vc : forall w0 r s d, r = s ++ [d] -> last (w0 ++ r) 0%N = d.
Proof. intros w0 r s d ->. rewrite app_assoc. apply last_last. Qed.

Lemma hy_cases : forall c, is_hy c = true -> c = c_y \/ c = c_h.
Proof. intros c H. unfold is_hy in H. apply orb_true_iff in H as [H|H]; apply N.eqb_eq in H; auto. Qed.

Lemma join_facts : forall st gen n w ix w0 r t suf fi la' x' r' t' suf' wc rc sc tos c,
  w = w0 ++ r ++ suf -> usable (allow_mz st) r t -> suffixed fi false t suf ->
  (cvv_like (strip_hyphens w) = true -> length w <= 5 /\ (suf = [] \/ suf = [c_h])) ->
  piece st false la' x' (r', t', suf') ->
  combine w (fst x') wc rc sc ix tos gen n st = Ok (Some c) ->
  exists gl, let pre := prefix_of false r' in
  c_word c = w ++ gl ++ pre ++ r' ++ suf'
  /\ c_idx c = ix ++ [(length w + length gl + length pre, length w + length gl + length pre + length r')]
  /\ gap_ok (suf ++ gl ++ pre)
  /\ glued gen (y_hyphens st) n (cvv_like (strip_hyphens w)) suf r' gl
  /\ (suf = [] -> pre = [] /\ rafsi_tarmi r' <> OTHER_RAFSI)
  /\ c_score c = (sc + score gl + score (fst x') - tiebreak (c_word c))%Z
  /\ (suf = [] -> gl = [] -> exists a b, last w 0%N = a /\ hd 0%N r' = b
        /\ (is_consonant a = true -> is_consonant b = true -> permissible (allow_mz st) a b)
        /\ (forall b' d s, r' ++ suf' = b' :: d :: s -> ~ forbidden_triple a b' d))
  /\ next_tosmabru tos (fst x') (rafsi_tarmi r') (last w 0%N) (hd 0%N (fst x')) = Some (c_tos c)
  /\ next_consonants w (fst x') gl wc rc (consonants st) (glides st) = Ok (c_cons c).
Proof.
  intros st gen n w ix w0 r t suf fi la' x' r' t' suf' wc rc sc tos c Ew U Hs Hcv P H.
  destruct P as (U' & Ex & Hs' & Hk). apply combine_word in H as (hy & i & W1 & W2 & W3 & W4 & W5 & W6 & W7 & W8 & W9 & W10 & W11 & W12 & W13 & W14).
  set (pre := prefix_of false r') in *.
  assert (Est : strip_hyphens (fst x') = r').
  { rewrite Ex. eapply strip_usable; [exact U'|apply prefix_hy|eapply suffixed_hy; exact Hs']. }
  unfold tarmi_ignoring_hyphen in *. rewrite Est in *.
  destruct (u_first _ _ _ U') as (c0 & s0 & E0 & V0). destruct (u_last _ _ _ U) as (s1 & d1 & E1 & V1).
  assert (H0 : is_hy c0 = false) by (apply vc_not_hy; exact V0).
  assert (H1 : is_hy d1 = false) by (apply vc_not_hy; exact V1).
  assert (Hh : forall c, is_hy c = false -> N.eqb c c_h = false).
  { intros c' G. unfold is_hy in G. apply orb_false_iff in G as [G _]. exact G. }
  assert (Hhd : (pre = [] /\ hd 0%N (fst x') = c0) \/ (pre = [c_h] /\ hd 0%N (fst x') = c_h)).
  { rewrite Ex. fold pre. destruct (prefix_cases false r') as [G|[G _]]; unfold pre; rewrite G; [left|right]; split; auto. rewrite E0. reflexivity. }
  assert (Hll : (suf = [] /\ last w 0%N = d1) \/ (suf = [c_y] /\ last w 0%N = c_y) \/ (suf = [c_h; c_y] /\ last w 0%N = c_y) \/ (suf = [c_h] /\ last w 0%N = c_h)).
  { destruct (suffixed_cases _ _ _ _ Hs) as [->|[->|[->|[-> _]]]]; subst w.
    - left. split; [reflexivity|]. rewrite app_nil_r. eapply last_app_vc. exact E1.
    - right; left. split; [reflexivity|]. rewrite app_assoc. apply last_last.
    - right; right; left. split; [reflexivity|]. change [c_h; c_y] with ([c_h] ++ [c_y]). rewrite !app_assoc. apply last_last.
    - right; right; right. split; [reflexivity|]. rewrite app_assoc. apply last_last. }
  assert (Hn0 : suf = [] -> pre = [] /\ rafsi_tarmi r' <> OTHER_RAFSI).
  { intros ->. destruct Hll as [[_ Hl]|[[G _]|[[G _]|[G _]]]]; try discriminate. rewrite Hl in *. split.
    - destruct Hhd as [[G _]|[_ G]]; [exact G|]. rewrite W11 in H1 by exact G. discriminate.
    - destruct W13 as [G|G]; [congruence|exact G]. }
  assert (Hi : (if N.eqb (hd 0%N (fst x')) c_h then 1 else 0) = length pre).
  { destruct Hhd as [[-> ->]|[-> ->]]; [|reflexivity]. rewrite Hh by exact H0. reflexivity. }
  rewrite Hi in W7. subst i.
  assert (G : glued gen (y_hyphens st) n (cvv_like (strip_hyphens w)) suf r' hy /\ gap_ok (suf ++ hy ++ pre)).
  { unfold glue in W4.
    assert (Hlist : forall g, In g (map L ["y"; "n"; "r"; "'y"; "y'"; "'y'"]%string) -> gap_ok g) by (intros; right; assumption).
    destruct Hll as [[Es Hl]|[[Es Hl]|[[Es Hl]|[Es Hl]]]]; rewrite Hl in W4.
    - (* no hyphen letter before *)
      rewrite (Hh _ H1) in W4. destruct (Hn0 Es) as [Hp _]. rewrite Hp in *. rewrite Es. cbn [app].
      dif W4; [discriminate|]. clear Heqb.
      destruct Hhd as [[_ Ehd]|[G _]]; [|discriminate].
      destruct ((length w <=? 5) && negb gen) eqn:E5.
      + apply andb_t in E5 as [L5 Hg]. apply negb_true_iff in Hg. cbv zeta in W4. unfold tarmi_ignoring_hyphen in W4.
        fold (cvv_like (strip_hyphens w)) in W4.
        assert (D : (n = 2 /\ rafsi_tarmi r' = CCV) \/ ((n =? 2) && tarmi_eqb (rafsi_tarmi r') CCV = false /\ ~ (n = 2 /\ rafsi_tarmi r' = CCV))).
        { destruct ((n =? 2) && tarmi_eqb (rafsi_tarmi r') CCV) eqn:En.
          - left. apply andb_t in En as [En1 En2]. apply Nat.eqb_eq in En1. apply tarmi_eqb_eq in En2. auto.
          - right. split; [reflexivity|]. intros [Q1 Q2]. rewrite Q1, Q2 in En. discriminate. }
        destruct D as [[Dn Dt]|[D D']].
        * rewrite Dn, Dt in W4. cbn in W4. injection W4 as <-. split; [|left; reflexivity].
          apply glued_none; [discriminate|reflexivity|]. auto.
        * rewrite D in W4. destruct (cvv_like (strip_hyphens w)) eqn:Ecv.
          -- rewrite Ehd in W4. assert (Er : hd 0%N r' = c0) by (rewrite E0; reflexivity).
             destruct (yset_eqb (y_hyphens st) FORCE_Y) eqn:Ey.
             ++ injection W4 as <-. split; [|right; cbn; auto]. apply glued_hy; auto. destruct (y_hyphens st); try discriminate; reflexivity.
             ++ assert (Hy : y_hyphens st <> FORCE_Y) by (intro G; rewrite G in Ey; discriminate).
                destruct (N.eqb c0 c_r) eqn:Ec; injection W4 as <-.
                ** apply N.eqb_eq in Ec. split; [|right; cbn; auto]. apply glued_n; auto. congruence.
                ** apply N.eqb_neq in Ec. split; [|right; cbn; auto]. apply glued_r; auto. congruence.
          -- injection W4 as <-. split; [|left; reflexivity]. apply glued_none; [discriminate|reflexivity|]. discriminate.
      + injection W4 as <-. split; [|left; reflexivity]. apply glued_none; [discriminate|reflexivity|].
        intros _ Hc Hg. rewrite Hg, andb_true_r in E5. apply Nat.leb_gt in E5. apply Hcv in Hc as [Hc _]. clear -E5 Hc. lia.
    - change (N.eqb c_y c_h) with false in W4. cbv iota in W4. dif W4; [discriminate|].
      assert (Hno : cvv_like (strip_hyphens w) = false).
      { destruct (cvv_like (strip_hyphens w)); [|reflexivity]. destruct Hcv as [_ [G|G]]; [reflexivity|..]; rewrite Es in G; discriminate. }
      assert (hy = []).
      { dif W4; [|injection W4 as <-; reflexivity]. cbv zeta in W4. unfold tarmi_ignoring_hyphen in W4. fold (cvv_like (strip_hyphens w)) in W4.
        rewrite Hno in W4. destruct (_ && _) in W4; injection W4 as <-; reflexivity. }
      subst hy. rewrite Es. split; [apply glued_none; [discriminate|reflexivity|discriminate]|].
      destruct Hhd as [[-> _]|[-> _]]; apply Hlist; cbn; auto 10.
    - change (N.eqb c_y c_h) with false in W4. cbv iota in W4. dif W4; [discriminate|].
      assert (Hno : cvv_like (strip_hyphens w) = false).
      { destruct (cvv_like (strip_hyphens w)); [|reflexivity]. destruct Hcv as [_ [G|G]]; [reflexivity|..]; rewrite Es in G; discriminate. }
      assert (hy = []).
      { dif W4; [|injection W4 as <-; reflexivity]. cbv zeta in W4. unfold tarmi_ignoring_hyphen in W4. fold (cvv_like (strip_hyphens w)) in W4.
        rewrite Hno in W4. destruct (_ && _) in W4; injection W4 as <-; reflexivity. }
      subst hy. rewrite Es. split; [apply glued_none; [discriminate|reflexivity|discriminate]|].
      destruct Hhd as [[-> _]|[-> _]]; apply Hlist; cbn; auto 10.
    - change (N.eqb c_h c_h) with true in W4. cbv iota in W4. dif W4; [|discriminate]. injection W4 as <-. rewrite Es. split; [apply glued_y; reflexivity|].
      destruct Hhd as [[-> _]|[-> _]]; apply Hlist; cbn; auto 10. }
  destruct G as [G1 G2]. exists hy. cbv zeta. fold pre. rewrite Ex in W3. fold pre in W3.
  split; [exact W3|]. split; [exact W8|]. split; [exact G2|]. split; [exact G1|]. split; [exact Hn0|].
  split; [rewrite W6, W3, Ex; fold pre; reflexivity|].
  split; [|split; [exact W5|exact W9]].
  intros Es Eg. destruct (Hn0 Es) as [Hp _]. exists (last w 0%N), (hd 0%N r'). split; [reflexivity|]. split; [reflexivity|].
  assert (Ef : fst x' = r' ++ suf') by (rewrite Ex; fold pre; rewrite Hp; reflexivity).
  assert (Eh : hd 0%N (fst x') = hd 0%N r') by (rewrite Ef, E0; reflexivity).
  split.
  - intros Ha Hb. rewrite Eh in W10. apply valid_pairs_spec, W10. rewrite Ha, Hb. reflexivity.
  - intros b' d s E. rewrite Ef, E in W12. cbn [firstn] in W12. intro F. apply triple_spec in F. congruence.
Qed.

(** ** Clusters of a join *)
Lemma good_app_ncl : forall mz a b, good mz a -> good mz b ->
  (forall s c, a = s ++ [c] -> is_consonant c = false) -> good mz (a ++ b).
Proof.
  intros mz a b [H1 H2] [G1 G2] F. split; [apply Forall_app; auto|]. apply clusters_app; [exact H2|exact G2|].
  intros a' x y b' E _ Hx _. exfalso. apply is_consonant_spec in Hx. rewrite (F _ _ E) in Hx. discriminate.
Qed.
Lemma hy_nc : forall c, is_hy c = true -> is_consonant c = false.
Proof. intros c H. apply hy_cases in H as [-> | ->]; reflexivity. Qed.
Lemma good_hy : forall mz s, forallb is_hy s = true -> good mz s.
Proof.
  intros mz. induction s as [|c s IH]; intro H; [apply good_nil|]. cbn in H. apply andb_t in H as [Hc H].
  apply good_cons_nc; [|apply hy_nc; exact Hc|auto]. apply hy_cases in Hc as [-> | ->]; [apply letter_y'|apply letter_h].
Qed.
Lemma good_app_hy : forall mz a s, good mz a -> forallb is_hy s = true -> good mz (a ++ s).
Proof.
  intros mz a s H Hs. apply good_app_nc; [exact H|apply good_hy; exact Hs|]. intros c r ->. cbn in Hs. apply andb_t in Hs as [Hs _]. apply hy_nc, Hs.
Qed.

Lemma usable_length : forall mz r t, usable mz r t -> rafsi_tarmi r <> OTHER_RAFSI ->
  3 <= length r /\ is_consonant (hd 0%N r) = true.
Proof.
  intros mz r t U H. destruct (u_first _ _ _ U) as (c & s & E & Hc).
  assert (Hh : rafsi_tarmi r <> HYPHEN).
  { intro Eh. rewrite E in Eh. unfold rafsi_tarmi in Eh. dif Eh.
    - apply str_eqb_eq in Heqb. cbn in Heqb. injection Heqb as Ec _. rewrite Ec in Hc. discriminate.
    - dif Eh; [discriminate|]. destruct s as [|s1 s].
      + destruct t as [| | |x].
        * destruct (u_cluster _ _ _ U (or_introl eq_refl)) as (a & b & (u & v & G) & _). rewrite E in G. destruct u as [|? [|]]; discriminate.
        * destruct (u_cluster _ _ _ U (or_intror eq_refl)) as (a & b & (u & v & G) & _). rewrite E in G. destruct u as [|? [|]]; discriminate.
        * apply H, (u_exp _ _ _ U). reflexivity.
        * destruct (u_tarmi _ _ _ U x eq_refl) as [Hx Hv]. apply valid_proper in Hv. rewrite E in Hv.
          unfold rafsi_tarmi in Hv. rewrite Heqb, Heqb0 in Hv. rewrite Eh in Hv. discriminate.
      + destruct s as [|s2 [|s3 [|s4 [|]]]]; try discriminate; repeat (dif Eh; try discriminate). }
  revert H Hh. rewrite E. unfold rafsi_tarmi. intros H Hh. destruct (str_eqb (c :: s) (L "'y")) eqn:Heqb; [congruence|].
  destruct (negb (is_consonant c) && negb (length (c :: s) =? 1)) eqn:Heqb0; [congruence|]. apply andb_false_iff in Heqb0 as [Hcc|Hcc]; apply negb_false_iff in Hcc.
  - split; [|exact Hcc]. destruct s as [|s1 [|s2 s]]; cbn [length]; try lia; [|congruence].
    destruct (is_vowel c); congruence.
  - apply Nat.eqb_eq in Hcc. destruct s; [|discriminate]. destruct (is_vowel c); congruence.
Qed.

(** a non-final form without added letters is a Tar rafsi of shape CVV, CV'V, CCV or CVC *)
Lemma bare_cases : forall fi t, suffixed fi false t [] -> exists x, t = Tar x /\ (x = CVV \/ x = CVhV \/ x = CCV \/ x = CVC).
Proof.
  intros fi t H. inversion H; subst; try discriminate.
  - destruct H0 as [-> | ->]; eexists; split; try reflexivity; auto.
  - eexists; split; [reflexivity|auto].
  - eexists; split; [reflexivity|auto].
Qed.
Lemma bare_length : forall mz r fi t, usable mz r t -> suffixed fi false t [] -> 3 <= length r.
Proof.
  intros mz r fi t U H. destruct (bare_cases _ _ H) as (x & -> & Hx). destruct (u_tarmi _ _ _ U x eq_refl) as [Ht _].
  eapply usable_length; [exact U|]. rewrite Ht. destruct Hx as [->|[->|[->| ->]]]; discriminate.
Qed.
Lemma bare_last : forall mz r fi t s c, usable mz r t -> suffixed fi false t [] -> r = s ++ [c] -> is_consonant c = true ->
  exists a v, r = [a; v; c] /\ is_consonant a = true /\ is_vowel v = true.
Proof.
  intros mz r fi t s c U H Er Hc. destruct (bare_cases _ _ H) as (x & -> & Hx). destruct (u_tarmi _ _ _ U x eq_refl) as [Ht _].
  assert (K : forall v s', r = s' ++ [v] -> is_vowel v = true -> False).
  { intros v s' E Hv. rewrite Er in E. apply app_inj_tail in E as [_ ->]. apply v_f0 in Hv. congruence. }
  destruct Hx as [->|[->|[->| ->]]].
  - apply tarmi_CVV in Ht as (a & b & d & E & _ & _ & Hd). exfalso. apply (K d [a; b]); assumption.
  - apply tarmi_CVhV in Ht as (a & b & d & E & _ & _ & Hd). exfalso. apply (K d [a; b; c_h]); assumption.
  - apply tarmi_CCV in Ht as (a & b & d & E & _ & _ & Hd). exfalso. apply (K d [a; b]); assumption.
  - apply tarmi_CVC in Ht as (a & b & d & E & Ha & Hb & Hd). exists a, b. split; [|auto]. rewrite Er in E.
    change [a; b; d] with ([a; b] ++ [d]) in E. apply app_inj_tail in E as [E ->]. rewrite Er, E. reflexivity.
Qed.

Lemma good_glued : forall mz gen yh n w w0 r t suf fi la' r' t' suf' gl,
  w = w0 ++ r ++ suf -> usable mz r t -> suffixed fi false t suf ->
  usable mz r' t' -> suffixed false la' t' suf' ->
  good mz w -> glued gen yh n (cvv_like (strip_hyphens w)) suf r' gl ->
  (suf = [] -> prefix_of false r' = [] /\ rafsi_tarmi r' <> OTHER_RAFSI) ->
  (cvv_like (strip_hyphens w) = true -> w0 = []) ->
  (suf = [] -> gl = [] -> exists a b, last w 0%N = a /\ hd 0%N r' = b
        /\ (is_consonant a = true -> is_consonant b = true -> permissible mz a b)
        /\ (forall b' d s, r' ++ suf' = b' :: d :: s -> ~ forbidden_triple a b' d)) ->
  good mz (w ++ gl ++ prefix_of false r' ++ r' ++ suf').
Proof.
  intros mz gen yh n w w0 r t suf fi la' r' t' suf' gl Ew U Hs U' Hs' Gw Hg Hn0 Hcv Hj.
  assert (Gf : good mz (r' ++ suf')) by (apply good_app_hy; [apply (u_good _ _ _ U')|eapply suffixed_hy; exact Hs']).
  assert (HY : forall g, forallb is_hy g = true -> (suf ++ g <> []) -> good mz (w ++ g ++ r' ++ suf')).
  { intros g Hy Hne. rewrite app_assoc. apply good_app_ncl; [apply good_app_hy; assumption|exact Gf|].
    intros s c E. subst w. replace ((w0 ++ r ++ suf) ++ g) with ((w0 ++ r) ++ (suf ++ g)) in E by (rewrite <- !app_assoc; reflexivity).
    destruct (exists_last Hne) as (s' & z & Ez). rewrite Ez, app_assoc in E. apply app_inj_tail in E as [_ <-].
    apply hy_nc. assert (F : forallb is_hy (suf ++ g) = true) by (rewrite forallb_app, Hy, (suffixed_hy _ _ _ _ Hs); reflexivity).
    rewrite Ez, forallb_app in F. apply andb_t in F as [_ F]. cbn in F. rewrite andb_true_r in F. exact F. }
  assert (RN : forall c, c = c_r /\ hd 0%N r' <> c_r \/ c = c_n /\ hd 0%N r' = c_r -> suf = [] -> cvv_like (strip_hyphens w) = true ->
     good mz (w ++ [c] ++ r' ++ suf')).
  { intros c Hc Es Ecv. destruct (Hn0 Es) as [_ Ht]. destruct (usable_length _ _ _ U' Ht) as [_ Hcr].
    destruct r' as [|b r']; [discriminate|]. cbn [hd] in *. subst suf. rewrite Hcv in Ew by exact Ecv. rewrite app_nil_r in Ew. cbn [app] in Ew. subst w.
    apply good_app_ncl; [exact Gw| |].
    - destruct Gf as [Gf1 Gf2]. split.
      + constructor; [|exact Gf1]. destruct Hc as [[-> _]|[-> _]]; apply letter_c, is_consonant_spec; reflexivity.
      + apply clusters_cons; [| |exact Gf2].
        * destruct Hc as [[-> Hb]|[-> ->]]; [apply permissible_r; [apply is_consonant_spec; exact Hcr|exact Hb]|].
          apply valid_pairs_spec. destruct mz; vm_compute; reflexivity.
        * intros e s' _ F. unfold forbidden_triple in F. cbn in F. destruct Hc as [[-> _]|[-> ->]];
            repeat (destruct F as [F|F]; [discriminate|]); exact F.
    - intros s d E. pose proof (strip_usable mz r t [] [] U eq_refl eq_refl) as Q. cbn [app] in Q. rewrite app_nil_r in Q. rewrite Q in Ecv.
      apply cvv_like_spec in Ecv as (c1 & v1 & v2 & [Er|Er] & _ & _ & Hv); rewrite Er in E.
      + change [c1; v1; v2] with ([c1; v1] ++ [v2]) in E. apply app_inj_tail in E as [_ <-]. apply v_f0, Hv.
      + change [c1; v1; c_h; v2] with ([c1; v1; c_h] ++ [v2]) in E. apply app_inj_tail in E as [_ <-]. apply v_f0, Hv. }
  destruct Hg as [N1 Egl _|Es Egl|Es Ecv _ _ Egl _|Es Ecv _ _ Ehd Egl _|Es Ecv _ _ Ehd Egl _]; subst gl.
  - destruct suf as [|c suf0] eqn:Esuf.
    + destruct (Hn0 eq_refl) as [-> Ht]. cbn [app]. destruct (Hj eq_refl eq_refl) as (a & b & Ha & Hb & P1 & P2).
      destruct Gw as [Gw1 Gw2]. destruct Gf as [Gf1 Gf2]. split; [apply Forall_app; auto|].
      apply clusters_app; [exact Gw2|exact Gf2|]. intros a' x y b' Ea Eb Hx Hy.
      assert (a = x) by (rewrite Ea, last_last in Ha; congruence). subst x.
      assert (b = y). { destruct (u_first _ _ _ U') as (c0 & s0 & E0 & _). rewrite E0 in Eb, Hb. injection Eb as -> _. exact (eq_sym Hb). } subst y.
      apply is_consonant_spec in Hx, Hy. split; [auto|]. split.
      * intros z b'' ->. eapply P2. exact Eb.
      * intros u a'' Ea' F. apply triple_consonants in F as [F _]. apply is_consonant_spec in F.
        destruct (u_last _ _ _ U) as (s1 & d1 & E1 & V1).
        assert (d1 = a). { subst w. rewrite E1, app_nil_r, app_assoc in Ea. apply app_inj_tail in Ea as [_ ->]. reflexivity. } subst d1.
        destruct (bare_last _ _ _ _ _ _ U Hs E1 Hx) as (p & v & Er & Hp & Hv). subst w a'. rewrite Er, app_nil_r in Ea.
        change [p; v; a] with ([p; v] ++ [a]) in Ea. rewrite app_assoc in Ea. apply app_inj_tail in Ea as [Ea _].
        change [p; v] with ([p] ++ [v]) in Ea. rewrite app_assoc in Ea. apply app_inj_tail in Ea as [_ ->]. apply v_f0 in Hv. congruence.
    + cbn [app]. apply HY; [apply prefix_hy|discriminate].
  - change (good mz (w ++ ([c_y] ++ prefix_of false r') ++ r' ++ suf')). apply HY; [|subst suf; discriminate]. rewrite forallb_app, prefix_hy. reflexivity.
  - destruct (Hn0 Es) as [-> _]. cbn [app]. apply (HY [c_h; c_y]); [reflexivity|subst suf; discriminate].
  - destruct (Hn0 Es) as [-> _]. cbn [app]. apply (RN c_n); auto.
  - destruct (Hn0 Es) as [-> _]. cbn [app]. apply (RN c_r); auto.
Qed.

(** ** The whole chain *)
Definition big (s : str) : Prop := 5 <= length s \/ In c_y s.
Lemma big_cvv : forall s, big s -> cvv_like s = false.
Proof.
  intros s H. destruct (cvv_like s) eqn:E; [|reflexivity]. exfalso. destruct H as [H|H].
  - apply cvv_like_length in E. lia.
  - exact (cvv_like_noy _ E H).
Qed.
Lemma big_app : forall a b, big a -> big (a ++ b).
Proof. intros a b [H|H]; [left; rewrite app_length; lia|right; apply in_or_app; auto]. Qed.

Record built (st : settings) (la : bool) (ps : list (str * rtype * str)) (w0 r : str) (t : rtype) (tail : str) (c : cand) : Prop := {
  b_last : exists ps', ps = ps' ++ [(r, t, tail)] /\ ps' <> [];
  b_word : c_word c = w0 ++ r ++ tail;
  b_usable : usable (allow_mz st) r t;
  b_suffix : suffixed false la t tail;
  b_layout : layout (c_word c) (c_idx c) (map rafsi_str ps) tail;
  b_big : big (w0 ++ r);
  b_first : exists a s, w0 ++ r = a :: s /\ is_vowel a || is_consonant a = true;
  b_good : good (allow_mz st) (c_word c);
  b_starts : starts_ok (c_word c)
}.

Lemma built_strip : forall st la ps w0 r t tail c, built st la ps w0 r t tail c -> strip_hyphens (c_word c) = w0 ++ r.
Proof.
  intros st la ps w0 r t tail c B. rewrite (b_word _ _ _ _ _ _ _ _ B), app_assoc.
  destruct (b_first _ _ _ _ _ _ _ _ B) as (a & s & Ea & Ha). destruct (u_last _ _ _ (b_usable _ _ _ _ _ _ _ _ B)) as (s' & d & Ed & Hd).
  apply (strip_mid is_hy [] (w0 ++ r) tail a s d (w0 ++ s')); try reflexivity; try (apply vc_not_hy; assumption).
  - eapply suffixed_hy. exact (b_suffix _ _ _ _ _ _ _ _ B).
  - exact Ea.
  - rewrite Ed, app_assoc. reflexivity.
Qed.

Lemma glued_big : forall mz gen yh n r0 t0 suf0 r1 t1 gl pre,
  usable mz r0 t0 -> suffixed true false t0 suf0 -> usable mz r1 t1 ->
  glued gen yh n (cvv_like r0) suf0 r1 gl -> (suf0 = [] -> rafsi_tarmi r1 <> OTHER_RAFSI) ->
  big (r0 ++ suf0 ++ gl ++ pre ++ r1).
Proof.
  intros mz gen yh n r0 t0 suf0 r1 t1 gl pre U0 S0 U1 G Ht.
  assert (Y : In c_y (suf0 ++ gl) -> big (r0 ++ suf0 ++ gl ++ pre ++ r1)).
  { intro H. right. apply in_or_app. right. rewrite app_assoc. apply in_or_app. auto. }
  destruct suf0 as [|c0 suf0].
  - pose proof (bare_length _ _ _ _ U0 S0) as L0. destruct (usable_length _ _ _ U1 (Ht eq_refl)) as [L1 _].
    left. cbn [app]. rewrite !app_length. unfold str, char in *. lia.
  - destruct G as [N1 Egl _|Es Egl|Es _ _ _ _ _|Es _ _ _ _ _|Es _ _ _ _ _]; try discriminate; subst gl.
    + apply Y. rewrite app_nil_r. destruct (suffixed_cases _ _ _ _ S0) as [E|[E|[E|[E _]]]]; try discriminate; try congruence; rewrite E; cbn; auto.
    + apply Y. apply in_or_app. right. left. reflexivity.
Qed.

Lemma first_cand : forall st x r t suf, piece st true false x (r, t, suf) -> fst x = r ++ suf.
Proof. intros st x r t suf (_ & E & _). exact E. Qed.

Theorem chain_built : forall gen st n choice c, chain gen st n choice c -> length choice <= n ->
  forall ps, pieces st n choice ps ->
  exists w0 r t tail, built st (length choice =? n) ps w0 r t tail c.
Proof.
  intros gen st n choice c H. induction H as [f0 n0 f1 n1 tos c H1 H2 | l c f k c' Hc IH H]; intros Hn ps Hps.
  - cbn [length] in *. apply pieces_two_inv in Hps as ([[r0 t0] suf0] & [[r1 t1] suf1] & -> & P0 & P1).
    assert (E0 : (0 =? n - 1) = false) by (apply Nat.eqb_neq; lia). rewrite E0 in P0.
    assert (E1 : (1 =? n - 1) = (2 =? n)) by (destruct n as [|[|n]]; [lia|lia|reflexivity]). rewrite E1 in P1.
    pose proof P0 as (U0 & F0 & S0 & K0). cbn [fst prefix_of app] in F0. subst f0.
    assert (Est : strip_hyphens (r0 ++ suf0) = r0) by (apply (strip_usable _ _ _ [] suf0 U0); [reflexivity|eapply suffixed_hy; exact S0]).
    rewrite Est in H2.
    assert (Hcvv : cvv_like (strip_hyphens (r0 ++ suf0)) = true -> length (r0 ++ suf0) <= 5 /\ (suf0 = [] \/ suf0 = [c_h])).
    { rewrite Est. intro Hc.
      assert (Ht0 : t0 = Tar CVV \/ t0 = Tar CVhV).
      { destruct t0 as [| | |x].
        - exfalso. eapply cvv_like_nocluster; [exact Hc|]. apply (u_cluster _ _ _ U0). auto.
        - exfalso. eapply cvv_like_nocluster; [exact Hc|]. apply (u_cluster _ _ _ U0). auto.
        - unfold cvv_like in Hc. rewrite (u_exp _ _ _ U0 eq_refl) in Hc. discriminate.
        - destruct (u_tarmi _ _ _ U0 x eq_refl) as [Hx _]. unfold cvv_like in Hc. rewrite Hx in Hc. destruct x; try discriminate; auto. }
      assert (Hs0 : suf0 = [] \/ suf0 = [c_h]).
      { inversion S0; subst; try discriminate; auto; destruct Ht0 as [Q|Q]; try discriminate; intuition (try discriminate); subst; discriminate. }
      split; [|exact Hs0]. pose proof (cvv_like_length _ Hc). rewrite app_length. destruct Hs0 as [-> | ->]; cbn; lia. }
    destruct (join_facts st gen n (r0 ++ suf0) _ [] r0 t0 suf0 true (2 =? n) (f1, n1) r1 t1 suf1 _ _ _ _ _ eq_refl U0 S0 Hcvv P1 H2)
      as (gl & J1 & J2 & J3 & J4 & J5 & J6 & J7 & J8 & J9). cbv zeta in *.
    destruct P1 as (U1 & F1 & S1 & K1). rewrite Est in J4.
    assert (J7' := J7). set (pre := prefix_of false r1) in *.
    exists ((r0 ++ suf0) ++ gl ++ pre), r1, t1, suf1.
    assert (Gw : good (allow_mz st) (r0 ++ suf0)) by (apply good_app_hy; [apply (u_good _ _ _ U0)|eapply suffixed_hy; exact S0]).
    split.
    + exists [(r0, t0, suf0)]. split; [reflexivity|discriminate].
    + rewrite J1, <- !app_assoc. reflexivity.
    + exact U1.
    + exact S1.
    + rewrite J1, J2. cbn [map rafsi_str fst]. change [r0; r1] with ([r0] ++ [r1]). apply layout_more with (tail := suf0); [apply layout_one|exact J3].
    + rewrite <- !app_assoc. eapply glued_big; try eassumption. intro Es. apply J5, Es.
    + destruct (u_first _ _ _ U0) as (a & s & Ea & Ha). rewrite Ea. cbn [app]. eexists; eexists; split; [reflexivity|exact Ha].
    + rewrite J1. unfold pre. eapply (good_glued _ gen (y_hyphens st) n _ [] r0 t0 suf0 true _ r1 t1 suf1 gl); try eassumption; [reflexivity| |].
      * rewrite Est. exact J4.
      * intros _. reflexivity.
    + rewrite J1. destruct (u_first _ _ _ U0) as (a & s & Ea & Ha). destruct s as [|b s].
      * intros x y z E Hx Hy. exfalso. rewrite Ea in E. cbn [app] in E.
        assert (Hsuf : exists q suf', suf0 = q :: suf' /\ is_hy q = true).
        { destruct suf0 as [|q suf']; [pose proof (bare_length _ _ _ _ U0 S0) as B; rewrite Ea in B; cbn in B; lia|].
          exists q, suf'. split; [reflexivity|]. pose proof (suffixed_hy _ _ _ _ S0) as Q. cbn in Q. apply andb_t in Q. apply Q. }
        destruct Hsuf as (q & suf' & -> & Hq). cbn [app] in E. injection E as _ <- _. apply is_consonant_spec in Hy. rewrite (hy_nc _ Hq) in Hy. discriminate.
      * intros x y z E Hx Hy. rewrite Ea in E. cbn [app] in E. injection E as <- <- _.
        apply (u_starts _ _ _ U0) with (t := s); assumption.
  - rewrite app_length in Hn. cbn [length] in Hn.
    assert (Hl : l <> []) by (pose proof (chain_length _ _ _ _ _ Hc); destruct l; [cbn in *; lia|discriminate]).
    apply pieces_snoc_inv in Hps as (ps0 & [[r1 t1] suf1] & -> & Hps & P1); [|exact Hl].
    destruct (IH ltac:(lia) ps0 Hps) as (w0 & r & t & tail & B).
    assert (El : (length l =? n) = false) by (apply Nat.eqb_neq; lia). rewrite El in B.
    assert (El' : (length l =? n - 1) = (length (l ++ [(f, k)]) =? n)).
    { rewrite app_length. cbn [length]. destruct (Nat.eqb_spec (length l) (n - 1)) as [E|E]; symmetry; [apply Nat.eqb_eq|apply Nat.eqb_neq]; lia. }
    rewrite El' in P1. pose proof (built_strip _ _ _ _ _ _ _ _ B) as Est. destruct B as [B1 B2 B3 B4 B5 B6 B7 B8 B9].
    assert (Hcvf : cvv_like (strip_hyphens (c_word c)) = false) by (rewrite Est; apply big_cvv; exact B6).
    destruct (join_facts st gen 0 (c_word c) _ w0 r t tail false _ (f, k) r1 t1 suf1 _ _ _ _ _ B2 B3 B4 ltac:(rewrite Hcvf; discriminate) P1 H)
      as (gl & J1 & J2 & J3 & J4 & J5 & J6 & J7 & J8 & J9). cbv zeta in *.
    destruct P1 as (U1 & F1 & S1 & K1). set (pre := prefix_of false r1) in *.
    exists (c_word c ++ gl ++ pre), r1, t1, suf1. split.
    + destruct B1 as (ps' & -> & _). exists (ps' ++ [(r, t, tail)]). split; [reflexivity|destruct ps'; discriminate].
    + rewrite J1, <- !app_assoc. reflexivity.
    + exact U1.
    + exact S1.
    + rewrite J1, J2, map_app. cbn [map rafsi_str fst]. apply layout_more with (tail := tail); [exact B5|exact J3].
    + rewrite B2, (app_assoc w0), <- !app_assoc. rewrite (app_assoc w0). apply big_app. exact B6.
    + destruct B7 as (a & s & E & Ha). rewrite B2. exists a, (s ++ tail ++ gl ++ pre ++ r1). split; [|exact Ha].
      rewrite <- !app_assoc, (app_assoc w0), E. reflexivity.
    + rewrite J1. unfold pre. eapply good_glued; try eassumption. rewrite Hcvf. discriminate.
    + rewrite J1. intros x y z E Hx Hy. destruct (c_word c) as [|a [|b w]] eqn:Ew.
      * exfalso. destruct B7 as (q & s & Eq & _). rewrite app_assoc, Eq in B2. discriminate.
      * exfalso. pose proof B6 as B6'. destruct B7 as (q & s & Eq & _). rewrite app_assoc, Eq in B2. injection B2 as <- B2.
        symmetry in B2. apply app_eq_nil in B2 as [-> _]. rewrite Eq in B6'. destruct B6' as [B|B]; cbn in B; [lia|].
        destruct B as [B|[]]. cbn [app] in E. injection E as <- _. rewrite B in Hx. apply is_consonant_spec in Hx. discriminate.
      * cbn [app] in E. injection E as <- <- _. eapply B9; [reflexivity|assumption|assumption].
Qed.

(** ** From the API to the chain *)
Definition raw_words (t : tanru) : list str := match t with TStr s => split_ws s | TList l => l end.

Lemma map_res_ok : forall A B (f : A -> res B) l l', map_res f l = Ok l' -> Forall2 (fun a b => f a = Ok b) l l'.
Proof.
  induction l as [|a l IH]; intros l' H; cbn in H; [injection H as <-; constructor|]. inv_bind H. inv_bind H. injection H as <-. constructor; auto.
Qed.
Lemma process_ok : forall t l, process_tanru t = Ok l -> l = map standard_spelling (raw_words t).
Proof.
  intros t l H. unfold process_tanru in H. fold (raw_words t) in H. apply map_res_ok in H.
  induction H as [|a b ws l E H IH]; [reflexivity|]. cbn [map]. f_equal; [apply normalise_spec in E; exact E|exact IH].
Qed.

Lemma list_list_nth : forall ana jv st n vs i rll, rafsi_list_list_loop ana jv st n i vs = Ok rll ->
  length vs = length rll /\ forall k forms, nth_error rll k = Some forms ->
    exists v, nth_error vs k = Some v /\ rafsi_list_for ana jv st (i + k =? 0) (i + k =? n - 1) v = Ok forms.
Proof.
  induction vs as [|v vs IH]; intros i rll H; cbn [rafsi_list_list_loop] in H.
  - injection H as <-. split; [reflexivity|]. intros [|k] forms E; discriminate.
  - inv_bind H. inv_bind H. injection H as <-. destruct (IH _ _ E0) as [I1 I2]. split; [cbn; congruence|].
    intros [|k] forms G.
    + cbn in G. injection G as <-. exists v. split; [reflexivity|]. rewrite Nat.add_0_r. exact E.
    + cbn in G. apply I2 in G as (v' & G1 & G2). exists v'. split; [exact G1|]. rewrite Nat.add_succ_r. exact G2.
Qed.

Lemma Forall2_nth : forall A B (R : A -> B -> Prop) l l', Forall2 R l l' -> forall k a, nth_error l k = Some a ->
  exists b, nth_error l' k = Some b /\ R a b.
Proof.
  induction 1 as [|a b l l' H H' IH]; intros [|k] x E; try discriminate; cbn in *.
  - injection E as <-. eauto.
  - eauto.
Qed.
Lemma nth_Forall2 : forall A B (R : A -> B -> Prop) l l', length l = length l' ->
  (forall k b, nth_error l' k = Some b -> exists a, nth_error l k = Some a /\ R a b) -> Forall2 R l l'.
Proof.
  induction l as [|a l IH]; intros [|b l'] E H; try discriminate; [constructor|]. constructor.
  - destruct (H 0 b eq_refl) as (a' & G & R'). injection G as <-. exact R'.
  - apply IH; [injection E as E; exact E|]. intros k b' G. exact (H (S k) b' G).
Qed.

Lemma pieces_exist : forall lk st n vs choice, choice <> [] ->
  (forall k x, nth_error choice k = Some x -> exists v p, nth_error vs k = Some v
     /\ piece st (k =? 0) (k =? n - 1) x p /\ source lk st v (fst (fst p)) (snd (fst p))) ->
  exists ps, pieces st n choice ps /\ forall k p, nth_error ps k = Some p ->
    exists v, nth_error vs k = Some v /\ source lk st v (fst (fst p)) (snd (fst p)).
Proof.
  intros lk st n vs choice. induction choice as [|x l IH] using rev_ind; intros Hne H; [congruence|].
  destruct (H (length l) x) as (v & p & Hv & Hp & Hsrc).
  { rewrite nth_error_app2, Nat.sub_diag by lia. reflexivity. }
  destruct l as [|y l'].
  - exists [p]. split; [apply pieces_one; exact Hp|]. intros [|[|k]] p' E; try discriminate. injection E as <-. eauto.
  - destruct IH as (ps & I1 & I2); [discriminate| |].
    + intros k z E. apply H. rewrite nth_error_app1; [exact E|]. apply nth_error_Some. congruence.
    + exists (ps ++ [p]). split; [apply pieces_snoc; [exact I1|exact Hp]|].
      intros k p' E. destruct (lt_dec k (length ps)) as [Hk|Hk].
      * rewrite nth_error_app1 in E by exact Hk. eauto.
      * rewrite nth_error_app2 in E by lia. destruct (k - length ps) as [|q] eqn:Ek; [|destruct q; discriminate].
        injection E as <-. exists v. split; [|exact Hsrc]. apply pieces_length in I1. replace k with (length ps) by lia. rewrite <- I1. exact Hv.
Qed.

(** everything known about a built word *)
Record construction (lk : binding) (gen : bool) (st : settings) (vs : list str) (w : str) (sc : Z) (ix : list (nat * nat))
    (choice : list (str * nat)) (c : cand) (ps : list (str * rtype * str)) : Prop := {
  k_chain : chain gen st (length vs) choice c;
  k_word : c_word c = w;
  k_score : c_score c = sc;
  k_idx : c_idx c = ix;
  k_tos : c_tos c = 0;
  k_cons : c_cons c = 2;
  k_end : exists s l, w = s ++ [l] /\ (if gen then is_consonant l = true else is_vowel l = true);
  k_len : length choice = length vs;
  k_pieces : pieces st (length vs) choice ps;
  k_source : Forall2 (fun v p => source lk st v (fst (fst p)) (snd (fst p))) vs ps;
  k_built : exists w0 r t, built st true ps w0 r t [] c
}.

Theorem best_word_construction : forall lk gen st vs rll w sc ix,
  get_rafsi_list_list (analyse_brivla lk) (jvk lk) st vs = Ok rll -> best_word gen st rll = Ok (w, sc, ix) ->
  exists choice c ps, construction lk gen st vs w sc ix choice c ps.
Proof.
  intros lk gen st vs rll w sc ix H1 H2. unfold get_rafsi_list_list in H1.
  destruct (list_list_nth _ _ _ _ _ _ _ H1) as [L1 N1].
  destruct (best_word_chain _ _ _ _ _ _ H2) as (choice & c & l & F & C & W & S & I & T & K & El & Hl).
  assert (Lc : length choice = length vs) by (rewrite (Forall2_length _ _ _ _ _ F); congruence).
  assert (Hne : choice <> []) by (apply chain_length in C; destruct choice; [cbn in *; lia|discriminate]).
  destruct (pieces_exist lk st (length vs) vs choice Hne) as (ps & P1 & P2).
  { intros k [f kk] E. destruct (Forall2_nth _ _ _ _ _ F _ _ E) as (forms & E2 & Hin).
    apply N1 in E2 as (v & E3 & E4). cbn [Nat.add] in E4.
    destruct (forms_source _ _ _ _ _ _ _ E4 Hin) as (r & t & fs & Hs & Hf & Hi).
    pose proof (source_usable _ _ _ _ _ Hs) as U.
    destruct (forms_shape _ _ _ _ _ _ _ _ _ (usable_ne _ _ _ U) Hf Hi) as (suf & Ef & Hsuf & Hk).
    exists v, (r, t, suf). split; [exact E3|]. split; [|exact Hs]. split; [exact U|]. auto. }
  rewrite <- L1 in C.
  destruct (chain_built _ _ _ _ _ C ltac:(lia) _ P1) as (w0 & r & t & tail & B).
  rewrite Lc, Nat.eqb_refl in B.
  assert (Et : tail = []).
  { destruct (suffixed_cases _ _ _ _ (b_suffix _ _ _ _ _ _ _ _ B)) as [->|[->|[->|[-> Q]]]]; [reflexivity|..|discriminate];
      exfalso; pose proof (b_word _ _ _ _ _ _ _ _ B) as Bw; rewrite W in Bw; apply last_opt_some in El as [s El]; rewrite Bw in El.
    - rewrite app_assoc in El. apply app_inj_tail in El as [_ <-]. destruct gen; discriminate.
    - change [c_h; c_y] with ([c_h] ++ [c_y]) in El. rewrite !app_assoc in El. apply app_inj_tail in El as [_ <-]. destruct gen; discriminate. }
  subst tail. exists choice, c, ps. split; try assumption.
  - apply last_opt_some in El as [s El]. eauto.
  - apply nth_Forall2; [rewrite <- Lc; apply pieces_length in P1; exact P1|]. exact P2.
  - eauto.
Qed.

Theorem analytics_construction : forall lk gen st t w sc ix,
  get_lujvo_with_analytics lk gen st t = Ok (w, sc, ix) ->
  exists choice c ps, construction lk gen st (map standard_spelling (raw_words t)) w sc ix choice c ps.
Proof.
  intros lk gen st t w sc ix H. unfold get_lujvo_with_analytics in H. inv_bind H. apply process_ok in E. subst x.
  rewrite lujvo_from_list_eq in H. inv_bind H. inv_bind H. destruct x0 as [[w' sc'] ix'].
  eapply best_word_construction; [exact E|]. rewrite E0. f_equal.
  destruct gen; [congruence|]. destruct lk; [discriminate|]. inv_bind H. destruct x0; [discriminate|congruence].
Qed.
