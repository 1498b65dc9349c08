(** Recursion depth: the analyser calls itself only on strictly shorter words, so
    fuel equal to the length of the word (plus a constant) always suffices. *)
From Verif Require Import Str Data Tarmi Rafsi Core Lib Spec Shapes Katna Decomp Vowels Errs Builder Jvokaha.

(** ** Lower-case strings *)
Definition low (s : str) : Prop := Forall (fun c => lower_char c = [c]) s.
Lemma low_app : forall a b, low (a ++ b) <-> low a /\ low b.
Proof. intros. apply Forall_app. Qed.
Lemma lower_char_low : forall c, low (lower_char c).
Proof.
  intro c. unfold lower_char. 
  destruct (N.leb 65 c && N.leb c 90)%N eqn:E.
  - constructor; [|constructor]. unfold lower_char.
    destruct (N.leb 65 (c + 32) && N.leb (c + 32) 90)%N eqn:F; [lia|].
    destruct (N.eqb_spec (c + 32) 304); [lia|]. destruct (N.eqb_spec (c + 32) 8490); [lia|]. reflexivity.
  - destruct (N.eqb c 304) eqn:E1; [repeat constructor|]. destruct (N.eqb c 8490) eqn:E2; [repeat constructor|].
    constructor; [|constructor]. unfold lower_char. rewrite E, E1, E2. reflexivity.
Qed.
Lemma lower_low : forall s, low (lower s).
Proof.
  induction s as [|c s IH]; [constructor|]. cbn. apply low_app. split; [apply lower_char_low|exact IH].
Qed.
Lemma low_lower : forall s, low s -> lower s = s.
Proof. induction 1 as [|c s H Hs IH]; [reflexivity|]. unfold lower in *. cbn [flat_map]. rewrite H, IH. reflexivity. Qed.
Lemma spelling_low : forall w, low (standard_spelling w).
Proof.
  intro w. unfold standard_spelling. apply Forall_forall. intros c Hc. apply filter_In in Hc as [Hc _].
  apply in_map_iff in Hc as (x & <- & Hx). destruct (N.eqb x 104); [reflexivity|].
  pose proof (lower_low (match w with c :: r => if N.eqb c 46%N then r else w | [] => [] end)) as G.
  eapply Forall_forall in G; [|exact Hx]. exact G.
Qed.
Lemma filter_len : forall A (p : A -> bool) l, length (filter p l) <= length l.
Proof. induction l as [|a l IH]; cbn; [lia|]. destruct (p a); cbn; lia. Qed.
Lemma spelling_length_low : forall u, low u -> length (standard_spelling u) <= length u.
Proof.
  intros u H. unfold standard_spelling. etransitivity; [apply filter_len|]. rewrite map_length.
  destruct u as [|c u]; [cbn; lia|]. inversion H; subst.
  destruct (N.eqb c 46); rewrite low_lower by assumption; cbn [length]; auto.
Qed.
Lemma lower_length : forall s, length (lower s) <= 2 * length s.
Proof.
  induction s as [|c s IH]; [cbn; lia|]. cbn. rewrite app_length.
  assert (length (lower_char c) <= 2); [|unfold lower, str, char in *; lia]. unfold lower_char.
  destruct (_ && _); [cbn; lia|]. destruct (N.eqb c 304); [cbn; lia|]. destruct (N.eqb c 8490); cbn; lia.
Qed.
Lemma spelling_length : forall w, length (standard_spelling w) <= 2 * length w.
Proof.
  intro w. unfold standard_spelling. etransitivity; [apply filter_len|]. rewrite map_length.
  etransitivity; [apply lower_length|]. destruct w as [|c w]; [cbn; lia|]. destruct (N.eqb c 46); cbn [length]; lia.
Qed.
Lemma low_skipn : forall n s, low s -> low (skipn n s).
Proof. intros n s H. rewrite <- (firstn_skipn n s) in H. apply low_app in H. tauto. Qed.
Lemma low_firstn : forall n s, low s -> low (firstn n s).
Proof. intros n s H. rewrite <- (firstn_skipn n s) in H. apply low_app in H. tauto. Qed.

(** ** The analyser only looks at shorter words *)
Definition agree (n : nat) (ana ana' : ana_t) : Prop :=
  forall st u, length (standard_spelling u) < n -> ana st u = ana' st u.
Definition agreej (j j' : jvk_t) : Prop := forall yh cs gl mz w, j yh cs gl mz w = j' yh cs gl mz w.

Section Congruence.
Variables (n : nat) (ana ana' : ana_t) (j j' : jvk_t).
Hypotheses (Ha : agree n ana ana') (Hj : agreej j j').

Lemma slinkuhi_cong : forall yh mz s, is_slinkuhi j yh mz s = is_slinkuhi j' yh mz s.
Proof. intros. unfold is_slinkuhi. rewrite Hj. reflexivity. Qed.

Lemma is_brivla_cong : forall st u, length (standard_spelling u) < n -> is_brivla ana st u = is_brivla ana' st u.
Proof. intros st u H. unfold is_brivla. rewrite (Ha st u H). reflexivity. Qed.

Lemma is_brivla_suffix : forall st v k, low v -> length v <= n -> 1 <= k -> 1 <= n ->
  is_brivla ana st (skipn k v) = is_brivla ana' st (skipn k v).
Proof.
  intros st v k Hl Hn Hk Hn1. apply is_brivla_cong.
  eapply Nat.le_lt_trans; [apply spelling_length_low; apply low_skipn; exact Hl|].
  rewrite skipn_length. lia.
Qed.

Lemma falls_apart_cong : forall yh v p is_, low v -> length v <= n -> 1 <= n ->
  Forall (fun i => i < p) is_ -> falls_apart ana yh v p is_ = falls_apart ana' yh v p is_.
Proof.
  intros yh v p is_ Hl Hn Hn1 H. induction H as [|i is_ Hi His IH]; [reflexivity|]. cbn [falls_apart].
  destruct (idx v (p - i)); [|reflexivity]. cbn [bind]. rewrite IH.
  rewrite (is_brivla_suffix (dflt_y yh) v (p - i)) by (assumption || lia). reflexivity.
Qed.

Lemma check_cong : forall req yh exp mz v, low v -> length v <= n -> 1 <= n ->
  check_zihevla_or_rafsi ana j req yh exp mz v = check_zihevla_or_rafsi ana' j' req yh exp mz v.
Proof.
  intros req yh exp mz v Hl Hn Hn1. unfold check_zihevla_or_rafsi.
  destruct (req && _); [reflexivity|]. destruct (zloop _ _ _ _ _) as [z|]; [|reflexivity]. cbn [bind].
  rewrite slinkuhi_cong.
  assert (E : (if (z_syl z <? 2) && (req || negb exp) then Err NotZihevlaError
          else if 2 <? z_syl z then
            match z_cluster z with
            | Some p =>
                if 0 <? p then
                  b <- is_brivla ana (dflt_y yh) (skipn p v) ;;
                  if b : bool then Err NotZihevlaError
                  else
                    b' <- falls_apart ana yh v p (seq 1 (p - 1)) ;;
                    if b' : bool then Err NotZihevlaError else Ok tt
                else Ok tt
            | None => Ok tt
            end
          else Ok tt) =
         (if (z_syl z <? 2) && (req || negb exp) then Err NotZihevlaError
          else if 2 <? z_syl z then
            match z_cluster z with
            | Some p =>
                if 0 <? p then
                  b <- is_brivla ana' (dflt_y yh) (skipn p v) ;;
                  if b : bool then Err NotZihevlaError
                  else
                    b' <- falls_apart ana' yh v p (seq 1 (p - 1)) ;;
                    if b' : bool then Err NotZihevlaError else Ok tt
                else Ok tt
            | None => Ok tt
            end
          else Ok tt)).
  { destruct (z_cluster z) as [p|]; [|reflexivity]. destruct (0 <? p) eqn:Ep; [|reflexivity].
    apply Nat.ltb_lt in Ep. rewrite is_brivla_suffix by (assumption || lia).
    rewrite falls_apart_cong; [reflexivity|assumption..|].
    apply Forall_forall. intros i Hi. apply in_seq in Hi. lia. }
  rewrite E. reflexivity.
Qed.

Lemma tosmabru_cong : forall st y0 p b, tosmabru_check j st y0 p b = tosmabru_check j' st y0 p b.
Proof.
  intros. unfold tosmabru_check. destruct (to_smabru p) as [[t s]|]; [|reflexivity]. cbn [bind].
  destruct s; [reflexivity|]. rewrite Hj. reflexivity.
Qed.

Lemma part_kaha_cong : forall st pa p num cl, length (standard_spelling pa) < n ->
  part_kaha ana st pa p num cl = part_kaha ana' st pa p num cl.
Proof. intros. unfold part_kaha. rewrite Ha by assumption. reflexivity. Qed.

Lemma analyse_part_cong : forall st cm ys i p0 a, low p0 -> length p0 + 2 <= n ->
  analyse_part ana j st cm ys i p0 a = analyse_part ana' j' st cm ys i p0 a.
Proof.
  intros st cm ys i p0 a Hl Hn. unfold analyse_part. cbv zeta.
  destruct (part_head _ _ _) as [[part nh]|] eqn:Eh; [|reflexivity]. cbn [bind].
  destruct (part_head_eq _ _ _ _ _ Eh) as [E1 [E2 [E3 [pre E4]]]].
  assert (Lp : low part /\ length part <= length p0).
  { destruct E4 as [_ E4]. rewrite E4 in Hl |- *. apply low_app in Hl. rewrite app_length. split; [tauto|lia]. }
  destruct Lp as [Lp Lp2].
  destruct (tarmi_eqb _ _); [reflexivity|]. destruct (idx part 0); [|reflexivity]. cbn [bind].
  destruct (part_tail _ _ _ _ _ _) as [p|] eqn:Et; [|reflexivity]. cbn [bind].
  rewrite tosmabru_cong.
  assert (Lpa : low (part ++ [c_a])) by (apply low_app; split; [assumption|repeat constructor]).
  rewrite part_kaha_cong.
  2:{ eapply Nat.le_lt_trans; [apply spelling_length_low; exact Lpa|]. rewrite app_length. cbn. lia. }
  destruct (part_tail_eq _ _ _ _ _ _ _ Et) as [F1 [_ F2]].
  assert (Lc : low (p_copy p) /\ length (p_copy p) <= length part).
  { rewrite <- F1 in Lp |- *. apply low_app in Lp. rewrite app_length. split; [tauto|lia]. }
  rewrite check_cong; [reflexivity| | |lia].
  - rewrite F2. destruct (p_adda p); [apply low_app; split; [tauto|repeat constructor]|tauto].
  - rewrite F2. destruct (p_adda p); rewrite ?app_length; cbn; lia.
Qed.

Lemma analyse_loop_cong : forall st cm ys parts i a, Forall (fun p => low p /\ length p + 2 <= n) parts ->
  analyse_loop ana j st cm ys i parts a = analyse_loop ana' j' st cm ys i parts a.
Proof.
  intros st cm ys parts i a H. revert i a. induction H as [|p ps [H1 H2] Hps IH]; intros i a; [reflexivity|].
  cbn [analyse_loop]. rewrite analyse_part_cong by assumption. destruct (analyse_part _ _ _ _ _ _ _ _); [|reflexivity].
  cbn [bind]. apply IH.
Qed.

Lemma split_parts_small : forall v0 v l, low (v0 :: v) -> last_opt (v0 :: v) = Some l -> l <> c_y -> v0 <> c_y ->
  (length (split_on c_y (v0 :: v)) =? 1) = false ->
  Forall (fun p => low p /\ length p + 2 <= length (v0 :: v)) (split_on c_y (v0 :: v)).
Proof.
  intros v0 v l Hl Hlast Hly H0 Hlen. set (w := v0 :: v) in *.
  assert (G : forall parts, parts <> [] -> low (join_on c_y parts) -> forall p, In p parts -> low p /\
     length p + (length parts - 1) <= length (join_on c_y parts)
     /\ (forall q qs, parts = q :: qs -> qs <> [] -> p = q \/ length q + length p + 1 <= length (join_on c_y parts))
     /\ (forall q qs, parts = qs ++ [q] -> qs <> [] -> In p qs -> length q + length p + 1 <= length (join_on c_y parts))).
  { clear. induction parts as [|q parts IH]; intros Hne Hlow p Hp; [congruence|].
    destruct parts as [|q2 parts].
    - destruct Hp as [<-|[]]. cbn in *. split; [assumption|]. split; [lia|]. split.
      + intros ? ? E. injection E as <- <-. congruence.
      + intros q0 [|? [|]] E; try discriminate; congruence.
    - change (join_on c_y (q :: q2 :: parts)) with (q ++ c_y :: join_on c_y (q2 :: parts)) in *.
      apply low_app in Hlow as [L1 L2]. inversion L2; subst. specialize (IH ltac:(discriminate) H2).
      rewrite app_length. cbn [length].
      destruct Hp as [<-|Hp].
      + split; [assumption|].
        assert (K : length parts <= length (join_on c_y (q2 :: parts))).
        { destruct (IH q2 (or_introl eq_refl)) as (_ & K & _). cbn [length] in K. lia. }
        split; [cbn in *; lia|]. split.
        * intros q' qs E _. injection E as <- <-. auto.
        * intros q' qs E Hqs _. destruct qs as [|q'' qs]; [congruence|]. injection E as <- E.
          assert (In q' (q2 :: parts)) by (rewrite E; apply in_elt).
          destruct (IH q' H) as (_ & K2 & _). lia.
      + destruct (IH p Hp) as (K1 & K2 & K3 & K4). split; [assumption|]. split; [cbn in *; lia|]. split.
        * intros q' qs E _. injection E as <- <-. right. cbn in *. lia.
        * intros q' qs E Hqs Hin. destruct qs as [|q'' qs]; [congruence|]. injection E as <- E.
          destruct qs as [|q3 qs].
          { destruct Hin as [<-|[]]. destruct (IH q') as (_ & K5 & _); [rewrite E; apply in_elt|]. lia. }
          destruct Hin as [<-|Hin].
          { destruct (IH q') as (_ & K5 & _); [rewrite E; apply in_elt|]. lia. }
          specialize (K4 q' (q3 :: qs) E ltac:(discriminate) Hin). cbn in *. lia. }
  pose proof (split_on_nonnil c_y w) as Hne.
  apply last_opt_some in Hlast as [s' Es].
  destruct (split_on_last c_y s' l Hly) as (pre & q & Eq). rewrite <- Es in Eq.
  assert (F : exists p0 ps, split_on c_y w = (v0 :: p0) :: ps).
  { unfold w. cbn [split_on]. destruct (N.eqb_spec c_y v0); [congruence|].
    destruct (split_on c_y v); eauto. }
  destruct F as (p0 & ps & F).
  apply Forall_forall. intros p Hp.
  specialize (G (split_on c_y w) Hne). rewrite join_split in G. specialize (G Hl p Hp).
  destruct G as (G1 & _ & G3 & G4). split; [exact G1|].
  assert (Hps : ps <> []) by (intros ->; rewrite F in Hlen; discriminate).
  destruct (G3 _ _ F Hps) as [->|G3']; [|cbn [length] in *; lia].
  assert (Hpre : pre <> []).
  { intros ->. rewrite F in Eq. injection Eq as _ ->. congruence. }
  specialize (G4 _ _ Eq Hpre).
  assert (Hin : In (v0 :: p0) pre).
  { destruct pre; [congruence|]. rewrite F in Eq. injection Eq as -> _. left; reflexivity. }
  specialize (G4 Hin). rewrite app_length in G4. cbn [length] in *. lia.
Qed.

Lemma analyse_body_cong : forall st w, length (standard_spelling w) <= n ->
  analyse_body ana j st w = analyse_body ana' j' st w.
Proof.
  intros st w Hn. unfold analyse_body. destruct (normalise w) as [v|] eqn:En; [|reflexivity]. cbn [bind].
  apply normalise_spec in En. pose proof (spelling_low w) as Hl. rewrite <- En in *. clear En w.
  destruct (last_opt v) as [l|] eqn:El; [|reflexivity]. cbv zeta.
  destruct (negb (is_consonant l) && negb (is_vowel l)) eqn:Ecv; [reflexivity|].
  destruct (is_consonant l && is_gismu _ _); [reflexivity|]. destruct (negb (is_consonant l) && is_gismu _ _); [reflexivity|].
  rewrite Hj.
  assert (G : analyse_other ana j st (is_consonant l) v = analyse_other ana' j' st (is_consonant l) v).
  { unfold analyse_other. destruct v as [|v0 v]; [discriminate|]. cbn [idx nth_error bind].
    destruct (negb (is_vowel v0 || is_consonant v0)) eqn:E0; [reflexivity|]. cbv zeta.
    destruct (length _ =? 1) eqn:E1.
    - destruct (is_consonant l); [reflexivity|]. rewrite check_cong; [reflexivity|assumption|assumption|cbn in Hn; lia].
    - unfold analyse_compound. rewrite slinkuhi_cong. rewrite analyse_loop_cong; [reflexivity|].
      assert (Hly : l <> c_y) by (intros ->; discriminate).
      assert (H0 : v0 <> c_y) by (intros ->; discriminate).
      eapply Forall_impl; [|eapply split_parts_small; eassumption]. cbn beta. intros p [K1 K2]. split; [assumption|lia]. }
  rewrite G. reflexivity.
Qed.
End Congruence.

Lemma analyse_S : forall lk f st w,
  analyse lk (S f) st w = analyse_body (analyse lk f) (jvokaha lk f) st w.
Proof. reflexivity. Qed.

Theorem analyse_fuel : forall lk n f g st w, length (standard_spelling w) <= n -> n + 4 <= f -> n + 4 <= g ->
  analyse lk f st w = analyse lk g st w.
Proof.
  intros lk. induction n as [n IH] using lt_wf_ind. intros f g st w Hn Hf Hg.
  destruct f as [|f]; [lia|]. destruct g as [|g]; [lia|]. rewrite !analyse_S.
  apply (analyse_body_cong (length (standard_spelling w))); [| |lia].
  - intros st' u Hu. apply (IH (length (standard_spelling u))); lia.
  - intros yh cs gl mz x. rewrite !jvokaha_jvk by lia. reflexivity.
Qed.
