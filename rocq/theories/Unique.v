(** The lujvo made of given rafsi is unique: two cheapest words with the same
    rafsi have the same hyphens. *)
From Verif Require Import Str Data Tarmi Rafsi Core Api Lib Spec Shapes Decomp Basic Vowels Katna Dict Errs Builder Jvokaha Fuel Raises Inv Parts Clusters Zihevla Forms Chain Score Alt Lujvo Optimal Swap Total Onset Pinned Found.

(** ** Forms of CLL rafsi *)
Definition cr (st : settings) (r : str) : nat := credit (consonants st) (glides st) (Tar (rafsi_tarmi r)) [].
Definition tform (st : settings) (fi la : bool) (r : str) (x : str * nat) : Prop :=
  exists suf, suffixed fi la (Tar (rafsi_tarmi r)) suf /\ x = (r ++ suf, cr st r).

Lemma cll_hd : forall mz r suf, cll mz r -> hd 0%N (r ++ suf) = hd 0%N r /\ is_consonant (hd 0%N r) = true /\ hd 0%N r <> c_h
  /\ firstn 2 (r ++ suf) = firstn 2 r.
Proof.
  intros mz r suf H. destruct (cll_first _ _ H) as (a & b & c & t & -> & Ha & _). cbn. repeat split; [exact Ha|].
  intros ->. discriminate.
Qed.
Lemma cll_last : forall mz r, cll mz r -> exists s d, r = s ++ [d] /\ is_vowel d || is_consonant d = true.
Proof. intros mz r H. apply (u_last _ _ _ (cll_usable _ _ H)). Qed.
Lemma cll_other : forall mz r suf, cll mz r -> forallb is_hy suf = true -> tarmi_ignoring_hyphen (r ++ suf) = rafsi_tarmi r /\ rafsi_tarmi r <> OTHER_RAFSI.
Proof.
  intros mz r suf H Hs. unfold tarmi_ignoring_hyphen. rewrite (strip_suffix _ _ _ H Hs). split; [reflexivity|].
  apply cll_proper in H. intro E. rewrite E in H. discriminate.
Qed.
Lemma cll_fine : forall st r suf, cll (allow_mz st) r -> forallb is_hy suf = true -> fine (consonants st) (r ++ suf, cr st r).
Proof.
  intros st r suf H Hs. destruct (cll_last _ _ H) as (s & d & Er & Hd). pose proof (cll_len _ _ H) as L3.
  assert (Hy : is_hy d = false) by (apply vc_not_hy; exact Hd).
  assert (LS : last_sound (r ++ suf) = Ok d) by (rewrite Er; apply last_sound_hy; assumption).
  split; [cbn [fst]; rewrite app_length; lia|]. cbn [fst snd]. split.
  - destruct (cll_first _ _ H) as (a & b & c & t & E & Ha & _). exists d. exists (r ++ suf). split; [exact LS|].
    rewrite E. unfold first_sound. cbn [app drop_while]. destruct (N.eqb c_h a) eqn:Eh; [apply N.eqb_eq in Eh; subst a; discriminate|]. reflexivity.
  - intros Ec. unfold cr, credit. rewrite Ec. cbn [cset_eqb]. destruct (rafsi_tarmi r) eqn:Et; auto; right; exists d; (split; [exact LS|]);
      [apply tarmi_CVhV in Et as (x & y & z & E & _ & _ & Hz)|apply tarmi_CVV in Et as (x & y & z & E & _ & _ & Hz)]; rewrite E in Er;
      [change [x; y; c_h; z] with ([x; y; c_h] ++ [z]) in Er|change [x; y; z] with ([x; y] ++ [z]) in Er]; apply app_inj_tail in Er as [_ <-]; exact Hz.
Qed.

Lemma tos_zero : forall tos f T ll r0 t, tos <= 2 -> r0 <> c_h -> next_tosmabru tos f T ll r0 = Some t -> (T = CVC -> last_opt f = Some c_y) ->
  t = 0 /\ forall f' T', (T' = CVC -> T = CVC) -> T' <> CVCCV -> next_tosmabru tos f' T' ll r0 = Some 0.
Proof.
  intros tos f T ll r0 t Ht Hr H Hc. unfold next_tosmabru in *. apply N.eqb_neq in Hr. rewrite Hr in *. cbn [negb orb] in *.
  destruct (tos =? TOSMABRU) eqn:E1.
  - destruct (negb (mems [ll; r0] INITIAL)); [injection H as <-; auto|].
    assert (T <> CVC /\ t = 0) as [K ->].
    { destruct (tarmi_eqb T CVCCV) eqn:E2.
      - apply tarmi_eqb_eq in E2. subst T. split; [discriminate|]. destruct (mems _ _) in H; [discriminate|]. injection H as <-. reflexivity.
      - destruct (tarmi_eqb T CVC) eqn:E3; [apply tarmi_eqb_eq in E3; rewrite (Hc E3), N.eqb_refl in H; discriminate|].
        split; [intros ->; discriminate|]. injection H as <-. reflexivity. }
    split; [reflexivity|]. intros f' T' H1 H2. destruct (tarmi_eqb T' CVCCV) eqn:E2; [apply tarmi_eqb_eq in E2; contradiction|].
    destruct (tarmi_eqb T' CVC) eqn:E3; [apply tarmi_eqb_eq in E3; exfalso; auto|reflexivity].
  - destruct (tos =? TOSYhUhU) eqn:E2; [injection H as <-; auto|]. injection H as <-.
    assert (tos = 0) as -> by (apply Nat.eqb_neq in E1, E2; unfold TOSMABRU, TOSYhUhU in *; lia). auto.
Qed.

Lemma cons_form : forall st w r suf suf' hy kw k gl mz, cll mz r -> 
  next_consonants w (r ++ suf) hy kw k (consonants st) gl = next_consonants w (r ++ suf') hy kw k (consonants st) gl.
Proof.
  intros st w r suf suf' hy kw k gl mz H. destruct (cll_first _ _ H) as (a & b & c & t & -> & Ha & _). unfold next_consonants.
  assert (F : forall s, first_sound ((a :: b :: c :: t) ++ s) = Ok ((a :: b :: c :: t) ++ s)).
  { intro s. unfold first_sound. cbn [app drop_while]. destruct (N.eqb c_h a) eqn:Eh; [apply N.eqb_eq in Eh; subst a; discriminate|]. reflexivity. }
  rewrite !F. cbn [app bind]. rewrite Ha. cbn [orb]. reflexivity.
Qed.

(** [r] may stand before [g] without a hyphen *)
Definition joins (mz : bool) (r g : str) : bool :=
  negb (is_consonant (last r 0%N) && is_consonant (hd 0%N g) && negb (mems [last r 0%N; hd 0%N g] (valid_pairs mz)))
  && negb (mems (last r 0%N :: firstn 2 g) BANNED_TRIPLES).

Lemma score_suffix : forall mz r suf, cll mz r -> forallb is_hy suf = true -> score (r ++ suf) = (score r + base suf)%Z.
Proof.
  intros mz r suf H Hs. rewrite !score_base, base_app, (strip_suffix _ _ _ H Hs). pose proof (strip_suffix _ _ [] H eq_refl) as E.
  rewrite app_nil_r in E. rewrite E. lia.
Qed.

(** what may be left out *)
Definition spare (r suf : str) : Prop :=
  (rafsi_tarmi r = CVC /\ suf = [c_y]) \/ ((rafsi_tarmi r = CVV \/ rafsi_tarmi r = CVhV \/ rafsi_tarmi r = CCV) /\ suf = [c_h; c_y]).
Lemma ease_bare : forall st r suf g sg, cll (allow_mz st) r -> cll (allow_mz st) g -> forallb is_hy sg = true -> spare r suf ->
  joins (allow_mz st) r g = true -> eases st (r ++ suf) r (cr st r) (g ++ sg).
Proof.
  intros st r suf g sg Hr Hg Hsg S J. unfold joins in J. apply andb_t in J as [J1 J2]. apply negb_true_iff in J1, J2.
  assert (Hs : forallb is_hy suf = true) by (destruct S as [[_ ->]|[_ ->]]; reflexivity).
  destruct (cll_hd _ _ suf Hr) as (R1 & R2 & R3 & R4). destruct (cll_hd _ _ sg Hg) as (G1 & G2 & G3 & G4).
  destruct (cll_other _ _ suf Hr Hs) as [T1 T2]. destruct (cll_other _ _ [] Hr eq_refl) as [T3 _]. rewrite app_nil_r in T3.
  destruct (cll_other _ _ sg Hg Hsg) as [T4 T5]. destruct (cll_last _ _ Hr) as (s & d & Er & Hd).
  assert (Ld : last r 0%N = d) by (rewrite Er; apply last_last).
  split.
  - rewrite R1. auto.
  - symmetry. exact R4.
  - apply cll_fine; assumption.
  - pose proof (cll_fine st r [] Hr eq_refl) as F. rewrite app_nil_r in F. exact F.
  - rewrite T3. exact T2.
  - rewrite T1, T3. reflexivity.
  - intros tos t ll Ht. rewrite T1, T3, R1. intro N. apply tos_zero in N; [| assumption| assumption|].
    + destruct N as [N1 N2]. split; [exact N1|]. apply N2; [auto|]. destruct S as [[E _]|[[E|[E|E]] _]]; rewrite E; discriminate.
    + intro E. destruct S as [[_ ->]|[[E'|[E'|E']] _]]; [apply last_opt_app|congruence..].
  - intros. rewrite <- (app_nil_r r) at 1. eapply cons_form. exact Hr.
  - destruct S as [[_ ->]|[_ ->]]; [apply last_last|]. change [c_h; c_y] with ([c_h] ++ [c_y]). rewrite app_assoc. apply last_last.
  - rewrite Ld. apply vc_not_hy in Hd. intros ->. discriminate.
  - rewrite G1, T4. auto.
  - rewrite G1. intro E. rewrite E in J1. cbn [andb] in J1. apply negb_false_iff in J1. exact J1.
  - rewrite G4. exact J2.
  - rewrite (score_suffix _ _ _ Hr Hs). destruct S as [[_ ->]|[_ ->]]; [change (base [c_y]) with 1100%Z|change (base [c_h; c_y]) with 2100%Z]; clear; lia.
Qed.

Lemma banned_vowel : forall v t, is_vowel v = true -> mems (v :: t) BANNED_TRIPLES = false.
Proof.
  intros v t H. destruct (mems _ _) eqn:E; [|reflexivity]. apply mems_In in E.
  assert (G : forallb (fun u => match u with a :: _ => negb (is_vowel a) | [] => true end) BANNED_TRIPLES = true) by reflexivity.
  rewrite forallb_forall in G. apply G in E. rewrite H in E. discriminate.
Qed.
Lemma joins_vowel : forall mz (r g : str), is_vowel (last r 0%N) = true -> joins mz r g = true.
Proof. intros mz r g H. unfold joins. rewrite banned_vowel by exact H. rewrite (v_f0 _ H). reflexivity. Qed.
Lemma vowel_end : forall (r : str), rafsi_tarmi r = CVV \/ rafsi_tarmi r = CVhV \/ rafsi_tarmi r = CCV -> is_vowel (last r 0%N) = true.
Proof.
  intros r [H|[H|H]]; [apply tarmi_CVV in H as (a & b & c & -> & _ & _ & H)|apply tarmi_CVhV in H as (a & b & c & -> & _ & _ & H)|apply tarmi_CCV in H as (a & b & c & -> & H)];
    cbn [last]; decompose [and] H; assumption.
Qed.

(** ** A gismu without its last vowel, and y, for the whole gismu and 'y *)
Lemma gismu_drop : forall mz v, is_gismu v mz = true -> exists d c, v = d ++ [c] /\ dropl 1 v = d /\ is_vowel c = true /\ length d = 4.
Proof.
  intros mz v H. apply is_gismu_spec in H as [(c1 & v1 & c2 & c3 & v2 & -> & G)|(c1 & c2 & v1 & c3 & v2 & -> & G)]; decompose [and] G; bfacts.
  - exists [c1; v1; c2; c3], v2. repeat split; assumption.
  - exists [c1; c2; v1; c3], v2. repeat split; assumption.
Qed.
Lemma rank_bound : forall s, (0 <= rank_of s <= 8)%Z.
Proof. intro s. unfold rank_of. destruct (rafsi_tarmi s); vm_compute; split; discriminate. Qed.

Lemma long_facts : forall st v g sg, is_gismu v (allow_mz st) = true -> cll (allow_mz st) g -> forallb is_hy sg = true ->
  eases st (v ++ [c_h; c_y]) (dropl 1 v ++ [c_y]) 2 (g ++ sg).
Proof.
  intros st v g sg Hv Hg Hsg. destruct (gismu_cll _ _ Hv) as (V1 & V2 & _ & V4 & V5).
  destruct (gismu_drop _ _ Hv) as (d & c & Ev & Ed & Hc & L4). rewrite Ed in *.
  destruct (cll_hd _ _ [c] V2) as (R1 & R2 & R3 & R4). destruct (cll_hd _ _ [c_y] V2) as (R1' & _ & _ & R4').
  destruct (cll_hd _ _ [c_h; c_y] V1) as (Q1 & Q2 & Q3 & Q4). rewrite <- Ev in R1, R4.
  destruct (cll_hd _ _ sg Hg) as (G1 & G2 & G3 & G4). destruct (cll_other _ _ sg Hg Hsg) as [T4 T5].
  destruct (cll_other _ _ [c_h; c_y] V1 eq_refl) as [T1 T2]. destruct (cll_other _ _ [c_y] V2 eq_refl) as [T1' T2'].
  split.
  - rewrite Q1, R1', R1. auto.
  - rewrite R4', Q4, R4. reflexivity.
  - pose proof (cll_fine st v [c_h; c_y] V1 eq_refl) as F. replace (cr st v) with 2 in F; [exact F|]. unfold cr, credit. destruct V4 as [-> | ->]; reflexivity.
  - pose proof (cll_fine st d [c_y] V2 eq_refl) as F. replace (cr st d) with 2 in F; [exact F|]. unfold cr, credit. destruct V5 as [-> | ->]; reflexivity.
  - rewrite T1'. exact T2'.
  - rewrite T1, T1'. destruct V4 as [-> | ->], V5 as [-> | ->]; reflexivity.
  - intros tos t ll Ht. rewrite T1, T1', Q1. intro N. apply tos_zero in N; [|assumption|assumption|].
    + destruct N as [N1 N2]. split; [exact N1|]. apply N2; destruct V5 as [-> | ->]; discriminate.
    + destruct V4 as [-> | ->]; discriminate.
  - intros w hy kw gl. unfold next_consonants. reflexivity.
  - change [c_h; c_y] with ([c_h] ++ [c_y]). rewrite app_assoc. apply last_last.
  - rewrite last_last. discriminate.
  - rewrite G1, T4. auto.
  - rewrite last_last. discriminate.
  - rewrite last_last. apply banned_y.
  - rewrite (score_suffix _ _ _ V1), (score_suffix _ _ _ V2) by reflexivity.
    pose proof (strip_suffix _ _ [] V1 eq_refl) as S1. pose proof (strip_suffix _ _ [] V2 eq_refl) as S2. rewrite app_nil_r in S1, S2.
    rewrite !score_base, S1, S2. rewrite Ev at 1. rewrite base_app. pose proof (rank_bound v). pose proof (rank_bound d).
    assert (B : (900 <= base [c])%Z).
    { unfold base. apply is_vowel_spec in Hc. unfold vowel in Hc. cbn in Hc. decompose [or] Hc; try contradiction; subst c; vm_compute; discriminate. }
    change (base [c_h; c_y]) with 2100%Z. change (base [c_y]) with 1100%Z. lia.
Qed.

Lemma swap_first : forall gen st n v g sg m B d, is_gismu v (allow_mz st) = true -> cll (allow_mz st) g -> forallb is_hy sg = true ->
  Forall (fine (consonants st)) ((v ++ [c_h; c_y], 2) :: (g ++ sg, m) :: B) ->
  chain gen st n ((v ++ [c_h; c_y], 2) :: (g ++ sg, m) :: B) d ->
  exists d', chain gen st n ((dropl 1 v ++ [c_y], 2) :: (g ++ sg, m) :: B) d' /\ matched d d' /\ (c_score d' < c_score d)%Z.
Proof.
  intros gen st n v g sg m B d Hv Hg Hsg F H. pose proof (long_facts st v g sg Hv Hg Hsg) as E.
  destruct (gismu_yf _ _ Hv) as (Y1 & Y2 & Y3 & Y4). cbn [fst yf] in Y2, Y3, Y4. destruct (gismu_cll _ _ Hv) as (V1 & V2 & _ & V4 & V5).
  set (f := v ++ [c_h; c_y]) in *. set (f' := dropl 1 v ++ [c_y]) in *.
  pose proof F as F0. inversion F as [|? ? Ff F1]; subst. inversion F1 as [|? ? Fg FB]; subst. clear F F1.
  change (((f, 2) :: (g ++ sg, m) :: B)) with ([(f, 2); (g ++ sg, m)] ++ B) in H, F0.
  destruct (extend_chain _ _ _ [(f, 2); (g ++ sg, m)] _ _ (le_n 2) F0 H) as (c & Hc & K).
  apply chain_two_inv in Hc as (tos & T & Hc). cbn [fst snd] in *.
  assert (Et : tos = 0).
  { unfold first_tos in T. destruct (cll_other _ _ [c_h; c_y] V1 eq_refl) as [T1 _]. unfold f in T. rewrite T1 in T.
    destruct V4 as [V4|V4]; rewrite V4 in T; cbn in T; injection T as <-; reflexivity. }
  subst tos. pose proof (combine_word _ _ _ _ _ _ _ _ _ _ _ Hc) as (hy & i & W1 & W2 & W3 & W4 & W5 & W6 & W7 & W8 & W9 & W10 & W11 & W12 & W13 & W14).
  pose proof (e_y _ _ _ _ _ E) as Ey. rewrite Ey in W4.
  assert (L7 : 6 <= length f) by (unfold f; rewrite app_length; destruct (gismu_drop _ _ Hv) as (d0 & c0 & -> & _ & _ & L4); rewrite app_length; cbn; clear -L4; lia).
  rewrite glue_plain in W4 by (try exact L7; discriminate). injection W4 as <-.
  assert (Hf' : f' <> []) by (unfold f'; destruct (dropl 1 v); discriminate).
  assert (Ly : last f' 0%N = c_y) by (unfold f'; apply last_last).
  assert (NC : next_consonants f' (g ++ sg) [] 2 m (consonants st) (glides st) = Ok (c_cons c)).
  { destruct (next_cons_exchange f f' (g ++ sg) [] 2 m (consonants st) (glides st) (c_cons c)) as [G|[e G]]; [left; reflexivity|left; reflexivity|exact W9|exact G|exfalso].
    destruct Fg as (_ & (x & s & F1 & F2) & _). cbn [fst] in *. unfold next_consonants in G. rewrite F2 in G.
    pose proof (e_fine' _ _ _ _ _ E) as (_ & (x' & s' & F1' & _) & _). cbn [fst] in F1'. rewrite F1' in G.
    cbn [bind] in G. destruct (_ || _); [discriminate|]. destruct (cset_eqb _ CLUSTER); [|discriminate]. destruct (negb _); discriminate. }
  destruct (e_g _ _ _ _ _ E) as [Eg1 Eg2].
  pose proof (combine_make f' (g ++ sg) 2 m (score f') [(0, length (strip_hyphens f'))] 0 gen n st [] 0 (c_cons c) Hf' W2) as C.
  rewrite Ly in C.
  assert (C' : exists c', combine f' (g ++ sg) 2 m (score f') [(0, length (strip_hyphens f'))] 0 gen n st = Ok (Some c') /\ c_tos c' = 0 /\ c_cons c' = c_cons c
    /\ c_word c' = f' ++ g ++ sg /\ c_score c' = (score f' + 0 + score (g ++ sg) - tiebreak (f' ++ g ++ sg))%Z).
  { eexists. split; [apply C; try assumption; try discriminate; try (apply banned_y); try reflexivity|repeat split].
    destruct Y3 as [Y3 Y5]. unfold glue. change (N.eqb c_y c_h) with false. cbv iota.
    assert (Ef : (length f' =? 5) && tarmi_eqb (rafsi_tarmi (firstn 3 f')) CCV && str_eqb (skipn 3 f') [c_h; c_y] = false).
    { apply not_true_is_false. intro Z. apply andb_t in Z as [Z Z3]. apply andb_t in Z as [Z1 Z2].
      apply Nat.eqb_eq in Z1. apply tarmi_eqb_eq in Z2. apply str_eqb_eq in Z3. auto. }
    rewrite Ef. destruct ((length f' <=? 5) && negb gen); [|reflexivity]. rewrite Y3. destruct ((n =? 2) && tarmi_eqb (tarmi_ignoring_hyphen (g ++ sg)) CCV); reflexivity. }
  destruct C' as (c' & C1 & C2 & C3 & C4 & C5).
  destruct (K [(f', 2); (g ++ sg, m)] c' (le_n 2)) as (d' & D1 & D2 & D3).
  - constructor; [apply (e_fine' _ _ _ _ _ E)|]. constructor; [exact Fg|constructor].
  - apply (chain_two gen st n f' 2 (g ++ sg) m 0 c'); [|exact C1]. unfold first_tos.
    destruct (tarmi_eqb _ CVC) eqn:Z; [apply tarmi_eqb_eq in Z; contradiction|reflexivity].
  - split; [|split].
    + rewrite C2. injection W5 as <-. reflexivity.
    + exact C3.
    + rewrite C4, W3. cbn [app]. transitivity (last_opt (g ++ sg)); [|symmetry]; apply last_opt_app_ne; exact W2.
  - exists d'. split; [exact D1|]. split; [exact D2|]. pose proof (e_score _ _ _ _ _ E) as Es. rewrite W6 in D3. change (score []) with 0%Z in D3.
    destruct (tiebreak_01 (f ++ [] ++ g ++ sg)) as [Z|Z], (tiebreak_01 (f' ++ g ++ sg)) as [Z'|Z']; rewrite Z in D3; rewrite C5, Z' in D3; clear -D3 Es; lia.
Qed.

(** ** Choices made of forms of given rafsi *)
Fixpoint tforms (st : settings) (n i : nat) (rs : list str) (ch : list (str * nat)) : Prop :=
  match rs, ch with
  | [], [] => True
  | r :: rs', x :: ch' => tform st (i =? 0) (i =? n - 1) r x /\ tforms st n (S i) rs' ch'
  | _, _ => False
  end.
Lemma tforms_length : forall st n rs i ch, tforms st n i rs ch -> length rs = length ch.
Proof. induction rs as [|r rs IH]; intros i [|x ch] H; try contradiction; [reflexivity|]. cbn. f_equal. eapply IH. apply H. Qed.
Lemma tforms_app : forall st n rs i ch rs' ch', length rs = length ch ->
  tforms st n i (rs ++ rs') (ch ++ ch') <-> tforms st n i rs ch /\ tforms st n (i + length rs) rs' ch'.
Proof.
  induction rs as [|r rs IH]; intros i [|x ch] rs' ch' L; try discriminate; cbn [app tforms length].
  - rewrite Nat.add_0_r. tauto.
  - injection L as L. rewrite (IH (S i) ch rs' ch' L). rewrite Nat.add_succ_r. cbn [Nat.add]. tauto.
Qed.
Lemma tform_fine : forall st fi la r x, cll (allow_mz st) r -> tform st fi la r x -> fine (consonants st) x.
Proof. intros st fi la r x H (suf & S & ->). apply cll_fine; [exact H|eapply suffixed_hy; exact S]. Qed.
Lemma tforms_fine : forall st n rs i ch, Forall (cll (allow_mz st)) rs -> tforms st n i rs ch -> Forall (fine (consonants st)) ch.
Proof.
  induction rs as [|r rs IH]; intros i [|x ch] F H; try contradiction; [constructor|]. destruct H as [K1 K2]. inversion F; subst. constructor.
  - eapply tform_fine; eassumption.
  - eapply IH; eassumption.
Qed.

(** a finished word, and a cheapest one among the choices in [P] *)
Definition whole (gen : bool) (st : settings) (n : nat) (ch : list (str * nat)) (c : cand) : Prop :=
  chain gen st n ch c /\ c_tos c = 0 /\ c_cons c = 2 /\ exists l, last_opt (c_word c) = Some l /\ (if gen then is_consonant l = true else is_vowel l = true).
Record cheapest (gen : bool) (st : settings) (n : nat) (P : list (str * nat) -> Prop) (ch : list (str * nat)) (c : cand) : Prop := {
  h_in : P ch; h_whole : whole gen st n ch c; h_min : forall ch' c', P ch' -> whole gen st n ch' c' -> (c_score c <= c_score c')%Z }.
Arguments h_in {gen}. Arguments h_whole {gen}. Arguments h_min {gen}.
Lemma whole_matched : forall gen st n ch c ch' c', whole gen st n ch c -> chain gen st n ch' c' -> matched c c' -> whole gen st n ch' c'.
Proof. intros gen st n ch c ch' c' (H1 & H2 & H3 & l & H4 & H5) C (M1 & M2 & M3). split; [exact C|]. rewrite M1, M2, M3. eauto. Qed.

(** the hyphen after a rafsi that is not first *)
Definition can (mz : bool) (r g : str) : str :=
  match rafsi_tarmi r with
  | CVC => if joins mz r g then [] else [c_y]
  | CVV | CVhV | CCV => []
  | CVCC | CCVC => [c_y]
  | _ => [c_h; c_y]
  end.
Fixpoint canon (st : settings) (rs : list str) : list (str * nat) :=
  match rs with
  | [] => []
  | r :: t => match t with [] => [(r, cr st r)] | g :: _ => (r ++ can (allow_mz st) r g, cr st r) :: canon st t end
  end.

Lemma chain_word_last : forall gen st n l x b, l <> [] -> Forall (fine (consonants st)) (l ++ [x]) -> chain gen st n (l ++ [x]) b ->
  last (c_word b) 0%N = last (fst x) 0%N.
Proof.
  intros gen st n l x b Hl F H. apply Forall_app in F as [F Fx]. apply Forall_inv in Fx.
  destruct (chain_last _ _ _ _ _ _ Hl F H) as (w & kw & sc & ix & tos & n' & _ & _ & _ & _ & C & _).
  apply combine_word in C as (hy & i & _ & W2 & W3 & _). rewrite W3, app_assoc, last_app_ne by exact W2. reflexivity.
Qed.

Lemma chain_joins : forall gen st n l r k g sg m B d, l <> [] -> cll (allow_mz st) r -> cll (allow_mz st) g ->
  Forall (fine (consonants st)) (l ++ (r, k) :: (g ++ sg, m) :: B) -> chain gen st n (l ++ (r, k) :: (g ++ sg, m) :: B) d -> joins (allow_mz st) r g = true.
Proof.
  intros gen st n l r k g sg m B d Hl Hr Hg F H.
  replace (l ++ (r, k) :: (g ++ sg, m) :: B) with (((l ++ [(r, k)]) ++ [(g ++ sg, m)]) ++ B) in F, H by (rewrite <- !app_assoc; reflexivity).
  assert (L2 : 2 <= length ((l ++ [(r, k)]) ++ [(g ++ sg, m)])) by (rewrite !app_length; cbn; clear; lia).
  destruct (extend_chain _ _ _ _ _ _ L2 F H) as (c & Hc & _).
  apply chain_next_inv in Hc as (b & Hb & Hc); [|rewrite app_length; destruct l; [congruence|cbn; lia]]. cbn [fst snd] in Hc.
  apply Forall_app in F as [F _]. apply Forall_app in F as [F _].
  pose proof (chain_word_last _ _ _ _ _ _ Hl F Hb) as Ll. cbn [fst] in Ll.
  apply combine_word in Hc as (hy & i & _ & _ & _ & _ & _ & _ & _ & _ & _ & W10 & _ & W12 & _). rewrite Ll in W10, W12.
  destruct (cll_hd _ _ sg Hg) as (G1 & _ & _ & G4). rewrite G1 in W10. rewrite G4 in W12. unfold joins. rewrite W12. cbn [negb]. rewrite andb_true_r.
  apply negb_true_iff. destruct (is_consonant (last r 0%N) && is_consonant (hd 0%N g)) eqn:E; [|reflexivity]. cbn [andb]. apply negb_false_iff. exact (W10 eq_refl).
Qed.

Lemma suffix_options : forall r suf, suffixed false false (Tar (rafsi_tarmi r)) suf ->
  match rafsi_tarmi r with
  | CVC => suf = [] \/ suf = [c_y]
  | CVV | CVhV | CCV => suf = [] \/ suf = [c_h; c_y]
  | CVCC | CCVC => suf = [c_y]
  | _ => suf = [c_h; c_y]
  end.
Proof.
  intros r suf H. inversion H as [t Hf Ht Es|t Hf Ht Es|t Hf Ht Es|t Hf Ht Es|Hf Es|Hf Hf' Es|Hf Hf' Es|t Ht Es|t Hf Ht Es|t Hf Hf' Ht Es|Es|Es|Es|Hf Es]; subst; try discriminate;
    destruct (rafsi_tarmi r); repeat match goal with X : _ \/ _ |- _ => destruct X end; try discriminate; auto.
Qed.

Lemma tail_canon : forall gen st n rs rs0 l T d, Forall (cll (allow_mz st)) (rs0 ++ rs) -> length rs0 = length l -> l <> [] ->
  n = length (rs0 ++ rs) -> cheapest gen st n (tforms st n 0 (rs0 ++ rs)) (l ++ T) d -> T = canon st rs.
Proof.
  intros gen st n. induction rs as [|r rs IH]; intros rs0 l T d F L Hl En H; pose proof (h_in _ _ _ _ _ H) as Hin; apply tforms_app in Hin as [T0 TT]; try exact L; cbn [Nat.add] in TT.
  { destruct T; [reflexivity|contradiction]. }
  destruct T as [|x T]; [contradiction|]. destruct TT as [(suf & S & ->) TT]. pose proof F as F'. apply Forall_app in F' as [F1 F2]. inversion F2 as [|? ? Hr Frs]; subst.
  assert (E0 : (length rs0 =? 0) = false) by (apply Nat.eqb_neq; rewrite L; destruct l; [congruence|discriminate]). rewrite E0 in S.
  destruct rs as [|g rs].
  - destruct T; [|contradiction]. cbn [canon]. assert (El : (length rs0 =? length (rs0 ++ [r]) - 1) = true) by (apply Nat.eqb_eq; rewrite app_length; cbn; clear; lia). rewrite El in S.
    destruct (h_whole _ _ _ _ _ H) as (C & _ & _ & e & E1 & E2).
    assert (suf = [] \/ suf = [c_h; c_y]) as [->|Es].
    { inversion S; subst; try discriminate; auto. }
    + rewrite app_nil_r. reflexivity.
    + exfalso. pose proof (chain_word_last _ _ _ _ _ _ Hl (tforms_fine _ _ _ _ _ F (h_in _ _ _ _ _ H)) C) as Ll. cbn [fst] in Ll.
      apply last_opt_some in E1 as [s E1]. rewrite E1, last_last, Es in Ll. change [c_h; c_y] with ([c_h] ++ [c_y]) in Ll. rewrite app_assoc, last_last in Ll. subst e. destruct gen; discriminate.
  - destruct T as [|y T]; [contradiction|]. pose proof TT as [(sg & Sg & ->) TT']. inversion Frs as [|? ? Hg Frs']; subst.
    assert (El : (length rs0 =? length (rs0 ++ r :: g :: rs) - 1) = false) by (apply Nat.eqb_neq; rewrite app_length; cbn; clear; lia). rewrite El in S.
    set (n := length (rs0 ++ r :: g :: rs)) in *.
    pose proof (tforms_fine _ _ _ _ _ F (h_in _ _ _ _ _ H)) as FF.
    assert (Hsg : forallb is_hy sg = true) by (eapply suffixed_hy; exact Sg).
    assert (Hsuf : suf = can (allow_mz st) r g).
    { assert (SW : spare r suf -> joins (allow_mz st) r g = true -> suffixed false false (Tar (rafsi_tarmi r)) [] -> False).
      { intros Sp J S0. pose proof (ease_bare st r suf g sg Hr Hg Hsg Sp J) as E.
        destruct (h_whole _ _ _ _ _ H) as (C & Cr).
        destruct (swap_chain _ _ _ _ _ _ _ _ _ _ _ Hl E FF C) as (d' & D1 & D2 & D3).
        assert (W : whole gen st n (l ++ (r, cr st r) :: (g ++ sg, cr st g) :: T) d') by (eapply whole_matched; [exact (h_whole _ _ _ _ _ H)|exact D1|exact D2]).
        assert (P : tforms st n 0 (rs0 ++ r :: g :: rs) (l ++ (r, cr st r) :: (g ++ sg, cr st g) :: T)).
        { apply tforms_app; [exact L|]. split; [exact T0|]. cbn [Nat.add]. split; [|exact TT]. exists []. rewrite E0, El, app_nil_r. split; [exact S0|reflexivity]. }
        pose proof (h_min _ _ _ _ _ H _ d' P W) as Z. clear -Z D3. lia. }
      pose proof (suffix_options _ _ S) as O. unfold can. destruct (rafsi_tarmi r) eqn:Et; try exact O.
      all: destruct O as [-> | ->]; try reflexivity.
      all: try (exfalso; apply SW; [right; split; [auto|reflexivity]|apply joins_vowel, vowel_end; auto|]; first [apply suf_ccv|apply suf_cvv; auto]).
      - rewrite app_nil_r in *. destruct (h_whole _ _ _ _ _ H) as (C & _). rewrite (chain_joins _ _ _ _ _ _ _ _ _ _ _ Hl Hr Hg FF C). reflexivity.
      - destruct (joins _ r g) eqn:J; [|reflexivity]. exfalso. apply SW; [left; auto|reflexivity|apply suf_cvc]. }
    cbn [canon]. rewrite <- Hsuf. f_equal.
    apply (IH (rs0 ++ [r]) (l ++ [(r ++ suf, cr st r)]) ((g ++ sg, cr st g) :: T) d).
    + rewrite <- app_assoc. exact F.
    + rewrite !app_length, L. reflexivity.
    + destruct l; discriminate.
    + unfold n. rewrite <- app_assoc. reflexivity.
    + rewrite <- !app_assoc. exact H.
Qed.

(** ** The word after its first two parts *)
Definition calmf (x : str * nat) : Prop := hd 0%N (fst x) <> c_h /\ last (fst x) 0%N <> c_h.
Definition total (B : list (str * nat)) : Z := fold_right (fun x z => (score (fst x) + z)%Z) 0%Z B.
Fixpoint places (off : nat) (B : list (str * nat)) : list (nat * nat) :=
  match B with [] => [] | x :: t => (off, off + length (strip_hyphens (fst x))) :: places (off + length (fst x)) t end.
Lemma total_snoc : forall B x, total (B ++ [x]) = (total B + score (fst x))%Z.
Proof. induction B as [|b B IH]; intro x; cbn [app total fold_right]; [lia|]. unfold total in IH. rewrite IH. unfold total. lia. Qed.
Lemma places_snoc : forall B off x, places off (B ++ [x]) =
  places off B ++ [(off + length (word_of B), off + length (word_of B) + length (strip_hyphens (fst x)))].
Proof.
  induction B as [|b B IH]; intros off x; cbn [app places].
  - unfold word_of. cbn. rewrite !Nat.add_0_r. reflexivity.
  - rewrite IH. unfold word_of. cbn [map concat]. rewrite app_length. rewrite !Nat.add_assoc. reflexivity.
Qed.

Lemma chain_tail : forall gen st n x0 y B d, Forall (fine (consonants st)) (x0 :: y :: B) -> Forall calmf (y :: B) ->
  chain gen st n ([x0; y] ++ B) d -> exists c, chain gen st n [x0; y] c /\ c_word d = c_word c ++ word_of B
    /\ c_score d = (c_score c + total B)%Z /\ c_idx d = c_idx c ++ places (length (c_word c)) B.
Proof.
  intros gen st n x0 y B. induction B as [|x B IH] using rev_ind; intros d F K H.
  - rewrite app_nil_r in H. exists d. split; [exact H|]. unfold word_of, total. cbn. rewrite !app_nil_r. repeat split. lia.
  - rewrite app_assoc in H. apply chain_next_inv in H as (b & Hb & H); [|cbn; lia].
    change (x0 :: y :: B ++ [x]) with ([x0; y] ++ B ++ [x]) in F. change (y :: B ++ [x]) with ((y :: B) ++ [x]) in K.
    rewrite app_assoc in F. apply Forall_app in F as [F Fx]. apply Forall_app in K as [K Kx]. apply Forall_inv in Fx, Kx.
    destruct (IH b F K Hb) as (c & C1 & C2 & C3 & C4). exists c. split; [exact C1|].
    pose proof (chain_ripe _ _ _ _ _ Hb F) as [_ _ R3 _].
    assert (Ll : last (c_word b) 0%N <> c_h).
    { assert (E : exists l z, [x0; y] ++ B = l ++ [z] /\ l <> [] /\ calmf z).
      { destruct B as [|b0 B0] using rev_ind; [exists [x0], y; split; [reflexivity|]; split; [discriminate|]; apply Forall_inv in K; exact K|].
        exists ([x0; y] ++ B0), b0. rewrite app_assoc. split; [reflexivity|]. split; [discriminate|].
        change (y :: B0 ++ [b0]) with ((y :: B0) ++ [b0]) in K. apply Forall_app in K as [_ K]. apply Forall_inv in K. exact K. }
      destruct E as (l & z & E & Hl & Hz). rewrite E in Hb, F. rewrite (chain_word_last _ _ _ _ _ _ Hl F Hb). apply Hz. }
    apply combine_word in H as (hy & i & W1 & W2 & W3 & W4 & W5 & W6 & W7 & W8 & _).
    rewrite glue_plain in W4 by assumption. injection W4 as <-. destruct Kx as [Kx _]. apply N.eqb_neq in Kx. rewrite Kx in W7. cbn [length app] in W3, W6, W7.
    rewrite tiebreak_long in W6 by (rewrite app_length; destruct Fx as [Fx _]; clear -R3 Fx; lia). change (score []) with 0%Z in W6.
    split; [|split].
    + rewrite W3, C2, word_snoc, app_assoc. reflexivity.
    + rewrite W6, C3, total_snoc. clear. lia.
    + rewrite W8, C4, places_snoc, W7, C2, app_length, <- app_assoc, !Nat.add_0_r. reflexivity.
Qed.

Lemma canon_calm : forall st rs, Forall (cll (allow_mz st)) rs -> Forall calmf (canon st rs).
Proof.
  intros st rs F. assert (G : forall r suf, cll (allow_mz st) r -> suf = [] \/ suf = [c_y] \/ suf = [c_h; c_y] -> calmf (r ++ suf, cr st r)).
  { intros r suf Hr Hs. destruct (cll_hd _ _ suf Hr) as (H1 & _ & H3 & _). split; cbn [fst]; [rewrite H1; exact H3|].
    destruct Hs as [->|[->| ->]].
    - rewrite app_nil_r. destruct (cll_last _ _ Hr) as (s & d & -> & Hd). rewrite last_last. apply vc_not_hy in Hd. intros ->. discriminate.
    - rewrite last_last. discriminate.
    - change [c_h; c_y] with ([c_h] ++ [c_y]). rewrite app_assoc, last_last. discriminate. }
  induction F as [|r rs Hr F IH]; [constructor|]. cbn [canon]. destruct rs as [|g rs]; (constructor; [|first [exact IH|apply Forall_nil]]).
  - pose proof (G r [] Hr (or_introl eq_refl)) as K. rewrite app_nil_r in K. exact K.
  - apply G; [exact Hr|]. unfold can. destruct (rafsi_tarmi r); auto. destruct (joins _ _ _); auto.
Qed.

Lemma first_options : forall r suf, suffixed true false (Tar (rafsi_tarmi r)) suf ->
  match rafsi_tarmi r with
  | CVC => suf = [] \/ suf = [c_y]
  | CVV | CVhV => suf = [] \/ suf = [c_h]
  | CCV => suf = [] \/ suf = [c_h; c_y]
  | CVCC | CCVC => suf = [c_y]
  | _ => suf = [c_h; c_y]
  end.
Proof.
  intros r suf H. inversion H as [t Hf Ht Es|t Hf Ht Es|t Hf Ht Es|t Hf Ht Es|Hf Es|Hf Hf' Es|Hf Hf' Es|t Ht Es|t Hf Ht Es|t Hf Hf' Ht Es|Es|Es|Es|Hf Es]; subst; try discriminate;
    destruct (rafsi_tarmi r); repeat match goal with X : _ \/ _ |- _ => destruct X end; try discriminate; auto.
Qed.

(** the first hyphen: none is better, unless the word comes out the same *)
Lemma head_compare : forall gen st n r u g sg m c1 c2, cll (allow_mz st) r -> cll (allow_mz st) g -> forallb is_hy sg = true ->
  suffixed true false (Tar (rafsi_tarmi r)) u -> u <> [] -> suffixed true false (Tar (rafsi_tarmi r)) [] ->
  chain gen st n [(r, cr st r); (g ++ sg, m)] c1 -> chain gen st n [(r ++ u, cr st r); (g ++ sg, m)] c2 ->
  (c_word c1 = c_word c2 /\ c_idx c1 = c_idx c2) \/ (c_score c1 < c_score c2)%Z.
Proof.
  intros gen st n r u g sg m c1 c2 Hr Hg Hsg Su Hu Sb H1 H2.
  apply chain_two_inv in H1 as (t1 & _ & H1). apply chain_two_inv in H2 as (t2 & _ & H2). cbn [fst snd] in *.
  assert (Hyu : forallb is_hy u = true) by (eapply suffixed_hy; exact Su).
  destruct (cll_other _ _ u Hr Hyu) as [T1 _]. destruct (cll_other _ _ [] Hr eq_refl) as [T2 _]. rewrite app_nil_r in T2.
  rewrite (strip_suffix _ _ _ Hr Hyu) in H2. pose proof (strip_suffix _ _ [] Hr eq_refl) as S1. rewrite app_nil_r in S1. rewrite S1 in H1.
  destruct (cll_hd _ _ sg Hg) as (G1 & G2 & G3 & G4).
  destruct (cll_last _ _ Hr) as (s & d & Er & Hd). assert (Hdh : d <> c_h) by (apply vc_not_hy in Hd; intros ->; discriminate).
  assert (Ld : last r 0%N = d) by (rewrite Er; apply last_last).
  apply combine_word in H1 as (h1 & i1 & _ & _ & W1 & L1 & _ & C1 & I1 & X1 & _).
  apply combine_word in H2 as (h2 & i2 & _ & _ & W2 & L2 & _ & C2 & I2 & X2 & _).
  rewrite (score_suffix _ _ _ Hr Hyu) in C2. rewrite G1 in *. apply N.eqb_neq in G3. rewrite G3 in I1, I2.
  unfold glue in L1. rewrite T2, Ld in L1. apply N.eqb_neq in Hdh. rewrite Hdh in L1.
  pose proof (first_options _ _ Su) as O. pose proof (first_options _ _ Sb) as O'.
  assert (CV : rafsi_tarmi r = CVhV \/ rafsi_tarmi r = CVV -> u = [c_h] -> length r = 3 \/ length r = 4 ->
    (c_word c1 = c_word c2 /\ c_idx c1 = c_idx c2) \/ (c_score c1 < c_score c2)%Z).
  { intros Hcv Eu Lr. assert (h2 = [c_y]).
    { rewrite Eu, last_last in L2. unfold glue in L2. change (N.eqb c_h c_h) with true in L2. cbv iota in L2. dif L2; [|discriminate]. injection L2 as <-. reflexivity. }
    assert (E5 : (length r =? 5) = false) by (apply Nat.eqb_neq; clear -Lr; lia). rewrite E5 in L1. cbn [andb] in L1.
    assert (E5' : (length r <=? 5) = true) by (apply Nat.leb_le; clear -Lr; lia). rewrite E5' in L1. cbn [andb negb] in L1.
    assert (h1 = [] \/ h1 = [c_n] \/ h1 = [c_r] \/ h1 = [c_h; c_y]) as Hh1.
    { replace (tarmi_in (rafsi_tarmi r) [CVhV; CVV]) with true in L1 by (destruct Hcv as [-> | ->]; reflexivity).
      destruct gen; [injection L1 as <-; auto|]. cbn [negb] in L1. dif L1; injection L1 as <-; [auto|]. destruct (yset_eqb _ _); [auto|]. destruct (N.eqb _ _); auto. }
    subst u h2. change (base [c_h]) with 1000%Z in C2. change (score [c_y]) with 1100%Z in C2.
    destruct Hh1 as [->|[->|[->| ->]]];
      [right; change (score []) with 0%Z in C1|right; change (score [c_n]) with 1000%Z in C1|right; change (score [c_r]) with 1000%Z in C1|left].
    1, 2, 3: rewrite C1, C2; match goal with |- (_ - tiebreak ?a < _ - tiebreak ?b)%Z => destruct (tiebreak_01 a) as [->| ->], (tiebreak_01 b) as [->| ->] end; clear; lia.
    split; [rewrite W1, W2, <- !app_assoc; reflexivity|]. rewrite X1, X2, I1, I2, app_length. cbn [length].
    replace (length r + 1 + 1) with (length r + 2) by (clear; lia). reflexivity. }
  destruct (rafsi_tarmi r) eqn:Et; try discriminate O'.
  - destruct O as [O|O]; [contradiction|]. right. apply tarmi_CVC in Et as (a & b & e & E & _). subst u.
    assert (h1 = []) as ->.
    { rewrite E in L1. destruct gen; cbn [length Nat.eqb Nat.leb andb negb tarmi_in existsb tarmi_eqb] in L1; [injection L1 as <-; reflexivity|]. dif L1; injection L1 as <-; reflexivity. }
    assert (h2 = []) as ->.
    { rewrite last_last in L2. unfold glue in L2. change (N.eqb c_y c_h) with false in L2. cbv iota in L2. rewrite E in L2, T1. cbn [length app Nat.eqb Nat.leb andb negb] in L2, T1.
      destruct gen; cbn [andb negb] in L2; [injection L2 as <-; reflexivity|]. rewrite T1 in L2. dif L2; injection L2 as <-; reflexivity. }
    change (base [c_y]) with 1100%Z in C2. change (score []) with 0%Z in C1, C2. rewrite C1, C2.
    match goal with |- (_ - tiebreak ?a < _ - tiebreak ?b)%Z => destruct (tiebreak_01 a) as [->| ->], (tiebreak_01 b) as [->| ->] end; clear; lia.
  - destruct O as [O|O]; [contradiction|]. apply CV; [auto|exact O|]. apply tarmi_CVhV in Et as (a & b & e & -> & _). auto.
  - exfalso. destruct O as [O|O]; [contradiction|]. subst u. pose proof Et as Et'. apply tarmi_CCV in Et' as (a & b & e & E & _). rewrite E in L2, Et.
    unfold glue in L2. cbn [app last length Nat.eqb] in L2. change (N.eqb c_y c_h) with false in L2. cbn [firstn skipn andb] in L2. rewrite Et in L2. discriminate.
  - destruct O as [O|O]; [contradiction|]. apply CV; [auto|exact O|]. apply tarmi_CVV in Et as (a & b & e & -> & _). auto.
Qed.

Lemma canon_head : forall st g rs, cll (allow_mz st) g -> exists sg B, canon st (g :: rs) = (g ++ sg, cr st g) :: B /\ forallb is_hy sg = true.
Proof.
  intros st g [|h rs] Hg; cbn [canon].
  - exists [], []. rewrite app_nil_r. auto.
  - eexists _, _. split; [reflexivity|]. unfold can. destruct (rafsi_tarmi g); try reflexivity. destruct (joins _ _ _); reflexivity.
Qed.

(** two cheapest choices of forms for the same rafsi spell the same word *)
Theorem unique : forall gen st rs ch1 d1 ch2 d2, Forall (cll (allow_mz st)) rs -> 2 <= length rs ->
  cheapest gen st (length rs) (tforms st (length rs) 0 rs) ch1 d1 -> cheapest gen st (length rs) (tforms st (length rs) 0 rs) ch2 d2 ->
  c_word d1 = c_word d2 /\ c_idx d1 = c_idx d2.
Proof.
  intros gen st [|r [|g rs]] ch1 d1 ch2 d2 F L H1 H2; [cbn in L; lia|cbn in L; lia|]. clear L.
  pose proof (h_in _ _ _ _ _ H1) as P1. pose proof (h_in _ _ _ _ _ H2) as P2.
  destruct ch1 as [|x1 T1]; [contradiction|]. destruct ch2 as [|x2 T2]; [contradiction|].
  assert (E1 : T1 = canon st (g :: rs)) by (apply (tail_canon gen st (length (r :: g :: rs)) (g :: rs) [r] [x1] T1 d1); [exact F|reflexivity|discriminate|reflexivity|exact H1]).
  assert (E2 : T2 = canon st (g :: rs)) by (apply (tail_canon gen st (length (r :: g :: rs)) (g :: rs) [r] [x2] T2 d2); [exact F|reflexivity|discriminate|reflexivity|exact H2]).
  inversion F as [|? ? Hr F']; subst. inversion F' as [|? ? Hg _]; subst.
  pose proof (canon_calm st (g :: rs) F') as K. destruct (canon_head st g rs Hg) as (sg & B & Ec & Hsg). rewrite Ec in *.
  pose proof (tforms_fine _ _ _ _ _ F P1) as F1. pose proof (tforms_fine _ _ _ _ _ F P2) as F2.
  destruct P1 as [(u1 & S1 & ->) _]. destruct P2 as [(u2 & S2 & ->) _].
  change (0 =? 0) with true in S1, S2. change (0 =? length (r :: g :: rs) - 1) with false in S1, S2.
  destruct (h_whole _ _ _ _ _ H1) as (C1 & _). destruct (h_whole _ _ _ _ _ H2) as (C2 & _).
  destruct (chain_tail _ _ _ _ _ _ _ F1 K C1) as (c1 & D1 & W1 & Z1 & I1).
  destruct (chain_tail _ _ _ _ _ _ _ F2 K C2) as (c2 & D2 & W2 & Z2 & I2).
  assert (Z : c_score c1 = c_score c2).
  { pose proof (h_min _ _ _ _ _ H1 _ _ (h_in _ _ _ _ _ H2) (h_whole _ _ _ _ _ H2)) as A1.
    pose proof (h_min _ _ _ _ _ H2 _ _ (h_in _ _ _ _ _ H1) (h_whole _ _ _ _ _ H1)) as A2. clear -A1 A2 Z1 Z2. lia. }
  assert (Q : c_word c1 = c_word c2 /\ c_idx c1 = c_idx c2).
  { assert (D : u1 = u2 \/ (u1 = [] /\ u2 <> []) \/ (u2 = [] /\ u1 <> [])).
    { pose proof (first_options _ _ S1) as O1. pose proof (first_options _ _ S2) as O2.
      destruct (rafsi_tarmi r); try (left; congruence); destruct O1 as [-> | ->], O2 as [-> | ->]; auto; right; [left|right|left|right|left|right|left|right]; (split; [reflexivity|discriminate]). }
    destruct D as [->|[[-> N]|[-> N]]].
    - apply chain_two_inv in D1 as (t1 & A1 & D1). apply chain_two_inv in D2 as (t2 & A2 & D2). rewrite A1 in A2. injection A2 as <-. rewrite D1 in D2. injection D2 as <-. auto.
    - rewrite app_nil_r in D1. destruct (head_compare gen st _ r u2 g sg (cr st g) c1 c2 Hr Hg Hsg S2 N S1 D1 D2) as [Q|Q]; [exact Q|]. clear -Q Z. lia.
    - rewrite app_nil_r in D2. destruct (head_compare gen st _ r u1 g sg (cr st g) c2 c1 Hr Hg Hsg S1 N S2 D2 D1) as [[Q Q']|Q]; [auto|]. clear -Q Z. lia. }
  destruct Q as [Q1 Q2]. rewrite W1, W2, I1, I2, Q1, Q2. auto.
Qed.
