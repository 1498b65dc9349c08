(** Which exceptions the analyser, the splitter and the builder can raise.  In
    particular the recursion limits of the model are never reached. *)
From Verif Require Import Str Data Tarmi Rafsi Core Api Lib Spec Shapes Decomp Basic Vowels Katna Dict Errs Builder Jvokaha Fuel.

(** jvokaha (katna.py:101) *)
Definition JE (lk : binding) (e : exn) : Prop :=
  In e [DecompositionError; InvalidClusterError; NotBrivlaError; IndexError] \/ (lk = Unbound /\ e = NameError).
(** analyse_brivla (tools.py:239) *)
Definition AE (lk : binding) (e : exn) : Prop :=
  In e [NotBrivlaError; IndexError; DecompositionError] \/ (lk = Unbound /\ e = NameError).
#[export] Hint Extern 1 (JE _ _) => (left; cbn; tauto) : core errs.
#[export] Hint Extern 1 (AE _ _) => (left; cbn; tauto) : core errs.

Lemma errs_sub : forall A l (P : exn -> Prop) (r : res A), errs (only l) r -> Forall P l -> errs P r.
Proof. intros A l P r H HP. eapply errs_weaken; [exact H|]. intros e He. eapply Forall_forall in HP; eassumption. Qed.
Ltac eif := match goal with |- errs _ (if ?b then _ else _) => destruct b end.
Ltac alls := unfold J2ERR; repeat (apply Forall_cons || apply Forall_nil); auto.
Ltac sub H := eapply errs_sub; [apply H|alls].

Lemma errs_expected_entry : forall yh cs gl mz gen rs, Forall (cll mz) rs ->
  errs (only [IndexError; NoLujvoFoundError]) (expected_entry yh cs gl mz gen rs).
Proof.
  intros. unfold expected_entry. destruct (piece_forms_ok cs gl mz rs H) as [rll ->]. cbn [bind].
  unfold best_word. apply errs_bind; [sub errs_table|]. intros t _. destruct (pick_best _ _ _ _); es.
Qed.

(** jvokaha_2 raises NotBrivlaError only for a word that starts CCV'y *)
Lemma j2_notbrivla : forall f yh mz orig w acc, jvokaha2_loop f yh mz orig w acc = Err NotBrivlaError ->
  exists a b c t, orig = a :: b :: c :: c_h :: c_y :: t /\ is_consonant a = true /\ is_consonant b = true.
Proof.
  induction f as [|f IH]; intros yh mz orig w acc H; [discriminate|]. cbn [jvokaha2_loop] in H.
  destruct w as [|c0 w]; [discriminate|]. apply bind_err in H as [H|(k & H1 & H)].
  { apply errs_hyphen_len in H. cbn in H. intuition discriminate. }
  destruct k as [k|]; [eapply IH; exact H|]. cbv zeta in H.
  repeat match type of H with
  | Err _ = _ => discriminate H
  | Ok _ = _ => discriminate H
  | jvokaha2_loop f _ _ _ _ _ = _ => eapply IH; exact H
  | (if ?b then _ else _) = _ => destruct b eqn:?
  end.
  match goal with G : str_eqb _ orig && _ = true |- _ => apply andb_t in G as [G1 G2] end.
  apply str_eqb_eq in G1. apply str_eqb_eq in G2. rewrite G1 in G2.
  match goal with G : tarmi_eqb (rafsi_tarmi (firstn 3 _)) CCV = true |- _ =>
    rewrite G1 in G; apply tarmi_eqb_eq, tarmi_CCV in G as (a & b & c & Eabc & ? & ? & ?) end.
  destruct orig as [|a' [|b' [|c' [|d' [|e' t]]]]]; try discriminate G2; try discriminate Eabc.
  cbn in Eabc, G2. injection Eabc as <- <- <-. injection G2 as -> ->. exists a', b', c', t. auto.
Qed.
Lemma j2_to : forall yh mz w, errs (only [DecompositionError; InvalidClusterError; IndexError]) (jvokaha_2 yh mz (L "to" ++ w)).
Proof.
  intros yh mz w e H. pose proof (errs_jvokaha_2 yh mz _ e H) as G. cbn in G |- *.
  destruct G as [<-|[<-|[<-|[<-|[]]]]]; auto.
  apply j2_notbrivla in H as (a & b & c & t & E & _ & Hb). cbn in E. injection E as <- <- _. discriminate.
Qed.

(** jvokaha, given the exceptions of its calls of jvokaha_2 and of the test at
    the end of the builder *)
Lemma errs_jvk_gen : forall (P : exn -> Prop) lk yh cs gl mz w,
  P DecompositionError -> P IndexError -> (lk = Unbound -> P NameError) ->
  errs P (jvokaha_2 yh mz w) ->
  (forall arr gen w' sc ix, jvokaha_2 yh mz w = Ok arr -> expected_entry yh cs gl mz gen (rafsi_of arr) = Ok (w', sc, ix) ->
     errs P (jvokaha_2 yh mz w') /\ (lk = Bound -> errs P (slinkuhi lk yh mz w'))) ->
  errs P (jvk lk yh cs gl mz w).
Proof.
  intros P lk yh cs gl mz w PD PI PN Hj2 H. rewrite jvk_eq. apply errs_bind; [exact Hj2|].
  intros arr Ha. destruct (length (rafsi_of arr) =? 1); [es|].
  apply errs_bind; [es|]. intros piece _. apply errs_bind; [es|]. intros c _.
  assert (K : forall w', match expected_word lk yh cs gl mz (is_consonant c) (rafsi_of arr) with
                | Err NoLujvoFoundError => Err DecompositionError
                | r => r
                end = Ok w' -> errs P (jvokaha_2 yh mz w')).
  { intros w' Hw. unfold expected_word in Hw. destruct (expected_entry _ _ _ _ _ _) as [[[w2 sc] ix]|e] eqn:Ee; cbn [bind] in Hw.
    2:{ destruct e; discriminate. }
    assert (w' = w2) as ->; [|eapply H; eassumption].
    destruct (is_consonant c); [congruence|]. destruct lk; [discriminate|].
    destruct (slinkuhi _ _ _ _) as [[]|e]; cbn [bind] in Hw; try discriminate; [congruence|destruct e; discriminate]. }
  apply errs_bind.
  - assert (G : errs (fun e => P e \/ e = NoLujvoFoundError) (expected_word lk yh cs gl mz (is_consonant c) (rafsi_of arr))).
    { unfold expected_word. apply errs_bind.
      - eapply errs_weaken; [apply errs_expected_entry; apply jvokaha_2_sound in Ha as [_ Hcut]; eapply cut_rafsi_cll; exact Hcut|].
        intros e [<-|[<-|[]]]; [left; auto|right; reflexivity].
      - intros [[w' sc] ix] He. destruct (is_consonant c); [es|]. destruct lk eqn:El.
        + apply errs_err. left. auto.
        + apply errs_bind.
          * eapply errs_weaken; [eapply H; eauto|]. auto.
          * intros b _. destruct b; [apply errs_err; auto|es]. }
    destruct (expected_word _ _ _ _ _ _ _) as [w'|e] eqn:Ew; [es|].
    destruct (G e eq_refl) as [G'| ->]; [|es]. destruct e; try (apply errs_err; exact G'). es.
  - intros w' Hw. apply errs_bind.
    + destruct (yset_eqb yh FORCE_Y); [es|]. apply errs_bind; [apply K; exact Hw|].
      intros corr _. eapply errs_sub; [apply errs_compare_loop|alls].
    + intros b _. destruct b; es.
Qed.

(** "to" + anything *)
Definition JT (lk : binding) (e : exn) : Prop :=
  In e [DecompositionError; InvalidClusterError; IndexError] \/ (lk = Unbound /\ e = NameError).
#[export] Hint Extern 1 (JT _ _) => (left; cbn; tauto) : core errs.
Lemma errs_jvk_to : forall lk yh cs gl mz u, errs (JT lk) (jvk lk yh cs gl mz (L "to" ++ u)).
Proof.
  intros. apply errs_jvk_gen; auto; [intros; right; auto|sub j2_to|]. intros arr gen w' sc ix Ha He.
  destruct (jvokaha_2_sound _ _ _ _ Ha) as [Hc Hcut].
  destruct arr as [|p0 ps].
  { apply expected_nonempty in He. cbn in He. lia. }
  destruct (cut_first _ _ _ _ Hcut ltac:(discriminate)) as (p & rest & E & _ & (a & b & c & t & Ep & _)).
  injection E as -> ->. subst p. cbn in Hc. injection Hc as -> -> _.
  rewrite rafsi_of_first in He by (cbn; lia). destruct (expected_prefix _ _ _ _ _ _ _ _ _ _ He) as [v ->].
  split; [sub (j2_to yh mz (c :: t ++ v))|]. intros _.
  unfold slinkuhi.
  assert (G : Core.is_slinkuhi (jvk lk) yh mz (L "to" ++ c :: t ++ v) = Ok false).
  { destruct (slinkuhi_toto lk 2 2 yh mz (c :: t ++ v)) as [G _].
    unfold Core.is_slinkuhi in *. rewrite jvokaha_jvk in G by lia. exact G. }
  cbn in G |- *. rewrite G. es.
Qed.
(** so the slinku'i test raises only IndexError *)
Definition SE (lk : binding) (e : exn) : Prop := e = IndexError \/ (lk = Unbound /\ e = NameError).
#[export] Hint Extern 1 (SE _ _) => (left; reflexivity) : core errs.
Theorem errs_slinkuhi : forall lk yh mz w, errs (SE lk) (slinkuhi lk yh mz w).
Proof.
  intros lk yh mz w. unfold slinkuhi, Core.is_slinkuhi. apply errs_bind; [es|]. intros c _.
  destruct (is_vowel c); [es|]. pose proof (errs_jvk_to lk yh CLUSTER false mz w) as H.
  destruct (jvk lk yh CLUSTER false mz _) as [a|e]; cbn; [es|].
  destruct (H e eq_refl) as [G|[-> ->]]; [cbn in G; intuition subst; es|apply errs_err; right; auto].
Qed.
Theorem errs_jvk : forall lk yh cs gl mz w, errs (JE lk) (jvk lk yh cs gl mz w).
Proof.
  intros. apply errs_jvk_gen; auto; [intros; right; auto|sub errs_jvokaha_2|].
  intros. split; [sub errs_jvokaha_2|]. intros _. eapply errs_weaken; [apply errs_slinkuhi|].
  intros e [->|[-> ->]]; [auto|right; auto].
Qed.

(** is_slinkuhi and similar calls catch two of them *)
Lemma errs_succeeds : forall lk A (r : res A), errs (JE lk) r -> errs (AE lk) (succeeds r).
Proof.
  intros lk A [a|e] H; cbn; [es|]. specialize (H e eq_refl).
  destruct H as [H|[-> ->]]; [|apply errs_err; right; auto].
  cbn in H. intuition subst; es.
Qed.
Lemma errs_slinkuhi_AE : forall lk yh mz w, errs (AE lk) (slinkuhi lk yh mz w).
Proof.
  intros. eapply errs_weaken; [apply errs_slinkuhi|]. intros e [->|[-> ->]]; [auto|right; auto].
Qed.
#[export] Hint Resolve errs_slinkuhi_AE : errs.

Lemma errs_normalise_AE : forall lk w, errs (AE lk) (normalise w).
Proof. intros. sub errs_normalise. Qed.
#[export] Hint Resolve errs_normalise_AE : errs.

(** is_brivla (tools.py:213) *)
Definition QE (lk : binding) (e : exn) : Prop :=
  In e [IndexError; DecompositionError] \/ (lk = Unbound /\ e = NameError).
#[export] Hint Extern 1 (QE _ _) => (left; cbn; tauto) : core errs.
Lemma QE_AE : forall lk e, QE lk e -> AE lk e.
Proof. intros lk e [H|H]; [left; cbn in *; tauto|right; exact H]. Qed.
Lemma AE_QE : forall lk e, AE lk e -> e <> NotBrivlaError -> QE lk e.
Proof. intros lk e [H|H] Hn; [left; cbn in *; intuition congruence|right; exact H]. Qed.
Lemma errs_slinkuhi_QE : forall lk yh mz w, errs (QE lk) (slinkuhi lk yh mz w).
Proof.
  intros. eapply errs_weaken; [apply errs_slinkuhi|]. intros e [->|[-> ->]]; [auto|right; auto].
Qed.

Section Analyse.
Variables (lk : binding) (n : nat) (ana : ana_t) (j : jvk_t).
Hypotheses (Ha : forall st u, length (standard_spelling u) < n -> errs (AE lk) (ana st u))
           (Hj : forall yh cs gl mz w, j yh cs gl mz w = jvk lk yh cs gl mz w).
Definition ZE e := QE lk e \/ e = NotZihevlaError.
Local Hint Extern 1 (ZE _) => (first [right; reflexivity | left; auto]) : core errs.
Local Hint Extern 1 (lk = Unbound) => assumption : core.

Lemma AE_ZE : forall A (r : res A), errs (QE lk) r -> errs ZE r.
Proof. intros A r H. eapply errs_weaken; [exact H|]. left. assumption. Qed.

Lemma slinkuhi_j : forall yh mz s, Core.is_slinkuhi j yh mz s = slinkuhi lk yh mz s.
Proof. intros. unfold slinkuhi, Core.is_slinkuhi. rewrite Hj. reflexivity. Qed.
Lemma errs_slinkuhi_j : forall yh mz s, errs (AE lk) (Core.is_slinkuhi j yh mz s).
Proof. intros. rewrite slinkuhi_j. apply errs_slinkuhi_AE. Qed.

Lemma errs_is_brivla_gen : forall st u, length (standard_spelling u) < n -> errs (QE lk) (Core.is_brivla ana st u).
Proof.
  intros st u H. unfold Core.is_brivla. specialize (Ha st u H). destruct (ana st u) as [[t l]|e]; [es|].
  specialize (Ha e eq_refl). destruct e; try (apply errs_err; apply AE_QE; [exact Ha|discriminate]). es.
Qed.
Lemma errs_suffix : forall st v k, low v -> length v <= n -> 1 <= k -> 1 <= n ->
  errs (QE lk) (Core.is_brivla ana st (skipn k v)).
Proof.
  intros st v k Hl Hn Hk Hn1. apply errs_is_brivla_gen.
  eapply Nat.le_lt_trans; [apply spelling_length_low; apply low_skipn; exact Hl|].
  rewrite skipn_length. lia.
Qed.
Lemma errs_falls_apart : forall yh v p is_, low v -> length v <= n -> 1 <= n ->
  Forall (fun i => i < p) is_ -> errs (QE lk) (falls_apart ana yh v p is_).
Proof.
  intros yh v p is_ Hl Hn Hn1 H. induction H as [|i is_ Hi His IH]; [cbn; es|]. cbn [falls_apart].
  apply errs_bind; [es|]. intros c _. cbv zeta. destruct (is_consonant c || _); [|exact IH].
  apply errs_bind; [apply errs_suffix; (assumption || lia)|]. intros b _. destruct b; [es|exact IH].
Qed.
Lemma errs_check : forall req yh exp mz v, low v -> length v <= n -> 1 <= n ->
  errs ZE (check_zihevla_or_rafsi ana j req yh exp mz v).
Proof.
  intros req yh exp mz v Hl Hn Hn1. unfold check_zihevla_or_rafsi.
  destruct (req && _); [es|]. apply errs_bind.
  { eapply errs_sub; [apply errs_zloop; apply le_n|]. alls. }
  intros z _. apply errs_bind.
  { destruct (_ && _); [es|]. destruct (2 <? _); [|es]. destruct (z_cluster z) as [p|]; [|es].
    destruct (0 <? p) eqn:Ep; [|es]. apply Nat.ltb_lt in Ep.
    apply errs_bind; [apply AE_ZE, errs_suffix; (assumption || lia)|]. intros b _. destruct b; [es|].
    apply errs_bind; [|intros b _; destruct b; es]. apply AE_ZE, errs_falls_apart; try assumption.
    apply Forall_forall. intros i Hi. apply in_seq in Hi. lia. }
  intros _ _. destruct (z_cluster z); [|es].
  apply errs_bind; [es|]. intros c0 _. apply errs_bind; [es|]. intros b _. destruct b; [es|].
  apply errs_bind; [apply AE_ZE; rewrite slinkuhi_j; apply errs_slinkuhi_QE|]. intros b _. destruct b; es.
Qed.
Lemma errs_head : forall i p h, errs (AE lk) (part_head i p h).
Proof.
  intros. unfold part_head. es. sub errs_svc.
Qed.
Lemma errs_tosmabru : forall st y0 p b, errs (AE lk) (tosmabru_check j st y0 p b).
Proof.
  intros. unfold tosmabru_check. apply errs_bind; [unfold to_smabru; es|]. intros [t s] _.
  destruct s; [es|]. cbv zeta. apply errs_bind; [es|]. intros bad _. destruct bad; [es|].
  rewrite Hj. match goal with |- errs _ (match ?r with _ => _ end) => pose proof (errs_jvk lk (y_hyphens st) CLUSTER false (allow_mz st)
    (if b then dropl 1 (c :: s) else strip_hyphens (c :: s))) as G; destruct r as [x|e] end; [es|].
  specialize (G e eq_refl). destruct G as [G|[-> ->]]; [|apply errs_err; right; auto]. cbn in G. intuition subst; es.
Qed.
Lemma errs_tail : forall st cm ys i p cl, errs (AE lk) (part_tail st cm ys i p cl).
Proof. intros. unfold part_tail. es. Qed.
Lemma errs_kaha : forall st pa p num cl, length (standard_spelling pa) < n ->
  errs (AE lk) (part_kaha ana st pa p num cl).
Proof.
  intros st pa p num cl H. unfold part_kaha. apply errs_bind.
  { destruct (_ && _); [|es]. match goal with |- errs _ (match ana ?s ?u with _ => _ end) => specialize (Ha s u H); destruct (ana s u) as [[t l]|e] end; [es|].
    specialize (Ha e eq_refl). destruct e; try (apply errs_err; exact Ha). es. }
  intros _ _. pose proof (errs_jvokaha_2 (y_hyphens st) (allow_mz st) (p_copy p)) as G.
  destruct (jvokaha_2 _ _ _) as [[|f0 fs]|e]; [es| |].
  - destruct (_ && _); [es|]. destruct (count_found _ _ _). es.
  - specialize (G e eq_refl). cbn in G. destruct (count_found _ _ _) eqn:E. intuition subst; es.
Qed.
Lemma errs_part : forall st cm ys i p0 a, low p0 -> length p0 + 2 <= n ->
  errs (AE lk) (analyse_part ana j st cm ys i p0 a).
Proof.
  intros st cm ys i p0 a Hl Hn. unfold analyse_part. cbv zeta. apply errs_bind; [apply errs_head|].
  intros [part nh] Eh.
  destruct (part_head_eq _ _ _ _ _ Eh) as [E1 [E2 [E3 [pre E4]]]].
  assert (Lp : low part /\ length part <= length p0).
  { destruct E4 as [_ E4]. rewrite E4 in Hl |- *. apply low_app in Hl. rewrite app_length. split; [tauto|lia]. }
  destruct Lp as [Lp Lp2].
  destruct (tarmi_eqb _ _); [es|]. apply errs_bind; [es|]. intros q0 _. apply errs_bind; [apply errs_tail|].
  intros p Et.
  assert (Lpa : low (part ++ [c_a])) by (apply low_app; split; [assumption|repeat constructor]).
  destruct (part_tail_eq _ _ _ _ _ _ _ Et) as [F1 [_ F2]].
  assert (Lc : low (p_copy p) /\ length (p_copy p) <= length part).
  { rewrite <- F1 in Lp |- *. apply low_app in Lp. rewrite app_length. split; [tauto|lia]. }
  apply errs_bind.
  { destruct (p_can p); [|es]. apply errs_kaha.
    eapply Nat.le_lt_trans; [apply spelling_length_low; exact Lpa|]. rewrite app_length. cbn. lia. }
  intros [[[dk found] num] cl] _. destruct dk.
  - apply errs_bind; [es|]. intros _ _. apply errs_bind; [|intros; es]. destruct (i =? 0); [apply errs_tosmabru|es].
  - assert (G : errs ZE (check_zihevla_or_rafsi ana j (p_req p || negb (exp_rafsi_shapes st)) (y_hyphens st)
        (exp_rafsi_shapes st) (allow_mz st) (p_part p))).
    { apply errs_check; [| |lia].
      - rewrite F2. destruct (p_adda p); [apply low_app; split; [tauto|repeat constructor]|tauto].
      - rewrite F2. destruct (p_adda p); rewrite ?app_length; cbn; lia. }
    apply errs_bind.
    { destruct (check_zihevla_or_rafsi _ _ _ _ _ _ _) as [t|e]; [es|].
      destruct (G e eq_refl) as [G'| ->]; [|es]. apply QE_AE in G'. destruct e; try (apply errs_err; exact G'). es. }
    intros t _. apply errs_bind.
    { eif; [|es]. apply errs_bind; [|intros b _; destruct b; es].
      apply errs_succeeds. sub errs_jvokaha_2. }
    intros _ _. es.
Qed.
Lemma errs_loop : forall st cm ys parts i a, Forall (fun p => low p /\ length p + 2 <= n) parts ->
  errs (AE lk) (analyse_loop ana j st cm ys i parts a).
Proof.
  intros st cm ys parts i a H. revert i a. induction H as [|p ps [H1 H2] Hps IH]; intros i a; [cbn; es|].
  cbn [analyse_loop]. apply errs_bind; [apply errs_part; assumption|]. intros. apply IH.
Qed.
Lemma errs_body : forall st w, length (standard_spelling w) <= n ->
  errs (AE lk) (analyse_body ana j st w).
Proof.
  intros st w Hn. unfold analyse_body. apply errs_bind; [es|]. intros v En.
  apply normalise_spec in En. pose proof (spelling_low w) as Hl. rewrite <- En in *. clear En w.
  destruct (last_opt v) as [l|] eqn:El; [|es]. cbv zeta.
  destruct (negb (is_consonant l) && negb (is_vowel l)) eqn:Ecv; [es|].
  destruct (is_consonant l && is_gismu _ _); [es|]. destruct (negb (is_consonant l) && is_gismu _ _); [es|].
  rewrite Hj.
  assert (G : errs (AE lk) (analyse_other ana j st (is_consonant l) v)).
  { unfold analyse_other. destruct v as [|v0 v]; [discriminate|]. cbn [idx nth_error bind].
    destruct (negb (is_vowel v0 || is_consonant v0)) eqn:E0; [es|]. cbv zeta.
    destruct (length _ =? 1) eqn:E1.
    - destruct (is_consonant l); [es|].
      assert (G : errs ZE (check_zihevla_or_rafsi ana j true (y_hyphens st) (exp_rafsi_shapes st) (allow_mz st) (v0 :: v)))
        by (apply errs_check; [assumption|assumption|cbn in Hn; lia]).
      destruct (check_zihevla_or_rafsi _ _ _ _ _ _ _) as [t|e]; [es|].
      destruct (G e eq_refl) as [G'| ->]; [|es]. apply QE_AE in G'. destruct e; try (apply errs_err; exact G'). es.
    - unfold analyse_compound. apply errs_bind.
      { apply errs_loop.
        assert (Hly : l <> c_y) by (intros ->; discriminate).
        assert (H0 : v0 <> c_y) by (intros ->; discriminate).
        eapply Forall_impl; [|eapply split_parts_small; eassumption]. cbn beta. intros p [K1 K2]. split; [assumption|lia]. }
      intros a _. match goal with |- errs _ (if ?b then _ else _) => destruct b end; [es|].
      apply errs_bind; [es|]. intros vc _. apply errs_bind; [|intros b _; destruct b; es].
      destruct vc; [es|]. apply errs_slinkuhi_j. }
  pose proof (errs_jvk lk (y_hyphens st) (consonants st) (glides st) (allow_mz st) v) as K.
  destruct (jvk _ _ _ _ _ _) as [ps|e]; [es|].
  destruct (K e eq_refl) as [K'|[E1 ->]]; [|apply errs_err; right; auto]. cbn in K'. intuition subst; es.
Qed.
End Analyse.

Theorem errs_analyse : forall lk n f st w, length (standard_spelling w) <= n -> n + 4 <= f ->
  errs (AE lk) (analyse lk f st w).
Proof.
  intros lk. induction n as [n IH] using lt_wf_ind. intros f st w Hn Hf.
  destruct f as [|f]; [lia|]. rewrite analyse_S.
  apply (errs_body lk (length (standard_spelling w))); [| |lia].
  - intros st' u Hu. apply (IH (length (standard_spelling u))); lia.
  - intros. apply jvokaha_jvk. lia.
Qed.
Theorem errs_analyse_brivla : forall lk st w, errs (AE lk) (analyse_brivla lk st w).
Proof.
  intros. unfold analyse_brivla. apply (errs_analyse lk (length (standard_spelling w))); [lia|].
  unfold word_fuel. pose proof (spelling_length w). lia.
Qed.

(** ** The recursion equations, without fuel *)
Lemma analyse_big : forall lk f st w, length (standard_spelling w) + 4 <= f ->
  analyse lk f st w = analyse_brivla lk st w.
Proof.
  intros. unfold analyse_brivla. apply (analyse_fuel lk (length (standard_spelling w))); [lia|assumption|].
  unfold word_fuel. pose proof (spelling_length w). lia.
Qed.
Lemma jvokaha_agree : forall lk f, 3 <= f -> agreej (jvokaha lk f) (jvk lk).
Proof. intros lk f H yh cs gl mz w. apply jvokaha_jvk. exact H. Qed.
Theorem analyse_brivla_eq : forall lk st w,
  analyse_brivla lk st w = analyse_body (analyse_brivla lk) (jvk lk) st w.
Proof.
  intros. rewrite <- (analyse_big lk (S (2 * length w + 8))).
  2:{ pose proof (spelling_length w). lia. }
  rewrite analyse_S. apply (analyse_body_cong (length (standard_spelling w))); [| |lia].
  - intros st' u Hu. apply analyse_big. pose proof (spelling_length w). lia.
  - apply jvokaha_agree. lia.
Qed.

Lemma lojban_low : forall s, is_only_lojban_characters s = true -> low s.
Proof.
  intros s H. unfold is_only_lojban_characters in H. destruct s; [discriminate|].
  apply forallb_forall with (x := c) in H as Hc; [|left; reflexivity].
  apply Forall_forall. intros x Hx. eapply forallb_forall in H; [|exact Hx]. clear Hc Hx.
  unfold is_lojban_letter in H. apply orb_true_iff in H as [H|H]; [apply orb_true_iff in H as [H|H]|].
  1,2: apply memc_In in H; cbn in H; intuition subst; reflexivity.
  apply N.eqb_eq in H. subst. reflexivity.
Qed.
Lemma strip_length : forall p s, length (strip_char p s) <= length s.
Proof.
  intros. unfold strip_char. rewrite rev_length. etransitivity; [apply drop_while_length|].
  rewrite rev_length. apply drop_while_length.
Qed.
Lemma rafsi_list_for_big : forall lk f st fi la v, 2 * length v + 8 <= f ->
  rafsi_list_for (analyse lk f) (jvokaha lk f) st fi la v = rafsi_list_for (analyse_brivla lk) (jvk lk) st fi la v.
Proof.
  intros lk f st fi la v H. unfold rafsi_list_for. cbv zeta.
  set (s := strip_char (N.eqb c_dash) v). pose proof (strip_length (N.eqb c_dash) v) as Hs. fold s in Hs.
  rewrite (analyse_big lk f (ana_settings st) (s ++ [c_a])).
  2:{ pose proof (spelling_length (s ++ [c_a])) as K. rewrite app_length in K. cbn in K. unfold str, char in *. lia. }
  rewrite (analyse_big lk f (ana_settings st) s).
  2:{ pose proof (spelling_length s). unfold str, char in *. lia. }
  rewrite (analyse_big lk f (ana_settings st) v).
  2:{ pose proof (spelling_length v). unfold str, char in *. lia. }
  destruct (is_only_lojban_characters s) eqn:El; [|reflexivity].
  rewrite (check_cong (length s) (analyse lk f) (analyse_brivla lk) (jvokaha lk f) (jvk lk)); [reflexivity|..].
  - intros st' u Hu. apply analyse_big. pose proof (spelling_length u). unfold str, char in *. lia.
  - apply jvokaha_agree. lia.
  - apply lojban_low. exact El.
  - lia.
  - destruct s; [discriminate|]. cbn. lia.
Qed.
Lemma rafsi_list_list_big : forall lk f st l, 2 * length (concat l) + 8 <= f ->
  get_rafsi_list_list (analyse lk f) (jvokaha lk f) st l = get_rafsi_list_list (analyse_brivla lk) (jvk lk) st l.
Proof.
  intros lk f st l H. unfold get_rafsi_list_list.
  assert (G : forall n i, rafsi_list_list_loop (analyse lk f) (jvokaha lk f) st n i l
      = rafsi_list_list_loop (analyse_brivla lk) (jvk lk) st n i l).
  { intro n. induction l as [|v l IH]; intro i; [reflexivity|]. cbn [rafsi_list_list_loop].
    cbn [concat] in H. rewrite app_length in H.
    rewrite rafsi_list_for_big by lia. rewrite IH by lia. reflexivity. }
  apply G.
Qed.
(** get_lujvo_from_list without fuel *)
Lemma lujvo_from_list_any : forall lk f gen st l, 2 * length (concat l) + 8 <= f ->
  get_lujvo_from_list lk (analyse lk f) (jvokaha lk f) l gen st =
  (rll <- get_rafsi_list_list (analyse_brivla lk) (jvk lk) st l ;;
   let* '(w, sc, ix) := best_word gen st rll in
   if gen then Ok (w, sc, ix)
   else match lk with
        | Unbound => Err NameError
        | Bound => b <- slinkuhi lk (y_hyphens st) (allow_mz st) w ;;
                   if b : bool then Err NoLujvoFoundError else Ok (w, sc, ix)
        end).
Proof.
  intros lk f gen st l H. rewrite get_lujvo_from_list_eq. rewrite rafsi_list_list_big by exact H.
  assert (E : forall w, Core.is_slinkuhi (jvokaha lk f) (y_hyphens st) (allow_mz st) w
     = slinkuhi lk (y_hyphens st) (allow_mz st) w).
  { intro w. unfold slinkuhi, Core.is_slinkuhi. rewrite jvokaha_jvk by lia. reflexivity. }
  destruct (get_rafsi_list_list _ _ _ _); [|reflexivity]. cbn [bind].
  destruct (best_word _ _ _) as [[[w sc] ix]|]; [|reflexivity]. cbn [bind]. rewrite E. reflexivity.
Qed.
Lemma lujvo_from_list_eq : forall lk gen st l,
  lujvo_from_list lk gen st l =
  (rll <- get_rafsi_list_list (analyse_brivla lk) (jvk lk) st l ;;
   let* '(w, sc, ix) := best_word gen st rll in
   if gen then Ok (w, sc, ix)
   else match lk with
        | Unbound => Err NameError
        | Bound => b <- slinkuhi lk (y_hyphens st) (allow_mz st) w ;;
                   if b : bool then Err NoLujvoFoundError else Ok (w, sc, ix)
        end).
Proof. intros. unfold lujvo_from_list. apply lujvo_from_list_any. unfold list_fuel. lia. Qed.

(** ** The builder and the other API functions *)
(** get_lujvo *)
Definition BE (lk : binding) (e : exn) : Prop :=
  In e [NoLujvoFoundError; NonLojbanCharacterError; NotZihevlaError; InvalidClusterError;
        DecompositionError; IndexError] \/ (lk = Unbound /\ e = NameError).
#[export] Hint Extern 1 (BE _ _) => (left; cbn; tauto) : core errs.

Lemma errs_get_rafsi_proper : forall r t f l cs gl, proper t = true ->
  errs (only [IndexError]) (get_rafsi_for_rafsi r (Tar t) f l cs gl).
Proof. intros r t f l cs gl H. unfold get_rafsi_for_rafsi. destruct t; try discriminate; es. Qed.
Lemma errs_get_rafsi_other : forall r t f l cs gl, (forall x, t <> Tar x) ->
  errs (only [IndexError]) (get_rafsi_for_rafsi r t f l cs gl).
Proof. intros r t f l cs gl H. unfold get_rafsi_for_rafsi. destruct t; try (exfalso; eapply H; reflexivity); es. Qed.
Lemma valid_proper : forall mz r, is_valid_rafsi r mz = true -> proper (rafsi_tarmi r) = true.
Proof. intros mz r H. unfold is_valid_rafsi in H. destruct (rafsi_tarmi r); cbn in H |- *; congruence. Qed.
Lemma errs_short_forms : forall rs exp f l cs gl, Forall (fun r => proper (rafsi_tarmi r) = true) rs ->
  errs (only [IndexError]) (short_rafsi_forms rs exp f l cs gl).
Proof.
  intros rs exp f l cs gl H. induction H as [|r rs Hr Hrs IH]; cbn [short_rafsi_forms]; [es|]. cbv zeta.
  apply errs_bind; [|intros; apply errs_bind; [exact IH|intros; es]].
  eif; [es|]. apply errs_get_rafsi_proper. exact Hr.
Qed.
Lemma dict_proper : forall w rs, dict_get w = Some rs -> Forall (fun r => proper (rafsi_tarmi r) = true) rs.
Proof.
  intros w rs H. apply dict_get_spec in H. apply Forall_forall. intros r Hr.
  pose proof (short_shapes w rs r H Hr) as G.
  destruct G as [G|[G|[G|G]]];
    [rewrite (shaped_rafsi_tarmi r CVC)|rewrite (shaped_rafsi_tarmi r CVV)|rewrite (shaped_rafsi_tarmi r CVhV)|rewrite (shaped_rafsi_tarmi r CCV)];
    try reflexivity; try discriminate; exact G.
Qed.
Lemma dict_not_other : forall w rs r, dict_get w = Some rs -> In r rs -> proper (rafsi_tarmi r) = true.
Proof. intros w rs r H Hr. apply dict_proper in H. eapply Forall_forall in H; eassumption. Qed.
Local Opaque RAFSI_LIST.

Lemma AE_BE : forall lk A (r : res A), errs (AE lk) r -> errs (fun e => BE lk e \/ e = NotBrivlaError) r.
Proof.
  intros lk A r H. eapply errs_weaken; [exact H|]. intros e [G|[-> ->]]; [|left; right; auto].
  cbn in G. intuition (subst; auto).
Qed.
Lemma succeeds_j2 : forall yh mz w, is_only_lojban_characters w = true ->
  errs (only [IndexError]) (succeeds (jvokaha_2 yh mz w)).
Proof.
  intros yh mz w H. pose proof (errs_jvokaha_2 yh mz w) as G. destruct (jvokaha_2 yh mz w) as [|e] eqn:E; cbn; [es|].
  specialize (G e eq_refl). cbn in G. intuition subst; try es.
  apply j2_notbrivla in E as (a & b & c & t & -> & _). cbn in H. rewrite !andb_false_r in H. discriminate.
Qed.

Lemma analyse_brivla_agree : forall lk n, agree n (analyse_brivla lk) (analyse_brivla lk).
Proof. intros lk n st u _. reflexivity. Qed.
Lemma errs_check_brivla : forall lk req yh exp mz v, low v -> v <> [] ->
  errs (ZE lk) (check_zihevla_or_rafsi (analyse_brivla lk) (jvk lk) req yh exp mz v).
Proof.
  intros lk req yh exp mz v Hl Hv. apply (errs_check lk (length v)); [|reflexivity|exact Hl|lia|].
  - intros. apply errs_analyse_brivla.
  - destruct v; [congruence|cbn; lia].
Qed.

Lemma errs_rafsi_list_for : forall lk st f l v,
  errs (BE lk) (rafsi_list_for (analyse_brivla lk) (jvk lk) st f l v).
Proof.
  intros lk st f l v. unfold rafsi_list_for. cbv zeta. apply errs_bind; [es|]. intros lc _.
  destruct (N.eqb lc c_dash).
  - apply errs_bind; [es|]. intros v0 _. destruct (is_only_lojban_characters _) eqn:El; cbn [negb]; [|es].
    set (s := strip_char (N.eqb c_dash) v) in *.
    apply errs_bind; [es|]. intros l1 _. eif; [es|]. destruct (negb (N.eqb v0 c_dash)).
    + apply errs_bind.
      { pose proof (errs_analyse_brivla lk (ana_settings st) (s ++ [c_a])) as G. apply AE_BE in G.
        destruct (analyse_brivla _ _ _) as [[t x]|e]; [es|].
        destruct (G e eq_refl) as [G'| ->]; [|es]. destruct e; try (apply errs_err; exact G'); es. }
      intros bt _. destruct (wtype_eqb bt ZIhEVLA || wtype_eqb bt GISMU); cbn [negb]; [|es].
      apply errs_bind.
      { eif; [|es]. apply errs_bind; [eapply errs_sub; [apply succeeds_j2; exact El|alls]|]. intros b _; destruct b; es. }
      intros _ _. eapply errs_sub; [apply errs_get_rafsi_other; discriminate|alls].
    + eif.
      * apply errs_bind.
        { pose proof (errs_analyse_brivla lk (ana_settings st) s) as G. apply AE_BE in G.
          destruct (analyse_brivla _ _ _) as [[t x]|e]; [es|].
          assert (G' : BE lk e \/ e = NotBrivlaError) by (apply G; reflexivity).
          destruct e; try (apply errs_err; destruct G' as [G'|G']; [exact G'|discriminate G']).
          eif; [|es].
          assert (K : errs (ZE lk) (check_zihevla_or_rafsi (analyse_brivla lk) (jvk lk) false (y_hyphens st) true (allow_mz st) s)).
          { apply errs_check_brivla; [apply lojban_low; exact El|]. intros E. rewrite E in El. discriminate. }
          destruct (check_zihevla_or_rafsi _ _ _ _ _ _ _) as [t|e]; [es|].
          destruct (K e eq_refl) as [[K'|[E1 ->]]| ->]; [|apply errs_err; right; auto|es].
          cbn in K'. intuition subst; es. }
        intros zr _. destruct zr as [t|]; [|es].
        eapply errs_sub; [apply errs_get_rafsi_other; destruct (wtype_eqb t ZIhEVLA); discriminate|alls].
      * destruct (is_valid_rafsi s (allow_mz st)) eqn:Ev; cbn [negb]; [|es].
        eapply errs_sub; [apply errs_get_rafsi_proper; eapply valid_proper; exact Ev|alls].
  - destruct (is_only_lojban_characters v); cbn [negb]; [|es].
    apply errs_bind.
    { destruct (dict_get v) as [rs|] eqn:Ed; [|es].
      eapply errs_sub; [apply errs_short_forms; eapply dict_proper; exact Ed|alls]. }
    intros sh _. apply errs_bind.
    { pose proof (errs_analyse_brivla lk (ana_settings st) v) as G. apply AE_BE in G.
      destruct (analyse_brivla _ _ _) as [[t x]|e]; [es|].
      destruct (G e eq_refl) as [G'| ->]; [|es]. destruct e; try (apply errs_err; exact G'); es. }
    intros bt _. apply errs_bind.
    { destruct bt as [[]|]; try es. eapply errs_sub; [apply errs_get_rafsi_other; discriminate|alls]. }
    intros s1 _. apply errs_bind; [|intros; es].
    destruct bt as [[]|]; try es; (eapply errs_sub; [apply errs_get_rafsi_other; discriminate|alls]).
Qed.
Lemma errs_list_list : forall lk st l, errs (BE lk) (get_rafsi_list_list (analyse_brivla lk) (jvk lk) st l).
Proof.
  intros lk st l. unfold get_rafsi_list_list. generalize (length l) 0. 
  induction l as [|v l IH]; intros n i; cbn [rafsi_list_list_loop]; [es|].
  apply errs_bind; [apply errs_rafsi_list_for|]. intros. apply errs_bind; [apply IH|]. intros; es.
Qed.
Lemma errs_best_word : forall gen st rll, errs (only [IndexError; NoLujvoFoundError]) (best_word gen st rll).
Proof.
  intros. unfold best_word. apply errs_bind; [sub errs_table|]. intros t _. destruct (pick_best _ _ _ _); es.
Qed.
Theorem errs_lujvo_from_list : forall lk gen st l, errs (BE lk) (lujvo_from_list lk gen st l).
Proof.
  intros. rewrite lujvo_from_list_eq. apply errs_bind; [apply errs_list_list|]. intros rll _.
  apply errs_bind; [sub errs_best_word|]. intros [[w sc] ix] _. destruct gen; [es|].
  destruct lk; [apply errs_err; right; auto|].
  apply errs_bind; [|intros b _; destruct b; es]. eapply errs_weaken; [apply errs_slinkuhi|].
  intros e [->|[E _]]; [auto|discriminate].
Qed.
Lemma errs_process : forall t, errs (only [IndexError]) (process_tanru t).
Proof.
  intro t. unfold process_tanru. generalize (match t with TStr s => split_ws s | TList l => l end).
  induction l as [|v l IH]; cbn [map_res]; [es|]. apply errs_bind; [apply errs_normalise|]. intros.
  apply errs_bind; [exact IH|]. intros; es.
Qed.
Theorem errs_get_lujvo_with_analytics : forall lk gen st t, errs (BE lk) (get_lujvo_with_analytics lk gen st t).
Proof.
  intros. unfold get_lujvo_with_analytics. apply errs_bind; [sub errs_process|]. intros. apply errs_lujvo_from_list.
Qed.
Theorem errs_get_lujvo : forall lk gen st t, errs (BE lk) (get_lujvo lk gen st t).
Proof.
  intros. unfold get_lujvo. apply errs_bind; [sub errs_process|]. intros.
  apply errs_bind; [apply errs_lujvo_from_list|]. intros [[w sc] ix] _. es.
Qed.
Theorem errs_is_brivla : forall lk st w, errs (QE lk) (is_brivla lk st w).
Proof.
  intros. unfold is_brivla. apply (errs_is_brivla_gen lk (S (length (standard_spelling w)))); [|lia].
  intros. apply errs_analyse_brivla.
Qed.
#[export] Hint Resolve errs_is_brivla : errs.
Lemma errs_selrafsi : forall lk yh mz n l i, errs (QE lk) (selrafsi_loop lk yh mz n i l).
Proof.
  intros lk yh mz n. induction l as [|x l IH]; intro i; cbn [selrafsi_loop]; [es|].
  apply errs_bind.
  - match goal with |- errs _ (selrafsi_at _ _ _ _ _ ?z _) => generalize z end. intro y. unfold selrafsi_at. cbv zeta. destruct y as [|y0 y]; [es|].
    destruct (search_selrafsi_from_rafsi _); [es|].
    apply errs_bind; [es|]. intros b _. apply errs_bind; [es|]. intros b1 _. destruct b1; [es|].
    apply errs_bind; [es|]. intros b2 _. destruct b2; [es|]. apply errs_bind; [es|]. intros b3 _. destruct b3; es.
  - intros. apply errs_bind; [apply IH|]. intros. es.
Qed.
Theorem errs_get_veljvo : forall lk st w, errs (AE lk) (get_veljvo lk st w).
Proof.
  intros. unfold get_veljvo. apply errs_bind; [apply errs_analyse_brivla|]. intros [t l] _.
  assert (G : errs (AE lk) (selrafsi_list_from_rafsi_list lk (y_hyphens st) (allow_mz st) l)).
  { eapply errs_weaken; [apply errs_selrafsi|]. apply QE_AE. }
  destruct t; first [exact G | es].
Qed.
Theorem errs_score_lujvo : forall lk st w, errs (AE lk) (score_lujvo lk st w).
Proof.
  intros. unfold score_lujvo. apply errs_bind; [apply errs_get_veljvo|]. intros _ _.
  apply errs_bind; [apply errs_analyse_brivla|]. intros [t l] _. es.
Qed.
