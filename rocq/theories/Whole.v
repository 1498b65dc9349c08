(** A two-syllable zi'evla cannot fall apart; words of one syllable are no brivla *)
From Verif Require Import Str Data Tarmi Rafsi Core Api Lib Spec Shapes Decomp Basic Vowels Katna Dict Errs Builder Jvokaha Fuel Raises Inv Parts Clusters Zihevla Forms Chain Score Alt Lujvo Compound.

Lemma app_split : forall (r w x : str) c y, r ++ w = x ++ c :: y ->
  (exists x', x = r ++ x' /\ w = x' ++ c :: y) \/ (exists r', r = x ++ c :: r' /\ y = r' ++ w).
Proof.
  induction r as [|a r IH]; intros w x c y E.
  - left. exists x. auto.
  - destruct x as [|b x].
    + cbn [app] in E. injection E as -> <-. right. exists r. auto.
    + cbn [app] in E. injection E as <- E. destruct (IH _ _ _ _ E) as [(x' & -> & ->)|(r' & -> & ->)]; [left; exists x'|right; exists r']; auto.
Qed.
Lemma ends_app : forall P (x y : str), y <> [] -> (ends_in P (x ++ y) <-> ends_in P y).
Proof.
  intros P x y Hy. destruct (exists_last Hy) as (q & a & ->). split; intros (u & c & E & Hc).
  - rewrite app_assoc in E. apply app_inj_tail in E as [_ ->]. exists q, c. auto.
  - apply app_inj_tail in E as [-> ->]. exists (x ++ u), c. rewrite app_assoc. auto.
Qed.
Lemma run_ends : forall P r w, run_of P r w -> ends_in P r.
Proof.
  intros P r w (Hn & F & _). destruct (exists_last Hn) as (q & a & ->). exists q, a. split; [reflexivity|]. apply Forall_app in F as [_ F]. inversion F. assumption.
Qed.
Lemma syllables_nonnil : forall l, syllables l -> l <> [].
Proof. intros l (s & r & -> & _). discriminate. Qed.

Lemma zi_vowel_end : forall m mz pre s syl, zi_text m mz pre s syl -> ends_in vowel s -> syl <> [].
Proof.
  induction 1 as [pre|pre r w syl Hr Hcl Hi Hm T IH|pre r w l syl Hr El Sl Hn T IH|pre w syl Hb Ha T IH]; intro E.
  - destruct E as (u & c & E & _). destruct u; discriminate.
  - destruct w as [|c w].
    + exfalso. rewrite app_nil_r in E. destruct (run_ends _ _ _ Hr) as (u & a & -> & Ha). destruct E as (u' & a' & E & Ha').
      apply app_inj_tail in E as [_ ->]. exact (vc_excl _ Ha' Ha).
    + apply IH. rewrite ends_app in E by discriminate. exact E.
  - intro X. apply app_eq_nil in X as [X _]. exact (syllables_nonnil _ Sl X).
  - destruct Ha as (b & v & -> & Hv). apply IH. change (apostrophe :: b :: v) with ([apostrophe] ++ b :: v) in E. rewrite ends_app in E by discriminate. exact E.
Qed.

(** cut before a consonant that does not follow a consonant *)
Lemma zi_split : forall m mz pre s syl, zi_text m mz pre s syl -> forall x c y, s = x ++ c :: y -> consonant c -> ~ ends_in consonant x ->
  exists s1 s2, syl = s1 ++ s2 /\ zi_text m mz (pre ++ x) (c :: y) s2 /\ ((exists k, In k x /\ vowel k) -> s1 <> []).
Proof.
  intros m mz pre s syl T. induction T as [pre|pre r w syl Hr Hcl Hi Hm T IH|pre r w l syl Hr El Sl Hn T IH|pre w syl Hb Ha T IH]; intros x c y E Hc Hx.
  - destruct x; discriminate.
  - destruct (app_split _ _ _ _ _ E) as [(x' & -> & ->)|(r' & -> & ->)].
    + assert (Hx' : ~ ends_in consonant x').
      { intro X. apply Hx. apply ends_app; [|exact X]. intros ->. destruct X as (u & k & X & _). destruct u; discriminate. }
      destruct (IH x' c y eq_refl Hc Hx') as (s1 & s2 & -> & T2 & HV). exists s1, s2. rewrite app_assoc. split; [reflexivity|]. split; [exact T2|].
      intros (k & Hk & Hkv). apply HV. exists k. split; [|exact Hkv]. apply in_app_or in Hk as [Hk|Hk]; [|exact Hk]. exfalso.
      destruct Hr as (_ & F & _). rewrite Forall_forall in F. exact (vc_excl _ Hkv (F _ Hk)).
    + destruct x as [|k x _] using rev_ind.
      * exists [], syl. split; [reflexivity|]. rewrite app_nil_r. split; [|intros (k & [] & _)].
        change (c :: r' ++ w) with ((c :: r') ++ w). apply zi_consonants; assumption.
      * exfalso. apply Hx. exists x, k. split; [reflexivity|]. destruct Hr as (_ & F & _). rewrite <- app_assoc in F. apply Forall_app in F as [_ F]. inversion F. assumption.
  - destruct (app_split _ _ _ _ _ E) as [(x' & -> & ->)|(r' & -> & ->)].
    + assert (Hx' : ~ ends_in consonant x').
      { intro X. apply Hx. apply ends_app; [|exact X]. intros ->. destruct X as (u & k & X & _). destruct u; discriminate. }
      destruct (IH x' c y eq_refl Hc Hx') as (s1 & s2 & -> & T2 & HV). exists (l ++ s1), s2. rewrite app_assoc, app_assoc. split; [reflexivity|]. split; [exact T2|].
      intros _ X. apply app_eq_nil in X as [X _]. exact (syllables_nonnil _ Sl X).
    + exfalso. destruct Hr as (_ & F & _). apply Forall_app in F as [_ F]. inversion F. eapply vc_excl; eassumption.
  - destruct x as [|k x].
    + exfalso. cbn [app] in E. injection E as <- _. exact (apos_nc Hc).
    + cbn [app] in E. injection E as <- E. assert (Hx' : ~ ends_in consonant x).
      { intro X. apply Hx. change (apostrophe :: x) with ([apostrophe] ++ x). apply ends_app; [|exact X]. intros ->. destruct X as (u & k & X & _). destruct u; discriminate. }
      destruct (IH x c y E Hc Hx') as (s1 & s2 & -> & T2 & HV). exists s1, s2. split; [reflexivity|]. rewrite <- app_assoc in T2. split; [exact T2|].
      intros (k & [<-|Hk] & Hkv); [exfalso; exact (apos_nv Hkv)|]. apply HV. exists k. auto.
Qed.

(** a vowel stands somewhere before a consonant that no consonant precedes *)
Lemma zi_has_vowel : forall m mz s syl, zi_text m mz [] s syl -> forall x c y, s = x ++ c :: y -> x <> [] -> ~ ends_in consonant x -> exists k, In k x /\ vowel k.
Proof.
  intros m mz s syl T x c y E Hn Hx. apply zi_text_inv in T. destruct s as [|k s]; [destruct x; discriminate|].
  destruct x as [|k' x]; [contradiction|]. cbn [app] in E. injection E as <- E. destruct T as [(Hk & r & w & Er & Hr & T)|[(Hk & _)|(_ & (u & z & X & _) & _)]].
  - destruct (app_split r w (k :: x) c y) as [(x' & Ex & Ew)|(r' & Ex & _)].
    + cbn [app]. rewrite <- Er, E. reflexivity.
    + destruct x' as [|k2 x'].
      * exfalso. apply Hx. rewrite app_nil_r in Ex. rewrite Ex. exact (run_ends _ _ _ Hr).
      * cbn [app] in Ew. pose proof Ew as Ew'. apply zi_text_inv in T. rewrite Ew in T. destruct T as [(Hk2 & _)|[(Hk2 & _)|(Hk2 & (u & z & X & Hz) & _)]].
        -- exfalso. destruct Hr as (_ & _ & HH). exact (HH _ _ Ew Hk2).
        -- exists k2. split; [|exact Hk2]. rewrite Ex. apply in_or_app. right. left. reflexivity.
        -- exfalso. cbn [app] in X. destruct (run_ends _ _ _ Hr) as (u' & z' & Er' & Hz'). rewrite Er' in X. apply app_inj_tail in X as [_ ->]. exact (vc_excl _ Hz Hz').
    + exfalso. destruct Hr as (_ & F & _). rewrite Ex in F. change ((k :: x) ++ c :: r') with ((k :: x) ++ c :: r') in F. apply Forall_app in F as [F _].
      apply Hx. assert (N : k :: x <> []) by discriminate. destruct (exists_last N) as (q & a & Eq). exists q, a. split; [exact Eq|]. rewrite Eq in F. apply Forall_app in F as [_ F]. inversion F. assumption.
  - exists k. split; [left; reflexivity|exact Hk].
  - destruct u; discriminate.
Qed.

(** text with at most one syllable that starts with a consonant and ends in a vowel *)
Lemma zi_one_syllable : forall m mz pre c y syl, zi_text m mz pre (c :: y) syl -> consonant c -> ends_in vowel (c :: y) -> length syl <= 1 ->
  exists r r2, c :: y = r ++ r2 /\ Forall consonant r /\ Forall vowel r2.
Proof.
  intros m mz pre c y syl T Hc E L. pose proof T as T0. apply zi_text_inv in T. destruct T as [(_ & r & w & Er & Hr & T)|[(Hk & _)|(-> & _)]];
    [|exfalso; exact (vc_excl _ Hk Hc)|exfalso; exact (apos_nc Hc)].
  rewrite Er in *. destruct w as [|k w].
  { exfalso. rewrite app_nil_r in E. destruct (run_ends _ _ _ Hr) as (u & a & -> & Ha). destruct E as (u' & a' & E & Ha'). apply app_inj_tail in E as [_ ->]. exact (vc_excl _ Ha' Ha). }
  rewrite ends_app in E by discriminate. pose proof T as T1. apply zi_text_inv in T. destruct T as [(Hk & _)|[(_ & r2 & w2 & l & syl2 & Er2 & -> & Hr2 & El & Sl & T)|(-> & (u & z & X & Hz) & _)]].
  - exfalso. destruct Hr as (_ & _ & HH). exact (HH _ _ eq_refl Hk).
  - exists r, r2. destruct Hr as (_ & F & _), Hr2 as (Hr2 & F2 & HH). split; [|split; assumption]. rewrite Er2. f_equal.
    destruct w2 as [|k2 w2]; [apply app_nil_r|]. exfalso. rewrite app_length in L. pose proof (syllables_nonnil _ Sl). destruct l as [|l0 l]; [contradiction|]. cbn [length] in L.
    assert (syl2 = []) by (destruct syl2; [reflexivity|cbn in L; lia]). subst syl2.
    rewrite Er2 in E. rewrite ends_app in E by discriminate. exact (zi_vowel_end _ _ _ _ _ T E eq_refl).
  - exfalso. destruct (run_ends _ _ _ Hr) as (u' & z' & Er' & Hz'). rewrite Er', app_assoc in X. apply app_inj_tail in X as [_ ->]. exact (vc_excl _ Hz Hz').
Qed.

(** no vowel stands before a consonant *)
Lemma cv_order : forall r r2 u a t c z, r ++ r2 = u ++ a :: t ++ c :: z -> Forall consonant r -> Forall vowel r2 -> vowel a -> consonant c -> False.
Proof.
  intros r r2 u a t c z E Fr Fv Ha Hc. destruct (app_split _ _ _ _ _ E) as [(x' & -> & E2)|(r' & -> & _)].
  - rewrite E2 in Fv. apply Forall_app in Fv as [_ Fv]. inversion Fv as [|? ? _ Fv']. apply Forall_app in Fv' as [_ Fv']. inversion Fv'. eapply vc_excl; eassumption.
  - apply Forall_app in Fr as [_ Fr]. inversion Fr. eapply vc_excl; eassumption.
Qed.

Lemma check_types : forall ana jvk req yh ex mz v t, check_zihevla_or_rafsi ana jvk req yh ex mz v = Ok t -> t = ZIhEVLA \/ t = RAFSI.
Proof.
  intros ana jvk req yh ex mz v t H. unfold check_zihevla_or_rafsi in H. dif H; [discriminate|]. inv_bind H. inv_bind H. destruct (z_cluster x).
  - inv_bind H. inv_bind H. dif H; [injection H as <-; auto|]. inv_bind H. dif H; [discriminate|injection H as <-; auto].
  - dif H; [discriminate|]. inv_bind H. dif H; [discriminate|]. dif H; [discriminate|]. dif H; [discriminate|injection H as <-; auto].
Qed.

Lemma cll_vowel_consonant : forall mz p, cll mz p -> exists c t, p = c :: t /\ consonant c /\ exists a, In a t /\ vowel a.
Proof. intros mz p [s H]. inversion H; subst; bfacts;
  match goal with |- exists c t, ?x :: ?r = _ /\ _ => exists x, r; split; [reflexivity|]; split; [apply is_consonant_spec; assumption|] end;
  match goal with V : is_vowel ?v = true |- _ => exists v; split; [cbn [In]; tauto|apply is_vowel_spec; assumption] end.
Qed.

Lemma filter_one : forall A (f : A -> bool) l x r, filter f l = x :: r -> exists a b, l = a ++ x :: b /\ filter f b = r.
Proof.
  induction l as [|y l IH]; intros x r H; [discriminate|]. cbn [filter] in H. destruct (f y).
  - injection H as -> <-. exists [], l. auto.
  - destruct (IH _ _ H) as (a & b & -> & E). exists (y :: a), b. auto.
Qed.
Lemma two_rafsi_order : forall mz ps, Forall (cll mz) (rafsi_of ps) -> 2 <= length (rafsi_of ps) ->
  exists u a t c z, concat ps = u ++ a :: t ++ c :: z /\ vowel a /\ consonant c.
Proof.
  intros mz ps F H2. unfold rafsi_of in *. destruct (filter (fun x : list char => 2 <? length x) ps) as [|p [|q r]] eqn:E; [cbn in H2; lia|cbn in H2; lia|].
  apply filter_one in E as (x & y & -> & E). apply filter_one in E as (y1 & y2 & -> & E).
  inversion F as [|? ? Hp F']. inversion F' as [|? ? Hq _].
  destruct (cll_vowel_consonant _ _ Hp) as (c & t & -> & _ & a & Ha & Hav). apply in_split in Ha as (t1 & t2 & ->).
  destruct (cll_vowel_consonant _ _ Hq) as (c' & t' & -> & Hc' & _).
  exists (concat x ++ c :: t1), a, (t2 ++ concat y1), c', (t' ++ concat y2). split; [|split; assumption].
  rewrite !concat_app. cbn [concat]. rewrite concat_app. cbn [concat]. repeat (rewrite <- !app_assoc; cbn [app]). reflexivity.
Qed.

(** consonants followed by vowels that make one syllable are not a brivla *)
Lemma one_syllable_no_brivla : forall lk st m mz pre c y syl, zi_text m mz pre (c :: y) syl -> consonant c -> ends_in vowel (c :: y) -> length syl <= 1 ->
  is_brivla lk st (c :: y) <> Ok true.
Proof.
  intros lk st m mz pre c y syl T Hc E L H. destruct (zi_one_syllable _ _ _ _ _ _ T Hc E L) as (r & r2 & Es & Fr & Fv).
  unfold is_brivla, Core.is_brivla in H. destruct (analyse_brivla lk st (c :: y)) as [[t ps]|e] eqn:A; [|destruct e; discriminate].
  assert (Ht : t <> CMEVLA) by (intros ->; discriminate H). clear H. apply analyse_inv in A.
  assert (LL : Forall (fun c => is_lojban_letter c = true) (c :: y)).
  { rewrite Es. apply Forall_app. split.
    - eapply Forall_impl; [|exact Fr]. intros k Hk. apply is_consonant_spec in Hk. unfold is_lojban_letter. rewrite Hk, orb_true_r. reflexivity.
    - eapply Forall_impl; [|exact Fv]. intros k Hk. apply is_vowel_spec in Hk. unfold is_lojban_letter. rewrite Hk. reflexivity. }
  rewrite (lojban_spelling _ LL) in A.
  assert (NO : forall u a t c' z, c :: y = u ++ a :: t ++ c' :: z -> vowel a -> consonant c' -> False).
  { intros u a t' c' z E' Ha Hc'. rewrite Es in E'. exact (cv_order _ _ _ _ _ _ _ E' Fr Fv Ha Hc'). }
  inversion A as [G|l qs E1 E2 E3 E4 J|l c0 e t0 E1 E2 E3 J Hca Ei Ev Ny Ck|l c0 e t0 qs E1 E2 E3 E4 J Hca Ei Ev H2]; subst.
  - apply is_gismu_spec in G as [(c1 & v1 & c2 & c3 & v2 & E' & _ & Hv & Hp & _)|(c1 & c2 & v1 & c3 & v2 & E' & _ & Hv & Hk & _)].
    + destruct (permissible_c _ _ _ Hp) as [Hk _]. exact (NO [c1] v1 [] c2 [c3; v2] E' Hv Hk).
    + exact (NO [c1; c2] v1 [] c3 [v2] E' Hv Hk).
  - apply jvk_cll_lujvo in J as (gen & u & J). pose proof (x_cut _ _ _ _ _ _ _ _ _ J) as C. apply cut_rafsi_cll in C.
    destruct (two_rafsi_order _ _ C (x_two _ _ _ _ _ _ _ _ _ J)) as (u' & a & t' & c' & z & E' & Ha & Hc'). rewrite (x_concat _ _ _ _ _ _ _ _ _ J) in E'.
    exact (NO _ _ _ _ _ E' Ha Hc').
  - destruct (check_types _ _ _ _ _ _ _ _ Ck) as [-> | ->].
    + apply check_zihevla_iff in Ck as (_ & syl' & [T' _] & H2 & _). specialize (H2 (or_introl eq_refl)).
      rewrite (zi_text_det _ _ _ _ _ _ _ _ _ T' T) in H2. lia.
    + apply check_rafsi_iff in Ck as (X & _). discriminate.
  - assert (N : ~ In c_y (c :: y)).
    { intro X. rewrite Forall_forall in LL. specialize (LL _ X). discriminate LL. }
    rewrite (split_on_none _ _ N) in H2. cbn in H2. lia.
Qed.

(** ** A suffix that starts with a glide *)
Fixpoint inner_glide (s : str) : bool :=
  match s with [] => false | _ :: t => is_glide t || inner_glide t end.
Lemma inner_glide_app : forall x s, x <> [] -> is_glide s = true -> inner_glide (x ++ s) = true.
Proof.
  induction x as [|a x IH]; intros s H G; [contradiction|]. cbn [app inner_glide]. destruct x as [|b x].
  - cbn [app]. rewrite G. reflexivity.
  - rewrite (IH s) by (discriminate || exact G). apply orb_true_r.
Qed.
Lemma syllable_no_inner : forall s, nucleus s \/ glide_syllable s -> inner_glide s = false.
Proof.
  intros s [H|H]; [apply start_spec in H|apply follow_spec in H]; apply mems_In in H; revert s H; apply Forall_forall;
    [unfold START_VOWEL_CLUSTERS|unfold FOLLOW_VOWEL_CLUSTERS]; repeat constructor.
Qed.
Lemma nucleus_no_glide : forall s, nucleus s -> is_glide s = false.
Proof. intros s H. apply start_spec in H. apply mems_In in H. revert s H. apply Forall_forall. unfold START_VOWEL_CLUSTERS. repeat constructor. Qed.

Lemma zi_glide : forall m mz pre s syl, zi_text m mz pre s syl -> forall x a b y, s = x ++ a :: b :: y -> is_glide [a; b] = true ->
  pre ++ x <> [] -> (exists k, In k y /\ consonant k) -> ends_in vowel s -> 3 <= length syl.
Proof.
  intros m mz pre s syl T. induction T as [pre|pre r w syl Hr Hcl Hi Hm T IH|pre r w l syl Hr El Sl Hn T IH|pre w syl Hb Ha T IH]; intros x a b y E G Hp Hk Hv.
  - destruct x; discriminate.
  - assert (Hg : vowel a /\ vowel b).
    { cbn [is_glide] in G. apply andb_t in G as [G1 G2]. split; [|apply is_vowel_spec; exact G2]. apply orb_true_iff in G1 as [G1|G1]; apply N.eqb_eq in G1; subst a; apply is_vowel_spec; reflexivity. }
    destruct (app_split _ _ _ _ _ E) as [(x' & -> & Ew)|(r' & -> & _)].
    + apply (IH x' a b y Ew G); [rewrite <- app_assoc; exact Hp|exact Hk|]. rewrite ends_app in Hv; [exact Hv|]. rewrite Ew. destruct x'; discriminate.
    + exfalso. destruct Hr as (_ & F & _). apply Forall_app in F as [_ F]. inversion F as [|? ? Hka _]. exact (vc_excl _ (proj1 Hg) Hka).
  - assert (Hg : vowel b) by (cbn [is_glide] in G; apply andb_t in G as [_ G2]; apply is_vowel_spec; exact G2).
    destruct (app_split _ _ _ _ _ E) as [(x' & -> & Ew)|(r' & Er & Ew)].
    + rewrite app_length. eapply Nat.le_trans; [|apply Nat.le_add_l].
      apply (IH x' a b y Ew G); [rewrite <- app_assoc; exact Hp|exact Hk|]. rewrite ends_app in Hv; [exact Hv|]. rewrite Ew. destruct x'; discriminate.
    + assert (exists r'', r' = b :: r'' /\ y = r'' ++ w) as (r'' & -> & ->).
      { destruct r' as [|b' r'']; [|cbn [app] in Ew; injection Ew as <- ->; exists r''; auto]. cbn [app] in Ew. exfalso.
        destruct Hr as (_ & _ & HH). exact (HH b y (eq_sym Ew) Hg). }
      assert (Wn : w <> []).
      { intros ->. destruct Hk as (k & Hin & Hk). rewrite app_nil_r in Hin. destruct Hr as (_ & F & _). rewrite Forall_forall in F.
        apply (vc_excl k); [|exact Hk]. apply F. rewrite Er. apply in_or_app. right. right. right. exact Hin. }
      rewrite ends_app in Hv by exact Wn. pose proof (zi_vowel_end _ _ _ _ _ T Hv) as Sn.
      assert (2 <= length l).
      { destruct (le_lt_dec 2 (length l)) as [?|L1]; [assumption|exfalso]. destruct l as [|s0 [|s1 l]]; [exact (syllables_nonnil _ Sl eq_refl)| |cbn in L1; lia].
        cbn [concat] in El. rewrite app_nil_r in El. subst s0. destruct Sl as (s0 & l' & Es & Hs & _). injection Es as <- <-. destruct x as [|x0 x].
        - rewrite app_nil_r in Hp. specialize (Hn Hp). cbn [hd] in Hn. apply nucleus_no_glide in Hn. rewrite Er in Hn. cbn [app is_glide] in Hn, G. congruence.
        - apply syllable_no_inner in Hs. rewrite Er in Hs. rewrite (inner_glide_app (x0 :: x) (a :: b :: r'')) in Hs; [discriminate|discriminate|exact G]. }
      rewrite app_length. destruct syl as [|s0 syl]; [contradiction|]. cbn [length]. unfold str, char in *. lia.
  - destruct x as [|x0 x].
    + exfalso. cbn [app] in E. injection E as <- _. cbn [is_glide] in G. discriminate G.
    + cbn [app] in E. injection E as <- E. apply (IH x a b y E G).
      * rewrite <- app_assoc. exact Hp.
      * exact Hk.
      * change (apostrophe :: w) with ([apostrophe] ++ w) in Hv. rewrite ends_app in Hv; [exact Hv|]. rewrite E. destruct x; discriminate.
Qed.

Lemma two_syllables_whole : forall lk st m mz v syl s, zi_text m mz [] v syl -> ends_in vowel v -> length syl <= 2 ->
  falls_apart_into v s -> is_brivla lk st s <> Ok true.
Proof.
  intros lk st m mz v syl s T Hv L (u & u2 & v' & FC & Hu & -> & H). pose proof FC as (Ev & (k1 & k2 & t & Ev' & Hk1 & Hk2) & HN).
  destruct H as [(c & y & Es & Hc)|(a & b & y & Es & Ha & Hb)].
  - assert (Hx : ~ ends_in consonant u).
    { intros (q & k & -> & Hk). rewrite Ev' in HN. destruct u2 as [|x u2].
      - cbn [app] in Es. rewrite Ev' in Es. injection Es as <- _. apply (HN k k1); [|auto]. exists q, []. rewrite <- !app_assoc. cbn [app firstn]. reflexivity.
      - cbn [app] in Es. injection Es as -> _. apply (HN k c); [|auto]. exists q, (u2 ++ [k1]). rewrite <- !app_assoc. cbn [app firstn]. reflexivity. }
    rewrite Ev, <- app_assoc, Es in T, Hv. rewrite Es. destruct (zi_split _ _ _ _ _ T u c y eq_refl Hc Hx) as (s1 & s2 & -> & T2 & HV).
    rewrite app_length in L. pose proof (HV (zi_has_vowel _ _ _ _ T u c y eq_refl Hu Hx)) as S1. destruct s1; [contradiction|]. cbn [length] in L.
    rewrite ends_app in Hv by discriminate. apply (one_syllable_no_brivla lk st _ _ _ _ _ _ T2 Hc Hv). lia.
  - exfalso. destruct u2 as [|x u2].
    { cbn [app] in Es. rewrite Ev' in Es. injection Es as <- _. cbn in Ha. destruct Ha as [<-|[<-|[]]]; apply is_consonant_spec in Hk1; discriminate Hk1. }
    assert (G : is_glide [a; b] = true) by (apply glide_spec; exists a, b, []; auto).
    apply (Nat.lt_irrefl 2). eapply Nat.le_trans; [|exact L]. apply (zi_glide _ _ _ _ _ T u a b y).
    + rewrite Ev, <- app_assoc, Es. reflexivity.
    + exact G.
    + exact Hu.
    + exists k2. split; [|exact Hk2]. rewrite Ev' in Es. cbn [app] in Es. injection Es as _ Es.
      destruct u2 as [|? u2]; cbn [app] in Es; injection Es as _ <-; [left; reflexivity|]. apply in_or_app. right. right. left. reflexivity.
    + exact Hv.
Qed.
