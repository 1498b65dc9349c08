(** split_vowel_cluster finds exactly the legal syllables of a vowel run. *)
From Verif Require Import Str Data Tarmi Core Lib Spec Shapes.

Lemma follow_spec : forall s, mems s FOLLOW_VOWEL_CLUSTERS = true <-> glide_syllable s.
Proof.
  intro s. rewrite mems_In. split.
  - intro H. cbn in H. unfold glide_syllable, nucleus, vowel, diphthong.
    decompose [or] H; subst; try contradiction;
      (eexists; eexists; split; [reflexivity|]; split; [cbn; tauto|];
       (left; eexists; split; [reflexivity|]; cbn; tauto) || (right; cbn; tauto)).
  - intros (g & n & -> & Hg & [(v & -> & Hv) | Hd]).
    + cbn in Hg, Hv. decompose [or] Hg; decompose [or] Hv; subst; try contradiction; cbn; tauto.
    + cbn in Hg. unfold diphthong in Hd. cbn in Hd.
      decompose [or] Hg; decompose [or] Hd; subst; try contradiction; cbn; tauto.
Qed.

Lemma start_spec : forall s, mems s START_VOWEL_CLUSTERS = true <-> nucleus s.
Proof.
  intro s. rewrite mems_In. unfold nucleus, vowel, diphthong. split.
  - intro H. cbn in H. decompose [or] H; subst; try contradiction;
      ((left; eexists; split; [reflexivity|]; cbn; tauto) || (right; cbn; tauto)).
  - intros [(v & -> & Hv) | Hd].
    + cbn in Hv. decompose [or] Hv; subst; try contradiction; cbn; tauto.
    + cbn in Hd. decompose [or] Hd; subst; try contradiction; cbn; tauto.
Qed.

Lemma lastn_app : forall k a b, length b = k -> lastn k (a ++ b) = b.
Proof.
  intros k a b <-. unfold lastn. rewrite app_length. replace (length a + length b - length b) with (length a) by lia.
  rewrite skipn_app, skipn_all, Nat.sub_diag. reflexivity.
Qed.
Lemma dropl_app_n : forall k a b, length b = k -> dropl k (a ++ b) = a.
Proof.
  intros k a b <-. unfold dropl. rewrite app_length. replace (length a + length b - length b) with (length a) by lia.
  rewrite firstn_app, firstn_all, Nat.sub_diag. cbn. apply app_nil_r.
Qed.
Lemma dropl_lastn : forall k s, dropl k s ++ lastn k s = s.
Proof. intros. apply firstn_skipn. Qed.

Lemma bad_junction_spec : forall u t, bad_junction t u = true <->
  exists v d g w, u = v ++ d /\ diphthong d /\ t = g :: w /\ last d 0%N = g.
Proof.
  intros u t. unfold bad_junction. split.
  - destruct t as [|g w]; [discriminate|]. intro H. apply orb_true_iff in H as [H|H].
    + apply andb_t in H as [H1 H2]. apply N.eqb_eq in H1. subst g. apply mems_In in H2.
      exists (dropl 2 u), (lastn 2 u), c_i, w. rewrite dropl_lastn.
      cbn in H2. unfold diphthong. cbn.
      decompose [or] H2; try contradiction; rewrite <- ?H, <- ?H0; repeat split; cbn; tauto.
    + apply andb_t in H as [H1 H2]. apply N.eqb_eq in H1. subst g. apply str_eqb_eq in H2.
      exists (dropl 2 u), (lastn 2 u), c_u, w. rewrite dropl_lastn, H2. unfold diphthong; cbn; tauto.
  - intros (v & d & g & w & -> & Hd & -> & Hl). unfold diphthong in Hd. cbn in Hd.
    decompose [or] Hd; try contradiction; subst d; cbn in Hl; subst g;
      match goal with |- context [lastn 2 (v ++ ?d)] => rewrite (lastn_app 2 v d eq_refl) end; reflexivity.
Qed.

(** Appending a syllable. *)
Lemma junctions_snoc : forall l s t, junctions ((l ++ [s]) ++ [t]) <-> junctions (l ++ [s]) /\ syllable_junction s t.
Proof.
  induction l as [|x l IH]; intros s t.
  - cbn. tauto.
  - cbn [app]. specialize (IH s t). destruct (l ++ [s]) as [|y r] eqn:E; [destruct l; discriminate|].
    cbn [app junctions] in IH |- *. tauto.
Qed.

Lemma syllables_snoc : forall l t, l <> [] ->
  (syllables (l ++ [t]) <-> syllables l /\ glide_syllable t /\ exists s, last_opt l = Some s /\ syllable_junction s t).
Proof.
  intros l t Hne. destruct (last_opt l) as [s|] eqn:El; [|apply last_opt_none in El; contradiction].
  apply last_opt_some in El as [l' ->]. unfold syllables. split.
  - intros (s0 & r & E & H1 & H2 & H3). apply junctions_snoc in H3 as [H3 H4].
    destruct r as [|r0 r].
    { exfalso. apply (f_equal (@length _)) in E. rewrite !app_length in E. cbn in E. lia. }
    assert (exists r', r0 :: r = r' ++ [t] /\ l' ++ [s] = s0 :: r') as (r' & Er & El).
    { destruct l' as [|x l']; cbn in E.
      - injection E as -> <- <-. exists []. split; reflexivity.
      - injection E as -> E. exists (l' ++ [s]). split; [symmetry; exact E|reflexivity]. }
    rewrite Er in H2. apply Forall_app in H2 as [H2 H5]. inversion H5; subst.
    split; [|split; [assumption|eauto]]. exists s0, r'. auto.
  - intros ((s0 & r & E & H1 & H2 & H3) & Ht & s' & Es & Hj). injection Es as <-.
    exists s0, (r ++ [t]). rewrite E. split; [reflexivity|]. split; [assumption|]. split.
    + apply Forall_app. auto.
    + rewrite <- E. apply junctions_snoc. auto.
Qed.

Lemma syllable_cases : forall s, nucleus s \/ glide_syllable s ->
  exists a r, s = a :: r /\ length r <= 2 /\ (glide_syllable s -> r <> [] /\ (a = c_i \/ a = c_u))
    /\ (length s = 2 -> ~ glide_syllable s -> diphthong s)
    /\ (length s = 3 -> diphthong r).
Proof.
  intros s [H|H].
  - apply start_spec, mems_In in H. cbn in H.
    decompose [or] H; subst; try contradiction; eexists; eexists; (split; [reflexivity|]);
      (split; [cbn; lia|]); (split; [intro G; apply follow_spec in G; discriminate|]);
      unfold diphthong; cbn; split; intros; try discriminate; try lia; tauto.
  - assert (G := H). apply follow_spec, mems_In in H. cbn in H.
    decompose [or] H; subst; try contradiction; eexists; eexists; (split; [reflexivity|]);
      (split; [cbn; lia|]); (split; [intros _; split; [discriminate|cbv; tauto]|]);
      (split; [intros _ F; contradiction|]); unfold diphthong; cbn; intro; try discriminate; tauto.
Qed.

Lemma syllable_nonnil : forall s, nucleus s \/ glide_syllable s -> s <> [].
Proof. intros s H. destruct (syllable_cases s H) as (a & r & -> & _). discriminate. Qed.

Lemma syllables_all : forall l, syllables l -> Forall (fun s => nucleus s \/ glide_syllable s) l.
Proof.
  intros l (s & r & -> & H1 & H2 & _). constructor; [assumption|].
  eapply Forall_impl; [|exact H2]. auto.
Qed.

(** The last syllable of [l] ends in the diphthong that ends the text. *)
Lemma last_diphthong : forall l s v d, syllables (l ++ [s]) -> concat (l ++ [s]) = v ++ d -> diphthong d ->
  exists v', s = v' ++ d.
Proof.
  intros l s v d H E Hd. rewrite concat_app in E. cbn in E. rewrite app_nil_r in E.
  assert (Hs : nucleus s \/ glide_syllable s).
  { apply syllables_all in H. apply Forall_app in H as [_ H]. inversion H; assumption. }
  destruct (syllable_cases s Hs) as (a & r & -> & Hr & Hg & _).
  assert (exists x y, d = [x; y] /\ ~ In x [c_i; c_u]) as (x & y & -> & Hx).
  { unfold diphthong in Hd. cbn in Hd. decompose [or] Hd; try contradiction; subst d;
      eexists; eexists; (split; [reflexivity|]); intros [F|[F|[]]]; discriminate F. }
  destruct r as [|b [|c [|]]]; cbn in Hr; try lia.
  - (* one letter: it must be the whole *)
    destruct l as [|l0 l].
    { cbn in E. destruct v as [|? [|? [|]]]; discriminate. }
    exfalso. destruct H as (s0 & r & E' & _ & H2 & _). cbn in E'. injection E' as <- <-.
    apply Forall_app in H2 as [_ H2]. inversion H2; subst. destruct (Hg H1) as [G _]. congruence.
  - exists []. cbn. change [a; b] with ([a] ++ [b]) in E. change [x; y] with ([x] ++ [y]) in E.
    rewrite !app_assoc in E. apply app_inj_tail in E as [E ->]. apply app_inj_tail in E as [E ->]. reflexivity.
  - exists [a]. change [a; b; c] with ([a] ++ [b] ++ [c]) in E. change [x; y] with ([x] ++ [y]) in E.
    rewrite !app_assoc in E. apply app_inj_tail in E as [E ->]. apply app_inj_tail in E as [E ->]. reflexivity.
Qed.

Lemma svc_loop_sound : forall f vs acc r,
  svc_loop f vs acc = Ok r -> exists l, r = l ++ acc /\ concat l = vs /\ syllables l.
Proof.
  induction f as [|f IH]; intros vs acc r H; [discriminate|]. cbn [svc_loop] in H.
  assert (step : forall k, mems (lastn k vs) FOLLOW_VOWEL_CLUSTERS = true -> k < length vs ->
     (if bad_junction (lastn k vs) (dropl k vs) then Err DecompositionError
      else svc_loop f (dropl k vs) (lastn k vs :: acc)) = Ok r ->
     exists l, r = l ++ acc /\ concat l = vs /\ syllables l).
  { intros k Hk Hl Hs. dif Hs; [discriminate|]. apply IH in Hs as (l & -> & E & Hy).
    exists (l ++ [lastn k vs]). rewrite <- app_assoc. split; [reflexivity|].
    split. { rewrite concat_app, E. cbn. rewrite app_nil_r. apply dropl_lastn. }
    destruct (last_opt l) as [s|] eqn:El.
    2:{ apply last_opt_none in El. subst l. destruct Hy as (? & ? & ? & _). discriminate. }
    apply syllables_snoc; [intros ->; discriminate|].
    split; [assumption|]. split; [apply follow_spec; assumption|]. exists s. split; [assumption|].
    intros v d g u Es Hd Et Hbad. apply last_opt_some in El as [l' ->].
    assert (bad_junction (lastn k vs) (dropl k vs) = true); [|congruence].
    apply bad_junction_spec. rewrite <- E, concat_app. cbn. rewrite app_nil_r, Es, app_assoc.
    exists (concat l' ++ v), d, g, u. auto. }
  dif H.
  { apply andb_t in Heqb as [E1 E2]. apply (step 3 E2); [|assumption]. apply Nat.ltb_lt. assumption. }
  dif H.
  { apply andb_t in Heqb0 as [E1 E2]. apply (step 2 E2); [|assumption]. apply Nat.ltb_lt. assumption. }
  dif H; [|discriminate]. injection H as <-. exists [vs]. split; [reflexivity|].
  split; [cbn; apply app_nil_r|]. exists vs, []. split; [reflexivity|].
  apply orb_true_iff in Heqb1 as [E|E].
  - apply start_spec in E. cbn. auto.
  - apply follow_spec in E. cbn. auto.
Qed.

Lemma svc_loop_complete : forall l f acc, syllables l -> length l <= f ->
  svc_loop f (concat l) acc = Ok (l ++ acc).
Proof.
  induction l as [|t l IH] using rev_ind; intros f acc H Hf; [destruct H as (? & ? & ? & _); discriminate|].
  rewrite app_length in Hf. cbn in Hf. destruct f as [|f]; [lia|]. cbn [svc_loop].
  assert (Hall := syllables_all _ H). apply Forall_app in Hall as [_ Ht]. inversion Ht as [|? ? Ht' _]; subst. clear Ht.
  destruct (syllable_cases t Ht') as (a & r & -> & Hr & Hg & _ & H3).
  destruct l as [|l0 l].
  - cbn [app concat]. rewrite app_nil_r.
    assert (E3 : (3 <? length (a :: r)) = false) by (apply Nat.ltb_ge; cbn; lia). rewrite E3. cbn [andb].
    assert (E2 : (2 <? length (a :: r)) && mems (lastn 2 (a :: r)) FOLLOW_VOWEL_CLUSTERS = false).
    { destruct (Nat.ltb_spec 2 (length (a :: r))); [|reflexivity]. cbn [andb].
      cbn in H0. destruct r as [|b [|c [|]]]; cbn in Hr, H0; try lia.
      specialize (H3 eq_refl). unfold lastn. cbn [length Nat.sub skipn].
      unfold diphthong in H3. cbn in H3. decompose [or] H3; try contradiction; 
        match goal with E : _ = [b; c] |- _ => rewrite <- E end; reflexivity. }
    rewrite E2.
    assert (E1 : mems (a :: r) START_VOWEL_CLUSTERS || mems (a :: r) FOLLOW_VOWEL_CLUSTERS = true).
    { apply orb_true_iff. destruct Ht'; [left; apply start_spec|right; apply follow_spec]; assumption. }
    rewrite E1. reflexivity.
  - set (l' := l0 :: l) in *. apply syllables_snoc in H; [|discriminate].
    destruct H as (Hy & Hgt & s & Es & Hj).
    destruct (Hg Hgt) as [Hrn Ha].
    apply last_opt_some in Es as [l2 El]. 
    assert (Hnb : bad_junction (a :: r) (concat l') = false).
    { destruct (bad_junction (a :: r) (concat l')) eqn:Eb; [|reflexivity]. exfalso.
      apply bad_junction_spec in Eb as (v & d & g & w & E & Hd & Et & Hl).
      rewrite El in E, Hy. destruct (last_diphthong _ _ _ _ Hy E Hd) as [v' ->].
      eapply Hj; eauto. }
    assert (Hne : concat l' <> []).
    { unfold l'. cbn. intro E. apply app_eq_nil in E as [E _].
      apply syllables_all in Hy. inversion Hy; subst. apply syllable_nonnil in H1. contradiction. }
    rewrite concat_app. cbn [concat]. rewrite app_nil_r.
    assert (Hlen : 0 < length (concat l')) by (destruct (concat l'); [contradiction|cbn; lia]).
    apply follow_spec in Hgt.
    destruct r as [|b [|c [|]]]; cbn in Hr; try lia; [congruence| |].
    + (* two letters *)
      rewrite app_length. cbn [length].
      assert (E3 : (3 <? length (concat l') + 2) && mems (lastn 3 (concat l' ++ [a; b])) FOLLOW_VOWEL_CLUSTERS = false).
      { destruct (Nat.ltb_spec 3 (length (concat l') + 2)); [|reflexivity]. cbn [andb].
        destruct (last_opt (concat l')) as [x|] eqn:Ex; [|apply last_opt_none in Ex; contradiction].
        apply last_opt_some in Ex as [u ->].
        rewrite <- app_assoc. cbn [app]. change (u ++ [x; a; b]) with (u ++ [x; a; b]).
        rewrite (lastn_app 3 u [x; a; b] eq_refl).
        destruct (mems [x; a; b] FOLLOW_VOWEL_CLUSTERS) eqn:F; [|reflexivity]. exfalso.
        apply mems_In in F. cbn in F. destruct Ha; subst a; cbv in F; decompose [or] F; try discriminate; contradiction. }
      rewrite E3.
      assert (E2 : (2 <? length (concat l') + 2) = true) by (apply Nat.ltb_lt; lia). rewrite E2.
      rewrite (lastn_app 2 (concat l') [a; b] eq_refl), (dropl_app_n 2 (concat l') [a; b] eq_refl), Hgt. cbn [andb].
      rewrite Hnb, IH; [|assumption|lia]. rewrite <- app_assoc. reflexivity.
    + rewrite app_length. cbn [length].
      assert (E3 : (3 <? length (concat l') + 3) = true) by (apply Nat.ltb_lt; lia). rewrite E3.
      rewrite (lastn_app 3 (concat l') [a; b; c] eq_refl), (dropl_app_n 3 (concat l') [a; b; c] eq_refl), Hgt. cbn [andb].
      rewrite Hnb, IH; [|assumption|lia]. rewrite <- app_assoc. reflexivity.
Qed.

Lemma syllables_length : forall l, syllables l -> length l <= length (concat l).
Proof.
  intros l H. apply syllables_all in H. induction H; cbn; [lia|]. rewrite app_length.
  apply syllable_nonnil in H. destruct x; [contradiction|cbn; lia].
Qed.

Lemma split_vowel_cluster_spec : forall vs l,
  split_vowel_cluster vs = Ok l <-> concat l = vs /\ syllables l.
Proof.
  intros vs l. split.
  - intro H. apply svc_loop_sound in H as (l' & -> & H1 & H2). rewrite app_nil_r. auto.
  - intros [<- H]. unfold split_vowel_cluster. rewrite svc_loop_complete; [rewrite app_nil_r; reflexivity|assumption|].
    apply syllables_length in H. lia.
Qed.

(** The only failure is DecompositionError. *)
Lemma svc_loop_err : forall f vs acc e, length vs < f ->
  svc_loop f vs acc = Err e -> e = DecompositionError.
Proof.
  induction f as [|f IH]; intros vs acc e Hf H; [lia|]. cbn [svc_loop] in H.
  dif H. { apply andb_t in Heqb as [E _]. apply Nat.ltb_lt in E. dif H; [congruence|]. eapply IH; [|exact H].
    unfold dropl. rewrite firstn_length. lia. }
  dif H. { apply andb_t in Heqb0 as [E _]. apply Nat.ltb_lt in E. dif H; [congruence|]. eapply IH; [|exact H].
    unfold dropl. rewrite firstn_length. lia. }
  dif H; [discriminate|]. congruence.
Qed.
Lemma split_vowel_cluster_err : forall vs e, split_vowel_cluster vs = Err e -> e = DecompositionError.
Proof. intros vs e H. eapply svc_loop_err; [|exact H]. lia. Qed.
