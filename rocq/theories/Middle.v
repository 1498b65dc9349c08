(** Clusters inside a zi'evla (tarmi.py:214-250), described exactly. *)
From Verif Require Import Str Data Tarmi Rafsi Core Api Lib Spec Shapes Basic Vowels Katna Clusters Zihevla.

(** A run of consonants between vowels: at most one that closes a syllable, then
    syllabic l, m, n, r, each with its consonant, then a legal start.  If the run
    has four consonants or more and ends in ml or mr, these belong to the start.  A
    run of three consonants does not begin with mz, even if mz is allowed. *)
Definition zi_middle_exact (r : str) : Prop :=
  (exists coda pairs onset, r = coda ++ concat pairs ++ onset /\ length coda <= 1
    /\ Forall (fun p => exists c s, p = [c; s] /\ In s (L "lmnr")) pairs /\ zi_initial onset /\ onset <> []
    /\ (4 <= length r -> forall u, r = u ++ L "ml" \/ r = u ++ L "mr" -> 2 <= length onset))
  /\ forall c, r <> L "mz" ++ [c].

Definition ZC := Forall (fun c => is_consonant c = true).

Lemma sonorant_iff : forall c, is_sonorant c = true <-> In c (L "lmnr").
Proof. intro c. split; [apply sonorant_spec|]. intro H. apply memc_In. revert H. cbn. intuition. Qed.
Lemma obstruent_or : forall c, is_consonant c = true -> is_obstruent c = negb (is_sonorant c).
Proof. intros c H. apply is_consonant_spec in H. revert c H. assert (G : Forall (fun c => is_obstruent c = negb (is_sonorant c)) (L "bcdfgjklmnprstvxz")) by (repeat constructor). rewrite Forall_forall in G. exact G. Qed.

(** ** the expressions *)
Lemma pairs_complete : forall ps, ZC (concat ps) -> Forall sonorant_pair ps -> re_pairs (concat ps) = true.
Proof.
  intros ps F. induction ps as [|p ps IH]; intro H; [reflexivity|]. inversion H as [|? ? (c & s & -> & Hs) H']; subst. cbn [concat app] in *. inversion F as [|? ? F1 F2]; subst. inversion F2 as [|? ? F3 F4]; subst.
  cbn [re_pairs]. rewrite F1, (proj2 (sonorant_iff s) Hs), (IH F4 H'). reflexivity.
Qed.
Lemma head_complete : forall coda ps, ZC (coda ++ concat ps) -> length coda <= 1 -> Forall sonorant_pair ps ->
  exists g, re_head (coda ++ concat ps) = Some g /\ match g with Some o => is_zihevla_initial_cluster o = true | None => True end.
Proof.
  intros coda ps F Hc H. apply Forall_app in F as [F1 F2]. pose proof (pairs_complete _ F2 H) as P. destruct coda as [|c [|]]; [| |cbn in Hc; lia].
  - cbn [app]. destruct (concat ps) as [|c t]; [exists None; auto|]. unfold re_head. destruct (is_consonant c && re_pairs t); [exists (Some [c]); auto|]. rewrite P. exists None. auto.
  - cbn [app]. unfold re_head. inversion F1; subst. rewrite P. replace (is_consonant c) with true by (symmetry; assumption). cbn. exists (Some [c]). auto.
Qed.

Definition not3 (o : str) : Prop := forall a b c, o = [a; b; c] -> is_consonant c = true -> is_sonorant b = false.
Lemma star_sound3 : forall n s g, length s <= n -> ZC s -> re_star_tail s = Some g ->
  exists ps o, s = concat ps ++ o /\ Forall sonorant_pair ps /\ re_tail o = Some g /\ not3 o.
Proof.
  induction n as [|n IH]; intros s g Hn F H.
  - destruct s; [discriminate|cbn in Hn; lia].
  - destruct s as [|c1 [|c2 t]].
    + discriminate.
    + exists [], [c1]. repeat split; auto. intros a b c X. discriminate.
    + cbn [re_star_tail] in H. inversion F as [|? ? F1 F2]; subst. inversion F2 as [|? ? F3 F4]; subst.
      destruct (is_consonant c1 && is_sonorant c2) eqn:E.
      * apply andb_t in E as [E1 E2]. destruct (re_star_tail t) as [g'|] eqn:Et.
        -- injection H as ->. destruct (IH t g) as (ps & o & -> & P & T & N3); [cbn in Hn; lia|exact F4|exact Et|].
           exists ([c1; c2] :: ps), o. repeat split; auto. constructor; [|exact P]. exists c1, c2. split; [reflexivity|apply sonorant_spec; exact E2].
        -- exists [], (c1 :: c2 :: t). repeat split; auto. intros a b c X Hc. injection X as -> -> ->. exfalso. cbn [re_star_tail re_tail] in Et. rewrite Hc in Et. destruct (is_obstruent c); discriminate.
      * exists [], (c1 :: c2 :: t). repeat split; auto. intros a b c X Hc. injection X as -> -> ->. rewrite F1 in E. exact E.
Qed.
Lemma star_complete : forall ps o, ZC (concat ps) -> Forall sonorant_pair ps -> re_tail o <> None -> re_star_tail (concat ps ++ o) <> None.
Proof.
  intros ps o F H T. induction ps as [|p ps IH].
  - cbn [concat app]. destruct o as [|a [|b t]]; [exact T|exact T|]. cbn [re_star_tail]. destruct (is_consonant a && is_sonorant b); [|exact T]. destruct (re_star_tail t); [discriminate|exact T].
  - inversion H as [|? ? (c & s & -> & Hs) H']; subst. cbn [concat app] in *. inversion F as [|? ? F1 F2]; subst. inversion F2 as [|? ? F3 F4]; subst.
    cbn [re_star_tail]. rewrite F1, (proj2 (sonorant_iff s) Hs). cbn [andb]. specialize (IH F4 H'). destruct (re_star_tail (concat ps ++ o)); [discriminate|congruence].
Qed.
Lemma full_sound3 : forall s g, ZC s -> re_full s = Some g ->
  exists coda ps o, s = coda ++ concat ps ++ o /\ length coda <= 1 /\ Forall sonorant_pair ps /\ re_tail o = Some g /\ not3 o.
Proof.
  intros s g F H. assert (K : re_star_tail s = Some g -> exists coda ps o, s = coda ++ concat ps ++ o /\ length coda <= 1 /\ Forall sonorant_pair ps /\ re_tail o = Some g /\ not3 o).
  { intro X. destruct (star_sound3 _ s g (le_n _) F X) as (ps & o & E & P). exists [], ps, o. split; [exact E|]. split; [cbn; lia|exact P]. }
  unfold re_full in H. destruct s as [|c t]; [apply K; exact H|]. destruct (is_consonant c); [|apply K; exact H].
  destruct (re_star_tail t) as [g'|] eqn:E; [|apply K; exact H]. injection H as ->. inversion F; subst.
  destruct (star_sound3 _ t g (le_n _) ltac:(assumption) E) as (ps & o & -> & P). exists [c], ps, o. split; [reflexivity|]. split; [cbn; lia|exact P].
Qed.
Lemma full_complete : forall coda ps o, ZC (coda ++ concat ps ++ o) -> length coda <= 1 -> Forall sonorant_pair ps -> re_tail o <> None ->
  re_full (coda ++ concat ps ++ o) <> None.
Proof.
  intros coda ps o F Hc H T. pose proof F as F'. apply Forall_app in F as [F1 F2]. apply Forall_app in F2 as [F2 F3]. pose proof (star_complete ps o F2 H T) as S.
  destruct coda as [|c [|]]; [| |cbn in Hc; lia].
  - cbn [app]. destruct (concat ps ++ o) as [|c t]; [exact S|]. unfold re_full. destruct (is_consonant c); [|exact S]. destruct (re_star_tail t); [discriminate|exact S].
  - cbn [app]. unfold re_full. inversion F1; subst. replace (is_consonant c) with true by (symmetry; assumption). destruct (re_star_tail (concat ps ++ o)); [discriminate|congruence].
Qed.

(** ** the test itself *)
Lemma initial_start : forall a b, initial_pair a b -> is_obstruent a = true \/ (a = 109%N /\ (b = 108%N \/ b = 114%N)).
Proof.
  intros a b H. unfold initial_pair in H. revert H. cbn [map In]. intro H.
  repeat match type of H with _ \/ _ => destruct H as [H|H]; [vm_compute in H; injection H as <- <-; first [left; reflexivity|right; split; [reflexivity|auto]]|] end. destruct H.
Qed.
Lemma initial_sonorant : forall a b, initial_pair a b -> b = 109%N -> is_sonorant a = false.
Proof.
  intros a b H. unfold initial_pair in H. revert H. cbn [map In]. intro H.
  repeat match type of H with _ \/ _ => destruct H as [H|H]; [vm_compute in H; injection H as <- <-; first [intro; reflexivity|intro X; discriminate X]|] end. destruct H.
Qed.
Lemma m_initial : forall b, initial_pair 109%N b -> b = 108%N \/ b = 114%N.
Proof. intros b H. apply initial_start in H as [H|[_ H]]; [discriminate|exact H]. Qed.
Lemma onset_tail : forall o, ZC o -> o <> [] -> zi_initial o -> (forall u, o <> u ++ L "ml" /\ o <> u ++ L "mr") -> re_tail o <> None.
Proof.
  intros o F Hn Hi Hm. destruct o as [|a [|b [|c [|d t]]]]; [contradiction| | | |destruct Hi].
  - inversion F; subst. cbn [re_tail]. destruct (is_obstruent a); [discriminate|]. replace (is_consonant a) with true by (symmetry; assumption). discriminate.
  - cbn [zi_initial] in Hi. inversion F as [|? ? F1 F2]; subst. inversion F2 as [|? ? F3 F4]; subst. cbn [re_tail]. rewrite F3. cbn [orb]. rewrite andb_true_r.
    apply initial_start in Hi as [Ha|[-> [-> | ->]]]; [rewrite Ha; discriminate| |]; exfalso; destruct (Hm []) as [X Y]; [apply X|apply Y]; reflexivity.
  - cbn [zi_initial] in Hi. destruct Hi as (H1 & H2 & H3 & H4). inversion F as [|? ? F1 F2]; subst. inversion F2 as [|? ? F3 F4]; subst. cbn [re_tail]. rewrite F3.
    replace (is_sonorant c) with true by (symmetry; cbn in H3; destruct H3 as [<-|[<-|[]]]; reflexivity). rewrite !andb_true_r.
    apply initial_start in H1 as [Ha|[-> H1]]; [rewrite Ha; discriminate|]. exfalso. apply initial_start in H2 as [H2|[H2 _]]; destruct H1 as [-> | ->]; discriminate.
Qed.
Lemma not_mz : forall r, r <> [] -> ZC r -> (mems (firstn 2 r) VALID = true) -> forall c, r <> L "mz" ++ [c].
Proof. intros r _ _ H c ->. vm_compute in H. discriminate. Qed.
Lemma ends2 : forall (u : str) a b coda ps o, u ++ [a; b] = coda ++ concat ps ++ o -> 2 <= length o -> exists o', o = o' ++ [a; b].
Proof.
  intros u a b coda ps o E H. destruct (@exists_last _ o) as (o1 & y & ->); [intros ->; cbn in H; lia|]. rewrite app_length in H. cbn in H.
  destruct (@exists_last _ o1) as (o2 & x & ->); [intros ->; cbn in H; lia|]. exists o2.
  rewrite !app_assoc in E. change [a; b] with ([a] ++ [b]) in E. rewrite app_assoc in E. apply app_inj_tail in E as [E ->]. apply app_inj_tail in E as [_ ->]. rewrite <- app_assoc. reflexivity.
Qed.
Lemma app_inj_tail2 : forall (s t : str) a b c d, s ++ [a; b] = t ++ [c; d] -> s = t /\ a = c /\ b = d.
Proof.
  intros s t a b c d E. change [a; b] with ([a] ++ [b]) in E. change [c; d] with ([c] ++ [d]) in E. rewrite !app_assoc in E. apply app_inj_tail in E as [E ->]. apply app_inj_tail in E as [-> ->]. auto.
Qed.
Lemma lastn_app : forall k (s t : str), length t = k -> lastn k (s ++ t) = t /\ dropl k (s ++ t) = s.
Proof.
  intros k s t H. unfold lastn, dropl. rewrite app_length, H. replace (length s + k - k) with (length s) by lia. rewrite skipn_app, firstn_app, Nat.sub_diag, skipn_all, firstn_all. cbn. rewrite app_nil_r. auto.
Qed.
(** for clusters of four consonants and more *)
Lemma long_sound : forall r, 4 <= length r -> ZC r -> middle_ok r ->
  exists coda pairs onset, r = coda ++ concat pairs ++ onset /\ length coda <= 1
    /\ Forall sonorant_pair pairs /\ zi_initial onset /\ onset <> []
    /\ (4 <= length r -> forall u, r = u ++ L "ml" \/ r = u ++ L "mr" -> 2 <= length onset).
Proof.
  intros r H4 F H. unfold middle_ok, is_zihevla_middle_cluster in H. replace (length r =? 3) with false in H by (symmetry; apply Nat.eqb_neq; lia). replace (length r <? 3) with false in H by (symmetry; apply Nat.ltb_ge; lia). cbv zeta in H.
  assert (FL : forall k, ZC (lastn k r)) by (intro k; rewrite <- (dropl_lastn k r) in F; apply Forall_app in F as [_ F]; exact F).
  assert (LL : forall k, k <= 4 -> length (lastn k r) = k) by (intros k Hk; unfold lastn; rewrite skipn_length; lia).
  match type of H with context [if ?b then (if _ then _ else _) else _] => destruct b eqn:EM end.
  - apply andb_t in EM as [_ EM]. destruct (is_zihevla_initial_cluster (lastn 3 r)) eqn:EI.
    + destruct (re_head (dropl 3 r)) as [g|] eqn:EH; [|discriminate]. apply re_head_sound in EH as (coda & ps & E & Hc & P).
      exists coda, ps, (lastn 3 r). rewrite app_assoc, <- E, dropl_lastn. pose proof (LL 3 ltac:(lia)) as L3.
      split; [reflexivity|]. split; [exact Hc|]. split; [exact P|]. split; [exact (proj1 (zi_initial_spec _ (FL 3)) EI)|]. split; [intro X; rewrite X in L3; discriminate|]. intros _ _ _. rewrite L3. lia.
    + destruct (re_head (dropl 2 r)) as [g|] eqn:EH; [|discriminate]. apply re_head_sound in EH as (coda & ps & E & Hc & P).
      exists coda, ps, (lastn 2 r). rewrite app_assoc, <- E, dropl_lastn. pose proof (LL 2 ltac:(lia)) as L2.
      split; [reflexivity|]. split; [exact Hc|]. split; [exact P|]. split; [|split; [intro X; rewrite X in L2; discriminate|intros _ _ _; rewrite L2; lia]].
      destruct (lastn 2 r) as [|a [|b [|]]]; try discriminate L2. apply initial_spec. exact EM.
  - destruct (re_full r) as [g|] eqn:EF; [|discriminate]. destruct (re_full_sound r g EF) as (coda & ps & o & E & Hc & P & Ho).
    destruct (re_tail_sound o g Ho) as (Hon & H1 & H2). exists coda, ps, o. split; [exact E|]. split; [exact Hc|]. split; [exact P|].
    assert (FO : ZC o) by (rewrite E in F; apply Forall_app in F as [_ F]; apply Forall_app in F as [_ F]; exact F). split; [|split; [exact Hon|]].
    { destruct g as [g|]; [rewrite (H2 g eq_refl) in H; apply zi_initial_spec; assumption|]. specialize (H1 eq_refl). destruct o as [|a [|]]; try discriminate H1. exact I. }
    intros _ u X. exfalso. destruct X as [X|X]; rewrite X in EM; [rewrite (proj1 (lastn_app 2 u (L "ml") eq_refl)) in EM|rewrite (proj1 (lastn_app 2 u (L "mr") eq_refl)) in EM]; vm_compute in EM; discriminate.
Qed.
Lemma prefix_end : forall coda ps B a, coda ++ concat ps = B ++ [a] -> length coda <= 1 -> Forall sonorant_pair ps -> is_sonorant a = true \/ length (B ++ [a]) <= 1.
Proof.
  intros coda ps B a E Hc P. destruct ps as [|p0 ps0] eqn:Eps; [right; rewrite <- E; cbn [concat]; rewrite app_nil_r; exact Hc|]. left. rewrite <- Eps in *.
  destruct (@exists_last _ ps) as (qs & p & ->); [rewrite Eps; discriminate|]. apply Forall_app in P as [_ P]. inversion P as [|? ? (c & s & -> & Hs) _]; subst.
  rewrite concat_app in E. cbn [concat app] in E. change [c; s] with ([c] ++ [s]) in E. rewrite !app_assoc in E. apply app_inj_tail in E as [_ <-]. apply sonorant_iff. exact Hs.
Qed.
Lemma long_complete : forall r coda ps o, 4 <= length r -> ZC r -> r = coda ++ concat ps ++ o -> length coda <= 1 -> Forall sonorant_pair ps -> zi_initial o -> o <> [] ->
  (forall u, r = u ++ L "ml" \/ r = u ++ L "mr" -> 2 <= length o) -> middle_ok r.
Proof.
  intros r coda ps o H4 F E Hc P Ho Hon Hm. unfold middle_ok, is_zihevla_middle_cluster. replace (length r =? 3) with false by (symmetry; apply Nat.eqb_neq; lia). replace (length r <? 3) with false by (symmetry; apply Nat.ltb_ge; lia). cbv zeta.
  assert (Fa : ZC (coda ++ concat ps) /\ ZC o) by (rewrite E, app_assoc in F; apply Forall_app in F; exact F). destruct Fa as [Fa Fo].
  match goal with |- context [if ?b then (if _ then _ else _) else _] => destruct b eqn:EM end.
  - apply andb_t in EM as [Em EM]. pose proof (dropl_lastn 2 r) as Er. assert (L2 : length (lastn 2 r) = 2) by (unfold lastn; rewrite skipn_length; lia). destruct (lastn 2 r) as [|m [|l [|]]] eqn:E2; try discriminate L2.
    apply N.eqb_eq in Em. change c_m with 109%N in Em. subst m. apply initial_spec in EM. apply m_initial in EM.
    assert (H2 : 2 <= length o) by (apply (Hm (dropl 2 r)); destruct EM as [-> | ->]; [left|right]; symmetry; exact Er).
    assert (Er' : dropl 2 r ++ [109%N; l] = coda ++ concat ps ++ o) by (exact (eq_trans Er E)). destruct (ends2 _ _ _ _ _ _ Er' H2) as [o' Eo].
    destruct o' as [|x [|x' o'']]; cbn [app] in Eo; subst o.
    + rewrite app_assoc in Er'. apply app_inv_tail in Er'. destruct (is_zihevla_initial_cluster (lastn 3 r)) eqn:EI.
      * exfalso. assert (L3 : exists q x, r = q ++ [x; 109%N; l]).
        { destruct (@exists_last _ (dropl 2 r)) as (q & x & Eq); [intros X; rewrite X in Er; apply (f_equal (@length char)) in Er; cbn in Er; lia|]. exists q, x. transitivity (dropl 2 r ++ [109%N; l]); [symmetry; exact Er|]. rewrite Eq, <- app_assoc. reflexivity. }
        destruct L3 as (q & x & Eq). assert (E3 : lastn 3 r = [x; 109%N; l]) by (rewrite Eq; exact (proj1 (lastn_app 3 q [x; 109%N; l] eq_refl))). rewrite E3 in EI.
        assert (Ex : dropl 2 r = q ++ [x]). { rewrite Eq. replace (q ++ [x; 109%N; l]) with ((q ++ [x]) ++ [109%N; l]) by (rewrite <- app_assoc; reflexivity). exact (proj2 (lastn_app 2 _ [109%N; l] eq_refl)). }
        rewrite Ex in Er'. symmetry in Er'. destruct (prefix_end _ _ _ _ Er' Hc P) as [X|X].
        -- rewrite Eq in F. apply Forall_app in F as [_ F]. apply zi_initial_spec in EI; [|exact F]. destruct EI as (EI & _). rewrite (initial_sonorant _ _ EI eq_refl) in X. discriminate.
        -- clear -Eq H4 X. rewrite Eq in H4. rewrite app_length in H4, X. cbn [length] in H4, X. refine (Nat.nle_succ_diag_l 3 (Nat.le_trans _ _ _ H4 _)). apply (Nat.add_le_mono_r _ 1 2) in X. rewrite <- Nat.add_assoc in X. exact X.
      * rewrite Er'. destruct (head_complete _ _ Fa Hc P) as (g & -> & G). destruct g; [exact G|reflexivity].
    + assert (Eq : r = (coda ++ concat ps) ++ [x; 109%N; l]) by (rewrite <- app_assoc; exact E). assert (E3 : lastn 3 r = [x; 109%N; l]) by (rewrite Eq; exact (proj1 (lastn_app 3 (coda ++ concat ps) [x; 109%N; l] eq_refl))). assert (D3 : dropl 3 r = coda ++ concat ps) by (rewrite Eq; exact (proj2 (lastn_app 3 (coda ++ concat ps) [x; 109%N; l] eq_refl))). rewrite E3, D3.
      replace (is_zihevla_initial_cluster [x; 109%N; l]) with true by (symmetry; exact (proj2 (zi_initial_spec _ Fo) Ho)). destruct (head_complete _ _ Fa Hc P) as (g & -> & G). destruct g; [exact G|reflexivity].
    + exfalso. destruct o'' as [|y [|z o'']]; exact Ho.
  - assert (T : re_tail o <> None).
    { apply onset_tail; auto. intro u. split; intros ->; rewrite !app_assoc in E; rewrite E in EM; [rewrite (proj1 (lastn_app 2 _ (L "ml") eq_refl)) in EM|rewrite (proj1 (lastn_app 2 _ (L "mr") eq_refl)) in EM]; vm_compute in EM; discriminate. }
    assert (N : re_full r <> None) by (rewrite E; apply full_complete; auto; rewrite <- E; exact F). destruct (re_full r) as [g|] eqn:EF; [|congruence]. destruct g as [g|]; [|reflexivity].
    destruct (full_sound3 _ _ F EF) as (coda' & ps' & o' & E' & Hc' & P' & T' & N3). destruct (re_tail_sound _ _ T') as (_ & _ & Eg). specialize (Eg g eq_refl). subst g.
    assert (Fo' : ZC o') by (rewrite E', app_assoc in F; apply Forall_app in F as [_ F]; exact F).
    apply zi_initial_spec; [exact Fo'|]. rewrite app_assoc in E, E'. set (A := coda ++ concat ps) in *. set (B := coda' ++ concat ps') in *.
    assert (SB : forall B' a, A = B' ++ [a] -> 2 <= length A -> is_sonorant a = true).
    { intros B' a X HA. destruct (prefix_end _ _ _ _ X Hc P) as [Y|Y]; [exact Y|]. exfalso. rewrite <- X in Y. fold A in Y. lia. }
    assert (OB : forall a, is_consonant a = true -> is_obstruent a = true -> is_sonorant a = false) by (intros a X Y; rewrite obstruent_or in Y by exact X; apply negb_true_iff; exact Y).
    assert (LA : length A + length o = length r) by (rewrite E, app_length; reflexivity).
    rewrite E in E'. clear E. destruct o' as [|a [|b [|c [|d t]]]]; try discriminate T'.
    + exact I.
    + cbn [re_tail] in T'. destruct (is_obstruent a) eqn:Oa; [|discriminate]. inversion Fo' as [|? ? Ca _]; subst. specialize (OB a Ca Oa).
      destruct o as [|x [|y [|z [|]]]]; [contradiction| | | |destruct Ho].
      * exfalso. change [a; b] with ([a] ++ [b]) in E'. rewrite app_assoc in E'. apply app_inj_tail in E' as [E' ->]. cbn in LA. rewrite (SB _ _ E') in OB; [discriminate|lia].
      * apply app_inj_tail2 in E' as (_ & -> & ->). exact Ho.
      * change [x; y; z] with ([x] ++ [y; z]) in E'. rewrite app_assoc in E'. apply app_inj_tail2 in E' as (_ & -> & ->). exact (proj1 (proj2 Ho)).
    + cbn [re_tail] in T'. destruct (is_obstruent a && is_consonant b && is_sonorant c) eqn:Ob; [|discriminate]. apply andb_t in Ob as [Ob Sc]. apply andb_t in Ob as [Oa Cb]. inversion Fo' as [|? ? Ca Fo2]; subst. inversion Fo2 as [|? ? _ Fo3]; subst. inversion Fo3 as [|? ? Cc _]; subst.
      specialize (OB a Ca Oa). pose proof (N3 a b c eq_refl Cc) as Nb.
      destruct o as [|x [|y [|z [|]]]]; [contradiction| | | |destruct Ho]; cbn in LA.
      * exfalso. change [a; b; c] with ([a; b] ++ [c]) in E'. rewrite app_assoc in E'. apply app_inj_tail in E' as [E' ->]. change [a; b] with ([a] ++ [b]) in E'. rewrite app_assoc in E'. rewrite (SB _ _ E') in Nb; [discriminate|lia].
      * exfalso. change [a; b; c] with ([a] ++ [b; c]) in E'. rewrite app_assoc in E'. apply app_inj_tail2 in E' as (E' & _). rewrite (SB _ _ E') in OB; [discriminate|lia].
      * change [x; y; z] with ([x] ++ [y; z]) in E'. change [a; b; c] with ([a] ++ [b; c]) in E'. rewrite !app_assoc in E'. apply app_inj_tail2 in E' as (E' & -> & ->). apply app_inj_tail in E' as [_ ->]. exact Ho.
Qed.
Theorem middle_exact : forall mz r, r <> [] -> ZC r -> clusters_ok mz r -> (middle_ok r <-> zi_middle_exact r).
Proof.
  intros mz r Hn F CL. destruct (le_lt_dec 4 (length r)) as [H4|H4].
  - split.
    + intro H. split; [apply long_sound; assumption|]. intros c ->. cbn in H4. lia.
    + intros [(coda & ps & o & E & Hc & P & Ho & Hon & Hm) _]. eapply long_complete; eauto.
  - split.
    + intro H. pose proof (middle_sound r Hn F H) as (coda & ps & o & E & Hc & P & Ho & Hon). split; [exists coda, ps, o; repeat (split; [assumption|]); lia|].
      intros c ->. vm_compute in H. destruct c; discriminate.
    + intros [(coda & ps & o & E & Hc & P & Ho & Hon & _) Hz]. unfold middle_ok, is_zihevla_middle_cluster. destruct r as [|a [|b [|c [|]]]]; [contradiction|reflexivity|reflexivity| |cbn in H4; lia].
      cbn [length Nat.eqb firstn skipn]. destruct (is_sonorant b) eqn:Eb; [reflexivity|]. apply andb_true_iff. inversion F as [|? ? F1 F2]; subst. inversion F2 as [|? ? F3 F4]; subst. inversion F4 as [|? ? F5 _]; subst. split.
      * assert (PM : permissible mz a b) by (apply (proj1 CL); [exists [], [c]; reflexivity|apply is_consonant_spec; exact F1|apply is_consonant_spec; exact F3]).
        apply (valid_pairs_spec false). destruct PM as (P1 & P2 & P3 & P4 & P5 & P6 & P7 & _). repeat (split; [assumption|]). intro X. exfalso. apply (Hz c). rewrite <- X. reflexivity.
      * apply initial_spec. destruct coda as [|k [|]]; [| |cbn in Hc; lia]; cbn [app] in E.
        -- destruct ps as [|p ps]; cbn [concat app] in E; [subst o; exact (proj1 (proj2 Ho))|]. exfalso. inversion P as [|? ? (c0 & s & -> & Hs) _]; subst. injection E as <- <- _. apply sonorant_iff in Hs. congruence.
        -- injection E as <- E. destruct ps as [|p ps]; cbn [concat app] in E; [subst o; exact Ho|]. exfalso. inversion P as [|? ? (c0 & s & -> & Hs) _]; subst. injection E as <- <- E. destruct (concat ps); [|discriminate]. cbn in E. congruence.
Qed.
