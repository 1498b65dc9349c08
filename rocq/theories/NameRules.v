(** Names: the cheapest name made of given rafsi is the one with just the
    hyphens y that are needed (compare Rules.v and Rules2.v for lujvo). *)
From Verif Require Import Str Data Tarmi Rafsi Core Api Lib Spec Shapes Decomp Basic Vowels Katna Dict Errs Builder Jvokaha Slinku Fuel Raises Inv Parts Clusters Forms Chain Score Alt Lujvo Optimal Props1 Props2 Props3 Total Onset Pinned Found Props4 Props5 Props8 Props9 Tosm Joint Swap Unique Round Recast RuleSpec Rules Rules2 NameSpec.

Lemma step_name : forall st w k sc ix n r suf g sg, w <> [] -> ix <> [] -> (exists v, last_sound w = Ok v) ->
  cll (allow_mz st) r -> cll (allow_mz st) g -> forallb is_hy sg = true ->
  last w 0%N = last (r ++ suf) 0%N -> suf_ok (allow_mz st) r g suf ->
  glue w (g ++ sg) (rafsi_tarmi g) true n (y_hyphens st) (last w 0%N) (hd 0%N g) = Some [] ->
  exists c, combine w (g ++ sg) k (cr st g) sc ix 0 true n st = Ok (Some c) /\ c_tos c = 0 /\ (k = 2 \/ cr st g = 2 -> c_cons c = 2)
    /\ last (c_word c) 0%N = last (g ++ sg) 0%N /\ c_word c = w ++ g ++ sg.
Proof.
  intros st w k sc ix n r suf g sg Hw Hi Hs Hr Hg Hsg El Hj Hgl.
  destruct (cll_hd _ _ sg Hg) as (G1 & G2 & G3 & G4). destruct (cll_other _ _ sg Hg Hsg) as [T1 T2].
  destruct (cll_fine st g sg Hg Hsg) as (F1 & (v & s & F2 & F3) & _). cbn [fst] in *.
  destruct (next_cons_ok w (g ++ sg) [] k (cr st g) (consonants st) (glides st) Hs (ex_intro _ s F3)) as (m & Hm & Hm2).
  eexists. split; [apply (combine_make w (g ++ sg) k (cr st g) sc ix 0 true n st [] 0 m)|].
  - exact Hw.
  - destruct g; [cbn in F1; destruct sg; [cbn in F1; lia|discriminate]|discriminate].
  - exact Hi.
  - rewrite G1, El. destruct Hj as [[-> J]|[s' ->]]; [rewrite app_nil_r; apply (joins_spec _ _ _ J)|].
    rewrite app_assoc, last_last. discriminate.
  - rewrite G1. exact G3.
  - rewrite G4, El. destruct Hj as [[-> J]|[s' ->]]; [rewrite app_nil_r; apply (joins_spec _ _ _ J)|]. rewrite app_assoc. apply (y_joins (r ++ s') g).
  - rewrite T1. exact T2.
  - rewrite T1, G1. exact Hgl.
  - rewrite T1, G1. apply tos_calm; [auto|apply N.eqb_neq; exact G3].
  - exact Hm.
  - cbn [c_tos c_cons c_word c_idx app]. repeat split; auto.
    apply last_app_ne. destruct g; [cbn in F1; destruct sg; [cbn in F1; lia|discriminate]|discriminate].
Qed.
Lemma run_name : forall st n rs r suf ch c, chain true st n ch c -> Forall (fine (consonants st)) ch -> Forall (cll (allow_mz st)) (r :: rs) ->
  last (c_word c) 0%N = last (r ++ suf) 0%N -> (forall g rest, rs = g :: rest -> suf_ok (allow_mz st) r g suf) -> c_tos c = 0 ->
  exists d, chain true st n (ch ++ canon st rs) d /\ c_tos d = 0 /\ (c_cons c = 2 \/ Exists (fun g => cr st g = 2) rs -> c_cons d = 2)
    /\ c_word d = c_word c ++ word_of (canon st rs).
Proof.
  intros st n. induction rs as [|g rest IH]; intros r suf ch c C F Fr El Hj Ht.
  - exists c. cbn [canon]. rewrite app_nil_r. split; [exact C|]. split; [exact Ht|split].
    + intros [H|H]; [exact H|inversion H].
    + unfold word_of. cbn. rewrite app_nil_r. reflexivity.
  - inversion Fr as [|? ? Hr Frs]; subst. inversion Frs as [|? ? Hg Frest]; subst.
    pose proof (chain_ripe _ _ _ _ _ C F) as [R1 R2 R3 R4]. destruct (chain_heard _ _ _ _ _ C F) as (G1 & G2 & G3).
    set (sg := match rest with [] => [] | k :: _ => can (allow_mz st) g k end).
    assert (Hsg : forallb is_hy sg = true) by apply canon_suf_hy.
    rewrite canon_cons. fold sg.
    replace (ch ++ (g ++ sg, cr st g) :: canon st rest) with ((ch ++ [(g ++ sg, cr st g)]) ++ canon st rest) by (rewrite <- app_assoc; reflexivity).
    assert (Hlh : last (c_word c) 0%N <> c_h).
    { rewrite El. destruct (Hj g rest eq_refl) as [[-> _]|[s' ->]].
      - rewrite app_nil_r. destruct (cll_last _ _ Hr) as (s' & d & -> & Hd). rewrite last_last. apply vc_not_hy in Hd. intros ->. discriminate.
      - rewrite app_assoc, last_last. discriminate. }
    destruct (step_name st (c_word c) (c_cons c) (c_score c) (c_idx c) 0 r suf g sg G1 G2 G3 Hr Hg Hsg El (Hj g rest eq_refl) (glue_plain _ _ _ _ _ _ _ _ R3 Hlh)) as (b & B1 & B2 & B3 & B4 & B6).
    assert (B1' : combine (c_word c) (g ++ sg) (c_cons c) (cr st g) (c_score c) (c_idx c) (c_tos c) true 0 st = Ok (Some b)) by (rewrite Ht; exact B1).
    assert (Cb : chain true st n (ch ++ [(g ++ sg, cr st g)]) b) by (eapply chain_next; [exact C|exact B1']).
    assert (Fb : Forall (fine (consonants st)) (ch ++ [(g ++ sg, cr st g)])) by (apply Forall_app; split; [exact F|constructor; [apply cll_fine; assumption|constructor]]).
    assert (Hj' : forall k rest', rest = k :: rest' -> suf_ok (allow_mz st) g k sg).
    { intros k rest' ->. apply can_ok. eapply cll_not_other. exact Hg. }
    destruct (IH g sg _ b Cb Fb Frs B4 Hj' B2) as (d & D1 & D2 & D3 & D4). exists d. split; [exact D1|]. split; [exact D2|split].
    * intros H. apply D3. destruct H as [H|H]; [left; auto|]. inversion H as [? ? H'|? ? H']; subst; [left; auto|right; exact H'].
    * rewrite D4, B6. unfold word_of. cbn [map concat fst]. rewrite <- !app_assoc. reflexivity.
Qed.
Lemma glue_name : forall mz yh r u g sg n, cll mz r -> cll mz g -> (u = [] /\ bare_shape r \/ u = [c_y] /\ y_shape r) ->
  glue (r ++ u) (g ++ sg) (rafsi_tarmi g) true n yh (last (r ++ u) 0%N) (hd 0%N g) = Some [].
Proof.
  intros mz yh r u g sg n Hr Hg Hu.
  assert (Hlh : N.eqb (last (r ++ u) 0%N) c_h = false).
  { apply N.eqb_neq. destruct Hu as [[-> _]|[-> _]].
    - rewrite app_nil_r. destruct (cll_last _ _ Hr) as (s' & d & -> & Hd). rewrite last_last. apply vc_not_hy in Hd. intros ->. discriminate.
    - rewrite last_last. discriminate. }
  unfold glue. rewrite Hlh.
  assert (L5 : (length (r ++ u) =? 5) && tarmi_eqb (rafsi_tarmi (firstn 3 (r ++ u))) CCV && str_eqb (skipn 3 (r ++ u)) [c_h; c_y] = false).
  { destruct Hu as [[-> [H|[H|[H|H]]]]|[-> [H|[H|H]]]]; pose proof H as H0;
      first [apply tarmi_CVC in H as (? & ? & ? & -> & ? & ? & ?)|apply tarmi_CVV in H as (? & ? & ? & -> & ? & ? & ?)|apply tarmi_CVhV in H as (? & ? & ? & -> & ? & ? & ?)
        |apply tarmi_CCV in H as (? & ? & ? & -> & ? & ? & ?)|apply Shapes.tarmi_CVCC in H as (? & ? & ? & d & -> & ? & ? & ? & Hd)|apply Shapes.tarmi_CCVC in H as (? & ? & ? & d & -> & ? & ? & ? & Hd)];
      try reflexivity; cbn [app length Nat.eqb andb firstn skipn str_eqb];
      (destruct (N.eqb_spec d c_h); [subst d; exfalso; first [discriminate Hd|apply is_consonant_spec in Hd; discriminate Hd]|]; cbn [andb]; apply andb_false_r). }
  rewrite L5, andb_false_r. reflexivity.
Qed.
Lemma first_name : forall st r u g rest, Forall (cll (allow_mz st)) (r :: g :: rest) -> (u = [] /\ bare_shape r \/ u = [c_y] /\ y_shape r) ->
  suf_ok (allow_mz st) r g u ->
  exists d, chain true st (length (r :: g :: rest)) ((r ++ u, cr st r) :: canon st (g :: rest)) d /\ c_tos d = 0
    /\ (Exists (fun g => cr st g = 2) (r :: g :: rest) -> c_cons d = 2)
    /\ c_word d = r ++ u ++ word_of (canon st (g :: rest)).
Proof.
  intros st r u g rest F Hu Hj. inversion F as [|? ? Hr Fg]; subst. inversion Fg as [|? ? Hg Frest]; subst. set (n := length (r :: g :: rest)).
  assert (Hyu : forallb is_hy u = true) by (destruct Hu as [[-> _]|[-> _]]; reflexivity). rewrite canon_cons.
  set (sg := match rest with [] => [] | k :: _ => can (allow_mz st) g k end) in *.
  assert (Hsg : forallb is_hy sg = true) by apply canon_suf_hy.
  change ((r ++ u, cr st r) :: (g ++ sg, cr st g) :: canon st rest) with ([(r ++ u, cr st r); (g ++ sg, cr st g)] ++ canon st rest).
  assert (Hne : r ++ u <> []) by (pose proof (cll_len _ _ Hr) as Q; destruct r; [cbn in Q; lia|discriminate]).
  destruct (cll_fine st r u Hr Hyu) as (_ & (v & s & F2 & _) & _). cbn [fst] in F2.
  assert (Ni : [(0, length (strip_hyphens (r ++ u)))] <> []) by discriminate.
  destruct (step_name st (r ++ u) (cr st r) (score (r ++ u)) _ n r u g sg Hne Ni (ex_intro _ v F2) Hr Hg Hsg eq_refl Hj (glue_name _ _ r u g sg n Hr Hg Hu)) as (c & C1 & C2 & C4 & El & C5).
  assert (Et : first_tos (r ++ u) true = Ok 0) by (unfold first_tos; rewrite orb_true_r; reflexivity).
  assert (Cc : chain true st n [(r ++ u, cr st r); (g ++ sg, cr st g)] c) by (eapply chain_two; [exact Et|exact C1]).
  assert (Ff : Forall (fine (consonants st)) [(r ++ u, cr st r); (g ++ sg, cr st g)]) by (constructor; [apply cll_fine; assumption|constructor; [apply cll_fine; assumption|constructor]]).
  assert (Hso : forall k t, rest = k :: t -> suf_ok (allow_mz st) g k sg).
  { intros k t ->. subst sg. apply can_ok. eapply cll_not_other, Hg. }
  destruct (run_name st n rest g sg _ c Cc Ff Fg El Hso C2) as (d & D1 & D2 & D3 & D4). exists d. split; [exact D1|]. split; [exact D2|split].
  - intro H. apply D3. apply Exists_cons in H as [X|H]; [left; apply C4; auto|]. apply Exists_cons in H as [X|H]; [left; apply C4; auto|right; exact H].
  - rewrite D4, C5, word_of_cons. cbn [fst]. rewrite <- !app_assoc. reflexivity.
Qed.

Definition name_end (rs : list str) : Prop := exists s c, last rs [] = s ++ [c] /\ is_consonant c = true.
Lemma cr_two : forall st r, rafsi_tarmi r <> CVV -> rafsi_tarmi r <> CVhV -> cr st r = 2.
Proof. intros st r A B. unfold cr, credit. destruct (rafsi_tarmi r); try contradiction; reflexivity. Qed.
Lemma end_two : forall st rs, Forall (cll (allow_mz st)) rs -> rs <> [] -> name_end rs -> Exists (fun g => cr st g = 2) rs.
Proof.
  intros st rs F N (s & c & E & Hc). apply Exists_exists. exists (last rs []). split; [destruct (exists_last N) as (a & b & ->); rewrite last_last; apply in_or_app; right; left; reflexivity|].
  apply cr_two; intro H; rewrite E in H.
  - apply tarmi_CVV in H as (x & y & z & H & _ & _ & Hz). apply (app_inj_tail s [x; y]) in H as [_ ->]. clash.
  - apply tarmi_CVhV in H as (x & y & z & H & _ & _ & Hz). apply (app_inj_tail s [x; y; c_h]) in H as [_ ->]. clash.
Qed.
Lemma canon_name : forall st rs, rs <> [] -> name_end rs -> exists s v, word_of (canon st rs) = s ++ [v] /\ is_consonant v = true.
Proof.
  intros st. induction rs as [|r [|g rs] IH]; intros N (s & v & E & V); [contradiction| |].
  - cbn in E. subst r. exists s, v. unfold word_of. cbn. rewrite app_nil_r. auto.
  - destruct IH as (s' & v' & E' & V'); [discriminate|exists s, v; auto|]. rewrite canon_cons, word_of_cons, E'. cbn [fst]. exists ((r ++ can (allow_mz st) r g) ++ s'), v'.
    rewrite app_assoc. auto.
Qed.
Lemma can_fit : forall mz r g, cll mz r -> long_shape r = false ->
  let u := can mz r g in
  (u = [] /\ bare_shape r \/ u = [c_y] /\ y_shape r) /\ suf_ok mz r g u /\ suffixed true false (Tar (rafsi_tarmi r)) u.
Proof.
  intros mz r g Hr Hl u. destruct (cll_tarmi_ne _ _ Hr) as [Ho Hh]. split; [|split; [apply can_ok; exact Ho|]]; subst u; unfold can, bare_shape, y_shape, long_shape in *.
  - destruct (rafsi_tarmi r); try discriminate; try contradiction; auto 8. destruct (joins mz r g); auto 8.
  - destruct (rafsi_tarmi r); try discriminate; try contradiction; try (destruct (joins mz r g));
      first [apply suf_cvc|apply suf_ccv|apply suf_cvc_y; reflexivity|apply suf_cvv; auto; fail|apply suf_short_y; auto; fail].
Qed.
Lemma name_whole : forall st r g rest, Forall (cll (allow_mz st)) (r :: g :: rest) -> short_before_last (r :: g :: rest) -> name_end (r :: g :: rest) ->
  tforms st (length (r :: g :: rest)) 0 (r :: g :: rest) (canon st (r :: g :: rest))
  /\ exists d, whole true st (length (r :: g :: rest)) (canon st (r :: g :: rest)) d /\ c_word d = word_of (canon st (r :: g :: rest)).
Proof.
  intros st r g rest F [Hs _] He. inversion F as [|? ? Hr F']; subst. destruct (can_fit _ r g Hr Hs) as (A & B & D).
  destruct (first_name st r _ g rest F A B) as (d & D1 & D2 & D3 & D4). rewrite canon_cons. split.
  - split; [exists (can (allow_mz st) r g); split; [exact D|reflexivity]|]. apply canon_tforms; [reflexivity|lia|exact F'].
  - exists d. split.
    + split; [exact D1|]. split; [exact D2|]. split; [apply D3, end_two; [exact F|discriminate|exact He]|].
      destruct (canon_name st (g :: rest)) as (s & v & E & V); [discriminate|exact He|]. exists v. rewrite D4, E, !app_assoc. split; [apply last_opt_app|exact V].
    + rewrite D4, word_of_cons. cbn [fst]. rewrite app_assoc. reflexivity.
Qed.
Theorem name_cheapest : forall st rs ch c, Forall (cll (allow_mz st)) rs -> 2 <= length rs -> short_before_last rs -> name_end rs ->
  cheapest true st (length rs) (tforms st (length rs) 0 rs) ch c -> c_word c = word_of (canon st rs).
Proof.
  intros st rs ch c F L Hs He H.
  destruct rs as [|r [|g rest]]; [cbn in L; lia|cbn in L; lia|]. destruct (name_whole st r g rest F Hs He) as (P2 & d' & W2 & D4).
  destruct Hs as [Hs _]. inversion F as [|? ? Hr F']; subst. inversion F' as [|? ? Hg _]; subst.
  destruct (can_fit _ r g Hr Hs) as (A & B & D). destruct W2 as (D1 & W2'). rewrite <- D4. rewrite canon_cons in *.
  pose proof (h_in _ _ _ _ _ H) as P1. destruct ch as [|x1 T1]; [contradiction|].
  assert (E1 : T1 = canon st (g :: rest)) by (apply (tail_canon true st (length (r :: g :: rest)) (g :: rest) [r] [x1] T1 c); [exact F|reflexivity|discriminate|reflexivity|exact H]). subst T1.
  pose proof (h_min _ _ _ _ _ H _ _ P2 (conj D1 W2')) as Hm. destruct (h_whole _ _ _ _ _ H) as (C1 & _).
  pose proof (canon_calm st (g :: rest) F') as K. destruct (canon_head st g rest Hg) as (sg & BB & Ec & Hsg).
  pose proof (tforms_fine _ _ _ _ _ F P1) as F1. pose proof (tforms_fine _ _ _ _ _ F P2) as F2.
  destruct P1 as [(u & S1 & ->) _]. change (0 =? 0) with true in S1. change (0 =? length (r :: g :: rest) - 1) with false in S1.
  set (u0 := can (allow_mz st) r g) in *.
  assert (Dc : u = u0 \/ (u0 = [] /\ u <> []) \/ (rafsi_tarmi r = CVC /\ u = [] /\ u0 = [c_y])).
  { pose proof (first_options _ _ S1) as O1. pose proof (first_options _ _ D) as O2. clear -O1 O2 Hs Hr. destruct (cll_tarmi_ne _ _ Hr) as [Ho Hh]. unfold long_shape in Hs. subst u0. unfold can in *.
    destruct (rafsi_tarmi r); try discriminate; try contradiction; try (left; congruence); destruct O1 as [-> | ->]; auto; try (right; left; split; [reflexivity|discriminate]);
    destruct (joins _ _ _); auto. right. left. split; [reflexivity|discriminate]. }
  destruct Dc as [->|[[E Nu]|(Er & -> & E)]].
  - rewrite (chain_det _ _ _ _ _ C1 _ D1). reflexivity.
  - rewrite E in *. rewrite Ec in C1, D1, K, F1, F2. rewrite app_nil_r in D1, F2.
    destruct (chain_tail _ _ _ _ _ _ _ F1 K C1) as (c1 & X1 & W1 & Z1 & I1).
    destruct (chain_tail _ _ _ _ _ _ _ F2 K D1) as (c2 & X2 & W2 & Z2 & I2).
    destruct (head_compare true st _ r u g sg (cr st g) c2 c1 Hr Hg Hsg S1 Nu D X2 X1) as [[Q _]|Q]; [rewrite W1, W2, Q; reflexivity|]. exfalso. clear -Q Z1 Z2 Hm. lia.
  - exfalso. assert (J : joins (allow_mz st) r g = true).
    { rewrite Ec in C1, F1, K. destruct (chain_tail _ _ _ _ _ _ _ F1 K C1) as (c1 & X1 & _). apply chain_two_inv in X1 as (t & _ & X1). cbn [fst snd] in X1. rewrite app_nil_r in X1.
      apply combine_word in X1 as (hy & i & _ & _ & _ & _ & _ & _ & _ & _ & _ & W10 & _ & W12 & _).
      destruct (cll_hd _ _ sg Hg) as (G1 & _ & _ & G4). rewrite G1 in W10. rewrite G4 in W12. apply joins_of; assumption. }
    subst u0. unfold can in E. rewrite Er, J in E. discriminate.
Qed.
Theorem expected_name : forall yh cs gl mz rs w sc ix, let st := mkSettings yh false cs gl mz in
  Forall (cll mz) rs -> 2 <= length rs -> short_before_last rs -> name_end rs ->
  expected_entry yh cs gl mz true rs = Ok (w, sc, ix) -> w = word_of (canon st rs).
Proof.
  intros yh cs gl mz rs w sc ix st F L Hs He E. destruct (expected_cheapest true st rs w sc ix eq_refl F E) as (ch' & c & C & <- & _).
  exact (name_cheapest st rs ch' c F L Hs He C).
Qed.
Theorem expected_names : forall yh cs gl mz rs, let st := mkSettings yh false cs gl mz in
  Forall (cll mz) rs -> 2 <= length rs -> short_before_last rs -> name_end rs ->
  (Z.of_nat (length (word_of (canon st rs))) <= 10 ^ 96)%Z ->
  expected_word Bound yh cs gl mz true rs = Ok (word_of (canon st rs)).
Proof.
  intros yh cs gl mz rs st F L Hs He Hb. destruct rs as [|r [|g rest]]; [cbn in L; lia|cbn in L; lia|]. destruct (name_whole st r g rest F Hs He) as (P & d & W & Ew).
  assert (Hd : (c_score d < BEST_INIT)%Z).
  { pose proof (chain_score _ _ _ _ _ (proj1 W)) as S. rewrite Ew in S. unfold BEST_INIT. clear -S Hb. assert (10 ^ 100 = 10000 * 10 ^ 96)%Z by reflexivity. lia. }
  destruct (expected_exists true st (r :: g :: rest) _ d eq_refl F P W Hd) as (w & sc & ix & E).
  pose proof (expected_name _ _ _ _ _ _ _ _ F L Hs He E) as R. unfold expected_word. cbn [y_hyphens consonants glides allow_mz st] in E. rewrite E. cbn [bind]. rewrite R. reflexivity.
Qed.
Lemma expected_end : forall yh cs gl mz rs w sc ix, Forall (cll mz) rs -> 2 <= length rs -> expected_entry yh cs gl mz true rs = Ok (w, sc, ix) -> name_end rs.
Proof.
  intros yh cs gl mz rs w sc ix F L E. set (st := mkSettings yh false cs gl mz) in *. destruct (expected_cheapest true st rs w sc ix eq_refl F E) as (ch & c & C & _).
  destruct rs as [|r [|g rest]]; [cbn in L; lia|cbn in L; lia|]. pose proof (h_in _ _ _ _ _ C) as P. destruct ch as [|x T]; [contradiction|].
  assert (E1 : T = canon st (g :: rest)) by (apply (tail_canon true st (length (r :: g :: rest)) (g :: rest) [r] [x] T c); [exact F|reflexivity|discriminate|reflexivity|exact C]). subst T.
  destruct (h_whole _ _ _ _ _ C) as (C1 & _ & _ & l & El & Vl).
  assert (K : exists B, canon st (g :: rest) = B ++ [(last (r :: g :: rest) [], cr st (last (r :: g :: rest) []))]).
  { clear. revert g. induction rest as [|k rest IH]; intro g; [exists []; reflexivity|]. destruct (IH k) as [B EB]. rewrite canon_cons, EB. eexists (_ :: B). reflexivity. }
  destruct K as [B EB]. pose proof (tforms_fine st _ _ _ _ F P) as Ff. rewrite EB in *.
  change (x :: B ++ [(last (r :: g :: rest) [], cr st (last (r :: g :: rest) []))]) with ((x :: B) ++ [(last (r :: g :: rest) [], cr st (last (r :: g :: rest) []))]) in *.
  assert (Nx : x :: B <> []) by discriminate. pose proof (chain_word_last _ _ _ _ _ _ Nx Ff C1) as Q. cbn [fst] in Q. apply last_opt_some in El as [s Es]. rewrite Es, last_last in Q.
  assert (Hin : In (last (r :: g :: rest) []) (r :: g :: rest)) by (rewrite (app_removelast_last [] (l := r :: g :: rest)) at 2; [apply in_or_app; right; left; reflexivity|discriminate]).
  rewrite Forall_forall in F. destruct (cll_last _ _ (F _ Hin)) as (s' & d & Ed & _). rewrite Ed, last_last in Q. subst d. exists s', l. auto.
Qed.
