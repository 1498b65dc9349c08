(** The hyphen rules of CLL lujvo, computed: which word the builder makes from a
    list of rafsi. *)
From Verif Require Import Str Data Tarmi Rafsi Core Api Lib Spec Shapes Decomp Basic Vowels Katna Dict Errs Builder Jvokaha Slinku Fuel Raises Inv Parts Clusters Forms Chain Score Alt Lujvo Optimal Props1 Props2 Props3 Total Onset Pinned Found Props4 Props5 Props8 Props9 Tosm Joint Swap Unique Round Recast.

(** the word r + rs, with no hyphen after r, falls apart (CLL 4.6) *)
Fixpoint tosm (mz : bool) (r : str) (rs : list str) : bool :=
  match rs with
  | [] => false
  | g :: rest =>
      mems [last r 0%N; hd 0%N g] INITIAL &&
      match rafsi_tarmi g with
      | CVCCV => mems (slice 2 4 g) INITIAL
      | CVC => match rest with [] => false | k :: _ => if joins mz g k then tosm mz g rest else true end
      | _ => false
      end
  end.

Lemma last_opt_last : forall (s : str) d, s <> [] -> last_opt s = Some (last s d).
Proof. intros s d H. destruct s as [|x s] using rev_ind; [congruence|]. rewrite last_opt_app, last_last. reflexivity. Qed.

Lemma next_cons_ok : forall w r hy k rc cs gl, (exists v, last_sound w = Ok v) -> (exists s, first_sound r = Ok s) ->
  exists m, next_consonants w r hy k rc cs gl = Ok m /\ (k = 2 \/ rc = 2 -> m = 2).
Proof.
  intros w r hy k rc cs gl [v Hv] [s Hs]. unfold next_consonants.
  assert (A : forall j, (k = 2 \/ j = 2) -> Ok (if cset_eqb cs ONE_CONSONANT && (0 <? Nat.min 2 (k + j)) then 2 else Nat.min 2 (k + j)) = Ok 2 :> res nat).
  { intros j Hj. replace (Nat.min 2 (k + j)) with 2 by lia. destruct (cset_eqb cs ONE_CONSONANT); reflexivity. }
  destruct (_ || _); cbn [bind]; [exists 2; split; [apply A; auto|auto]|].
  destruct (cset_eqb cs CLUSTER); [|cbn [bind]; eexists; split; [reflexivity|]; intro H; specialize (A rc H); congruence].
  destruct (rc =? 2) eqn:E; cbn [negb bind].
  - eexists; split; [reflexivity|]. intro H. specialize (A rc H). congruence.
  - rewrite Hv, Hs. cbn [bind]. eexists; split; [reflexivity|]. intros [H|H]; [|apply Nat.eqb_neq in E; congruence].
    specialize (A (if is_consonant v && (match s with c :: _ => is_consonant c | [] => false end || gl && is_glide s) then 2 else 0) (or_introl H)). congruence.
Qed.
Lemma joins_spec : forall mz r g, joins mz r g = true -> 
  (is_consonant (last r 0%N) && is_consonant (hd 0%N g) = true -> mems [last r 0%N; hd 0%N g] (valid_pairs mz) = true)
  /\ mems (last r 0%N :: firstn 2 g) BANNED_TRIPLES = false.
Proof.
  intros mz r g H. unfold joins in H. apply andb_t in H as [H1 H2]. apply negb_true_iff in H1, H2. split; [|exact H2].
  intro E. rewrite E in H1. cbn [andb] in H1. apply negb_false_iff in H1. exact H1.
Qed.
(** nothing to say against a hyphen y *)
Lemma y_joins : forall (s g : str), (is_consonant (last (s ++ [c_y]) 0%N) && is_consonant (hd 0%N g) = true -> False) /\ mems (last (s ++ [c_y]) 0%N :: firstn 2 g) BANNED_TRIPLES = false.
Proof. intros s g. rewrite last_last. split; [discriminate|]. destruct g as [|a [|b g]]; reflexivity. Qed.

(** the state of the tosmabru test after [r] stands in its form before [g] *)
Definition suf_ok (mz : bool) (r g suf : str) : Prop :=
  (suf = [] /\ joins mz r g = true) \/ exists s, suf = s ++ [c_y].

Lemma step : forall st w k sc ix tos n r suf g sg tos', w <> [] -> ix <> [] -> (exists v, last_sound w = Ok v) ->
  cll (allow_mz st) r -> cll (allow_mz st) g -> forallb is_hy sg = true ->
  last w 0%N = last (r ++ suf) 0%N -> suf_ok (allow_mz st) r g suf -> 6 <= length w ->
  next_tosmabru tos (g ++ sg) (rafsi_tarmi g) (last (r ++ suf) 0%N) (hd 0%N g) = Some tos' ->
  exists c, combine w (g ++ sg) k (cr st g) sc ix tos false n st = Ok (Some c) /\ c_tos c = tos' /\ (k = 2 \/ cr st g = 2 -> c_cons c = 2)
    /\ last (c_word c) 0%N = last (g ++ sg) 0%N /\ c_idx c <> [] /\ c_word c = w ++ g ++ sg.
Proof.
  intros st w k sc ix tos n r suf g sg tos' Hw Hi Hs Hr Hg Hsg El Hj L6 Ht.
  destruct (cll_hd _ _ sg Hg) as (G1 & G2 & G3 & G4). destruct (cll_other _ _ sg Hg Hsg) as [T1 T2].
  destruct (cll_fine st g sg Hg Hsg) as (F1 & (v & s & F2 & F3) & _). cbn [fst] in *.
  destruct (next_cons_ok w (g ++ sg) [] k (cr st g) (consonants st) (glides st) Hs (ex_intro _ s F3)) as (m & Hm & Hm2).
  assert (Hlh : last w 0%N <> c_h).
  { rewrite El. destruct Hj as [[-> _]|[s' ->]].
    - rewrite app_nil_r. destruct (cll_last _ _ Hr) as (s' & d & -> & Hd). rewrite last_last. apply vc_not_hy in Hd. intros ->. discriminate.
    - rewrite app_assoc, last_last. discriminate. }
  eexists. split; [apply (combine_make w (g ++ sg) k (cr st g) sc ix tos false n st [] tos' m)|].
  - exact Hw.
  - destruct g; [cbn in F1; destruct sg; [cbn in F1; lia|discriminate]|discriminate].
  - exact Hi.
  - rewrite G1, El. destruct Hj as [[-> J]|[s' ->]]; [rewrite app_nil_r; apply (joins_spec _ _ _ J)|].
    rewrite app_assoc, last_last. discriminate.
  - rewrite G1. exact G3.
  - rewrite G4, El. destruct Hj as [[-> J]|[s' ->]]; [rewrite app_nil_r; apply (joins_spec _ _ _ J)|]. rewrite app_assoc. apply (y_joins (r ++ s') g).
  - rewrite T1. exact T2.
  - apply glue_plain; assumption.
  - rewrite T1, El, G1. exact Ht.
  - exact Hm.
  - cbn [c_tos c_cons c_word c_idx app]. repeat split; auto.
    + apply last_app_ne. destruct g; [cbn in F1; destruct sg; [cbn in F1; lia|discriminate]|discriminate].
    + destruct ix; discriminate.
Qed.

Lemma can_hy : forall mz r g, forallb is_hy (can mz r g) = true.
Proof. intros. unfold can. destruct (rafsi_tarmi r); try reflexivity. destruct (joins _ _ _); reflexivity. Qed.
Lemma can_ok : forall mz r g, rafsi_tarmi r <> OTHER_RAFSI -> suf_ok mz r g (can mz r g).
Proof.
  intros mz r g N. unfold suf_ok, can. destruct (rafsi_tarmi r) eqn:E; try congruence; try (right; exists []; reflexivity); try (right; exists [c_h]; reflexivity).
  all: try (left; split; [reflexivity|apply joins_vowel, vowel_end; auto]).
  destruct (joins mz r g) eqn:J; [left; auto|right; exists []; reflexivity].
Qed.
(** the state after the form of [g] *)
Lemma tos_next : forall mz (r suf g sg : str) tos, cll mz g -> tos <= 2 ->
  tos = 1 -> suf = [] ->
  next_tosmabru tos (g ++ sg) (rafsi_tarmi g) (last (r ++ suf) 0%N) (hd 0%N g) =
  (if mems [last r 0%N; hd 0%N g] INITIAL then
     match rafsi_tarmi g with
     | CVCCV => if mems (slice 2 4 g) INITIAL then None else Some 0
     | CVC => if N.eqb (last (g ++ sg) 0%N) c_y then None else Some 1
     | _ => Some 0
     end else Some 0).
Proof.
  intros mz r suf g sg tos Hg _ -> ->. rewrite app_nil_r. unfold next_tosmabru. change (1 =? TOSMABRU) with true. cbv iota.
  unfold str, char in *. destruct (mems [last r 0%N; hd 0%N g] INITIAL) eqn:EI; cbn [negb]; [|reflexivity].
  assert (G : g ++ sg <> []) by (pose proof (cll_len _ _ Hg) as Q; destruct g; [cbn in Q; lia|discriminate]).
  destruct (rafsi_tarmi g) eqn:E; try reflexivity.
  - apply tarmi_CVCCV in E as (a & b & c & d & e & -> & _). reflexivity.
  - change (tarmi_eqb CVC CVCCV) with false. change (tarmi_eqb CVC CVC) with true. cbv iota. pose proof (last_opt_last _ 0%N G) as Q. unfold str, char in *. rewrite Q. destruct (N.eqb _ _); reflexivity.
Qed.
Lemma tos_calm : forall f T ll r0 tos, tos = 0 \/ tos = 2 -> N.eqb r0 c_h = false -> next_tosmabru tos f T ll r0 = Some 0.
Proof. intros f T ll r0 tos [-> | ->] H; unfold next_tosmabru; cbn [Nat.eqb TOSMABRU TOSYhUhU]; [reflexivity|]. rewrite H. reflexivity. Qed.

(** the state of the test goes with the rafsi so far *)
Definition tos_of (tos : nat) (r suf : str) : Prop := tos = 0 \/ (tos = 1 /\ suf = [] /\ rafsi_tarmi r = CVC).
Definition calm_end (rs : list str) : Prop := exists s v, last rs [] = s ++ [v] /\ is_vowel v = true.

(** one more rafsi in its form: which state comes next *)
Lemma tos_step : forall mz r suf g rest tos, cll mz g -> tos_of tos r suf -> N.eqb (hd 0%N g) c_h = false ->
  let sg := match rest with [] => [] | k :: _ => can mz g k end in
  if (tos =? 1) && tosm mz r (g :: rest) && negb (match rafsi_tarmi g with CVC => match rest with k :: _ => joins mz g k | [] => false end | _ => false end)
  then next_tosmabru tos (g ++ sg) (rafsi_tarmi g) (last (r ++ suf) 0%N) (hd 0%N g) = None
  else exists tos', next_tosmabru tos (g ++ sg) (rafsi_tarmi g) (last (r ++ suf) 0%N) (hd 0%N g) = Some tos' /\ tos_of tos' g sg
    /\ (tos =? 1) && tosm mz r (g :: rest) = (tos' =? 1) && tosm mz g rest.
Proof.
  intros mz r suf g rest tos Hg Ht Hh sg. destruct Ht as [->|(-> & -> & Er)].
  { cbn [Nat.eqb andb]. exists 0. rewrite tos_calm by auto. split; [reflexivity|]. split; [left; reflexivity|reflexivity]. }
  cbn [Nat.eqb andb]. rewrite (tos_next mz r [] g sg 1 Hg) by (auto; lia). cbn [tosm].
  unfold str, char in *. destruct (mems [last r 0%N; hd 0%N g] INITIAL) eqn:EI; cbn [andb].
  2:{ exists 0. split; [reflexivity|]. split; [left; reflexivity|reflexivity]. }
  destruct (rafsi_tarmi g) eqn:Eg; cbn [negb andb]; rewrite ?andb_true_r, ?andb_false_r;
    try (exists 0; split; [reflexivity|split; [left; reflexivity|reflexivity]]; fail).
  - destruct (mems (slice 2 4 g) INITIAL); [reflexivity|]. exists 0. split; [reflexivity|split; [left; reflexivity|reflexivity]].
  - assert (Hl : forall s, last (g ++ s) 0%N = last (g ++ s) 0%N) by reflexivity.
    apply tarmi_CVC in Eg as Eg'. destruct Eg' as (a & b & c & Eg' & _ & _ & Hc).
    assert (Hy : N.eqb (last g 0%N) c_y = false) by (rewrite Eg'; cbn [last]; apply N.eqb_neq; intros ->; discriminate).
    destruct rest as [|k rest].
    + subst sg. cbn [andb negb]. rewrite app_nil_r, Hy. exists 1. split; [reflexivity|]. split; [right; auto|reflexivity].
    + subst sg. unfold can. rewrite Eg. destruct (joins mz g k) eqn:J; cbn [andb negb].
      * rewrite andb_false_r, app_nil_r, Hy. exists 1. split; [reflexivity|]. split; [right; auto|reflexivity].
      * rewrite last_last. reflexivity.
Qed.

Lemma chain_det : forall gen st n l c, chain gen st n l c -> forall c', chain gen st n l c' -> c = c'.
Proof.
  intros gen st n l c H. induction H as [r0 n0 r1 n1 tos c Ht Hc|l c r rc c' H IH Hc]; intros d D.
  - apply chain_two_inv in D as (tos' & D1 & D2). cbn [fst snd] in *. congruence.
  - apply chain_next_inv in D as (b & B1 & B2); [|inversion H; subst; [cbn; lia|rewrite app_length; cbn]; match goal with X : chain _ _ _ ?k _ |- _ => idtac end].
    + rewrite <- (IH _ B1) in B2. cbn [fst snd] in *. congruence.
    + clear -H0. inversion H0; subst; [cbn; lia|rewrite app_length; cbn; lia].
Qed.
Lemma chain_len : forall gen st n l c, chain gen st n l c -> 2 <= length l.
Proof. intros gen st n l c H. induction H; [cbn; lia|rewrite app_length; lia]. Qed.
Lemma chain_prefix : forall gen st n B A d, 2 <= length A -> chain gen st n (A ++ B) d -> exists c, chain gen st n A c.
Proof.
  intros gen st n B. induction B as [|x B IH] using rev_ind; intros A d L H; [rewrite app_nil_r in H; eauto|].
  rewrite app_assoc in H. apply chain_next_inv in H as (b & Hb & _); [eauto|rewrite app_length; lia].
Qed.

Lemma canon_cons : forall st g rest, canon st (g :: rest) = (g ++ match rest with [] => [] | k :: _ => can (allow_mz st) g k end, cr st g) :: canon st rest.
Proof. intros st g [|k rest]; [cbn [canon]; rewrite app_nil_r; reflexivity|reflexivity]. Qed.
Lemma cll_not_other : forall mz g, cll mz g -> rafsi_tarmi g <> OTHER_RAFSI.
Proof. intros mz g H. apply (cll_other _ _ [] H eq_refl). Qed.
Lemma canon_suf_hy : forall mz g (rest : list str), forallb is_hy (match rest with [] => [] | k :: _ => can mz g k end) = true.
Proof. intros mz g [|k rest]; [reflexivity|apply can_hy]. Qed.

(** the rest of a word, each rafsi in its shortest form *)
Lemma run : forall st n rs r suf ch c, chain false st n ch c -> Forall (fine (consonants st)) ch -> Forall (cll (allow_mz st)) (r :: rs) ->
  last (c_word c) 0%N = last (r ++ suf) 0%N -> (forall g rest, rs = g :: rest -> suf_ok (allow_mz st) r g suf) -> tos_of (c_tos c) r suf ->
  if (c_tos c =? 1) && tosm (allow_mz st) r rs then forall d, ~ chain false st n (ch ++ canon st rs) d
  else exists d, chain false st n (ch ++ canon st rs) d /\ (c_tos c = 0 \/ calm_end rs -> c_tos d = 0) /\ (c_cons c = 2 \/ Exists (fun g => cr st g = 2) rs -> c_cons d = 2)
    /\ c_word d = c_word c ++ word_of (canon st rs).
Proof.
  intros st n. induction rs as [|g rest IH]; intros r suf ch c C F Fr El Hj Ht.
  - cbn [tosm]. rewrite andb_false_r. exists c. cbn [canon]. rewrite app_nil_r. split; [exact C|]. split; [|split].
    + intros [H|(s & v & H & _)]; [exact H|]. cbn in H. destruct s; discriminate.
    + intros [H|H]; [exact H|inversion H].
    + unfold word_of. cbn. rewrite app_nil_r. reflexivity.
  - inversion Fr as [|? ? Hr Frs]; subst. inversion Frs as [|? ? Hg Frest]; subst.
    pose proof (chain_ripe _ _ _ _ _ C F) as [R1 R2 R3 R4]. destruct (chain_heard _ _ _ _ _ C F) as (G1 & G2 & G3).
    assert (Hh : N.eqb (hd 0%N g) c_h = false) by (apply N.eqb_neq; apply (cll_hd _ _ [] Hg)).
    pose proof (tos_step (allow_mz st) r suf g rest (c_tos c) Hg Ht Hh) as T. cbv zeta in T.
    set (sg := match rest with [] => [] | k :: _ => can (allow_mz st) g k end) in *.
    assert (Hsg : forallb is_hy sg = true) by apply canon_suf_hy.
    rewrite canon_cons. fold sg.
    replace (ch ++ (g ++ sg, cr st g) :: canon st rest) with ((ch ++ [(g ++ sg, cr st g)]) ++ canon st rest) by (rewrite <- app_assoc; reflexivity).
    destruct (cll_other _ _ sg Hg Hsg) as [Tg _]. destruct (cll_hd _ _ sg Hg) as (Hg1 & _).
    destruct ((c_tos c =? 1) && tosm (allow_mz st) r (g :: rest) && negb _) eqn:Eb.
    + apply andb_t in Eb as [Eb _]. rewrite Eb. intros d D. apply chain_prefix in D as (b & D); [|pose proof (chain_len _ _ _ _ _ C); rewrite app_length; cbn; lia].
      apply chain_next_inv in D as (b' & B1 & B2); [|eapply chain_len; exact C]. rewrite <- (chain_det _ _ _ _ _ C _ B1) in B2. cbn [fst snd] in B2.
      apply combine_word in B2 as (hy & i & _ & _ & _ & _ & W & _). rewrite Tg, Hg1, El, T in W. discriminate.
    + destruct T as (tos' & T1 & T2 & T3). rewrite T3.
      destruct (step st (c_word c) (c_cons c) (c_score c) (c_idx c) (c_tos c) 0 r suf g sg tos' G1 G2 G3 Hr Hg Hsg El (Hj g rest eq_refl) R3 T1) as (b & B1 & B2 & B3 & B4 & B5 & B6).
      assert (Cb : chain false st n (ch ++ [(g ++ sg, cr st g)]) b) by (eapply chain_next; [exact C|exact B1]).
      assert (Fb : Forall (fine (consonants st)) (ch ++ [(g ++ sg, cr st g)])) by (apply Forall_app; split; [exact F|constructor; [apply cll_fine; assumption|constructor]]).
      rewrite <- B2 in T2. rewrite <- B2.
      assert (Hj' : forall k rest', rest = k :: rest' -> suf_ok (allow_mz st) g k sg).
      { intros k rest' ->. apply can_ok. eapply cll_not_other. exact Hg. }
      specialize (IH g sg _ b Cb Fb Frs B4 Hj' T2).
      destruct ((c_tos b =? 1) && tosm (allow_mz st) g rest); [exact IH|].
      destruct IH as (d & D1 & D2 & D3 & D4). exists d. split; [exact D1|]. split; [|split].
      * intros [H|H].
        -- apply D2. left. rewrite B2. rewrite H in T1. rewrite tos_calm in T1 by auto. congruence.
        -- destruct rest as [|k rest'].
           ++ apply D2. left. rewrite B2. destruct H as (s & v & Hl & Hv). cbn [last] in Hl. destruct T2 as [T2|(T2 & _ & T4)]; [congruence|].
              exfalso. apply tarmi_CVC in T4 as (x & y & z & E & _ & _ & Hz). rewrite E in Hl. apply (app_inj_tail [x; y] s) in Hl as [_ <-]. clash.
           ++ apply D2. right. exact H.
      * intros H. apply D3. destruct H as [H|H]; [left; auto|]. inversion H as [? ? H'|? ? H']; subst; [left; auto|right; exact H'].
      * rewrite D4, B6. unfold word_of. cbn [map concat fst]. rewrite <- !app_assoc. reflexivity.
Qed.

(** ** The first two rafsi *)
Definition first_suf (mz : bool) (r g : str) (rest : list str) : str :=
  match rafsi_tarmi r with
  | CVC => if joins mz r g && negb (tosm mz r (g :: rest)) then [] else [c_y]
  | CVCC | CCVC => [c_y]
  | _ => []
  end.
Definition first_glue (yh : yset) (r g : str) (rest : list str) : str :=
  match rafsi_tarmi r with
  | CVV | CVhV =>
      if match rest with [] => tarmi_eqb (rafsi_tarmi g) CCV | _ => false end then []
      else if yset_eqb yh FORCE_Y then [c_h; c_y] else if N.eqb (hd 0%N g) c_r then [c_n] else [c_r]
  | _ => []
  end.
Definition bare_shape (r : str) : Prop := rafsi_tarmi r = CVC \/ rafsi_tarmi r = CVV \/ rafsi_tarmi r = CVhV \/ rafsi_tarmi r = CCV.
Definition y_shape (r : str) : Prop := rafsi_tarmi r = CVC \/ rafsi_tarmi r = CVCC \/ rafsi_tarmi r = CCVC.

Lemma cr_cases : forall st r, cr st r = 2 \/ (cr st r = 1 /\ consonants st <> CLUSTER) \/ (cr st r = 0 /\ consonants st = CLUSTER /\ (rafsi_tarmi r = CVV \/ rafsi_tarmi r = CVhV)).
Proof.
  intros st r. unfold cr, credit. destruct (rafsi_tarmi r); auto; destruct (consonants st); cbn [cset_eqb]; first [left; reflexivity|right; left; split; [reflexivity|discriminate]|right; right; split; [reflexivity|split; [reflexivity|]]; auto].
Qed.
Lemma glue_first : forall mz yh r u g sg rest, cll mz r -> cll mz g -> (u = [] /\ bare_shape r \/ u = [c_y] /\ y_shape r) ->
  glue (r ++ u) (g ++ sg) (rafsi_tarmi g) false (length (r :: g :: rest)) yh (last (r ++ u) 0%N) (hd 0%N g) = Some (first_glue yh r g rest).
Proof.
  intros mz yh r u g sg rest Hr Hg Hu.
  assert (Hyu : forallb is_hy u = true) by (destruct Hu as [[-> _]|[-> _]]; reflexivity).
  destruct (cll_other _ _ u Hr Hyu) as [Tr _].
  assert (Hlh : N.eqb (last (r ++ u) 0%N) c_h = false).
  { apply N.eqb_neq. destruct Hu as [[-> _]|[-> _]].
    - rewrite app_nil_r. destruct (cll_last _ _ Hr) as (s' & d & -> & Hd). rewrite last_last. apply vc_not_hy in Hd. intros ->. discriminate.
    - rewrite last_last. discriminate. }
  unfold glue. rewrite Hlh, Tr.
  assert (L5 : (length (r ++ u) <=? 5) = true /\ (length (r ++ u) =? 5) && tarmi_eqb (rafsi_tarmi (firstn 3 (r ++ u))) CCV && str_eqb (skipn 3 (r ++ u)) [c_h; c_y] = false).
  { destruct Hu as [[-> [H|[H|[H|H]]]]|[-> [H|[H|H]]]]; pose proof H as H0;
      first [apply tarmi_CVC in H as (? & ? & ? & -> & ? & ? & ?)|apply tarmi_CVV in H as (? & ? & ? & -> & ? & ? & ?)|apply tarmi_CVhV in H as (? & ? & ? & -> & ? & ? & ?)
        |apply tarmi_CCV in H as (? & ? & ? & -> & ? & ? & ?)|apply Shapes.tarmi_CVCC in H as (? & ? & ? & d & -> & ? & ? & ? & Hd)|apply Shapes.tarmi_CCVC in H as (? & ? & ? & d & -> & ? & ? & ? & Hd)];
      split; try reflexivity; cbn [app length Nat.eqb andb firstn skipn str_eqb];
      (destruct (N.eqb_spec d c_h); [subst d; exfalso; first [discriminate Hd|apply is_consonant_spec in Hd; discriminate Hd]|]; cbn [andb]; apply andb_false_r). }
  destruct L5 as [L5 L5']. rewrite L5', L5. cbn [andb negb]. unfold first_glue.
  assert (En : (length (r :: g :: rest) =? 2) = match rest with [] => true | _ => false end) by (destruct rest; reflexivity). rewrite En.
  destruct Hu as [[_ [H|[H|[H|H]]]]|[_ [H|[H|H]]]]; rewrite H; cbn [tarmi_in existsb]; change (tarmi_eqb CVC CVhV) with false; change (tarmi_eqb CVC CVV) with false;
    destruct rest; cbn [andb]; try (destruct (tarmi_eqb (rafsi_tarmi g) CCV)); reflexivity.
Qed.
Definition bare_cvc (r u : str) : bool := tarmi_eqb (rafsi_tarmi r) CVC && str_eqb u [].
Lemma first_tos_eq : forall mz r u, cll mz r -> (u = [] /\ bare_shape r \/ u = [c_y] /\ y_shape r) ->
  exists t, first_tos (r ++ u) false = Ok t /\ ((bare_cvc r u = true /\ t = 1) \/ (bare_cvc r u = false /\ (t = 0 \/ t = 2))).
Proof.
  intros mz r u Hr Hu. assert (Hyu : forallb is_hy u = true) by (destruct Hu as [[-> _]|[-> _]]; reflexivity).
  destruct (cll_other _ _ u Hr Hyu) as [Tr _]. unfold first_tos, bare_cvc. rewrite Tr. destruct (tarmi_eqb (rafsi_tarmi r) CVC) eqn:E; cbn [negb orb andb].
  2:{ exists 0. split; [reflexivity|]. right. auto. }
  destruct Hu as [[-> H]|[-> H]].
  - rewrite app_nil_r. apply tarmi_eqb_eq in E. apply tarmi_CVC in E as (a & b & c & -> & _ & _ & Hc). exists 1. split; [|left; split; reflexivity].
    cbn. destruct (N.eqb_spec c c_y); [subst; discriminate|reflexivity].
  - exists 2. split; [|right; split; [reflexivity|auto]]. unfold idx_last. rewrite last_opt_app. reflexivity.
Qed.
Lemma cons_first : forall st w r g sg hy k, (exists v, last_sound w = Ok v) -> cll (allow_mz st) g -> forallb is_hy sg = true ->
  k = cr st r -> exists m, next_consonants w (g ++ sg) hy k (cr st g) (consonants st) (glides st) = Ok m
    /\ (consonants st <> CLUSTER \/ hy = [c_n] \/ hy = [c_r] \/ cr st r = 2 \/ cr st g = 2 -> m = 2).
Proof.
  intros st w r g sg hy k Hw Hg Hsg ->. destruct (cll_fine st g sg Hg Hsg) as (_ & (v & s & _ & F3) & _). cbn [fst] in *.
  destruct (next_cons_ok w (g ++ sg) hy (cr st r) (cr st g) (consonants st) (glides st) Hw (ex_intro _ s F3)) as (m & Hm & Hm2).
  exists m. split; [exact Hm|]. intros [H|[H|[H|H]]]; [| | |auto].
  - assert (E : cset_eqb (consonants st) CLUSTER = false) by (destruct (consonants st); try reflexivity; congruence).
    unfold next_consonants in Hm. rewrite E in Hm. destruct (_ || _) in Hm; cbn [bind] in Hm.
    + destruct (cr_cases st r) as [A|[[A _]|[_ [A _]]]]; [| |congruence]; rewrite A in Hm; destruct (cset_eqb (consonants st) ONE_CONSONANT); cbn in Hm; congruence.
    + destruct (cr_cases st r) as [A|[[A _]|[_ [A _]]]]; [| |congruence]; (destruct (cr_cases st g) as [B|[[B _]|[_ [B _]]]]; [| |congruence]); rewrite A, B in Hm; destruct (cset_eqb (consonants st) ONE_CONSONANT); cbn in Hm; congruence.
  - subst hy. unfold next_consonants in Hm. change (str_eqb [c_n] [c_n]) with true in Hm. cbn [orb bind] in Hm.
    destruct (cr_cases st r) as [A|[[A _]|[A _]]]; rewrite A in Hm; destruct (cset_eqb (consonants st) ONE_CONSONANT); cbn in Hm; congruence.
  - subst hy. unfold next_consonants in Hm. change (str_eqb [c_r] [c_n] || str_eqb [c_r] [c_r]) with true in Hm. cbn [bind] in Hm.
    destruct (cr_cases st r) as [A|[[A _]|[A _]]]; rewrite A in Hm; destruct (cset_eqb (consonants st) ONE_CONSONANT); cbn in Hm; congruence.
Qed.

Lemma first_two : forall st r u g rest, cll (allow_mz st) r -> cll (allow_mz st) g -> (u = [] /\ bare_shape r \/ u = [c_y] /\ y_shape r) ->
  suf_ok (allow_mz st) r g u ->
  let sg := match rest with [] => [] | k :: _ => can (allow_mz st) g k end in
  let n := length (r :: g :: rest) in
  let hy := first_glue (y_hyphens st) r g rest in
  (exists c, chain false st n [(r ++ u, cr st r); (g ++ sg, cr st g)] c /\ tos_of (c_tos c) g sg
    /\ (c_tos c =? 1) && tosm (allow_mz st) g rest = bare_cvc r u && tosm (allow_mz st) r (g :: rest)
    /\ (consonants st <> CLUSTER \/ hy = [c_n] \/ hy = [c_r] \/ cr st r = 2 \/ cr st g = 2 -> c_cons c = 2)
    /\ c_word c = r ++ u ++ hy ++ g ++ sg)
  \/ (bare_cvc r u && tosm (allow_mz st) r (g :: rest) = true /\ forall c, ~ chain false st n [(r ++ u, cr st r); (g ++ sg, cr st g)] c).
Proof.
  intros st r u g rest Hr Hg Hu Hj sg n hy.
  assert (Hsg : forallb is_hy sg = true) by apply canon_suf_hy.
  assert (Hyu : forallb is_hy u = true) by (destruct Hu as [[-> _]|[-> _]]; reflexivity).
  destruct (first_tos_eq _ r u Hr Hu) as (t & Et & Hb).
  destruct (cll_hd _ _ sg Hg) as (G1 & G2 & G3 & G4). destruct (cll_other _ _ sg Hg Hsg) as [T1 T2].
  assert (Hh : N.eqb (hd 0%N g) c_h = false) by (apply N.eqb_neq; exact G3).
  assert (St : (exists t', next_tosmabru t (g ++ sg) (rafsi_tarmi g) (last (r ++ u) 0%N) (hd 0%N g) = Some t' /\ tos_of t' g sg
             /\ (t' =? 1) && tosm (allow_mz st) g rest = bare_cvc r u && tosm (allow_mz st) r (g :: rest))
          \/ (bare_cvc r u && tosm (allow_mz st) r (g :: rest) = true /\ next_tosmabru t (g ++ sg) (rafsi_tarmi g) (last (r ++ u) 0%N) (hd 0%N g) = None)).
  { destruct Hb as [[Hb ->]|[Hb Ht]].
    - rewrite Hb. unfold bare_cvc in Hb. apply andb_t in Hb as [B1 B2]. apply tarmi_eqb_eq in B1. apply str_eqb_eq in B2.
      assert (Ht : tos_of 1 r u) by (right; auto).
      pose proof (tos_step (allow_mz st) r u g rest 1 Hg Ht Hh) as T. cbv zeta in T. fold sg in T.
      change (1 =? 1) with true in T. rewrite andb_true_l in T.
      destruct (tosm (allow_mz st) r (g :: rest) && negb _) eqn:Eb.
      + right. apply andb_t in Eb as [Eb _]. split; [exact Eb|exact T].
      + left. destruct T as (t' & A & B & C). exists t'. split; [exact A|]. split; [exact B|]. rewrite <- C. reflexivity.
    - left. exists 0. split; [apply tos_calm; assumption|]. split; [left; reflexivity|]. rewrite Hb. reflexivity. }
  assert (Hne : r ++ u <> []) by (pose proof (cll_len _ _ Hr) as Q; destruct r; [cbn in Q; lia|discriminate]).
  assert (Hgne : g ++ sg <> []) by (pose proof (cll_len _ _ Hg) as Q; destruct g; [cbn in Q; lia|discriminate]).
  destruct St as [(t' & A & B & C)|[A B]].
  - left. destruct (cll_fine st r u Hr Hyu) as (_ & (v & s & F2 & _) & _). cbn [fst] in F2.
    destruct (cons_first st (r ++ u) r g sg hy (cr st r) (ex_intro _ v F2) Hg Hsg eq_refl) as (m & Hm & Hm2).
    eexists. split; [eapply chain_two; [exact Et|]|].
    + apply (combine_make (r ++ u) (g ++ sg) (cr st r) (cr st g) _ _ t false n st hy t' m).
      * exact Hne.
      * exact Hgne.
      * discriminate.
      * rewrite G1. destruct Hj as [[-> J]|[s' ->]]; [rewrite app_nil_r; apply (joins_spec _ _ _ J)|]. rewrite app_assoc, last_last. discriminate.
      * rewrite G1. exact G3.
      * rewrite G4. destruct Hj as [[-> J]|[s' ->]]; [rewrite app_nil_r; apply (joins_spec _ _ _ J)|]. rewrite app_assoc. apply (y_joins (r ++ s') g).
      * rewrite T1. exact T2.
      * rewrite T1, G1. unfold n, hy. apply (glue_first (allow_mz st)); assumption.
      * rewrite T1, G1. exact A.
      * exact Hm.
    + cbn [c_tos c_cons c_word]. rewrite <- app_assoc. auto.
  - right. split; [exact A|]. intros c D. apply chain_two_inv in D as (t0 & D1 & D2). cbn [fst snd] in *. rewrite Et in D1. injection D1 as <-.
    apply combine_word in D2 as (h & i & _ & _ & _ & _ & W & _). rewrite T1, G1, B in W. discriminate.
Qed.
Lemma cll_calm_last : forall rs, 2 <= length rs -> calm_end rs -> calm_end (tl rs).
Proof. intros rs L H. destruct rs as [|a [|b t]]; cbn in L; [lia|lia|]. exact H. Qed.
Lemma word_of_cons : forall x l, word_of (x :: l) = fst x ++ word_of l.
Proof. reflexivity. Qed.

Lemma first_all : forall st r u g rest, Forall (cll (allow_mz st)) (r :: g :: rest) -> (u = [] /\ bare_shape r \/ u = [c_y] /\ y_shape r) ->
  suf_ok (allow_mz st) r g u -> calm_end (r :: g :: rest) ->
  let n := length (r :: g :: rest) in
  let hy := first_glue (y_hyphens st) r g rest in
  if bare_cvc r u && tosm (allow_mz st) r (g :: rest) then forall d, ~ chain false st n ((r ++ u, cr st r) :: canon st (g :: rest)) d
  else exists d, chain false st n ((r ++ u, cr st r) :: canon st (g :: rest)) d /\ c_tos d = 0
    /\ (consonants st <> CLUSTER \/ hy = [c_n] \/ hy = [c_r] \/ Exists (fun g => cr st g = 2) (r :: g :: rest) -> c_cons d = 2)
    /\ c_word d = r ++ u ++ hy ++ word_of (canon st (g :: rest)).
Proof.
  intros st r u g rest F Hu Hj Hc n hy. inversion F as [|? ? Hr Fg]; subst. inversion Fg as [|? ? Hg Frest]; subst.
  assert (Hyu : forallb is_hy u = true) by (destruct Hu as [[-> _]|[-> _]]; reflexivity).
  pose proof (first_two st r u g rest Hr Hg Hu Hj) as T. cbv zeta in T. fold n hy in T. rewrite canon_cons.
  set (sg := match rest with [] => [] | k :: _ => can (allow_mz st) g k end) in *.
  assert (Hsg : forallb is_hy sg = true) by apply canon_suf_hy.
  change ((r ++ u, cr st r) :: (g ++ sg, cr st g) :: canon st rest) with ([(r ++ u, cr st r); (g ++ sg, cr st g)] ++ canon st rest).
  destruct T as [(c & C1 & C2 & C3 & C4 & C5)|[A B]].
  - assert (Ff : Forall (fine (consonants st)) [(r ++ u, cr st r); (g ++ sg, cr st g)]) by (constructor; [apply cll_fine; assumption|constructor; [apply cll_fine; assumption|constructor]]).
    assert (El : last (c_word c) 0%N = last (g ++ sg) 0%N).
    { rewrite C5. pose proof (cll_len _ _ Hg) as Q. destruct (@exists_last _ (g ++ sg)) as (s & l & ->); [destruct g; [cbn in Q; lia|discriminate]|].
      rewrite !app_assoc, !last_last. reflexivity. }
    pose proof (run st n rest g sg _ c C1 Ff Fg El) as R. rewrite C3 in R.
    assert (Hso : forall k t, rest = k :: t -> suf_ok (allow_mz st) g k sg).
    { intros k t ->. subst sg. apply can_ok. eapply cll_not_other, Hg. }
    specialize (R Hso C2). destruct (bare_cvc r u && _); [exact R|].
    destruct R as (d & D1 & D2 & D3 & D4). exists d. split; [exact D1|]. split; [|split].
    + apply D2. destruct rest as [|k t]; [left|right; exact Hc]. destruct C2 as [C2|(_ & _ & C2)]; [exact C2|].
      destruct Hc as (s & v & Hc & Hv). cbn in Hc. subst g. apply tarmi_CVC in C2 as (x & y & z & E & _ & _ & Hz).
      assert (v = z) by (apply (f_equal (fun q => last q 0%N)) in E; rewrite last_last in E; exact E). subst z. exfalso. clear - Hv Hz. apply is_vowel_spec in Hv. apply is_consonant_spec in Hz. exact (Joint.vowel_not_consonant _ Hv Hz).
    + intro H. apply D3. destruct H as [H|[H|[H|H]]]; [left; auto|left; auto|left; auto|].
      apply Exists_cons in H as [X|H]; [left; apply C4; auto|]. apply Exists_cons in H as [X|H]; [left; apply C4; auto|right; exact H].
    + rewrite D4, C5, word_of_cons. cbn [fst]. rewrite <- !app_assoc. reflexivity.
  - rewrite A. intros d D. apply chain_prefix in D as (c & D); [exact (B _ D)|cbn; lia].
Qed.
Lemma joins_of : forall mz (r g : str), (is_consonant (last r 0%N) && is_consonant (hd 0%N g) = true -> mems [last r 0%N; hd 0%N g] (valid_pairs mz) = true) ->
  mems (last r 0%N :: firstn 2 g) BANNED_TRIPLES = false -> joins mz r g = true.
Proof.
  intros mz r g W10 W12. unfold joins. apply andb_true_iff. split; [|apply negb_true_iff; exact W12].
  apply negb_true_iff. destruct (is_consonant (last r 0%N) && is_consonant (hd 0%N g)) eqn:E; [|reflexivity]. cbn [andb]. apply negb_false_iff. exact (W10 eq_refl).
Qed.
Lemma first_suf_fit : forall mz r g rest, cll mz r -> long_shape r = false ->
  let u := first_suf mz r g rest in
  (u = [] /\ bare_shape r \/ u = [c_y] /\ y_shape r) /\ suf_ok mz r g u /\ bare_cvc r u && tosm mz r (g :: rest) = false
  /\ suffixed true false (Tar (rafsi_tarmi r)) u.
Proof.
  intros mz r g rest Hr Hl u. destruct (cll_tarmi_ne _ _ Hr) as [Ho Hh]. subst u. unfold first_suf, suf_ok, bare_cvc, bare_shape, y_shape, long_shape in *.
  assert (Jv : rafsi_tarmi r = CVV \/ rafsi_tarmi r = CVhV \/ rafsi_tarmi r = CCV -> joins mz r g = true) by (intro H; apply joins_vowel, vowel_end; exact H).
  assert (Y : exists s : str, [c_y] = s ++ [c_y]) by (exists []; reflexivity).
  destruct (rafsi_tarmi r) eqn:E; try discriminate; try contradiction; change (tarmi_eqb CVC CVC) with true; 
    try (split; [right; split; [reflexivity|auto]|]; split; [right; exact Y|]; split; [reflexivity|constructor; auto]; fail);
    try (split; [left; split; [reflexivity|auto]|]; split; [left; split; [reflexivity|apply Jv; auto]|]; split; [reflexivity|constructor; auto]; fail).
  destruct (joins mz r g) eqn:J; cbn [andb].
  - destruct (tosm mz r (g :: rest)) eqn:T; cbn [negb].
    + split; [right; split; [reflexivity|auto]|]. split; [right; exact Y|]. split; [reflexivity|apply suf_cvc_y; reflexivity].
    + split; [left; split; [reflexivity|auto]|]. split; [left; auto|]. split; [apply andb_false_r|apply suf_cvc].
  - split; [right; split; [reflexivity|auto]|]. split; [right; exact Y|]. split; [reflexivity|apply suf_cvc_y; reflexivity].
Qed.

(** the word the rules prescribe, from the rafsi *)
Definition rule_word (st : settings) (rs : list str) : str :=
  match rs with
  | r :: ((g :: rest) as t) => r ++ first_suf (allow_mz st) r g rest ++ first_glue (y_hyphens st) r g rest ++ word_of (canon st t)
  | _ => word_of (canon st rs)
  end.
Definition lively (st : settings) (rs : list str) : Prop :=
  y_hyphens st = FORCE_Y -> consonants st = CLUSTER -> Exists (fun g => cr st g = 2) rs.
Lemma canon_vowel : forall st rs, rs <> [] -> calm_end rs -> exists s v, word_of (canon st rs) = s ++ [v] /\ is_vowel v = true.
Proof.
  intros st. induction rs as [|r [|g rs] IH]; intros N (s & v & E & V); [contradiction| |].
  - cbn in E. subst r. exists s, v. unfold word_of. cbn. rewrite app_nil_r. auto.
  - destruct IH as (s' & v' & E' & V'); [discriminate|exists s, v; auto|]. rewrite canon_cons, word_of_cons, E'. cbn [fst]. exists ((r ++ can (allow_mz st) r g) ++ s'), v'.
    rewrite app_assoc. auto.
Qed.
Lemma canon_tforms : forall st n rs i, i + length rs = n -> 0 < i -> Forall (cll (allow_mz st)) rs -> tforms st n i rs (canon st rs).
Proof.
  intros st n. induction rs as [|r rs IH]; intros i L Hi F; [exact I|]. inversion F as [|? ? Hr F']; subst. rewrite canon_cons. split.
  - exists (match rs with [] => [] | k :: _ => can (allow_mz st) r k end). split; [|reflexivity]. assert (E0 : (i =? 0) = false) by (apply Nat.eqb_neq; lia). rewrite E0.
    destruct (cll_tarmi_ne _ _ Hr) as [Ho Hh]. destruct rs as [|k rs]; cbn [length] in *.
    + replace (i =? i + 1 - 1) with true by (symmetry; apply Nat.eqb_eq; lia). destruct (rafsi_tarmi r); try contradiction; first [apply suf_cvc|apply suf_ccv|apply suf_cvv; auto; fail|apply suf_short; auto; fail|apply suf_long; auto; fail].
    + replace (i =? i + S (S (length rs)) - 1) with false by (symmetry; apply Nat.eqb_neq; lia). unfold can.
      destruct (rafsi_tarmi r); try contradiction; try (destruct (joins _ _ _)); first [apply suf_cvc|apply suf_ccv|apply suf_cvc_y; reflexivity|apply suf_cvv; auto; fail|apply suf_short_y; auto; fail|apply suf_long_hy; auto; fail].
  - apply IH; [cbn; lia|lia|exact F'].
Qed.
Lemma lively_glue : forall st r g rest, cll (allow_mz st) r -> lively st (r :: g :: rest) ->
  consonants st <> CLUSTER \/ first_glue (y_hyphens st) r g rest = [c_n] \/ first_glue (y_hyphens st) r g rest = [c_r] \/ Exists (fun g => cr st g = 2) (r :: g :: rest).
Proof.
  intros st r g rest Hr H. destruct (cr_cases st r) as [E|[[_ E]|(E & Ec & Er)]]; [right; right; right; left; exact E|left; exact E|].
  destruct (yset_eqb (y_hyphens st) FORCE_Y) eqn:Ey.
  - right. right. right. apply H; [destruct (y_hyphens st); try discriminate; reflexivity|exact Ec].
  - unfold first_glue. rewrite Ey. destruct (cr_cases st g) as [E'|[[_ E']|(_ & _ & Eg)]]; [right; right; right; right; left; exact E'|left; exact E'|].
    destruct Er as [Er|Er], Eg as [Eg|Eg]; rewrite Er, Eg; destruct rest; change (tarmi_eqb CVV CCV) with false; change (tarmi_eqb CVhV CCV) with false; cbn [negb]; destruct (N.eqb _ _); auto.
Qed.
Theorem rules_whole : forall st rs, Forall (cll (allow_mz st)) rs -> 2 <= length rs -> short_before_last rs -> calm_end rs -> lively st rs ->
  exists ch d, tforms st (length rs) 0 rs ch /\ whole false st (length rs) ch d /\ c_word d = rule_word st rs.
Proof.
  intros st [|r [|g rest]] F L Hs Hc Hl; [cbn in L; lia|cbn in L; lia|]. destruct Hs as [Hs _]. inversion F as [|? ? Hr F']; subst.
  destruct (first_suf_fit _ r g rest Hr Hs) as (A & B & C & D). pose proof (first_all st r _ g rest F A B Hc) as H. cbv zeta in H. rewrite C in H.
  destruct H as (d & D1 & D2 & D3 & D4). exists ((r ++ first_suf (allow_mz st) r g rest, cr st r) :: canon st (g :: rest)), d. split; [|split; [|exact D4]].
  - split; [exists (first_suf (allow_mz st) r g rest); split; [exact D|reflexivity]|]. apply canon_tforms; [reflexivity|lia|exact F'].
  - split; [exact D1|]. split; [exact D2|]. split; [apply D3, lively_glue; assumption|]. rewrite D4.
    destruct (canon_vowel st (g :: rest)) as (s & v & E & V); [discriminate|exact Hc|]. exists v. split; [|exact V]. rewrite E, !app_assoc. apply last_opt_app.
Qed.
Theorem rules_cheapest : forall st rs ch c, Forall (cll (allow_mz st)) rs -> 2 <= length rs -> short_before_last rs -> calm_end rs -> lively st rs ->
  cheapest false st (length rs) (tforms st (length rs) 0 rs) ch c -> c_word c = rule_word st rs.
Proof.
  intros st rs ch c F L Hs Hc Hl H. destruct (rules_whole st rs F L Hs Hc Hl) as (ch0 & d & P0 & W0 & E0).
  destruct rs as [|r [|g rest]]; [cbn in L; lia|cbn in L; lia|]. destruct Hs as [Hs _]. inversion F as [|? ? Hr F']; subst. inversion F' as [|? ? Hg _]; subst.
  destruct (first_suf_fit _ r g rest Hr Hs) as (A & B & C & D). pose proof (first_all st r _ g rest F A B Hc) as Q. cbv zeta in Q. rewrite C in Q.
  destruct Q as (d' & D1 & D2 & D3 & D4). clear ch0 P0 W0 E0 d. change (rule_word st (r :: g :: rest)) with (r ++ first_suf (allow_mz st) r g rest ++ first_glue (y_hyphens st) r g rest ++ word_of (canon st (g :: rest))).
  rewrite <- D4.
  pose proof (h_in _ _ _ _ _ H) as P1. destruct ch as [|x1 T1]; [contradiction|].
  assert (E1 : T1 = canon st (g :: rest)) by (apply (tail_canon false st (length (r :: g :: rest)) (g :: rest) [r] [x1] T1 c); [exact F|reflexivity|discriminate|reflexivity|exact H]). subst T1.
  assert (P2 : tforms st (length (r :: g :: rest)) 0 (r :: g :: rest) ((r ++ first_suf (allow_mz st) r g rest, cr st r) :: canon st (g :: rest))).
  { split; [exists (first_suf (allow_mz st) r g rest); split; [exact D|reflexivity]|]. apply canon_tforms; [reflexivity|lia|exact F']. }
  assert (W2 : whole false st (length (r :: g :: rest)) ((r ++ first_suf (allow_mz st) r g rest, cr st r) :: canon st (g :: rest)) d').
  { split; [exact D1|]. split; [exact D2|]. split; [apply D3, lively_glue; assumption|]. rewrite D4.
    destruct (canon_vowel st (g :: rest)) as (s & v & E & V); [discriminate|exact Hc|]. exists v. split; [|exact V]. rewrite E, !app_assoc. apply last_opt_app. }
  pose proof (h_min _ _ _ _ _ H _ _ P2 W2) as Hm. destruct (h_whole _ _ _ _ _ H) as (C1 & _).
  pose proof (canon_calm st (g :: rest) F') as K. destruct (canon_head st g rest Hg) as (sg & BB & Ec & Hsg).
  pose proof (tforms_fine _ _ _ _ _ F P1) as F1. pose proof (tforms_fine _ _ _ _ _ F P2) as F2.
  destruct P1 as [(u & S1 & ->) _]. change (0 =? 0) with true in S1. change (0 =? length (r :: g :: rest) - 1) with false in S1.
  set (u0 := first_suf (allow_mz st) r g rest) in *.
  assert (Dc : u = u0 \/ (u0 = [] /\ u <> []) \/ (rafsi_tarmi r = CVC /\ u = [] /\ u0 = [c_y])).
  { pose proof (first_options _ _ S1) as O1. pose proof (first_options _ _ D) as O2. clear -O1 O2 Hs Hr. destruct (cll_tarmi_ne _ _ Hr) as [Ho Hh]. unfold long_shape in Hs. subst u0. unfold first_suf in *.
    destruct (rafsi_tarmi r); try discriminate; try contradiction; try (left; congruence); destruct O1 as [-> | ->]; auto; try (right; left; split; [reflexivity|discriminate]);
    destruct (_ && _); auto. right. left. split; [reflexivity|discriminate]. }
  destruct Dc as [->|[[E Nu]|(Er & -> & E)]].
  - rewrite (chain_det _ _ _ _ _ C1 _ D1). reflexivity.
  - rewrite E in *. rewrite Ec in C1, D1, K, F1, F2. rewrite app_nil_r in D1, F2.
    destruct (chain_tail _ _ _ _ _ _ _ F1 K C1) as (c1 & X1 & W1 & Z1 & I1).
    destruct (chain_tail _ _ _ _ _ _ _ F2 K D1) as (c2 & X2 & W2' & Z2 & I2).
    destruct (head_compare false st _ r u g sg (cr st g) c2 c1 Hr Hg Hsg S1 Nu D X2 X1) as [[Q _]|Q]; [rewrite W1, W2', Q; reflexivity|]. exfalso. clear -Q Z1 Z2 Hm. lia.
  - exfalso. assert (J : joins (allow_mz st) r g = true).
    { rewrite Ec in C1, F1, K. destruct (chain_tail _ _ _ _ _ _ _ F1 K C1) as (c1 & X1 & _). apply chain_two_inv in X1 as (t & _ & X1). cbn [fst snd] in X1. rewrite app_nil_r in X1.
      apply combine_word in X1 as (hy & i & _ & _ & _ & _ & _ & _ & _ & _ & _ & W10 & _ & W12 & _).
      destruct (cll_hd _ _ sg Hg) as (G1 & _ & _ & G4). rewrite G1 in W10. rewrite G4 in W12. apply joins_of; assumption. }
    assert (T : tosm (allow_mz st) r (g :: rest) = true).
    { subst u0. unfold first_suf in E. rewrite Er, J in E. cbn [andb] in E. destruct (tosm _ _ _); [reflexivity|discriminate]. }
    assert (A' : ([] : str) = [] /\ bare_shape r \/ ([] : str) = [c_y] /\ y_shape r) by (left; split; [reflexivity|left; exact Er]).
    assert (B' : suf_ok (allow_mz st) r g []) by (left; auto).
    pose proof (first_all st r [] g rest F A' B' Hc) as Q. cbv zeta in Q. unfold bare_cvc in Q. rewrite Er, T in Q. exact (Q _ C1).
Qed.

(** the word made from literal rafsi passes the slinku'i test *)
Theorem expected_passes : forall yh cs gl mz rs w sc ix, Forall (cll mz) rs -> expected_entry yh cs gl mz false rs = Ok (w, sc, ix) ->
  slinkuhi Bound yh mz w = Ok false.
Proof.
  intros yh cs gl mz rs w sc ix F He. unfold expected_entry in He. inv_bind He. rename x into rll. set (st := mkSettings yh false cs gl mz) in *.
  change (piece_forms (consonants st) (glides st) rs = Ok rll) in E.
  rewrite <- (rafsi_list_list_dashed (analyse_brivla Bound) (jvk Bound) st rs F) in E.
  destruct (best_word_construction _ _ _ _ _ _ _ _ E He) as (choice & cd & qs & K).
  assert (F' : Forall (smooth (allow_mz st)) qs).
  { pose proof (k_source _ _ _ _ _ _ _ _ _ _ K) as Hs. clear -Hs F. change mz with (allow_mz st) in F. revert qs Hs.
    induction F as [|r rs Hr F IH]; intros qs Hs; inversion Hs as [|? q ? qs' Hq Hs']; subst; constructor; [|apply IH; assumption].
    apply source_dashed in Hq as [<- Ht]; [|exact Hr]. left. split; [exact Hr|]. left. exact Ht. }
  destruct (chain_linked _ _ _ _ _ (k_chain _ _ _ _ _ _ _ _ _ _ K) (Nat.eq_le_incl _ _ (k_len _ _ _ _ _ _ _ _ _ _ K)) qs (k_pieces _ _ _ _ _ _ _ _ _ _ K))
    as (p & rest & -> & Hr & Hl & Esp).
  rewrite (k_word _ _ _ _ _ _ _ _ _ _ K) in Esp.
  assert (Hv : ends_vowel w).
  { destruct (k_end _ _ _ _ _ _ _ _ _ _ K) as (s & l & -> & Hl'). exists l. split; [apply last_opt_app|exact Hl']. }
  apply (onset_passes yh mz); [|exact Hv]. rewrite Esp in *. eapply spell_onset; [exact Hl|exact F'| |exact Hv].
  destruct (k_built _ _ _ _ _ _ _ _ _ _ K) as (w0 & r & t & B). destruct (b_last _ _ _ _ _ _ _ _ B) as (ps' & X & _).
  assert (last (map snd rest) p = (r, t, [])) as Z.
  { transitivity (last (p :: map snd rest) p); [destruct rest; [congruence|reflexivity]|]. unfold pc in *. rewrite X. apply last_last. }
  unfold pc in *. rewrite Z. reflexivity.
Qed.

(** the builder's word from literal rafsi is the one the rules prescribe *)
Theorem expected_rules : forall yh cs gl mz rs, let st := mkSettings yh false cs gl mz in
  Forall (cll mz) rs -> 2 <= length rs -> short_before_last rs -> calm_end rs -> lively st rs ->
  (Z.of_nat (length (rule_word st rs)) <= 10 ^ 96)%Z ->
  expected_word Bound yh cs gl mz false rs = Ok (rule_word st rs).
Proof.
  intros yh cs gl mz rs st F L Hs Hc Hl Hb. destruct (rules_whole st rs F L Hs Hc Hl) as (ch & d & P & W & Ew).
  assert (Hd : (c_score d < BEST_INIT)%Z).
  { pose proof (chain_score _ _ _ _ _ (proj1 W)) as S. rewrite Ew in S. unfold BEST_INIT. clear -S Hb. assert (10 ^ 100 = 10000 * 10 ^ 96)%Z by reflexivity. lia. }
  destruct (expected_exists _ st rs ch d eq_refl F P W Hd) as (w & sc & ix & E).
  destruct (expected_cheapest _ st rs w sc ix eq_refl F E) as (ch' & c & C & <- & _). cbn [y_hyphens consonants glides allow_mz st] in E.
  pose proof (rules_cheapest st rs ch' c F L Hs Hc Hl C) as R. unfold expected_word. rewrite E. cbn [bind]. rewrite (expected_passes _ _ _ _ _ _ _ _ F E). cbn [bind]. rewrite R. reflexivity.
Qed.
(** without the length bound: if it gives a word, it is that one *)
Theorem expected_rule : forall yh cs gl mz rs w sc ix, let st := mkSettings yh false cs gl mz in
  Forall (cll mz) rs -> 2 <= length rs -> short_before_last rs -> calm_end rs -> lively st rs ->
  expected_entry yh cs gl mz false rs = Ok (w, sc, ix) -> w = rule_word st rs.
Proof.
  intros yh cs gl mz rs w sc ix st F L Hs Hc Hl E. destruct (expected_cheapest _ st rs w sc ix eq_refl F E) as (ch' & c & C & <- & _).
  exact (rules_cheapest st rs ch' c F L Hs Hc Hl C).
Qed.

(** rafsi CVV and CV'V alone never make a cluster when 'y is forced *)
Definition quiet (x : str * nat) : Prop := snd x = 0 /\ (exists v, last_sound (fst x) = Ok v /\ is_consonant v = false) /\ exists s, first_sound (fst x) = Ok s.
Lemma glue_force : forall w r T gen n ll r0 hy, glue w r T gen n FORCE_Y ll r0 = Some hy -> hy = [] \/ hy = [c_y] \/ hy = [c_h; c_y].
Proof.
  intros w r T gen n ll r0 hy H. unfold glue in H. change (yset_eqb FORCE_Y FORCE_Y) with true in H. cbv zeta in H. repeat match type of H with context [if ?b then _ else _] => destruct b end; try discriminate; injection H as <-; auto.
Qed.
Lemma quiet_combine : forall w r sc ix tos gen n st c, y_hyphens st = FORCE_Y -> consonants st = CLUSTER -> quiet (r, 0) ->
  (exists v, last_sound w = Ok v /\ is_consonant v = false) -> combine w r 0 0 sc ix tos gen n st = Ok (Some c) ->
  c_cons c = 0 /\ exists v, last_sound (c_word c) = Ok v /\ is_consonant v = false.
Proof.
  intros w r sc ix tos gen n st c Ey Ec (_ & (v & Hv & Hv') & s & Hs) (l & Hl & Hl') H. cbn [fst] in *.
  apply combine_word in H as (hy & i & _ & _ & Ew & Eg & _ & _ & _ & _ & En & _). rewrite Ey in Eg. apply glue_force in Eg. split.
  - rewrite Ec in En. unfold next_consonants in En. assert (K : str_eqb hy [c_n] || str_eqb hy [c_r] = false) by (destruct Eg as [->|[->| ->]]; reflexivity). rewrite K in En.
    change (cset_eqb CLUSTER CLUSTER) with true in En. change (negb (0 =? 2)) with true in En. rewrite Hl, Hs in En. cbn [bind] in En. rewrite Hl' in En. cbn in En. congruence.
  - exists v. split; [|exact Hv']. rewrite Ew, app_assoc. apply last_sound_app. exact Hv.
Qed.
Lemma quiet_chain : forall gen st n ch c, chain gen st n ch c -> y_hyphens st = FORCE_Y -> consonants st = CLUSTER -> Forall quiet ch ->
  c_cons c = 0 /\ exists v, last_sound (c_word c) = Ok v /\ is_consonant v = false.
Proof.
  intros gen st n ch c C Ey Ec. induction C as [r0 n0 r1 n1 tos c H1 H2|l c r rc c' Hc IH H]; intros F.
  - inversion F as [|? ? Q0 F1]; subst. inversion F1 as [|? ? Q1 _]; subst. pose proof (proj1 Q0) as Z0. pose proof (proj1 Q1) as Z1. cbn [snd] in *. subst n0 n1.
    eapply quiet_combine; [exact Ey|exact Ec|exact Q1|exact (proj1 (proj2 Q0))|exact H2].
  - apply Forall_app in F as [F Fx]. inversion Fx as [|? ? Q1 _]; subst. destruct (IH F) as [I1 I2]. pose proof (proj1 Q1) as Z1. cbn [snd] in Z1. subst rc. rewrite I1 in H.
    eapply quiet_combine; [exact Ey|exact Ec|exact Q1|exact I2|exact H].
Qed.
Lemma tforms_quiet : forall st n rs i ch, consonants st = CLUSTER -> Forall (cll (allow_mz st)) rs -> ~ Exists (fun g => cr st g = 2) rs -> tforms st n i rs ch -> Forall quiet ch.
Proof.
  intros st n. induction rs as [|r rs IH]; intros i [|x ch] Ec F N T; try contradiction; [constructor|]. destruct T as [Tx T]. inversion F as [|? ? Hr F']; subst. constructor.
  - pose proof (tform_fine _ _ _ _ _ Hr Tx) as (_ & (v & s & F1 & F2) & _). destruct Tx as (suf & Hsuf & ->). cbn [fst] in *.
    destruct (cr_cases st r) as [E|[[_ E]|(E & _ & Er)]]; [exfalso; apply N; left; exact E|congruence|]. split; [exact E|]. split; [|exists s; exact F2].
    assert (Hh : forallb is_hy suf = true) by (inversion Hsuf; reflexivity). assert (Vr : is_vowel (last r 0%N) = true) by (apply vowel_end; tauto).
    destruct (cll_last _ _ Hr) as (s' & d & -> & _). rewrite last_last in Vr. exists d. cbn [fst]. split; [apply last_sound_hy; [exact Hh|apply not_hy; right; exact Vr]|apply v_f0; exact Vr].
  - apply (IH (S i)); [exact Ec|exact F'| |exact T]. intro X. apply N. right. exact X.
Qed.
Theorem expected_lively : forall yh cs gl mz rs w sc ix, let st := mkSettings yh false cs gl mz in
  Forall (cll mz) rs -> expected_entry yh cs gl mz false rs = Ok (w, sc, ix) -> lively st rs.
Proof.
  intros yh cs gl mz rs w sc ix st F E Ey Ec. destruct (expected_cheapest _ st rs w sc ix eq_refl F E) as (ch & c & C & _).
  assert (Dec : Exists (fun g => cr st g = 2) rs \/ ~ Exists (fun g => cr st g = 2) rs).
  { destruct (Exists_dec (fun g => cr st g = 2) rs) as [X|X]; [intro x; apply Nat.eq_dec|left; exact X|right; exact X]. }
  destruct Dec as [X|N]; [exact X|exfalso]. destruct (h_whole _ _ _ _ _ C) as (C1 & _ & C2 & _).
  destruct (quiet_chain _ _ _ _ _ C1 Ey Ec (tforms_quiet st _ _ _ _ Ec F N (h_in _ _ _ _ _ C))) as [Z _]. congruence.
Qed.
Lemma expected_calm : forall yh cs gl mz rs w sc ix, Forall (cll mz) rs -> 2 <= length rs -> expected_entry yh cs gl mz false rs = Ok (w, sc, ix) -> calm_end rs.
Proof.
  intros yh cs gl mz rs w sc ix F L E. set (st := mkSettings yh false cs gl mz) in *. destruct (expected_cheapest _ st rs w sc ix eq_refl F E) as (ch & c & C & _).
  destruct rs as [|r [|g rest]]; [cbn in L; lia|cbn in L; lia|]. pose proof (h_in _ _ _ _ _ C) as P. destruct ch as [|x T]; [contradiction|].
  assert (E1 : T = canon st (g :: rest)) by (apply (tail_canon false st (length (r :: g :: rest)) (g :: rest) [r] [x] T c); [exact F|reflexivity|discriminate|reflexivity|exact C]). subst T.
  destruct (h_whole _ _ _ _ _ C) as (C1 & _ & _ & l & El & Vl).
  assert (K : exists B, canon st (g :: rest) = B ++ [(last (r :: g :: rest) [], cr st (last (r :: g :: rest) []))]).
  { clear. revert g. induction rest as [|k rest IH]; intro g; [exists []; reflexivity|]. destruct (IH k) as [B EB]. rewrite canon_cons, EB. eexists (_ :: B). reflexivity. }
  destruct K as [B EB]. pose proof (tforms_fine st _ _ _ _ F P) as Ff. rewrite EB in *.
  change (x :: B ++ [(last (r :: g :: rest) [], cr st (last (r :: g :: rest) []))]) with ((x :: B) ++ [(last (r :: g :: rest) [], cr st (last (r :: g :: rest) []))]) in *.
  assert (Nx : x :: B <> []) by discriminate. pose proof (chain_word_last _ _ _ _ _ _ Nx Ff C1) as Q. cbn [fst] in Q. apply last_opt_some in El as [s Es]. rewrite Es, last_last in Q.
  assert (Hin : In (last (r :: g :: rest) []) (r :: g :: rest)) by (rewrite (app_removelast_last [] (l := r :: g :: rest)) at 2; [apply in_or_app; right; left; reflexivity|discriminate]).
  rewrite Forall_forall in F. destruct (cll_last _ _ (F _ Hin)) as (s' & d & Ed & _). rewrite Ed, last_last in Q. subst d. exists s', l. auto.
Qed.
