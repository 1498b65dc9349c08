(** Words built with zi'evla components: the whole word is read as the builder
    meant it. *)
From Verif Require Tosm Props10.
From Verif Require Import Str Data Tarmi Rafsi Core Api Lib Spec Shapes Decomp Basic Vowels Katna Dict Errs Builder Jvokaha Fuel Raises Inv Parts Clusters Zihevla Forms Chain Score Alt Lujvo Slinku Optimal Props1 Props2 Props3 Total Onset Pinned Found Props4 Props5 Props8 Props9 Joint Swap Unique Round Ext Ext2 Ext3.

(** ** A part that is a zi'evla *)
Lemma zi_start : forall st r, zi st r -> 4 <= length r /\ exists c s, r = c :: s /\ c <> c_h /\
  (is_vowel c = true -> is_glide r = false -> forall t : str, exists l s0 l', split_vowel_cluster (take_while is_vowel (r ++ t)) = Ok l /\ l = s0 :: l' /\ mems s0 FOLLOW_VOWEL_CLUSTERS = false).
Proof.
  intros st r Z. pose proof (z_check _ _ Z) as K. apply check_zihevla_iff in K as (L4 & syl & [T (u & v & FC & _)] & _). specialize (L4 eq_refl). split; [exact L4|].
  destruct r as [|c s]; [cbn in L4; lia|]. exists c, s. split; [reflexivity|]. apply zi_text_inv in T.
  destruct T as [(Hc & _)|[(Hv & r & w & l & syl' & Er & _ & Hr & El & Sl & _)|(_ & (x & z & X & _) & _)]]; [| |destruct x; discriminate].
  - apply is_consonant_spec in Hc. split; [intros ->; discriminate|]. intro X. exfalso. eapply vowel_not_consonant; eassumption.
  - apply is_vowel_spec in Hv. split; [intros ->; discriminate|]. intros _ G t. rewrite Er.
    destruct Hr as (Rn & Rf & Rw). destruct w as [|b w].
    { exfalso. rewrite app_nil_r in Er. destruct FC as (E & (a & b & t' & -> & Ha & _) & _). rewrite Er in E.
      rewrite E in Rf. apply Forall_app in Rf as [_ Rf]. apply Forall_inv in Rf. apply is_vowel_spec in Rf. apply is_consonant_spec in Ha. eapply vowel_not_consonant; eassumption. }
    assert (Tw : take_while is_vowel ((r ++ b :: w) ++ t) = r).
    { rewrite <- app_assoc. apply (run_while is_vowel vowel r ((b :: w) ++ t)); [intro; apply is_vowel_spec|]. split; [exact Rn|]. split; [exact Rf|].
      intros c' t' X. cbn in X. injection X as <- _. exact (Rw b w eq_refl). }
    rewrite Tw. exists l. pose proof Sl as (s0 & l' & E0 & Hn & _ & _). exists s0, l'. split; [apply split_vowel_cluster_spec; auto|]. split; [exact E0|].
    destruct Hn as [Hn|Hn]; [apply nucleus_not_glide, Hn|]. exfalso. destruct Hn as (g & n & Es & Hg & Hn).
    assert (Hx : exists y n', n = y :: n' /\ is_vowel y = true).
    { destruct Hn as [(y & -> & Hy)|D]; [exists y, []; split; [reflexivity|apply is_vowel_spec, Hy]|].
      destruct n as [|y [|z [|? ?]]]; try (unfold diphthong in D; cbn in D; repeat (destruct D as [D|D]; [discriminate|]); destruct D; fail).
      apply diphthong_vowels in D as [D _]. exists y, [z]. auto. }
    destruct Hx as (y & n' & En & Hy). assert (Sg : starts_with_glide (c :: s)).
    { exists g, y, (n' ++ concat l' ++ b :: w). split; [|split; [exact Hg|apply is_vowel_spec, Hy]]. rewrite Er, <- El, E0, Es, En. cbn [concat app]. rewrite <- !app_assoc. reflexivity. }
    apply glide_spec in Sg. congruence.
Qed.
Lemma zi_j2_err : forall st r, zi st r -> exists e, jvokaha_2 (y_hyphens st) (allow_mz st) r = Err e /\ (e = DecompositionError \/ e = InvalidClusterError \/ e = IndexError).
Proof.
  intros st r Z. destruct (jvokaha_2 (y_hyphens st) (allow_mz st) r) as [arr|e] eqn:E; [destruct (z_nocut _ _ Z _ E)|]. exists e. split; [reflexivity|].
  pose proof (errs_jvokaha_2 _ _ _ _ E) as K. cbn in K. assert (Nb : e <> NotBrivlaError).
  { intros ->. apply j2_notbrivla in E as (a & b & c & t & E & _). pose proof (z_letters _ _ Z) as F. rewrite E in F.
    do 4 apply Forall_inv_tail in F. apply Forall_inv in F. discriminate. }
  intuition congruence.
Qed.
Lemma zi_part : forall st (ys : list str) i a r t (la : bool) c0 s0, zi st r -> t = (if la then [] else [c_h]) ->
  (la = true -> S i = length ys) -> (la = false -> nth_error ys (S i) = Some (c0 :: s0)) ->
  exists a', analyse_part (analyse_brivla Bound) (jvk Bound) st false ys i (prefix_of (i =? 0) r ++ r ++ t) a = Ok a'
    /\ a_parts a' = add_hyphen (a_parts a) (nh_of i a ++ prefix_of (i =? 0) r) ++ [r] /\ a_hyphen a' = t /\ a_cluster a' = true.
Proof.
  intros st ys i a r t la c0 s0 Z Et Hla Hmid. destruct (zi_start _ _ Z) as (L4 & c & s & Er & Nh & Hs).
  destruct (z_end _ _ Z) as (u & l & El & Hl).
  assert (Tt : rafsi_tarmi (r ++ t) <> CVC).
  { rewrite Et. destruct la; [rewrite app_nil_r, El; apply tarmi_end_v, Hl|apply tarmi_end_h]. }
  assert (Eh : part_head i (prefix_of (i =? 0) r ++ r ++ t) (nh_of i a) = Ok (r ++ t, nh_of i a ++ prefix_of (i =? 0) r)).
  { unfold prefix_of. destruct (i =? 0) eqn:Ei.
    - cbn [app]. rewrite app_nil_r, Er. cbn [app part_head]. destruct (N.eqb c c_h) eqn:X; [apply N.eqb_eq in X; congruence|].
      apply Nat.eqb_eq in Ei. rewrite Ei. reflexivity.
    - assert (Hh : hd 0%N r = c) by (rewrite Er; reflexivity). rewrite Hh. destruct (is_vowel c) eqn:Hv; [destruct (is_glide r) eqn:G|]; cbn [andb negb].
      + cbn [app]. rewrite app_nil_r. assert (G' : is_glide (r ++ t) = true) by (rewrite Er in *; destruct s as [|d s]; [cbn in L4; lia|exact G]).
        rewrite Er in *. cbn [app part_head] in *. destruct (N.eqb c c_h) eqn:X; [apply N.eqb_eq in X; congruence|]. rewrite G'. cbn [negb]. rewrite andb_false_r. reflexivity.
      + destruct (Hs eq_refl eq_refl t) as (sy & sy0 & sy' & S1 & S2 & S3). cbn [app part_head]. rewrite N.eqb_refl.
        assert (Er' : r ++ t = c :: (s ++ t)) by (rewrite Er; reflexivity). rewrite Er' in *. rewrite Hv. cbn [negb]. rewrite S1. cbn [bind]. rewrite S2. unfold idxl. cbn [nth_error bind]. rewrite S3. reflexivity.
      + cbn [app]. rewrite app_nil_r, Er. cbn [app part_head]. destruct (N.eqb c c_h) eqn:X; [apply N.eqb_eq in X; congruence|]. rewrite Hv. rewrite andb_false_r. reflexivity. }
  set (cl := if a_break a && (is_consonant c || (glides st && is_glide (r ++ t))) then true else a_cluster a).
  assert (Ht : exists req, part_tail st false ys i (r ++ t) cl = Ok (mkP r r t true req false)).
  { destruct la; rewrite Et.
    - rewrite app_nil_r, El. eexists. apply tail_last; auto.
    - destruct (tail_fwd st ys i r [c_h] false cl c0 s0) as (req & X & _); [rewrite El; constructor; exact Hl|exact (Hmid eq_refl)|]. exists req. exact X. }
  destruct Ht as (req & Ht).
  assert (Hk : kaha_test st ((r ++ t) ++ [c_a]) = Ok tt).
  { apply kaha_test_ok.
    - apply Forall_app. split; [apply Forall_app; split; [apply z_letters in Z; exact Z|rewrite Et; destruct la; repeat constructor]|repeat constructor].
    - rewrite Et. destruct la; [right; left; exists u, l; rewrite app_nil_r, El, <- app_assoc; auto|left; exists r; rewrite <- app_assoc; reflexivity]. }
  destruct (zi_j2_err _ _ Z) as (e & Ej & He).
  assert (Kh : part_kaha (analyse_brivla Bound) st ((r ++ t) ++ [c_a]) (mkP r r t true req false) (a_cons a) cl = Ok (false, [], a_cons a, cl)).
  { unfold part_kaha. fold (kaha_test st ((r ++ t) ++ [c_a])). rewrite Hk. cbn [bind p_copy p_part]. rewrite Ej. cbn [count_found]. rewrite (z_other _ _ Z).
    destruct He as [->|[->| ->]]; reflexivity. }
  assert (Kz : check_zihevla_or_rafsi (analyse_brivla Bound) (jvk Bound) (req || negb (exp_rafsi_shapes st)) (y_hyphens st) (exp_rafsi_shapes st) (allow_mz st) r = Ok ZIhEVLA).
  { destruct (req || negb (exp_rafsi_shapes st)); [exact (z_check _ _ Z)|]. pose proof (z_check _ _ Z) as K. apply check_zihevla_iff in K as (_ & syl & K1 & K2 & K3).
    apply check_zihevla_iff. split; [discriminate|]. exists syl. split; [exact K1|]. split; [|exact K3]. intros _. apply K2. left. reflexivity. }
  unfold analyse_part. fold (nh_of i a). rewrite Eh. cbn [bind]. fold (add_hyphen (a_parts a) (nh_of i a ++ prefix_of (i =? 0) r)).
  destruct (tarmi_eqb (rafsi_tarmi (r ++ t)) CVC) eqn:T; [apply tarmi_eqb_eq in T; contradiction|].
  assert (Ei : idx (r ++ t) 0 = Ok c) by (rewrite Er; reflexivity). assert (Ei' : idx r 0 = Ok c) by (rewrite Er; reflexivity).
  rewrite Ei. cbn [bind]. fold cl. rewrite Ht. cbn [bind p_can]. rewrite Kh. cbn [bind p_req p_part p_adda p_copy p_hyphen]. rewrite Kz. cbn [bind wtype_eqb andb]. rewrite Ei'. cbn [bind].
  eexists. split; [reflexivity|]. cbn [a_parts a_hyphen a_cluster]. auto.
Qed.

(** ** All parts *)
Lemma part_ok_text : forall st fi la x, part_ok st fi la x -> exists c s, part_text x = c :: s /\ (fst (fst x) = [c_h] -> c = c_h).
Proof.
  intros st fi la x H. destruct H as [r t Z Et|ps t adda C _ _]; unfold part_text; cbn [fst snd].
  - destruct (zi_start _ _ Z) as (_ & c & s & -> & _). unfold prefix_of. destruct fi; [do 2 eexists; split; [reflexivity|discriminate]|].
    destruct (_ && _); do 2 eexists; (split; [reflexivity|]); [reflexivity|discriminate].
  - destruct ps as [|f0 r] eqn:E; [exfalso; exact (crun_ne _ _ _ C eq_refl)|]. destruct (crun_valid _ _ _ _ _ C eq_refl) as (_ & c & d & x & -> & _).
    do 2 eexists. split; [reflexivity|discriminate].
Qed.
Lemma zi_not_crun : forall st fi r, zi st r -> ~ crun st fi [r].
Proof.
  intros st fi r Z C. apply (z_nocut _ _ Z [r]). apply jvokaha_2_spec. split; [cbn; apply app_nil_r|exact (crun_cut _ _ _ C)].
Qed.
Definition zi_part_in (st : settings) (x : part) : Prop := exists r, zi st r /\ snd (fst x) = [r].
Lemma good_head : forall st fi x more, good_parts st fi (x :: more) -> part_ok st fi (match more with [] => true | _ => false end) x
  /\ match more with [] => True | y :: _ => std_ok st fi x (fst (fst y)) /\ good_parts st false more end.
Proof. intros st fi x [|y more] H; cbn [good_parts] in H; [auto|]. destruct H as (H1 & H2 & H3). auto. Qed.
Lemma loop_reads : forall st xs i a (pre ys : list str), good_parts st (i =? 0) xs -> ys = pre ++ map part_text xs -> length pre = i ->
  (i = 0 -> 2 <= length xs /\ forall l ps t more, xs = (l, ps, t) :: more -> crun st true ps -> exists p0 P, opening st ps p0 P) ->
  (y_hyphens st = STANDARD -> i <> 0 -> a_cluster a = true \/ a_break a = true \/ forall x more, xs = x :: more -> fst (fst x) = [c_h]) ->
  exists a', analyse_loop (analyse_brivla Bound) (jvk Bound) st false ys i (map part_text xs) a = Ok a'
    /\ a_parts a' = rejoin (a_parts a) (a_hyphen a) (i =? 0) xs
    /\ (a_cluster a = true -> a_cluster a' = true) /\ (Exists (zi_part_in st) xs -> a_cluster a' = true).
Proof.
  intros st. induction xs as [|x more IH]; intros i a pre ys G Ey Lp Ho Hs; [destruct G|].
  apply good_head in G as [Px G]. set (la := match more with [] => true | _ => false end) in *.
  assert (Hl : la = true -> S i = length ys).
  { intro X. destruct more; [|discriminate]. rewrite Ey, app_length, Lp. cbn. lia. }
  assert (Hn : la = false -> exists y rest c0 s0, more = y :: rest /\ nth_error ys (S i) = Some (c0 :: s0) /\ (fst (fst y) = [c_h] -> c0 = c_h)
              /\ (fst (fst y) = [] -> c0 <> c_h)).
  { intro X. destruct more as [|y rest]; [discriminate|]. destruct G as [_ G]. apply good_head in G as [Py _]. destruct (part_ok_text _ _ _ _ Py) as (c0 & s0 & E & Hc).
    exists y, rest, c0, s0. split; [reflexivity|]. split; [|split; [exact Hc|]].
    - rewrite Ey, nth_error_app2 by lia. replace (S i - length pre) with 1 by lia. cbn. rewrite E. reflexivity.
    - intro Y. unfold part_text in E. rewrite Y in E. inversion Py as [r t Z Et E'|ps t adda C _ _ E']; subst y; cbn [fst snd] in *.
      + destruct (zi_start _ _ Z) as (_ & c & s & -> & N0 & _). cbn in E. injection E as -> _. exact N0.
      + destruct ps as [|f0 r] eqn:Ep; [exfalso; exact (crun_ne _ _ _ C eq_refl)|]. destruct (crun_valid _ _ _ _ _ C eq_refl) as (_ & c & d & z & Ec & Hc0).
        rewrite Ec in E. cbn in E. injection E as -> _. intros ->. discriminate. }
  (* one part *)
  assert (One : exists a1, analyse_part (analyse_brivla Bound) (jvk Bound) st false ys i (part_text x) a = Ok a1
     /\ a_parts a1 = add_hyphen (a_parts a) (nh_of i a ++ fst (fst x)) ++ snd (fst x) /\ a_hyphen a1 = snd x
     /\ (a_cluster a = true -> a_cluster a1 = true) /\ (zi_part_in st x -> a_cluster a1 = true)
     /\ (y_hyphens st = STANDARD -> la = false -> a_cluster a1 = true \/ a_break a1 = true \/ forall y rest, more = y :: rest -> fst (fst y) = [c_h])).
  { assert (Hc : exists c0 s0, (la = false -> nth_error ys (S i) = Some (c0 :: s0)) /\ (la = false -> forall y rest, more = y :: rest -> (fst (fst y) = [c_h] <-> c0 = c_h))).
    { destruct la; [exists 0%N, []; split; discriminate|]. destruct (Hn eq_refl) as (y & rest & c0 & s0 & E1 & E2 & E3 & E4). exists c0, s0. split; [auto|]. intros _ y' rest' X.
      rewrite E1 in X. injection X as <- <-. split; [exact E3|]. intros ->. rewrite E1 in G. destruct G as [_ G]. apply good_head in G as [Py _].
      inversion Py as [r t Z Et E'|ps t adda C _ _ E']; subst y; cbn [fst snd] in *; [|exfalso; apply E4; reflexivity].
      unfold prefix_of in *. destruct (_ && _); [reflexivity|exfalso; apply E4; reflexivity]. }
    destruct Hc as (c0 & s0 & Hc1 & Hc2). inversion Px as [r t Z Et E'|ps t adda C H1 H2 E']; subst x; unfold part_text; cbn [fst snd] in *.
    - cbn [concat]. rewrite app_nil_r. destruct (zi_part st ys i a r t la c0 s0 Z Et Hl Hc1) as (a1 & A1 & A2 & A3 & A4). exists a1. rewrite A4. repeat split; auto.
    - cbn [app]. destruct (cll_part st ys i a ps t adda la c0 s0 C) as (a1 & A1 & A2 & A3 & A4 & A5).
      + intro X. destruct (H1 X) as [-> X2]. auto.
      + intro X. auto.
      + intros Hi. destruct (Ho Hi) as [L2 Op]. split; [subst la; destruct more; [cbn in L2; lia|reflexivity]|]. rewrite Hi in C. exact (Op _ _ _ _ eq_refl C).
      + intros Y Hi. destruct (Hs Y Hi) as [X|[X|X]]; auto. specialize (X _ _ eq_refl). discriminate.
      + intros Y Hi p0 E K. destruct (Ho Hi) as [L2 _]. destruct more as [|y rest]; [cbn in L2; lia|]. destruct G as [Gs _].
        apply (proj1 (Hc2 eq_refl y rest eq_refl)). rewrite Hi in Gs. exact (Gs eq_refl Y p0 E K).
      + exists a1. rewrite app_nil_r. repeat split; auto.
        * intros (r & Z & E). exfalso. cbn [fst snd] in E. rewrite E in C. exact (zi_not_crun _ _ _ Z C).
        * intros Y X. destruct (A5 Y X) as [B|[B|B]]; auto. right. right. intros y rest E. apply (proj2 (Hc2 X y rest E)), B. }
  destruct One as (a1 & A1 & A2 & A3 & A4 & A5 & A6). cbn [map analyse_loop]. rewrite A1. cbn [bind].
  destruct more as [|y rest].
  - cbn [map analyse_loop]. exists a1. split; [reflexivity|]. split; [|split; [exact A4|]].
    + destruct x as [[l ps] t]. cbn [rejoin fst snd] in *. exact A2.
    + intro X. apply A5. inversion X as [? ? X' |? ? X' ]; subst; [exact X'|inversion X'].
  - destruct G as [_ G]. destruct (IH (S i) a1 (pre ++ [part_text x]) ys) as (a' & B1 & B2 & B3 & B4).
    + exact G.
    + rewrite Ey. cbn [map]. rewrite <- app_assoc. reflexivity.
    + rewrite app_length. cbn. lia.
    + discriminate.
    + intros Y _. destruct (A6 Y eq_refl) as [X|[X|X]]; auto.
    + exists a'. split; [exact B1|]. split; [|split].
      * rewrite B2, A2, A3. destruct x as [[l ps] t]. reflexivity.
      * auto.
      * intro X. inversion X as [? ? X' |? ? X' ]; subst; [apply B3, A5, X'|apply B4, X'].
Qed.

(** ** A word with a zi'evla between y's has no cut into CLL rafsi *)
Inductive bit (mz : bool) : str -> Prop :=
| bit_cll p : cll mz p -> bit mz p
| bit_y : bit mz [c_y]
| bit_hy : bit mz [c_h; c_y]
| bit_rn h : h = c_r \/ h = c_n -> bit mz [h].
Lemma cut_bits : forall rn hy mz ps prev, cut rn hy mz prev ps -> Forall (bit mz) ps.
Proof.
  induction ps as [|p ps IH]; intros prev H; [constructor|]. destruct H as [H1 H2]. constructor; [|eapply IH; exact H2].
  destruct H1 as [(s & Hs & _)|(q & _ & _ & Hq)]; [apply bit_cll; exists s; exact Hs|].
  destruct Hq as [->|[[_ ->]|[_ [_ [[-> _]|[-> _]]]]]]; [apply bit_y|apply bit_hy|apply (bit_rn mz c_n); auto|apply (bit_rn mz c_r); auto].
Qed.
Lemma cll_tail : forall mz p, cll mz p -> exists s l, p = s ++ [l] /\ (is_vowel l = true \/ is_consonant l = true).
Proof.
  intros mz p (sh & C). inversion C; subst; bfacts.
  - exists [c1; v], c2; auto.
  - exists [c; v1], v2; auto.
  - exists [c; v1; apostrophe], v2; auto.
  - exists [c1; c2], v; auto.
  - exists [c1; v; c2], c3; auto.
  - exists [c1; c2; v], c3; auto.
  - exists [c1; v; c2; c3], v'; auto.
  - exists [c1; c2; v; c3], v'; auto.
Qed.
Lemma list_snoc_or_nil : forall t : str, t = [] \/ exists t' z, t = t' ++ [z].
Proof. intro t. destruct t as [|z t' _] using rev_ind; [auto|right; eauto]. Qed.
Lemma bit_noy : forall mz p, bit mz p -> p = [c_y] \/ p = [c_h; c_y] \/ (~ In c_y p /\ p <> [] /\ forall s, p <> s ++ [c_h]).
Proof.
  intros mz p H. destruct H as [p C| | |h Hh]; auto; right; right.
  - split; [|split].
    + intro X. pose proof (cll_lojban _ _ C) as F. rewrite Forall_forall in F. specialize (F _ X). discriminate.
    + intros ->. apply cll_len in C. cbn in C. lia.
    + intros s E. destruct (cll_tail _ _ C) as (s' & l & E' & Hl). rewrite E' in E. apply snoc_inj in E as [_ ->]. destruct Hl; discriminate.
  - destruct Hh as [-> | ->]; (split; [intros [X|[]]; discriminate|split; [discriminate|]]); intros [|? [|? ?]] E; discriminate.
Qed.
Lemma cut_skip : forall rn hy mz qs h rest prev, cut rn hy mz prev (qs ++ h :: rest) -> cut rn hy mz (Some h) rest.
Proof. induction qs as [|q qs IH]; intros h rest prev H; [exact (proj2 H)|]. destruct H as [_ H]. eapply IH, H. Qed.
Lemma prefix_noy : forall (p u X B : str), p ++ u = X ++ B -> ~ In c_y p -> (B = [] \/ exists B', B = c_y :: B') -> exists X', X = p ++ X' /\ u = X' ++ B.
Proof.
  induction p as [|c p IH]; intros u X B E Hn HB; [exists X; auto|]. destruct X as [|x X].
  - exfalso. cbn in E. destruct HB as [->|(B' & ->)]; [discriminate|]. injection E as -> _. apply Hn. left. reflexivity.
  - cbn in E. injection E as <- E. destruct (IH u X B E) as (X' & -> & ->); [intro Y; apply Hn; right; exact Y|exact HB|]. exists X'. auto.
Qed.
Lemma seg_after : forall mz ps (A Z : str), Forall (bit mz) ps -> concat ps = A ++ c_y :: Z -> exists qs h rest, ps = qs ++ h :: rest /\ (h = [c_y] \/ h = [c_h; c_y]) /\ concat rest = Z.
Proof.
  induction ps as [|p ps IH]; intros A Z F E; [destruct A; discriminate|]. pose proof (Forall_inv F) as Fp. apply Forall_inv_tail in F. cbn [concat] in E.
  assert (Go : forall A', concat ps = A' ++ c_y :: Z -> exists qs h rest, p :: ps = qs ++ h :: rest /\ (h = [c_y] \/ h = [c_h; c_y]) /\ concat rest = Z).
  { intros A' E'. destruct (IH A' Z F E') as (qs & h & rest & -> & Hh & Er). exists (p :: qs), h, rest. auto. }
  apply bit_noy in Fp as [->|[->|(Hn & _)]].
  - destruct A as [|a A]; cbn in E; injection E; intros; subst; [|eauto]. exists [], [c_y], ps. auto.
  - destruct A as [|a [|b A]]; [discriminate E| |]; cbn in E.
    + injection E as _ E. exists [], [c_h; c_y], ps. auto.
    + injection E as _ _ E. eauto.
  - destruct (prefix_noy p (concat ps) A (c_y :: Z) E Hn) as (A' & _ & E'); [right; eauto|]. exact (Go A' E').
Qed.
Lemma seg_upto : forall mz ps (X B : str), Forall (bit mz) ps -> concat ps = X ++ B -> ~ In c_y X -> (B = [] \/ exists B', B = c_y :: B') ->
  exists qs rest, ps = qs ++ rest /\ Forall (fun p => ~ In c_y p) qs /\ (concat qs = X \/ X = concat qs ++ [c_h]) .
Proof.
  induction ps as [|p ps IH]; intros X B F E Hx HB; [exists [], []; split; [reflexivity|]; split; [constructor|]; left; destruct X; [reflexivity|discriminate]|].
  pose proof (Forall_inv F) as Fp. apply Forall_inv_tail in F. cbn [concat] in E. apply bit_noy in Fp as [->|[->|(Hn & _)]].
  - destruct X as [|x X]; [exists [], ([c_y] :: ps); split; [reflexivity|split; [constructor|left; reflexivity]]|]. exfalso. cbn in E. injection E as <- _. apply Hx. left. reflexivity.
  - destruct X as [|x [|x' X]].
    + exists [], ([c_h; c_y] :: ps). split; [reflexivity|split; [constructor|left; reflexivity]].
    + cbn in E. injection E as <- _. exists [], ([c_h; c_y] :: ps). split; [reflexivity|split; [constructor|right; reflexivity]].
    + exfalso. cbn in E. injection E as _ <- _. apply Hx. right. left. reflexivity.
  - destruct (prefix_noy p (concat ps) X B E Hn HB) as (X' & -> & E'). destruct (IH X' B F E') as (qs & rest & -> & Fq & D); [intro Y; apply Hx; apply in_or_app; auto|exact HB|].
    exists (p :: qs), rest. split; [reflexivity|]. split; [constructor; assumption|]. cbn [concat]. destruct D as [<-| ->]; [left; reflexivity|right; apply app_assoc].
Qed.
Lemma cut_trunc : forall rn hy mz rest qs prev, cut rn hy mz prev (qs ++ rest) -> (exists s l, concat qs = s ++ [l] /\ is_vowel l = true) -> cut rn hy mz prev qs.
Proof.
  intros rn hy mz rest. induction qs as [|p qs IH]; intros prev H (s & l & E & Hl); [exact I|]. cbn [app] in H. destruct H as [H1 H2].
  assert (Hq : qs = [] \/ exists c t, concat qs = c :: t /\ concat (qs ++ rest) = c :: t ++ concat rest).
  { destruct qs as [|q qs]; [auto|right]. pose proof (cut_nonnil _ _ _ _ _ _ H2) as N0. destruct q as [|c q]; [congruence|]. do 2 eexists. split; [reflexivity|]. rewrite concat_app. reflexivity. }
  assert (Hc : cut rn hy mz (Some p) qs).
  { destruct qs as [|q qs]; [exact I|]. apply IH; [exact H2|]. cbn [concat] in E |- *. destruct Hq as [X|(c & t & Ec & _)]; [discriminate|]. cbn [concat] in Ec. rewrite Ec in E |- *.
    destruct (list_snoc_or_nil t) as [->|(t' & z & ->)].
    - exists [], c. split; [reflexivity|]. apply snoc_inj in E as [_ ->]. exact Hl.
    - exists (c :: t'), z. split; [reflexivity|]. rewrite app_comm_cons, app_assoc in E. apply snoc_inj in E as [_ ->]. exact Hl. }
  split; [|exact Hc]. destruct H1 as [(sh & Hs & Hp)|(q & Eq & Lq & Hq')].
  - left. exists sh. split; [exact Hs|]. inversion Hs; subst sh p; auto.
    + intros a b c X. destruct (Hp a b c X) as [P1 P2]. destruct Hq as [->|(c' & t & Ec & Ec')]; [split; intros; discriminate|]. split.
      * intros x t' Ex Hx. rewrite Ec in Ex. injection Ex as -> ->. eapply P1; [exact Ec'|exact Hx].
      * intros x d t' Ex. rewrite Ec in Ex. injection Ex as -> ->. eapply P2. exact Ec'.
    + intros Hf t X. subst qs. eapply (Hp Hf). reflexivity.
    + destruct Hp as [X|(t & X)]; [left; destruct qs; [reflexivity|discriminate]|]. destruct qs; [left; reflexivity|]. injection X as -> _. right. eauto.
    + destruct Hp as [X|(t & X)]; [left; destruct qs; [reflexivity|discriminate]|]. destruct qs; [left; reflexivity|]. injection X as -> _. right. eauto.
    + destruct qs; [reflexivity|discriminate].
    + destruct qs; [reflexivity|discriminate].
  - right. exists q. split; [exact Eq|]. split; [exact Lq|]. destruct Hq' as [->|[X|(X1 & X2 & X3)]]; auto. right. right. split; [exact X1|]. split; [exact X2|].
    destruct Hq as [->|(c' & t & Ec & Ec')].
    { exfalso. cbn [concat] in E. rewrite app_nil_r in E. destruct X3 as [[-> _]|[-> _]]; destruct s as [|? [|? ?]]; try discriminate E; injection E as <-; discriminate. }
    rewrite Ec' in X3. rewrite Ec. destruct X3 as [[-> (z & Y)]|(-> & x & z & Y & Y1 & Y2)]; [left|right]; (split; [reflexivity|]).
    + injection Y as -> _. exists t. reflexivity.
    + injection Y as -> _. exists x, t. auto.
Qed.
Lemma cut_restart : forall rn hy mz qs h, cut rn hy mz (Some h) qs -> h = [c_y] \/ h = [c_h; c_y] -> Forall (fun p => ~ In c_y p) qs -> cut rn hy mz None qs.
Proof.
  intros rn hy mz qs h H Hh F. destruct qs as [|p qs]; [exact I|]. destruct H as [H1 H2]. split; [|exact H2]. left.
  destruct H1 as [(sh & Hs & Hp)|(q & Eq & Lq & Hq)].
  - exists sh. split; [exact Hs|]. inversion Hs; subst sh p; auto. intros _ t ->. apply Forall_inv_tail, Forall_inv in F. apply F. right. left. reflexivity.
  - exfalso. injection Eq as <-. destruct Hh as [-> | ->]; [apply Lq; reflexivity|]. apply Forall_inv in F. destruct Hq as [->|[[_ ->]|(_ & Hq & _)]].
    + apply F. left. reflexivity.
    + apply F. right. left. reflexivity.
    + destruct Hq as [X|X]; [change (shaped (shape_pat CVV) [c_h; c_y]) in X|change (shaped (shape_pat CVhV) [c_h; c_y]) in X]; apply shaped_rafsi_tarmi in X; try discriminate.
Qed.
Lemma zi_noy : forall st r, zi st r -> ~ In c_y r.
Proof. intros st r Z X. pose proof (z_letters _ _ Z) as F. rewrite Forall_forall in F. specialize (F _ X). discriminate. Qed.
Lemma zi_blocks : forall st r ps (A lead t B : str), zi st r -> cut (rn_ok (y_hyphens st)) (hy_ok (y_hyphens st)) (allow_mz st) None ps ->
  concat ps = A ++ lead ++ r ++ t ++ B -> (A = [] /\ lead = []) \/ (exists A', A = A' ++ [c_y]) -> lead = [] \/ lead = [c_h] ->
  (t = [] /\ B = []) \/ (t = [c_h] /\ exists B', B = c_y :: B') -> False.
Proof.
  intros st r ps A lead t B Z C E HA Hlead Ht. set (rn := rn_ok (y_hyphens st)) in *. set (hy := hy_ok (y_hyphens st)) in *. set (mz := allow_mz st) in *.
  destruct (zi_start _ _ Z) as (L4 & c & s & Er & Nh & _). pose proof (zi_noy _ _ Z) as Ny. destruct (z_end _ _ Z) as (u & l & El & Hl).
  assert (Nlh : forall x, r <> x ++ [c_h]) by (intros x X; rewrite El in X; apply snoc_inj in X as [_ ->]; discriminate).
  (* the pieces from the start of the zi'evla on *)
  assert (Q : exists rest, (cut rn hy mz None rest \/ exists h, (h = [c_y] \/ h = [c_h; c_y]) /\ cut rn hy mz (Some h) rest) /\ concat rest = lead ++ r ++ t ++ B /\ (lead = [] \/ exists h, cut rn hy mz (Some h) rest)).
  { destruct HA as [[-> ->]|(A' & ->)]; [exists ps; auto|]. rewrite <- app_assoc in E. destruct (seg_after mz ps A' _ (cut_bits _ _ _ _ _ C) E) as (qs & h & rest & -> & Hh & Ec).
    exists rest. pose proof (cut_skip _ _ _ _ _ _ _ C) as C'. split; [right; exists h; auto|]. split; [exact Ec|]. right. exists h. exact C'. }
  destruct Q as (rest & Cr & Ec & Hl2).
  assert (Bt : Forall (bit mz) rest) by (destruct Cr as [X|(h & _ & X)]; eapply cut_bits, X).
  assert (lead = []) as ->.
  { destruct Hlead as [->| ->]; [reflexivity|exfalso]. destruct rest as [|p rest]; [discriminate|]. apply Forall_inv in Bt. rewrite Er in Ec. cbn [concat app] in Ec.
    destruct Bt as [p K| | |h Hh].
    - destruct (cll_first _ _ K) as (a & b & d & x & -> & Ha & _). injection Ec as -> _. discriminate.
    - discriminate.
    - injection Ec as <- _. apply Ny. rewrite Er. left. reflexivity.
    - destruct Hh as [-> | ->]; discriminate. }
  cbn [app] in Ec.
  assert (X : exists qs rest', rest = qs ++ rest' /\ Forall (fun p => ~ In c_y p) qs /\ concat qs = r).
  { destruct Ht as [[-> ->]|(-> & B' & ->)].
    - rewrite !app_nil_r in Ec. destruct (seg_upto mz rest r [] Bt) as (qs & rest' & E1 & E2 & [E3|E3]); [rewrite app_nil_r; exact Ec|exact Ny|auto| |exfalso; exact (Nlh _ E3)].
      exists qs, rest'. auto.
    - rewrite app_assoc in Ec. destruct (seg_upto mz rest (r ++ [c_h]) (c_y :: B') Bt Ec) as (qs & rest' & E1 & E2 & [E3|E3]).
      + intro X. apply in_app_or in X as [X|[X|[]]]; [exact (Ny X)|discriminate].
      + right. eauto.
      + exfalso. rewrite E1 in Bt. apply Forall_app in Bt as [Bq _]. clear -E3 Bq E2. revert E3 Bq E2. destruct qs as [|p qs _] using rev_ind; intros E3 Bq E2; [destruct r; discriminate|].
        apply Forall_app in Bq as [_ Bq]. apply Forall_inv in Bq. apply Forall_app in E2 as [_ E2]. apply Forall_inv in E2. rewrite concat_app in E3. cbn [concat] in E3. rewrite app_nil_r in E3.
        apply bit_noy in Bq as [->|[->|(_ & Np & Nq)]]; [apply E2; left; reflexivity|apply E2; right; left; reflexivity|].
        destruct (list_snoc_or_nil p) as [->|(p' & z & ->)]; [congruence|]. rewrite app_assoc in E3. apply snoc_inj in E3 as [_ ->]. exact (Nq p' eq_refl).
      + apply snoc_inj in E3 as [E3 _]. exists qs, rest'. auto. }
  destruct X as (qs & rest' & -> & Fq & Eq). apply (z_nocut _ _ Z qs). apply jvokaha_2_spec. split; [exact Eq|]. fold rn hy mz.
  assert (En : exists x z, concat qs = x ++ [z] /\ is_vowel z = true) by (exists u, l; split; [congruence|exact Hl]).
  destruct Cr as [K|(h & Hh & K)]; [eapply cut_trunc; eassumption|]. eapply cut_restart; [eapply cut_trunc; eassumption|exact Hh|exact Fq].
Qed.

(** ** The whole word *)
Lemma parts_pieces : forall rest lead p q, In q (p :: map snd rest) -> exists x, In x (parts_of lead p rest) /\ In (p_r q) (snd (fst x)).
Proof.
  induction rest as [|[g q0] r IH]; intros lead p q H; cbn [parts_of].
  - destruct H as [<-|[]]. eexists. split; [left; reflexivity|]. left. reflexivity.
  - cbn [map snd] in H. destruct (split_y (gap_of p g q0)) as [[t l]|].
    + destruct H as [<-|H]; [eexists; split; [left; reflexivity|left; reflexivity]|]. destruct (IH l q0 q H) as (x & Hx & Hi). exists x. split; [right; exact Hx|exact Hi].
    + destruct (parts_head r [] q0) as (ps & t & more & E). rewrite E. destruct H as [<-|H]; [eexists; split; [left; reflexivity|left; reflexivity]|].
      destruct (IH [] q0 q H) as (x & Hx & Hi). rewrite E in Hx. destruct Hx as [<-|Hx].
      * eexists. split; [left; reflexivity|]. cbn [fst snd] in *. right. apply in_or_app. right. exact Hi.
      * exists x. split; [right; exact Hx|exact Hi].
Qed.
Lemma good_all : forall st fi xs x, good_parts st fi xs -> In x xs -> exists fi' la, part_ok st fi' la x.
Proof.
  intros st fi xs. revert fi. induction xs as [|y more IH]; intros fi x G H; [destruct H|]. apply good_head in G as [P G].
  destruct H as [<-|H]; [eauto|]. destruct more as [|z more]; [destruct H|]. destruct G as [_ G]. eapply IH; eassumption.
Qed.
Lemma zi_not_cll : forall st r, zi st r -> ~ cll (allow_mz st) r.
Proof. intros st r Z C. destruct (cll_tarmi_ne _ _ C) as [C1 _]. apply C1, (z_other _ _ Z). Qed.
Lemma crun_in : forall st fi ps r, crun st fi ps -> In r ps -> cll (allow_mz st) r \/ length r = 1.
Proof.
  intros st fi ps r [R|(_ & _ & p0 & h & P & -> & C & _ & R & _)] H.
  - left. pose proof (run_cll _ _ R) as F. rewrite Forall_forall in F. exact (F _ H).
  - destruct H as [<-|[<-|H]]; [left; exact C|right; reflexivity|]. left. pose proof (run_cll _ _ R) as F. rewrite Forall_forall in F. exact (F _ H).
Qed.
Lemma zi_found : forall st fi lead p rest q, good_parts st fi (parts_of lead p rest) -> In q (p :: map snd rest) -> zi st (p_r q) -> Exists (zi_part_in st) (parts_of lead p rest).
Proof.
  intros st fi lead p rest q G Hq Z. destruct (parts_pieces rest lead p q Hq) as (x & Hx & Hi). apply Exists_exists. exists x. split; [exact Hx|].
  destruct (good_all _ _ _ _ G Hx) as (fi' & la & P). inversion P as [r t Z' Et E|ps t adda C _ _ E]; subst x; cbn [fst snd] in *.
  - exists r. auto.
  - exfalso. destruct (crun_in _ _ _ _ C Hi) as [K|K]; [exact (zi_not_cll _ _ Z K)|]. destruct (zi_start _ _ Z) as [L4 _]. lia.
Qed.
Lemma join_at : forall (xs ys : list str) x, exists A B, join_on c_y (xs ++ x :: ys) = A ++ x ++ B /\ ((xs = [] /\ A = []) \/ exists A', A = A' ++ [c_y])
  /\ ((ys = [] /\ B = []) \/ (ys <> [] /\ exists B', B = c_y :: B')).
Proof.
  induction xs as [|z xs IH]; intros ys x.
  - destruct ys as [|y ys]; [exists [], []; cbn; rewrite app_nil_r; auto 6|]. exists [], (c_y :: join_on c_y (y :: ys)). cbn [app]. split; [reflexivity|]. split; [auto|]. right. split; [discriminate|]. eauto.
  - destruct (IH ys x) as (A & B & E & HA & HB). exists (z ++ c_y :: A), B. split; [|split; [right|exact HB]].
    + rewrite <- app_comm_cons. destruct (xs ++ x :: ys) as [|h t] eqn:X; [destruct xs; discriminate|]. change (join_on c_y (z :: h :: t)) with (z ++ c_y :: join_on c_y (h :: t)). rewrite E, <- app_assoc. reflexivity.
    + destruct HA as [[_ ->]|(A' & ->)]; [exists z; reflexivity|]. exists (z ++ c_y :: A'). rewrite <- app_assoc. reflexivity.
Qed.
Lemma good_split : forall st xs x ys fi, good_parts st fi (xs ++ x :: ys) -> part_ok st (match xs with [] => fi | _ => false end) (match ys with [] => true | _ => false end) x.
Proof.
  induction xs as [|z xs IH]; intros x ys fi G; [exact (proj1 (good_head _ _ _ _ G))|]. cbn [app] in G. apply good_head in G as [_ G].
  destruct (xs ++ x :: ys) as [|h t] eqn:E; [destruct xs; discriminate|]. destruct G as [_ G]. rewrite <- E in G. specialize (IH x ys false G). destruct xs; exact IH.
Qed.
Lemma no_cut_whole : forall st xs arr, good_parts st true xs -> Exists (zi_part_in st) xs -> jvokaha_2 (y_hyphens st) (allow_mz st) (join_on c_y (map part_text xs)) <> Ok arr.
Proof.
  intros st xs arr G X J. apply jvokaha_2_spec in J as [Ec Cc]. apply Exists_exists in X as (x & Hx & r & Z & Er). apply in_split in Hx as (l1 & l2 & ->).
  pose proof (good_split _ _ _ _ _ G) as P. rewrite map_app in Ec. cbn [map] in Ec. destruct (join_at (map part_text l1) (map part_text l2) (part_text x)) as (A & B & E & HA & HB).
  rewrite E in Ec. inversion P as [r' t Z' Et E'|ps t adda C _ _ E']; subst x; cbn [fst snd] in *.
  - injection Er as ->. unfold part_text in Ec. cbn [fst snd concat] in Ec. rewrite app_nil_r in Ec.
    eapply (zi_blocks st r arr A (prefix_of (match l1 with [] => true | _ => false end) r) t B Z Cc).
    + rewrite Ec, <- !app_assoc. reflexivity.
    + destruct HA as [[H1 ->]|H1]; [left; split; [reflexivity|]; destruct l1; [reflexivity|discriminate]|right; exact H1].
    + unfold prefix_of. destruct l1; [auto|]. destruct (_ && _); auto.
    + destruct HB as [[H1 ->]|[H1 HB]]; [left; destruct l2; [auto|discriminate]|right]. destruct l2; [exfalso; apply H1; reflexivity|]. auto.
  - rewrite Er in C. exact (zi_not_crun _ _ _ Z C).
Qed.
Lemma piece_noy : forall st q, cpiece st q \/ zpiece st q -> ~ In c_y (p_r q).
Proof.
  intros st q [[C _]|[_ Z]]; [|eapply zi_noy, Z]. intro X. pose proof (cll_lojban _ _ C) as F. rewrite Forall_forall in F. specialize (F _ X). discriminate.
Qed.
Lemma piece_letters : forall st q, cpiece st q \/ zpiece st q -> Forall (fun c => is_lojban_letter c = true) (p_r q).
Proof. intros st q [[C _]|[_ Z]]; [eapply cll_lojban, C|exact (z_letters _ _ Z)]. Qed.
Lemma gap_letters : forall g, gap_ok g -> Forall (fun c => word_letter c = true) g.
Proof. intros g [->|H]; [constructor|]. unfold hyphen in H. cbn in H. destruct H as [<-|[<-|[<-|[<-|[<-|[<-|[]]]]]]]; repeat constructor. Qed.
Lemma alt_letters : forall st rest p, Forall (fun q => cpiece st q \/ zpiece st q) (p :: map snd rest) -> gaps_ok p rest -> Forall (fun c => word_letter c = true) (concat (alt p rest)).
Proof.
  assert (P : forall st q, cpiece st q \/ zpiece st q -> Forall (fun c => word_letter c = true) (p_r q)).
  { intros st q H. eapply Forall_impl; [|exact (piece_letters _ _ H)]. intros a Ha. unfold word_letter. rewrite Ha. reflexivity. }
  intros st. induction rest as [|[g q] r IH]; intros p F G; cbn [alt concat].
  - rewrite app_nil_r. exact (P _ _ (Forall_inv F)).
  - destruct G as [G1 G2]. rewrite concat_app, concat_gp. apply Forall_app; split; [|apply Forall_app; split].
    + exact (P _ _ (Forall_inv F)).
    + apply gap_letters, G1.
    + apply IH; [exact (Forall_inv_tail F)|exact G2].
Qed.
Lemma piece_not_hyphen : forall st q, cpiece st q \/ zpiece st q -> is_hyphen (p_r q) = false.
Proof.
  intros st q [[C _]|[_ Z]]; [eapply cll_not_hyphen, C|]. destruct (zi_start _ _ Z) as [L4 _]. unfold is_hyphen. destruct (in_dec str_dec _ _) as [H|H]; [exfalso|reflexivity].
  cbn in H. destruct H as [H|[H|[H|[H|[H|[H|[]]]]]]]; rewrite <- H in L4; cbn in L4; lia.
Qed.
Lemma ext_indices : forall st rest p off, Forall (fun q => cpiece st q \/ zpiece st q) (p :: map snd rest) -> gaps_ok p rest ->
  rafsi_indices_loop off (alt p rest) = spots off p rest.
Proof.
  intros st. induction rest as [|[g q] r IH]; intros p off F G; cbn [alt].
  - cbn [rafsi_indices_loop spots app]. rewrite hyphens_spec, (piece_not_hyphen _ _ (Forall_inv F)). reflexivity.
  - destruct G as [G1 G2]. cbn [rafsi_indices_loop spots]. rewrite hyphens_spec, (piece_not_hyphen _ _ (Forall_inv F)). cbn [app]. f_equal.
    assert (Gh : gap_of p g q = [] \/ is_hyphen (gap_of p g q) = true).
    { destruct G1 as [E|H]; [left; exact E|right]. unfold is_hyphen. destruct (in_dec str_dec _ _) as [H'|H']; [reflexivity|]. exfalso. apply H'. exact H. }
    unfold gp. destruct (gap_of p g q) as [|c s] eqn:E.
    + cbn [app length]. rewrite Nat.add_0_r. apply IH; [exact (Forall_inv_tail F)|exact G2].
    + destruct Gh as [X|X]; [discriminate|]. cbn [app rafsi_indices_loop]. rewrite hyphens_spec, X. cbn [app]. apply IH; [exact (Forall_inv_tail F)|exact G2].
Qed.
Lemma not_notbrivla : forall st n p rest a b c t, linked false st n true p rest -> Forall (fun q => cpiece st q \/ zpiece st q) (p :: map snd rest) ->
  concat (alt p rest) = a :: b :: c :: c_h :: c_y :: t -> is_consonant a = true -> is_consonant b = true -> rest <> [] -> False.
Proof.
  intros st n p rest a b c t Hl F E Ha Hb Hr. destruct rest as [|[g q] r]; [congruence|]. destruct Hl as [L _]. cbn [alt concat] in E. rewrite concat_app, concat_gp in E.
  cbn [map snd] in F. pose proof (Forall_inv F) as Fp. pose proof (Forall_inv (Forall_inv_tail F)) as Fq. destruct Fp as [[C K]|[_ Z]].
  - destruct C as (s & C). pose proof (cll_tarmi _ _ _ C) as T. destruct (p_r p) as [|x0 [|x1 [|x2 rr]]] eqn:Er; try (inversion C; fail). cbn [app] in E. injection E as <- <- <- E.
    assert (Nv : forall v, is_vowel v = true -> is_consonant v = true -> False) by apply vowel_not_consonant.
    inversion C; subst; bfacts; try match goal with A : is_vowel ?v = true, B : is_consonant ?v = true |- _ => destruct (Nv v A B) end.
    + (* CCV *) cbn [app] in E. destruct K as [K|[[_ [K|K]]|[_ [K|K]]]]; try congruence. rewrite T in K.
      pose proof (l_suf _ _ _ _ _ _ _ L) as S. rewrite K in S. pose proof (l_ccv _ _ _ _ _ _ _ L eq_refl) as Q. rewrite Er in Q. specialize (Q T).
      assert (Es : p_suf p = []) by (inversion S as [? ? [X|[X|X]]|? ? [X|[X|X]]|? ? [X|[X|X]]|? ? [X|[X|X]]| | | |? [X|X]|? ? [X|X]|? ? ? [X|X]| | | |]; try discriminate; congruence).
      destruct (l_bare _ _ _ _ _ _ _ L Es) as [Ep Eo]. pose proof (l_glued _ _ _ _ _ _ _ L) as G. rewrite Er in G. unfold cvv_like in G. rewrite T in G. change (true && tarmi_in CCV [CVhV; CVV]) with false in G.
      destruct G as [G1 G2 G3|G1 G2|G1 G2 G3 G4 G5 G6|G1 G2 G3 G4 G5 G6 G7|G1 G2 G3 G4 G5 G6 G7]; try discriminate; try congruence.
      assert (Eg : gap_of p g q = []) by (unfold gap_of; rewrite Es, G2, Ep; reflexivity). rewrite Eg in E. cbn [app] in E.
      destruct Fq as [[Cq _]|[_ Zq]]; [|exfalso; apply Eo, (z_other _ _ Zq)]. destruct (cll_first _ _ Cq) as (y0 & y1 & y2 & yr & Ey & Hy & _).
      destruct r as [|[g' q'] r]; cbn [alt concat] in E; rewrite Ey in E; cbn [app] in E; injection E as -> _; discriminate.
    + cbn [app] in E. injection E as -> _. discriminate.
    + cbn [app] in E. injection E as -> _. discriminate.
  - destruct (zi_start _ _ Z) as (L4 & _). destruct (z_end _ _ Z) as (u & l & El & Hv). pose proof (zi_noy _ _ Z) as Ny.
    destruct (p_r p) as [|x0 [|x1 [|x2 [|x3 rr]]]] eqn:Er; try (cbn in L4; lia). cbn [app] in E. injection E as -> -> -> -> E. destruct rr as [|y rr].
    + change [a; b; c; c_h] with ([a; b; c] ++ [c_h]) in El. apply snoc_inj in El as [_ <-]. discriminate.
    + cbn [app] in E. injection E as -> _. apply Ny. do 4 right. left. reflexivity.
Qed.
Lemma gismu_noy : forall w mz, is_gismu w mz = true -> ~ In c_y w.
Proof.
  intros w mz H X. apply is_gismu_spec in H as [(a & b & c & d & e & -> & H)|(a & b & c & d & e & -> & H)]; decompose [and] H; bfacts;
  cbn in X; repeat (destruct X as [X|X]; [rewrite X in *; discriminate|]); destruct X.
Qed.
Theorem ext_read : forall st n p rest tos w, linked false st n true p rest -> Forall (fun q => cpiece st q \/ zpiece st q) (p :: map snd rest) ->
  n = S (length rest) -> rest <> [] -> p_suf (last (map snd rest) p) = [] -> (exists s l, p_r (last (map snd rest) p) = s ++ [l] /\ is_vowel l = true) ->
  (exists q, In q (p :: map snd rest) /\ zpiece st q) -> first_tos (form true p) false = Ok tos -> tosrun tos (form true p) (map (form false) (map snd rest)) = Some 0 ->
  w = concat (alt p rest) -> (exists s l, w = s ++ [l] /\ is_vowel l = true) -> slinkuhi Bound (y_hyphens st) (allow_mz st) w = Ok false ->
  analyse_brivla Bound st w = Ok (EXTENDED_LUJVO, alt p rest) /\ get_rafsi_indices (alt p rest) = spots 0 p rest.
Proof.
  intros st n p rest tos w Hl F Hn Hr Hs He Hz Hf Ht Ew Hw Hsl. pose proof (linked_gaps _ _ _ _ _ _ Hl) as Hg.
  split; [|apply (ext_indices st); assumption].
  pose proof (parts_good _ _ _ _ _ [] Hl F He eq_refl) as G. set (xs := parts_of [] p rest) in *.
  assert (Sp : split_on c_y w = map part_text xs).
  { rewrite Ew. change (concat (alt p rest)) with ([] ++ concat (alt p rest)). apply parts_split; [eapply Forall_impl; [|exact F]; intros q Hq; eapply piece_noy, Hq|exact Hg|intros []]. }
  destruct Hz as (zq & Iz & Hz). pose proof (zi_found _ _ _ _ _ _ G Iz (proj2 Hz)) as X. fold xs in X.
  assert (Ej : rejoin [] [] true xs = alt p rest) by (unfold xs; rewrite rejoin_alt; reflexivity).
  assert (L2 : 2 <= length xs).
  { destruct xs as [|x [|y ys]]; [destruct G| |cbn; lia]. exfalso. cbn [good_parts] in G. inversion X as [? ? (r & Z & Er)|? ? X']; subst; [|inversion X'].
    inversion G as [r' t Z' Et E'|ps t adda C _ _ E']; subst x; cbn [fst snd] in *.
    - cbn [rejoin prefix_of app add_hyphen] in Ej. destruct rest as [|[g q] r0]; [congruence|]. cbn [alt] in Ej. destruct (gp (gap_of p g q)), r0 as [|[? ?] ?]; discriminate.
    - rewrite Er in C. exact (zi_not_crun _ _ _ Z C). }
  assert (Ew' : w = join_on c_y (map part_text xs)) by (rewrite <- Sp, join_split; reflexivity).
  assert (Iy : In c_y w).
  { rewrite Ew'. destruct xs as [|x [|y ys]]; try (cbn in L2; lia). change (join_on c_y (map part_text (x :: y :: ys))) with (part_text x ++ c_y :: join_on c_y (map part_text (y :: ys))). apply in_or_app. right. left. reflexivity. }
  (* the first letter *)
  destruct (alt_head p rest) as (al & Eal). assert (H0 : exists c w', w = c :: w' /\ is_vowel c || is_consonant c = true).
  { rewrite Ew, Eal. cbn [concat]. destruct (Forall_inv F) as [[C _]|[_ Z]].
    - destruct (cll_first _ _ C) as (a & b & c & t & -> & Ha & _). do 2 eexists. split; [reflexivity|]. rewrite Ha. apply orb_true_r.
    - destruct (zi_start _ _ Z) as (_ & c & s & E & Nh & _). pose proof (z_letters _ _ Z) as Fl. rewrite E in *. apply Forall_inv in Fl. do 2 eexists. split; [reflexivity|].
      unfold is_lojban_letter in Fl. destruct (is_vowel c), (is_consonant c); try reflexivity. destruct (N.eqb c c_h) eqn:Ec; [apply N.eqb_eq in Ec; congruence|]. cbn in Fl. rewrite ?Ec in Fl. discriminate. }
  destruct H0 as (c & w' & Ec & Hc). destruct Hw as (s & l & El & Hv).
  (* the decomposition into CLL rafsi fails *)
  assert (J : exists e, jvk Bound (y_hyphens st) (consonants st) (glides st) (allow_mz st) w = Err e /\ (e = DecompositionError \/ e = InvalidClusterError \/ e = IndexError)).
  { rewrite jvk_eq. destruct (jvokaha_2 (y_hyphens st) (allow_mz st) w) as [arr|e] eqn:E2.
    - exfalso. rewrite Ew' in E2. exact (no_cut_whole _ _ _ G X E2).
    - exists e. split; [reflexivity|]. pose proof (errs_jvokaha_2 _ _ _ _ E2) as K. cbn in K. assert (Nb : e <> NotBrivlaError); [|intuition congruence].
      intros ->. apply j2_notbrivla in E2 as (a & b & d & t & E & Ha & Hb). rewrite Ew in E. eapply not_notbrivla; eassumption. }
  destruct J as (e & J & Je).
  (* the parts *)
  destruct (loop_reads st xs 0 (mkA [] [] false true false 0) [] (map part_text xs)) as (a' & A1 & A2 & _ & A4); try assumption; try reflexivity.
  { intros _. split; [exact L2|]. intros l0 ps t more E C. exists (p_r p).
    assert (l0 = []) as -> by (destruct (parts_head rest [] p) as (ps' & t' & more' & E'); fold xs in E'; rewrite E' in E; injection E; congruence).
    eapply first_facts; try eassumption. exists zq. auto. }
  { intros _ N0. congruence. }
  specialize (A4 X). cbn [a_parts a_hyphen Nat.eqb] in A2. rewrite Ej in A2.
  rewrite analyse_brivla_eq. unfold analyse_body. rewrite normalise_ok by (rewrite Ec; discriminate).
  rewrite word_spelling by (rewrite Ew; eapply alt_letters; eassumption). cbn [bind].
  assert (Elo : last_opt w = Some l) by (rewrite El; apply last_opt_app). rewrite Elo. rewrite (v_f0 _ Hv), Hv. cbn [negb andb].
  destruct (is_gismu w (allow_mz st)) eqn:Gi; [exfalso; exact (gismu_noy _ _ Gi Iy)|]. rewrite J.
  assert (O : analyse_other (analyse_brivla Bound) (jvk Bound) st false w = Ok (EXTENDED_LUJVO, alt p rest)).
  { unfold analyse_other. assert (Ei : idx w 0 = Ok c) by (rewrite Ec; reflexivity). rewrite Ei. cbn [bind]. rewrite Hc. cbn [negb]. cbv zeta. rewrite Sp, map_length.
    destruct (length xs =? 1) eqn:E1; [apply Nat.eqb_eq in E1; lia|]. unfold analyse_compound. rewrite A1. cbn [bind]. rewrite A4. cbn [negb andb].
    assert (Vc : exists vc, (if is_vowel c then v1 <- idx w 1;; Ok (is_consonant v1 || N.eqb v1 c_y) else Ok false) = Ok vc).
    { destruct (is_vowel c) eqn:Vw; [|eauto]. destruct w' as [|d w'].
      - exfalso. rewrite Ec in Iy. destruct Iy as [Iy|[]]. subst c. discriminate Vw.
      - rewrite Ec. unfold idx. cbn [nth_error bind]. eauto. }
    destruct Vc as (vc & ->). cbn [bind]. unfold slinkuhi in Hsl. rewrite Hsl. destruct vc; cbn [bind]; rewrite A2; reflexivity. }
  rewrite O. destruct Je as [->|[->| ->]]; reflexivity.
Qed.
