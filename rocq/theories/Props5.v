(** Properties C36 C40: hyphens in a decomposition. *)
From Verif Require Import Str Data Tarmi Rafsi Core Api Lib Spec Shapes Decomp Basic Vowels Katna Dict Errs Builder Jvokaha Fuel Raises Inv Parts Clusters Forms Chain Score Alt Lujvo Compound.

(** ** C36: hyphens are never first, last or doubled *)
Theorem C36_hyphens_separate_rafsi : forall lk st w t ps, analyse_brivla lk st w = Ok (t, ps) ->
  (forall h r, ps = h :: r -> ~ hyphen h)
  /\ (forall r h, ps = r ++ [h] -> ~ hyphen h)
  /\ (forall u h k v, ps = u ++ h :: k :: v -> hyphen h -> hyphen k -> False)
  /\ ps <> [].
Proof.
  intros lk st w t ps H. apply accepted_alternates in H.
  assert (G1 : forall u f v, alternates f (u ++ v) -> exists g, alternates g v /\ (u = [] -> g = f)
             /\ (forall u' h, u = u' ++ [h] -> hyphen h -> g = false)).
  { induction u as [|p u IH]; intros f v Hv.
    - exists f. split; [exact Hv|]. split; [auto|]. intros u' h E. destruct u'; discriminate.
    - cbn [app alternates] in Hv.
      assert (K : forall g0, alternates g0 (u ++ v) -> (hyphen p -> g0 = false) ->
        exists g, alternates g v /\ (p :: u = [] -> g = f) /\ (forall u' h, p :: u = u' ++ [h] -> hyphen h -> g = false)).
      { intros g0 Hg Hp. destruct (IH g0 v Hg) as (g & I1 & I2 & I3). exists g. split; [exact I1|]. split; [discriminate|].
        intros u' h E Hh. destruct u' as [|x u'].
        - injection E as -> ->. rewrite I2 by reflexivity. apply Hp. exact Hh.
        - injection E as -> E. apply (I3 u' h E Hh). }
      destruct (is_hyphen p) eqn:Ep.
      + apply (K false); [apply Hv|auto].
      + apply (K true); [exact Hv|]. intro Hh. apply is_hyphen_spec in Hh. congruence. }
  split; [|split; [|split]].
  - intros h r -> Hh. apply is_hyphen_spec in Hh. cbn [alternates] in H. rewrite Hh in H. destruct H; discriminate.
  - intros r h -> Hh. rewrite <- (app_nil_r (r ++ [h])) in H. destruct (G1 _ _ _ H) as (g & A & _ & B).
    rewrite (B r h eq_refl Hh) in A. discriminate.
  - intros u h k v -> Hh Hk. change (u ++ h :: k :: v) with (u ++ [h] ++ k :: v) in H. rewrite app_assoc in H.
    destruct (G1 _ _ _ H) as (g & A & _ & B). rewrite (B u h eq_refl Hh) in A. apply is_hyphen_spec in Hk. cbn [alternates] in A.
    rewrite Hk in A. destruct A; discriminate.
  - intros ->. discriminate.
Qed.

Example C36_example :
  analyse_brivla Bound default_settings (L "spageti'ydja") = Ok (EXTENDED_LUJVO, Ls ["spageti"; "'y"; "dja"]%string)
  /\ analyse_brivla Bound default_settings (L "maurbakni") = Ok (LUJVO, Ls ["mau"; "r"; "bakni"]%string).
Proof. vm_compute. auto. Qed.

Print Assumptions C36_hyphens_separate_rafsi.

(** ** C40 and C41: exactly which words are CLL lujvo *)
Lemma cll_lojban : forall mz r, cll mz r -> Forall (fun c => is_lojban_letter c = true) r.
Proof.
  intros mz r [s H]. unfold is_lojban_letter. inversion H; subst; bfacts; repeat constructor; use_facts; try reflexivity.
Qed.
Lemma dashed_spelling : forall mz r, cll mz r -> normalise (dashed r) = Ok (dashed r).
Proof.
  intros mz r H. rewrite normalise_ok by discriminate. f_equal.
  assert (G : Forall (fun c => N.eqb c 46%N = false /\ N.eqb c 104%N = false /\ N.eqb c 44%N = false /\ lower_char c = [c]) (dashed r)).
  { unfold dashed. constructor; [repeat split|]. apply Forall_app. split; [|repeat constructor].
    eapply Forall_impl; [|exact (cll_lojban _ _ H)]. intros c Hc. apply lojban_letter_facts in Hc as (_ & H2 & H3 & H4 & H5 & _). auto. }
  unfold standard_spelling. change (match dashed r with c :: r0 => if N.eqb c 46 then r0 else dashed r | [] => [] end) with (dashed r).
  induction G as [|c s (_ & H3 & H4 & H5) G IH]; [reflexivity|]. unfold lower in *. cbn [flat_map].
  rewrite H5. cbn [app map]. rewrite H3. cbn [filter]. rewrite H4. cbn [negb]. f_equal. exact IH.
Qed.

(** the tanru written with these rafsi as literal components *)
Definition literally (rs : list str) : tanru := TList (map (fun r => L "-" ++ r ++ L "-") rs).
(** the same options without experimental shapes *)
Definition plain (st : settings) : settings :=
  mkSettings (y_hyphens st) false (consonants st) (glides st) (allow_mz st).

Lemma get_lujvo_literally : forall lk gen st rs, Forall (cll (allow_mz st)) rs ->
  get_lujvo lk gen (plain st) (literally rs) = expected_word lk (y_hyphens st) (consonants st) (glides st) (allow_mz st) gen rs.
Proof.
  intros lk gen st rs F. unfold get_lujvo, literally, process_tanru.
  assert (E : map_res normalise (map (fun r => L "-" ++ r ++ L "-") rs) = Ok (map dashed rs)).
  { induction F as [|r rs Hr F IH]; [reflexivity|]. cbn [map map_res]. change (L "-" ++ r ++ L "-") with (dashed r).
    rewrite (dashed_spelling _ _ Hr). cbn [bind]. rewrite IH. reflexivity. }
  rewrite E. cbn [bind]. rewrite lujvo_from_list_eq. rewrite rafsi_list_list_dashed by exact F. unfold expected_word, expected_entry, plain.
  cbn [y_hyphens consonants glides allow_mz]. destruct (piece_forms _ _ _); [|reflexivity]. cbn [bind].
  destruct (best_word _ _ _) as [[[w sc] ix]|]; [|reflexivity]. cbn [bind]. destruct gen; [reflexivity|]. destruct lk; [reflexivity|].
  destruct (slinkuhi _ _ _ _) as [[]|]; reflexivity.
Qed.

(** the pieces that are not hyphens *)
Definition rafsi_pieces (ps : list str) : list str := filter (fun p => negb (is_hyphen p)) ps.
Lemma cut_pieces : forall rn hy mz ps prev, cut rn hy mz prev ps -> rafsi_of ps = rafsi_pieces ps.
Proof.
  intros rn hy mz. induction ps as [|p ps IH]; intros prev H; [reflexivity|]. destruct H as [H G]. specialize (IH _ G).
  unfold rafsi_of, rafsi_pieces in *. cbn [filter]. destruct H as [(s & Hs & _)|(q & _ & _ & H)].
  - assert (X : cll mz p) by (exists s; exact Hs). rewrite (cll_not_hyphen _ _ X). apply cll_len in X.
    rewrite (proj2 (Nat.ltb_lt 2 (length p))) by lia. cbn [negb]. f_equal. exact IH.
  - destruct H as [->|[[_ ->]|(_ & _ & [[-> _]|[-> _]])]]; exact IH.
Qed.

(** A word is classified LUJVO exactly when it ends in a vowel, is no gismu, and
    can be cut by the CLL rules into rafsi and hyphens, at least two rafsi, such
    that the word get_lujvo builds from these rafsi is the same word; unless
    FORCE_Y is set, the word may also have r or n hyphens where the built word
    has none ([drops]: after a rafsi CVV or CV'V; after the first rafsi only
    before a rafsi that starts with two consonants). *)
Theorem C41_cll_lujvo_characterised : forall lk st w ps,
  let v := standard_spelling w in
  let rn := match y_hyphens st with FORCE_Y => false | _ => true end in
  let hy := match y_hyphens st with STANDARD => false | _ => true end in
  analyse_brivla lk st w = Ok (LUJVO, ps) <->
  ends_in vowel v
  /\ (forall q, analyse_brivla lk st w <> Ok (GISMU, q))
  /\ concat ps = v
  /\ cut rn hy (allow_mz st) None ps
  /\ 2 <= length (rafsi_pieces ps)
  /\ exists u, get_lujvo lk false (plain st) (literally (rafsi_pieces ps)) = Ok u
     /\ (y_hyphens st = FORCE_Y -> u = v)
     /\ (y_hyphens st <> FORCE_Y -> exists qs, concat qs = u /\ cut rn hy (allow_mz st) None qs /\ drops [] qs ps).
Proof.
  intros lk st w ps v rn hy.
  assert (Ern : rn = rn_ok (y_hyphens st)) by (unfold rn; destruct (y_hyphens st); reflexivity).
  assert (Ehy : hy = hy_ok (y_hyphens st)) by (unfold hy; destruct (y_hyphens st); reflexivity).
  rewrite Ern, Ehy. clear Ern Ehy rn hy. split.
  - intro H. pose proof H as H'. apply analyse_inv in H. fold v in H. inversion H; subst.
    + assert (is_vowel l = true /\ is_consonant l = false) as [Hv Hc].
      { destruct (is_consonant l); [discriminate|]. rewrite orb_false_l in *. auto. }
      match goal with X : jvk _ _ _ _ _ _ = _ |- _ => apply jvk_cll_lujvo in X as (gen & u & X); rename X into XX end.
      destruct (x_last _ _ _ _ _ _ _ _ _ XX) as (s & l' & Es & Eg). match goal with X : last_opt v = Some l |- _ => apply last_opt_some in X as [s' Es'] end.
      assert (l' = l) by (rewrite Es' in Es; apply app_inj_tail in Es; symmetry; apply Es). subst l'. rewrite Hc in Eg. subst gen.
      pose proof (x_cut _ _ _ _ _ _ _ _ _ XX) as C. pose proof (cut_pieces _ _ _ _ _ C) as Ep.
      repeat split.
      * exists s', l. split; [exact Es'|]. apply is_vowel_spec. exact Hv.
      * intros q G. congruence.
      * apply (x_concat _ _ _ _ _ _ _ _ _ XX).
      * exact C.
      * rewrite <- Ep. apply (x_two _ _ _ _ _ _ _ _ _ XX).
      * exists u. rewrite <- Ep, get_lujvo_literally by (eapply cut_rafsi_cll; exact C).
        split; [apply (x_word _ _ _ _ _ _ _ _ _ XX)|]. split; [apply (x_force _ _ _ _ _ _ _ _ _ XX)|].
        intro N. destruct (x_drops _ _ _ _ _ _ _ _ _ XX N) as (qs & E & D). apply jvokaha_2_spec in E as [E1 E2]. exists qs. auto.
    + match goal with X : _ = (if _ then CMEVLA else EXTENDED_LUJVO) |- _ => destruct (is_consonant l) in X; discriminate end.
  - intros ((s & l & Es & Hl) & Hg & Hc & C & H2 & u & Hu & HF & HD). apply is_vowel_spec in Hl.
    pose proof (cut_pieces _ _ _ _ _ C) as Ep. rewrite <- Ep in *. rewrite get_lujvo_literally in Hu by (eapply cut_rafsi_cll; exact C).
    assert (X : cll_lujvo lk (y_hyphens st) (consonants st) (glides st) (allow_mz st) v ps false u).
    { split; try assumption.
      - exists s, l. split; [exact Es|]. symmetry. apply v_f0. exact Hl.
      - intro N. destruct (HD N) as (qs & Q1 & Q2 & Q3). exists qs. split; [apply jvokaha_2_spec; auto|exact Q3].
      - assert (He : exists sc ix, expected_entry (y_hyphens st) (consonants st) (glides st) (allow_mz st) false (rafsi_of ps) = Ok (u, sc, ix)).
        { unfold expected_word in Hu. inv_bind Hu. destruct x as [[w' sc] ix]. exists sc, ix.
          destruct lk; [discriminate|]. inv_bind Hu. dif Hu; [discriminate|]. injection Hu as ->. exact E. }
        destruct He as (sc & ix & He).
        destruct (expected_cut _ _ _ _ _ _ _ _ _ (cut_rafsi_cll _ _ _ _ _ C) (cut_short _ _ _ _ _ C) He) as (qs & Q1 & Q2 & Q3 & Q4).
        destruct (yset_eqb (y_hyphens st) FORCE_Y) eqn:EF.
        + assert (EF' : y_hyphens st = FORCE_Y) by (destruct (y_hyphens st); try discriminate; reflexivity).
          replace ps with qs; [exact Q4|]. apply (cut_unique_all (rn_ok (y_hyphens st)) true (allow_mz st)); try assumption; [apply cut_hy in C; exact C|].
          rewrite Q2, Hc. auto.
        + destruct HD as (qs' & D1 & D2 & D3); [intro G; rewrite G in EF; discriminate|].
          assert (qs' = qs). { apply (cut_unique_all (rn_ok (y_hyphens st)) true (allow_mz st)); try assumption; [apply cut_hy in D2; exact D2|congruence]. }
          subst qs'. apply (drops_alternates _ _ _ _ _ _ D3 C Q4). }
    apply cll_lujvo_jvk in X. rewrite analyse_brivla_eq. unfold analyse_body.
    assert (Hw : w <> []) by (intros ->; unfold v in Es; destruct s; discriminate).
    rewrite normalise_ok by exact Hw. cbn [bind]. fold v. rewrite Es, last_opt_app, (v_f0 _ Hl), Hl. cbn [negb andb]. rewrite <- Es.
    destruct (is_gismu v (allow_mz st)) eqn:Eg.
    + exfalso. apply (Hg [v]). rewrite analyse_brivla_eq. unfold analyse_body. rewrite normalise_ok by exact Hw. cbn [bind]. fold v.
      rewrite Es, last_opt_app, (v_f0 _ Hl), Hl. cbn [negb andb]. rewrite <- Es, Eg. reflexivity.
    + rewrite X. reflexivity.
Qed.

Example C41_example :
  analyse_brivla Bound default_settings (L "maurbakni") = Ok (LUJVO, Ls ["mau"; "r"; "bakni"]%string)
  /\ get_lujvo Bound false default_settings (literally (Ls ["mau"; "bakni"]%string)) = Ok (L "maurbakni")
  /\ analyse_brivla Bound default_settings (L "maubakni") = Err NotBrivlaError
  /\ analyse_brivla Bound default_settings (L "baurdja") = Ok (LUJVO, Ls ["bau"; "r"; "dja"]%string)
  /\ get_lujvo Bound false default_settings (literally (Ls ["bau"; "dja"]%string)) = Ok (L "baudja").
Proof. vm_compute. auto 6. Qed.

Print Assumptions C41_cll_lujvo_characterised.

(** *** C40 *)
Theorem C40_standard_no_hy : forall lk st w ps, y_hyphens st = STANDARD ->
  analyse_brivla lk st w = Ok (LUJVO, ps) -> ~ In (L "'y") ps.
Proof.
  intros lk st w ps Hy H. apply C41_cll_lujvo_characterised in H as (_ & _ & _ & C & _). rewrite Hy in C. revert C. generalize (@None str).
  induction ps as [|p ps IH]; intros prev C G; [destruct G|]. destruct C as [C1 C2]. destruct G as [G|G]; [|eapply IH; eassumption]. subst p.
  destruct C1 as [(s & Hs & _)|(q & _ & _ & [D|[[D _]|(_ & _ & [[D _]|[D _]])]])]; try discriminate.
  inversion Hs.
Qed.
Theorem C40_force_y : forall lk st w ps, y_hyphens st = FORCE_Y ->
  analyse_brivla lk st w = Ok (LUJVO, ps) ->
  ~ In (L "n") ps /\ ~ In (L "r") ps
  /\ get_lujvo lk false (plain st) (literally (rafsi_pieces ps)) = Ok (standard_spelling w).
Proof.
  intros lk st w ps Hy H. apply C41_cll_lujvo_characterised in H as (_ & _ & _ & C & _ & u & Hu & HF & _). rewrite (HF Hy) in Hu.
  assert (K : forall x, In x ps -> x <> L "n" /\ x <> L "r").
  { rewrite Hy in C. clear -C. revert C. generalize (@None str). induction ps as [|p ps IH]; intros prev C x G; [destruct G|].
    destruct C as [C1 C2]. destruct G as [G|G]; [|eapply IH; eassumption]. subst p.
    destruct C1 as [(s & Hs & _)|(q & _ & _ & [D|[[_ D]|(D & _)]])]; try discriminate; [|subst; split; discriminate..].
    inversion Hs; split; discriminate. }
  split; [intro G; apply K in G; destruct G; congruence|]. split; [intro G; apply K in G; destruct G; congruence|]. exact Hu.
Qed.

Example C40_example :
  analyse_brivla Bound (mkSettings FORCE_Y false CLUSTER false false) (L "mau'ybakni") = Ok (LUJVO, Ls ["mau"; "'y"; "bakni"]%string)
  /\ analyse_brivla Bound (mkSettings FORCE_Y false CLUSTER false false) (L "maurbakni") = Ok (ZIhEVLA, [L "maurbakni"])
  /\ analyse_brivla Bound (mkSettings ALLOW_Y false CLUSTER false false) (L "mau'ybakni") = Ok (EXTENDED_LUJVO, Ls ["mau"; "'y"; "bakni"]%string)
  /\ analyse_brivla Bound default_settings (L "mau'ybakni") = Err NotBrivlaError.
Proof. vm_compute. auto. Qed.

Print Assumptions C40_standard_no_hy.
Print Assumptions C40_force_y.
