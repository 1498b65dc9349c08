(** Names: from the rules of NameSpec.v to the cut of the name (compare Rules2.v). *)
From Verif Require Import Str Data Tarmi Rafsi Core Api Lib Spec Shapes Decomp Basic Vowels Katna Dict Errs Builder Jvokaha Slinku Fuel Raises Inv Parts Clusters Forms Chain Score Alt Lujvo Optimal Props1 Props2 Props3 Total Onset Pinned Found Props4 Props5 Props8 Props9 Tosm Joint Swap Unique Round Recast RuleSpec Rules Rules2 NameSpec NameRules.

Lemma pair_not_y : forall mz r g, vowel_pair mz r -> ~ needs_y mz r g.
Proof. intros mz r g [V|V]; apply cll_tarmi in V; cbn in V; apply not_needs; congruence. Qed.
Lemma strict_name : forall yh mz opt first r g rest, cll mz r -> Forall (cll mz) (g :: rest) -> long_shape r = false ->
  name_link yh mz opt first r g (strict_h yh mz false r g rest) /\ (vowel_pair mz r -> strict_h yh mz false r g rest = []).
Proof.
  intros yh mz opt first r g rest Hr F Hl. pose proof (strict_link yh mz false false r g rest Hr F Hl) as S.
  inversion S as [K E|K1 K2 K3 E|o' K1 K2 K3 K4 E|K1 K2 K3 K4 E]; subst; try discriminate.
  - destruct K as [K|[K _]]; [|discriminate]. split; [apply name_y; exact K|]. intro V. exfalso. exact (pair_not_y _ _ _ V K).
  - split; [apply name_none; exact K1|reflexivity].
  - destruct K4 as [K4|[K4 _]]; discriminate.
Qed.
Lemma name_strict : forall yh mz opt first r g rest h, cll mz r -> Forall (cll mz) (g :: rest) -> long_shape r = false ->
  name_link yh mz opt first r g h -> h = strict_h yh mz false r g rest
  \/ (strict_h yh mz false r g rest = [] /\ opt = true /\ vowel_pair mz r /\ yh <> FORCE_Y /\ (exists o, rn_before g o /\ h = [o])
      /\ (first = true -> cll_rafsi mz "CCV" g \/ cll_rafsi mz "CCVC" g)).
Proof.
  intros yh mz opt first r g rest h Hr F Hl H. destruct (strict_name yh mz false first r g rest Hr F Hl) as [S V].
  destruct H as [H|H|o H1 H2 H3 H4 H5].
  - left. inversion S as [K E|K E|o' K1 K2 K3 K4 K5 E]; [reflexivity|contradiction|discriminate].
  - left. inversion S as [K E|K E|o' K1 K2 K3 K4 K5 E]; [contradiction|reflexivity|discriminate].
  - right. split; [apply V; exact H2|]. eauto 8.
Qed.
Lemma pieces_named : forall yh mz opt rs first, Forall (cll mz) rs -> short_before_last rs -> name_end rs -> rs <> [] ->
  named yh mz opt first rs (rule_pieces yh mz false rs).
Proof.
  intros yh mz opt. induction rs as [|r [|g rest] IH]; intros first F S C N; [contradiction| |].
  - cbn. apply named_last. destruct C as (s & v & E & V). exists s, v. split; [exact E|apply is_consonant_spec; exact V].
  - inversion F as [|? ? Hr F']; subst. destruct S as [S1 S2]. rewrite pieces_more. apply named_more.
    + eapply short_len; eassumption.
    + apply strict_name; assumption.
    + apply IH; [exact F'|exact S2|exact C|discriminate].
Qed.
Lemma named_head : forall yh mz opt first rs ps, named yh mz opt first rs ps -> exists r rs' ps', rs = r :: rs' /\ ps = r :: ps'.
Proof. intros yh mz opt first rs ps H. destruct H; eauto 6. Qed.
Lemma named_rafsi : forall yh mz opt first rs ps, named yh mz opt first rs ps -> Forall (cll mz) rs -> rafsi_of ps = rs.
Proof.
  intros yh mz opt first rs ps H. induction H as [first r Hv|first r g rest h ps Hl Hk H IH]; intro F; inversion F as [|? ? Hr F']; subst; (assert (L3 : 3 <= length r) by (eapply cll_len; exact Hr)).
  - apply rafsi_of_first. lia.
  - rewrite rafsi_of_first by lia. f_equal. transitivity (rafsi_of ps); [|apply IH; exact F']. clear IH. inversion Hk; subst; try reflexivity. match goal with X : rn_before _ _ |- _ => destruct X as [[-> _]|[-> _]] end; reflexivity.
Qed.
Lemma named_ends : forall yh mz opt first rs ps, named yh mz opt first rs ps -> ends_in consonant (concat ps).
Proof.
  intros yh mz opt first rs ps H. induction H as [first r (s & v & E & V)|first r g rest h ps Hl Hk H (s & v & E & V)].
  - exists s, v. cbn [concat]. rewrite app_nil_r. auto.
  - exists (r ++ concat h ++ s), v. cbn [concat]. rewrite concat_app, E, !app_assoc. auto.
Qed.
Lemma named_short : forall yh mz opt first rs ps, named yh mz opt first rs ps -> Forall (cll mz) rs -> short_before_last rs /\ name_end rs.
Proof.
  intros yh mz opt first rs ps H. induction H as [first r (s & v & E & V)|first r g rest h ps Hl Hk H IH]; intro F.
  - split; [exact I|]. exists s, v. split; [exact E|apply is_consonant_spec; exact V].
  - inversion F as [|? ? Hr F']; subst. destruct (IH F') as [A B]. split; [|exact B]. split; [|exact A]. eapply len_short; [exact Hr|exact Hl].
Qed.
Lemma named_cut : forall yh mz opt first rs ps, named yh mz opt first rs ps -> Forall (cll mz) rs ->
  forall prev, (first = true <-> prev = None) -> cut (rn_ok yh) (hy_ok yh) mz prev ps.
Proof.
  intros yh mz opt first rs ps H. induction H as [first r Hv|first r g rest h ps Hl Hk H IH]; intros F prev Hp; inversion F as [|? ? Hr F']; subst.
  - destruct Hr as [s Hs]. split; [|exact I]. left. exists s. split; [exact Hs|]. inversion Hs; subst; try exact I; try reflexivity; try (left; reflexivity).
    + intros c1' v' c2' _. split; [intros c t E|intros c d t E]; discriminate.
    + intros _ t E. discriminate.
  - specialize (IH F'). destruct (named_head _ _ _ _ _ _ H) as (g' & rs' & ps' & Eg & ->). injection Eg as <- <-.
    inversion F' as [|? ? Hg F'']; subst. pose proof Hr as Hr'. destruct Hr as [s Hs]. 
    assert (L3 : 3 <= length r) by (eapply cll_len; exact Hr'). assert (G3 : 3 <= length g) by (eapply cll_len; exact Hg).
    destruct g as [|b [|c g]]; [cbn in G3; lia|cbn in G3; lia|]. set (g0 := b :: c :: g) in *.
    assert (PR : placed_rafsi mz (match prev with None => true | _ => false end) r (h ++ g0 :: ps')).
    { exists s. split; [exact Hs|]. inversion Hs; subst; try exact I.
      - intros x1 xv x2 E. injection E as <- <- <-. destruct Hk as [Hk|Hk1|o Ho Hk1].
        + cbn [app concat]. split; [intros d t E Hd|intros d e t E Hd].
          * change (L "y") with [c_y] in E. cbn [app] in E. injection E as <- _. apply is_consonant_spec in Hd. discriminate.
          * change (L "y") with [c_y] in E. cbn [app] in E. injection E as <- _. apply triple_spec in Hd. cbn in Hd. exfalso. clear -Hd. revert Hd. cbn. repeat (rewrite ?andb_false_r, ?orb_false_r). discriminate.
        + assert (NC : ~ clash mz [c1; v; c2] g0) by (intro X; apply Hk1; right; right; auto).
          cbn [app concat]. unfold g0. cbn [app]. split; [intros d t E Hd|intros d e t E Hd].
          * injection E as <- _. apply valid_pairs_spec. destruct (mems [c2; b] (valid_pairs mz)) eqn:Em; [reflexivity|]. exfalso. apply NC. exists [c1; v], c2, b, (c :: g).
            split; [reflexivity|]. split; [reflexivity|]. left. intro P. apply valid_pairs_spec in P. congruence.
          * injection E as <- <- _. apply NC. exists [c1; v], c2, b, (c :: g). split; [reflexivity|]. split; [reflexivity|]. right. exists c, g. auto.
        + exfalso. revert Hk1. apply not_pair; rewrite (cll_tarmi _ _ _ Hs); discriminate.
      - assert (NP : ~ vowel_pair mz [c1; c2; v]) by (apply not_pair; rewrite (cll_tarmi _ _ _ Hs); discriminate).
        intros _ t E. destruct Hk as [Hk|Hk1|o Ho Hk1]; apply (f_equal (hd [])) in E; cbn [app hd] in E.
        + discriminate.
        + rewrite E in G3. cbn in G3. lia.
        + contradiction.
      - right. inversion Hk; subst; [eexists; reflexivity| |]. 
        + exfalso. match goal with X : ~ needs_y _ _ _ |- _ => apply X; left; exact Hs end.
        + exfalso. match goal with X : vowel_pair _ _ |- _ => apply (not_pair mz _) in X; [exact X| |]; rewrite (cll_tarmi _ _ _ Hs); discriminate end.
      - right. inversion Hk; subst; [eexists; reflexivity| |]. 
        + exfalso. match goal with X : ~ needs_y _ _ _ |- _ => apply X; right; left; exact Hs end.
        + exfalso. match goal with X : vowel_pair _ _ |- _ => apply (not_pair mz _) in X; [exact X| |]; rewrite (cll_tarmi _ _ _ Hs); discriminate end.
      - exfalso. cbn in Hl. lia.
      - exfalso. cbn in Hl. lia. }
    cbn [cut]. split; [left; exact PR|].
    assert (IH' : forall q, cut (rn_ok yh) (hy_ok yh) mz (Some q) (g0 :: ps')) by (intro q; apply IH; split; discriminate).
    destruct Hk as [Hk|Hk1|o Ho Hk1 Hk2 Hk3 Hk4]; cbn [app].
    + split; [|apply IH']. right. exists r. split; [reflexivity|]. split; [lia|]. left. reflexivity.
    + apply IH'.
    + split; [|apply IH']. right. exists r. split; [reflexivity|]. split; [lia|]. right. right. split; [destruct yh; try reflexivity; congruence|].
      split; [apply pair_shaped in Hk1; exact Hk1|]. cbn [concat]. destruct (cll_hd _ _ [] Hg) as (_ & Hb & _).
      destruct Hk3 as [[-> (t & E)]|[-> N]]; [left; split; [reflexivity|]; exists (t ++ concat ps'); rewrite E; reflexivity|].
      right. split; [reflexivity|]. exists b, ((c :: g) ++ concat ps'). split; [reflexivity|]. split; [apply is_consonant_spec; exact Hb|]. intro E. apply N. injection E as ->. exists (c :: g). reflexivity.
Qed.
Lemma named_strict : forall yh mz opt first rs ps, (yh = FORCE_Y \/ opt = false) -> named yh mz opt first rs ps -> Forall (cll mz) rs -> ps = rule_pieces yh mz false rs.
Proof.
  intros yh mz opt first rs ps Hy H. induction H as [first r Hv|first r g rest h ps Hl Hk H IH]; intro F; [reflexivity|]. inversion F as [|? ? Hr F']; subst.
  rewrite pieces_more. f_equal. rewrite <- (IH F'). f_equal. apply (name_strict yh mz opt first r g rest) in Hk as [Hk|(_ & Ho & _ & Hk & _)]; [exact Hk|destruct Hy; congruence|exact Hr|exact F'|eapply len_short; eassumption].
Qed.
Lemma named_drops : forall yh mz opt first rs ps, named yh mz opt first rs ps -> Forall (cll mz) rs -> 
  forall u, (first = false -> u <> []) -> drops u (rule_pieces yh mz false rs) ps.
Proof.
  intros yh mz opt first rs ps H. induction H as [first r Hv|first r g rest h ps Hl Hk H IH]; intros F u Hu; [apply drops_refl|]. inversion F as [|? ? Hr F']; subst.
  rewrite pieces_more. apply drops_same. apply (name_strict yh mz opt first r g rest) in Hk as [Hk|(E & _ & V & Hy & (o & Ho & ->) & Hc)]; [| |exact Hr|exact F'|eapply len_short; eassumption].
  - subst h. apply drops_app. apply IH; [exact F'|]. intros _ X. apply app_eq_nil in X as [X _]. apply app_eq_nil in X as [_ X]. discriminate.
  - rewrite E. cbn [app]. destruct (named_head _ _ _ _ _ _ H) as (g' & rs' & ps' & Eg & Eps). injection Eg as <- <-. subst ps.
    destruct (pieces_head yh mz false g rest) as [P EP]. rewrite EP in *. inversion F' as [|? ? Hg _]; subst.
    assert (G3 : 3 <= length g) by (eapply cll_len; exact Hg). apply drops_skip.
    + destruct Ho as [[-> _]|[-> _]]; auto.
    + eapply pair_shaped. exact V.
    + destruct first; [|left; apply Hu; reflexivity]. destruct (Hc eq_refl) as [K|K].
      * right; left. inversion K as [| | |c1 c2 v I1 I2| | | |]; subst. apply initial_c in I1 as [I1 I1'].
        unfold shaped. cbn [list_ascii_of_string]. constructor; [exact I1|constructor; [exact I1'|constructor; [exact I2|constructor]]].
      * right; right; left. inversion K as [| | | | |c1 c2 v c3 I1 I2 I3| |]; subst. apply initial_c in I1 as [I1 I1'].
        unfold shaped. cbn [list_ascii_of_string]. constructor; [exact I1|constructor; [exact I1'|constructor; [exact I2|constructor; [exact I3|constructor]]]].
    + assert (X : drops (((u ++ [r]) ++ [o]) ++ [g]) P ps').
      { apply drops_head; [|lia]. apply IH; [exact F'|]. intros _ X. apply app_eq_nil in X as [_ X]. discriminate. }
      rewrite <- app_assoc in X. exact X.
Qed.
Lemma shaped_ccv : forall mz g, cll mz g -> shaped "CCV" g -> cll_rafsi mz "CCV" g.
Proof.
  intros mz g [s K] H. assert (L3 : length g = 3) by (apply Forall2_length in H; cbn in H; lia). inversion K; subst; try (cbn in L3; lia); try exact K; exfalso;
  repeat match goal with X : shaped _ _ |- _ => unfold shaped in X; cbn [list_ascii_of_string] in X | X : Forall2 _ _ _ |- _ => inversion X; clear X; subst end; cbn [fits] in *; use_facts; bfacts; clash.
Qed.
Lemma shaped_ccvc : forall mz g, cll mz g -> shaped "CCVC" g -> cll_rafsi mz "CCVC" g.
Proof.
  intros mz g [s K] H. assert (L3 : length g = 4) by (apply Forall2_length in H; cbn in H; lia). inversion K; subst; try (cbn in L3; lia); try exact K; exfalso;
  repeat match goal with X : shaped _ _ |- _ => unfold shaped in X; cbn [list_ascii_of_string] in X | X : Forall2 _ _ _ |- _ => inversion X; clear X; subst end; cbn [fits] in *; use_facts; bfacts; clash.
Qed.
Lemma drops_named : forall yh mz rs r first u ps, yh <> FORCE_Y -> Forall (cll mz) (r :: rs) -> short_before_last (r :: rs) -> name_end (r :: rs) ->
  (first = true <-> u = []) -> (forall P, rule_pieces yh mz false (r :: rs) = r :: P -> drops (u ++ [r]) P ps) ->
  cut (rn_ok yh) (hy_ok yh) mz (Some r) ps -> named yh mz true first (r :: rs) (r :: ps).
Proof.
  intros yh mz. induction rs as [|g rest IH]; intros r first u ps Hy F S C Hu D Hc.
  - specialize (D [] eq_refl). apply drops_nil in D. subst ps. apply named_last. destruct C as (s & v & E & V). exists s, v. split; [exact E|apply is_consonant_spec; exact V].
  - inversion F as [|? ? Hr F']; subst. inversion F' as [|? ? Hg F'']; subst. destruct S as [S1 S2]. specialize (D _ (pieces_more _ _ _ _ _ _)).
    assert (L5 : length r < 5) by (eapply short_len; eassumption).
    destruct (pieces_head yh mz false g rest) as [P EP]. rewrite EP in D.
    destruct (strict_name yh mz true first r g rest Hr F' S1) as [SL _].
    assert (G3 : 3 <= length g) by (eapply cll_len; exact Hg).
    assert (Nu : forall (v : list str) z, false = true <-> v ++ [z] = []) by (intros v z; split; [discriminate|intro X; apply app_eq_nil in X as [_ X]; discriminate]).
    destruct (strict_h yh mz false r g rest) as [|x [|]] eqn:Es.
    + cbn [app] in D. apply drops_cons in D as [(o & -> & D)|(x & o & -> & Hx & Hq & Hp & D)].
      * change (r :: g :: o) with (r :: [] ++ g :: o). apply named_more; [exact L5|exact SL|].
        apply (IH g false (u ++ [r]) o Hy F' S2 C (Nu _ _)); [|apply (proj2 Hc)]. intros P' EP'. rewrite EP in EP'. injection EP' as <-. exact D.
      * change (r :: x :: g :: o) with (r :: [x] ++ g :: o). destruct Hc as [Hc1 Hc2]. apply named_more; [exact L5| |].
        -- apply name_rn; [reflexivity| |exact Hy| |].
           ++ pose proof (cll_is mz _ r Hr eq_refl) as K. apply shaped_cvv_tarmi in Hq. unfold vowel_pair. destruct (rafsi_tarmi r); try discriminate; auto.
           ++ assert (L1 : length x = 1) by (destruct Hx as [->| ->]; reflexivity).
              destruct Hc1 as [(s & Hs & _)|(q & _ & _ & [X|[[_ X]|(_ & _ & X)]])].
              ** assert (3 <= length x) by (eapply cll_len; exists s; exact Hs). lia.
              ** destruct Hx as [->| ->]; discriminate.
              ** destruct Hx as [->| ->]; discriminate.
              ** destruct g as [|b g]; [cbn in G3; lia|]. cbn [concat app] in X. destruct X as [[-> (t & E)]|[-> (c & t & E & Hc' & N)]].
                 --- left. split; [reflexivity|]. exists g. injection E as -> _. reflexivity.
                 --- right. split; [reflexivity|]. intros (t' & E'). injection E as -> _. injection E' as -> _. apply N. reflexivity.
           ++ intro Ef. apply Hu in Ef. destruct Hp as [Hp|[Hp|[Hp|Hp]]]; [contradiction|left; apply shaped_ccv; assumption|right; apply shaped_ccvc; assumption|].
              exfalso. destruct rest as [|k rest].
              ** destruct C as (s & v & E & V). cbn [last] in E. subst g. unfold shaped in Hp. cbn [list_ascii_of_string] in Hp.
                 assert (L6 : length (s ++ [v]) = 5) by (apply Forall2_length in Hp; cbn in Hp |- *; lia).
                 destruct s as [|s1 [|s2 [|s3 [|s4 [|]]]]]; cbn in L6; try (rewrite ?app_length in L6; cbn in L6; lia). cbn [app] in Hp.
                 repeat match goal with X : Forall2 _ _ _ |- _ => inversion X; clear X; subst end. cbn [fits] in *. use_facts; bfacts; clash.
              ** destruct S2 as [S2 _]. apply (short_len mz) in S2; [|exact Hg]. apply Forall2_length in Hp. cbn in Hp. lia.
        -- apply (IH g false ((u ++ [r]) ++ [x]) o Hy F' S2 C (Nu _ _)); [|apply (proj2 Hc2)]. intros P' EP'. rewrite EP in EP'. injection EP' as <-. rewrite <- (app_assoc (u ++ [r])). exact D.
    + destruct (strict_cases yh mz false r g rest x Es Hr F' S1) as (X1 & X2 & X3). cbn [app] in D. apply drops_cons in D as [(o & -> & D)|(y & o & -> & Hx & Hq & Hp & D)].
      * apply drops_cons in D as [(o2 & -> & D)|(y & o2 & -> & _ & Hq & _)]; [|contradiction].
        change (r :: x :: g :: o2) with (r :: [x] ++ g :: o2). destruct Hc as [Hc1 Hc2]. apply named_more; [exact L5|exact SL|].
        apply (IH g false ((u ++ [r]) ++ [x]) o2 Hy F' S2 C (Nu _ _)); [|apply (proj2 Hc2)]. intros P' EP'. rewrite EP in EP'. injection EP' as <-. exact D.
      * exfalso. destruct Hc as [_ [[(s & Hs & _)|(q & E & Lq & _)] _]].
        -- assert (3 <= length x) by (eapply cll_len; exists s; exact Hs). lia.
        -- injection E as <-. apply Lq. destruct Hx as [->| ->]; reflexivity.
    + exfalso. revert Es. unfold strict_h. destruct (strict_text _ _ _ _ _ _); discriminate.
Qed.
