(** From the rules of RuleSpec.v to the booleans of Rules.v, and to the cut of
    the word. *)
From Verif Require Import Str Data Tarmi Rafsi Core Api Lib Spec Shapes Decomp Basic Vowels Katna Dict Errs Builder Jvokaha Slinku Fuel Raises Inv Parts Clusters Forms Chain Score Alt Lujvo Optimal Props1 Props2 Props3 Total Onset Pinned Found Props4 Props5 Props8 Props9 Tosm Joint Swap Unique Round Recast RuleSpec Rules.

Lemma cll_is : forall mz t r, cll mz r -> rafsi_tarmi r = t ->
  match t with
  | CVC => cll_rafsi mz "CVC" r | CVV => cll_rafsi mz "CVV" r | CVhV => cll_rafsi mz "CV'V" r | CCV => cll_rafsi mz "CCV" r
  | CVCC => cll_rafsi mz "CVCC" r | CCVC => cll_rafsi mz "CCVC" r | CVCCV => cll_rafsi mz "CVCCV" r | CCVCV => cll_rafsi mz "CCVCV" r
  | _ => False
  end.
Proof. intros mz t r [s Hs] <-. rewrite (cll_tarmi _ _ _ Hs). inversion Hs; subst; assumption. Qed.

Lemma clash_joins : forall mz r g, cll_rafsi mz "CVC" r -> cll mz g -> (clash mz r g <-> joins mz r g = false).
Proof.
  intros mz r g Hr Hg. inversion Hr as [c1 v c2 H1 H2 H3 E1 E2| | | | | | |]; subst. destruct (cll_hd _ _ [] Hg) as (_ & G2 & _ & _).
  assert (L3 : 3 <= length g) by (eapply cll_len; exact Hg). destruct g as [|b [|c g]]; [cbn in L3; lia|cbn in L3; lia|]. cbn [hd] in G2.
  apply is_consonant_spec in H3. unfold joins. cbn [last hd firstn]. unfold str, char in *. rewrite H3, G2. cbn [andb]. split.
  - intros (s & a & b' & t & E & Eg & Hc). change [c1; v; c2] with ([c1; v] ++ [c2]) in E. apply app_inj_tail in E as [_ <-]. injection Eg as <- <-.
    destruct Hc as [Hc|(c' & u & Ec & Hc)].
    + destruct (mems [c2; b] (valid_pairs mz)) eqn:Em; [|reflexivity]. exfalso. apply Hc, valid_pairs_spec. exact Em.
    + injection Ec as <- <-. apply triple_spec in Hc. unfold str, char in *. rewrite Hc. apply andb_false_r.
  - intro H. exists [c1; v], c2, b, (c :: g). split; [reflexivity|]. split; [reflexivity|].
    apply andb_false_iff in H as [H|H]; apply negb_false_iff in H.
    + left. intro P. apply valid_pairs_spec in P. apply negb_true_iff in H. unfold str, char in *. congruence.
    + right. exists c, g. split; [reflexivity|]. apply triple_spec. exact H.
Qed.
Lemma joint_initial : forall mz r g, cll mz r -> cll mz g -> (initial_joint r g <-> mems [last r 0%N; hd 0%N g] INITIAL = true).
Proof.
  intros mz r g Hr Hg. destruct (cll_last _ _ Hr) as (s & d & -> & _). assert (L3 : 3 <= length g) by (eapply cll_len; exact Hg).
  destruct g as [|b g]; [cbn in L3; lia|]. cbn [hd]. rewrite last_last. split.
  - intros (s' & a & b' & t & E & Eg & H). apply app_inj_tail in E as [_ <-]. injection Eg as <- <-. apply initial_spec. exact H.
  - intro H. exists s, d, b, g. split; [reflexivity|]. split; [reflexivity|]. apply initial_spec. exact H.
Qed.
Lemma tosm_spec : forall mz rs r, Forall (cll mz) rs -> cll_rafsi mz "CVC" r -> (tosmabru mz r rs <-> tosm mz r rs = true).
Proof.
  intros mz. induction rs as [|g rest IH]; intros r F Hr; [split; [intro H; inversion H|discriminate]|].
  inversion F as [|? ? Hg F']; subst. assert (Cr : cll mz r) by (exists "CVC"%string; exact Hr). pose proof (joint_initial mz r g Cr Hg) as J. cbn [tosm]. split.
  - intro H. inversion H as [r' c1 v c2 c3 v' rest' A1 A2 A3 A4 E1 E2|r' g' k rest' A1 A2 A3 A4 E1 E2|r' g' k rest' A1 A2 A3 E1 E2]; subst.
    + apply J in A2. rewrite A2. rewrite (cll_tarmi _ _ _ A3). cbn [andb]. apply initial_spec. exact A4.
    + apply J in A2. rewrite A2, (cll_tarmi _ _ _ A3). cbn [andb]. apply clash_joins in A4; [rewrite A4; reflexivity|exact A3|inversion F'; assumption].
    + apply J in A2. rewrite A2. cbn [andb]. assert (A4 : cll_rafsi mz "CVC" g) by (inversion A3; assumption). rewrite (cll_tarmi _ _ _ A4).
      apply (IH g F' A4) in A3. cbn [tosm] in A3 |- *. destruct (joins mz g k); [exact A3|reflexivity].
  - intro H. apply andb_t in H as [H1 H2]. apply J in H1. pose proof (cll_is mz _ g Hg eq_refl) as K. destruct (rafsi_tarmi g) eqn:Et; try discriminate.
    + inversion K; subst. apply tos_gismu; try assumption. apply initial_spec. exact H2.
    + destruct rest as [|k rest]; [discriminate|]. destruct (joins mz g k) eqn:Ej.
      * apply tos_more; [exact Hr|exact H1|]. apply (IH g F' K). exact H2.
      * apply tos_y; [exact Hr|exact H1|exact K|]. apply clash_joins; [exact K|inversion F'; assumption|exact Ej].
Qed.

Definition strict_text (yh : yset) (mz first : bool) (r g : str) (rest : list str) : str :=
  if first then first_suf mz r g rest ++ first_glue yh r g rest else can mz r g.
Definition strict_h (yh : yset) (mz first : bool) (r g : str) (rest : list str) : list str :=
  match strict_text yh mz first r g rest with [] => [] | s => [s] end.
Lemma strict_concat : forall yh mz first r g rest, concat (strict_h yh mz first r g rest) = strict_text yh mz first r g rest.
Proof. intros. unfold strict_h. destruct (strict_text _ _ _ _ _ _); [reflexivity|]. cbn [concat]. apply app_nil_r. Qed.

Ltac wrong_shape mz r Et :=
  match goal with H : cll_rafsi mz _ r |- _ => apply cll_tarmi in H; cbn in H; congruence end.
Lemma not_needs : forall mz r g, rafsi_tarmi r <> CVCC -> rafsi_tarmi r <> CCVC -> rafsi_tarmi r <> CVC -> ~ needs_y mz r g.
Proof. intros mz r g A B C [H|[H|[H _]]]; apply cll_tarmi in H; congruence. Qed.
Lemma not_pair : forall mz r, rafsi_tarmi r <> CVV -> rafsi_tarmi r <> CVhV -> ~ vowel_pair mz r.
Proof. intros mz r A B [H|H]; apply cll_tarmi in H; congruence. Qed.
Lemma not_tosmabru : forall mz r rs, rafsi_tarmi r <> CVC -> ~ tosmabru mz r rs.
Proof. intros mz r rs A H. assert (K : cll_rafsi mz "CVC" r) by (inversion H; assumption). apply cll_tarmi in K. congruence. Qed.
Lemma ccv_iff : forall mz g (rest : list str), cll mz g -> match rest with [] => tarmi_eqb (rafsi_tarmi g) CCV | _ => false end = true <-> (rest = [] /\ cll_rafsi mz "CCV" g).
Proof.
  intros mz g rest Hg. destruct rest as [|k t]; [|split; [discriminate|intros [H _]; discriminate]]. rewrite tarmi_eqb_eq. split.
  - intro E. split; [reflexivity|]. pose proof (cll_is mz _ g Hg E) as K. exact K.
  - intros [_ H]. apply cll_tarmi in H. exact H.
Qed.
Lemma rn_iff : forall mz g, cll mz g -> rn_before g (if N.eqb (hd 0%N g) c_r then [c_n] else [c_r]) /\ forall o, rn_before g o -> o = if N.eqb (hd 0%N g) c_r then [c_n] else [c_r].
Proof.
  intros mz g Hg. assert (L3 : 3 <= length g) by (eapply cll_len; exact Hg). destruct g as [|b g]; [cbn in L3; lia|]. cbn [hd]. destruct (N.eqb_spec b c_r) as [->|N].
  - split; [left; split; [reflexivity|exists g; reflexivity]|]. intros o [[-> _]|[_ H]]; [reflexivity|]. exfalso. apply H. exists g. reflexivity.
  - split; [right; split; [reflexivity|]; intros [t E]; injection E as E _; contradiction|]. intros o [[_ [t E]]|[-> _]]; [injection E as E _; contradiction|reflexivity].
Qed.
Lemma strict_link : forall yh mz opt first r g rest, cll mz r -> Forall (cll mz) (g :: rest) -> long_shape r = false ->
  link yh mz opt first r g rest (strict_h yh mz first r g rest).
Proof.
  intros yh mz opt first r g rest Hr F Hl. inversion F as [|? ? Hg F']; subst. pose proof (cll_is mz _ r Hr eq_refl) as K. destruct (cll_tarmi_ne _ _ Hr) as [No Nh].
  unfold long_shape in Hl. unfold strict_h, strict_text, first_suf, first_glue, can. destruct (rafsi_tarmi r) eqn:Et; try discriminate; try contradiction.
  - destruct first; cbn [app]; apply link_y; left; left; exact K.
  - destruct first; cbn [app]; apply link_y; left; right; left; exact K.
  - pose proof (clash_joins mz r g K Hg) as J. pose proof (tosm_spec mz (g :: rest) r F K) as T.
    assert (NP : ~ vowel_pair mz r) by (apply not_pair; congruence).
    assert (Nd : needs_y mz r g -> clash mz r g). { intros [H|[H|[_ H]]]; [| |exact H]; apply cll_tarmi in H; cbn in H; congruence. }
    destruct (joins mz r g) eqn:Ej.
    + destruct first; cbn [andb].
      * destruct (tosm mz r (g :: rest)) eqn:Eo; cbn [negb app].
        -- apply link_y. right. split; [reflexivity|]. apply T. reflexivity.
        -- apply link_none; [intro H; apply Nd, J in H; discriminate|intros [_ H]; apply T in H; discriminate|intro H; contradiction].
      * apply link_none; [intro H; apply Nd, J in H; discriminate|intros [H _]; discriminate|intro H; contradiction].
    + assert (X : clash mz r g) by (apply J; reflexivity). destruct first; cbn [app andb]; apply link_y; left; right; right; auto.
  - assert (V : vowel_pair mz r) by (right; exact K). assert (A : ~ needs_y mz r g) by (apply not_needs; congruence). assert (B : ~ tosmabru mz r (g :: rest)) by (apply not_tosmabru; congruence).
    destruct first; cbn [app]; [|apply link_none; [exact A|tauto|discriminate]]. pose proof (ccv_iff mz g rest Hg) as CC.
    destruct (match rest with [] => _ | _ => false end) eqn:Ec; [apply link_none; [exact A|tauto|intros _ _; apply CC; reflexivity]|].
    assert (NC : ~ (rest = [] /\ cll_rafsi mz "CCV" g)) by (intro H; apply CC in H; discriminate).
    destruct (yset_eqb yh FORCE_Y) eqn:Ey; [apply link_hy; auto; destruct yh; try discriminate; reflexivity|].
    destruct (rn_iff mz g Hg) as [R _]. assert (Ny : yh <> FORCE_Y) by (intros ->; discriminate).
    destruct (N.eqb (hd 0%N g) c_r); apply link_rn; auto.
  - assert (V : ~ vowel_pair mz r) by (apply not_pair; congruence). destruct first; cbn [app];
    (apply link_none; [apply not_needs; congruence|intros [_ H]; apply not_tosmabru in H; [exact H|congruence]|intro H; contradiction]).
  - assert (V : vowel_pair mz r) by (left; exact K). assert (A : ~ needs_y mz r g) by (apply not_needs; congruence). assert (B : ~ tosmabru mz r (g :: rest)) by (apply not_tosmabru; congruence).
    destruct first; cbn [app]; [|apply link_none; [exact A|tauto|discriminate]]. pose proof (ccv_iff mz g rest Hg) as CC.
    destruct (match rest with [] => _ | _ => false end) eqn:Ec; [apply link_none; [exact A|tauto|intros _ _; apply CC; reflexivity]|].
    assert (NC : ~ (rest = [] /\ cll_rafsi mz "CCV" g)) by (intro H; apply CC in H; discriminate).
    destruct (yset_eqb yh FORCE_Y) eqn:Ey; [apply link_hy; auto; destruct yh; try discriminate; reflexivity|].
    destruct (rn_iff mz g Hg) as [R _]. assert (Ny : yh <> FORCE_Y) by (intros ->; discriminate).
    destruct (N.eqb (hd 0%N g) c_r); apply link_rn; auto.
Qed.
Lemma link_strict : forall yh mz opt first r g rest h, cll mz r -> Forall (cll mz) (g :: rest) -> long_shape r = false ->
  link yh mz opt first r g rest h -> h = strict_h yh mz first r g rest
  \/ (strict_h yh mz first r g rest = [] /\ opt = true /\ vowel_pair mz r /\ yh <> FORCE_Y /\ (exists o, rn_before g o /\ h = [o]) /\ (first = true -> cll_rafsi mz "CCV" g)).
Proof.
  intros yh mz opt first r g rest h Hr F Hl H. pose proof (strict_link yh mz opt first r g rest Hr F Hl) as S. inversion F as [|? ? Hg F']; subst.
  assert (VN : vowel_pair mz r -> ~ needs_y mz r g /\ ~ tosmabru mz r (g :: rest)).
  { intros [V|V]; apply cll_tarmi in V; cbn in V; (split; [apply not_needs; congruence|apply not_tosmabru; congruence]). }
  destruct (rn_iff mz g Hg) as [_ R].
  destruct H as [H|H1 H2 H3|o H1 H2 H3 H4|H1 H2 H3 H4]; inversion S as [K E|K1 K2 K3 E|o' K1 K2 K3 K4 E|K1 K2 K3 K4 E]; subst.
  - left. reflexivity.
  - exfalso. tauto.
  - exfalso. tauto.
  - exfalso. tauto.
  - exfalso. tauto.
  - left. reflexivity.
  - exfalso. destruct K4 as [K4|[K4 K5]]; [|tauto].
    (* the strict hyphen is n or r only after the first rafsi *)
    destruct first.
    { destruct (H3 K1 eq_refl) as [-> C]. apply cll_tarmi in C. cbn in C. unfold strict_h, strict_text, first_suf, first_glue in E. rewrite C in E. change (tarmi_eqb CCV CCV) with true in E.
      destruct K1 as [K1|K1]; apply cll_tarmi in K1; cbn in K1; rewrite K1 in E; discriminate. }
    unfold strict_h, strict_text, can in E. destruct K1 as [K1|K1]; apply cll_tarmi in K1; cbn in K1; rewrite K1 in E; discriminate.
  - exfalso. tauto.
  - exfalso. tauto.
  - right. split; [reflexivity|]. assert (O : opt = true). { destruct H4 as [H4|[H4 H5]]; [exact H4|]. exfalso. tauto. }
    split; [exact O|]. split; [exact H1|]. split; [exact H2|]. split; [exists o; auto|]. intro Ef. apply K3; assumption.
  - left. rewrite (R _ H3), (R _ K3). reflexivity.
  - contradiction.
  - exfalso. tauto.
  - exfalso. tauto.
  - contradiction.
  - left. reflexivity.
Qed.

Fixpoint rule_pieces (yh : yset) (mz first : bool) (rs : list str) : list str :=
  match rs with
  | [] => []
  | r :: t => match t with [] => [r] | g :: rest => r :: strict_h yh mz first r g rest ++ rule_pieces yh mz false t end
  end.
Lemma pieces_more : forall yh mz first r g rest, rule_pieces yh mz first (r :: g :: rest) = r :: strict_h yh mz first r g rest ++ rule_pieces yh mz false (g :: rest).
Proof. reflexivity. Qed.
Lemma short_len : forall mz r, cll mz r -> long_shape r = false -> length r < 5.
Proof. intros mz r [s Hs] H. unfold long_shape in H. rewrite (cll_tarmi _ _ _ Hs) in H. inversion Hs; subst; try discriminate; cbn; lia. Qed.
Lemma len_short : forall mz r, cll mz r -> length r < 5 -> long_shape r = false.
Proof. intros mz r [s Hs] H. unfold long_shape. rewrite (cll_tarmi _ _ _ Hs). inversion Hs; subst; try reflexivity; cbn in H; lia. Qed.
Lemma pieces_hyph : forall yh mz opt rs first, Forall (cll mz) rs -> short_before_last rs -> calm_end rs -> rs <> [] ->
  hyphenated yh mz opt first rs (rule_pieces yh mz first rs).
Proof.
  intros yh mz opt. induction rs as [|r [|g rest] IH]; intros first F S C N; [contradiction| |].
  - cbn. apply hyph_last. destruct C as (s & v & E & V). exists s, v. split; [exact E|apply is_vowel_spec; exact V].
  - inversion F as [|? ? Hr F']; subst. destruct S as [S1 S2]. rewrite pieces_more. apply hyph_more.
    + eapply short_len; eassumption.
    + apply strict_link; assumption.
    + apply IH; [exact F'|exact S2|exact C|discriminate].
Qed.
Lemma pieces_word_false : forall st yh rs, concat (rule_pieces yh (allow_mz st) false rs) = word_of (canon st rs).
Proof.
  intros st yh. induction rs as [|r [|g rest] IH]; [reflexivity|reflexivity|]. rewrite pieces_more, canon_cons, word_of_cons. cbn [concat fst].
  rewrite concat_app, strict_concat, IH. unfold strict_text. rewrite <- app_assoc. reflexivity.
Qed.
Lemma pieces_word : forall st rs, 2 <= length rs -> concat (rule_pieces (y_hyphens st) (allow_mz st) true rs) = rule_word st rs.
Proof.
  intros st [|r [|g rest]] L; [cbn in L; lia|cbn in L; lia|]. rewrite pieces_more. cbn [concat]. rewrite concat_app, strict_concat, pieces_word_false.
  unfold strict_text. cbn [rule_word]. rewrite <- app_assoc. reflexivity.
Qed.

Lemma hyph_head : forall yh mz opt first rs ps, hyphenated yh mz opt first rs ps -> exists r rs' ps', rs = r :: rs' /\ ps = r :: ps'.
Proof. intros yh mz opt first rs ps H. destruct H; eauto 6. Qed.
Lemma hyph_rafsi : forall yh mz opt first rs ps, hyphenated yh mz opt first rs ps -> Forall (cll mz) rs -> rafsi_of ps = rs.
Proof.
  intros yh mz opt first rs ps H. induction H as [first r Hv|first r g rest h ps Hl Hk H IH]; intro F; inversion F as [|? ? Hr F']; subst; (assert (L3 : 3 <= length r) by (eapply cll_len; exact Hr)).
  - apply rafsi_of_first. lia.
  - rewrite rafsi_of_first by lia. f_equal. transitivity (rafsi_of ps); [|apply IH; exact F']. clear IH. inversion Hk; subst; try reflexivity. match goal with X : rn_before _ _ |- _ => destruct X as [[-> _]|[-> _]] end; reflexivity.
Qed.
Lemma hyph_ends : forall yh mz opt first rs ps, hyphenated yh mz opt first rs ps -> ends_in vowel (concat ps).
Proof.
  intros yh mz opt first rs ps H. induction H as [first r (s & v & E & V)|first r g rest h ps Hl Hk H (s & v & E & V)].
  - exists s, v. cbn [concat]. rewrite app_nil_r. auto.
  - exists (r ++ concat h ++ s), v. cbn [concat]. rewrite concat_app, E, !app_assoc. auto.
Qed.
Lemma consonant_y : forall c t, [c_y] ++ t = c :: t -> consonant c -> False.
Proof. intros c t E H. injection E as <-. apply is_consonant_spec in H. discriminate. Qed.
Lemma pair_shaped : forall mz r, vowel_pair mz r -> shaped "CVV" r \/ shaped "CV'V" r.
Proof. intros mz r [H|H]; apply cll_tarmi in H; apply tarmi_cvv; rewrite H; reflexivity. Qed.
Lemma hyph_cut : forall yh mz opt first rs ps, hyphenated yh mz opt first rs ps -> Forall (cll mz) rs ->
  forall prev, (first = true <-> prev = None) -> cut (rn_ok yh) (hy_ok yh) mz prev ps.
Proof.
  intros yh mz opt first rs ps H. induction H as [first r Hv|first r g rest h ps Hl Hk H IH]; intros F prev Hp; inversion F as [|? ? Hr F']; subst.
  - destruct Hr as [s Hs]. split; [|exact I]. left. exists s. split; [exact Hs|]. inversion Hs; subst; try exact I; try reflexivity; try (left; reflexivity).
    + intros c1' v' c2' _. split; [intros c t E|intros c d t E]; discriminate.
    + intros _ t E. discriminate.
  - specialize (IH F'). destruct (hyph_head _ _ _ _ _ _ H) as (g' & rs' & ps' & Eg & ->). injection Eg as <- <-.
    inversion F' as [|? ? Hg F'']; subst. pose proof Hr as Hr'. destruct Hr as [s Hs]. 
    assert (L3 : 3 <= length r) by (eapply cll_len; exact Hr'). assert (G3 : 3 <= length g) by (eapply cll_len; exact Hg).
    destruct g as [|b [|c g]]; [cbn in G3; lia|cbn in G3; lia|]. set (g0 := b :: c :: g) in *.
    assert (PR : placed_rafsi mz (match prev with None => true | _ => false end) r (h ++ g0 :: ps')).
    { exists s. split; [exact Hs|]. inversion Hs; subst; try exact I.
      - intros x1 xv x2 E. injection E as <- <- <-. destruct Hk as [Hk|Hk1 Hk2 Hk3|o Hk1|Hk1].
        + cbn [app concat]. split; [intros d t E Hd|intros d e t E Hd].
          * change (L "y") with [c_y] in E. cbn [app] in E. injection E as <- _. apply is_consonant_spec in Hd. discriminate.
          * change (L "y") with [c_y] in E. cbn [app] in E. injection E as <- _. apply triple_spec in Hd. cbn in Hd. exfalso. clear -Hd. revert Hd. cbn. repeat (rewrite ?andb_false_r, ?orb_false_r). discriminate.
        + assert (NC : ~ clash mz [c1; v; c2] g0) by (intro X; apply Hk1; right; right; auto).
          cbn [app concat]. unfold g0. cbn [app]. split; [intros d t E Hd|intros d e t E Hd].
          * injection E as <- _. apply valid_pairs_spec. destruct (mems [c2; b] (valid_pairs mz)) eqn:Em; [reflexivity|]. exfalso. apply NC. exists [c1; v], c2, b, (c :: g).
            split; [reflexivity|]. split; [reflexivity|]. left. intro P. apply valid_pairs_spec in P. congruence.
          * injection E as <- <- _. apply NC. exists [c1; v], c2, b, (c :: g). split; [reflexivity|]. split; [reflexivity|]. right. exists c, g. auto.
        + exfalso. revert Hk1. apply not_pair; rewrite (cll_tarmi _ _ _ Hs); discriminate.
        + exfalso. revert Hk1. apply not_pair; rewrite (cll_tarmi _ _ _ Hs); discriminate.
      - assert (NP : ~ vowel_pair mz [c1; c2; v]) by (apply not_pair; rewrite (cll_tarmi _ _ _ Hs); discriminate).
        intros _ t E. destruct Hk as [Hk|Hk1 Hk2 Hk3|o Hk1|Hk1]; apply (f_equal (hd [])) in E; cbn [app hd] in E.
        + discriminate.
        + rewrite E in G3. cbn in G3. lia.
        + contradiction.
        + contradiction.
      - right. inversion Hk; subst; [eexists; reflexivity| | |]. 
        + exfalso. match goal with X : ~ needs_y _ _ _ |- _ => apply X; left; exact Hs end.
        + exfalso. match goal with X : vowel_pair _ _ |- _ => apply (not_pair mz _) in X; [exact X| |]; rewrite (cll_tarmi _ _ _ Hs); discriminate end.
        + exfalso. match goal with X : vowel_pair _ _ |- _ => apply (not_pair mz _) in X; [exact X| |]; rewrite (cll_tarmi _ _ _ Hs); discriminate end.
      - right. inversion Hk; subst; [eexists; reflexivity| | |]. 
        + exfalso. match goal with X : ~ needs_y _ _ _ |- _ => apply X; right; left; exact Hs end.
        + exfalso. match goal with X : vowel_pair _ _ |- _ => apply (not_pair mz _) in X; [exact X| |]; rewrite (cll_tarmi _ _ _ Hs); discriminate end.
        + exfalso. match goal with X : vowel_pair _ _ |- _ => apply (not_pair mz _) in X; [exact X| |]; rewrite (cll_tarmi _ _ _ Hs); discriminate end.
      - exfalso. cbn in Hl. lia.
      - exfalso. cbn in Hl. lia. }
    cbn [cut]. split; [left; exact PR|].
    assert (IH' : forall q, cut (rn_ok yh) (hy_ok yh) mz (Some q) (g0 :: ps')) by (intro q; apply IH; split; discriminate).
    destruct Hk as [Hk|Hk1 Hk2 Hk3|o Hk1 Hk2 Hk3 Hk4|Hk1 Hk2 Hk3 Hk4]; cbn [app].
    + split; [|apply IH']. right. exists r. split; [reflexivity|]. split; [lia|]. left. reflexivity.
    + apply IH'.
    + split; [|apply IH']. right. exists r. split; [reflexivity|]. split; [lia|]. right. right. split; [destruct yh; try reflexivity; congruence|].
      split; [apply pair_shaped in Hk1; exact Hk1|]. cbn [concat]. destruct (cll_hd _ _ [] Hg) as (_ & Hb & _).
      destruct Hk3 as [[-> (t & E)]|[-> N]]; [left; split; [reflexivity|]; exists (t ++ concat ps'); rewrite E; reflexivity|].
      right. split; [reflexivity|]. exists b, ((c :: g) ++ concat ps'). split; [reflexivity|]. split; [apply is_consonant_spec; exact Hb|]. intro E. apply N. injection E as ->. exists (c :: g). reflexivity.
    + split; [|apply IH']. right. exists r. split; [reflexivity|]. split; [lia|]. right. left. split; [subst yh; reflexivity|reflexivity].
Qed.

Lemma drops_head : forall u p c o, drops u (p :: c) (p :: o) -> 2 <= length p -> drops (u ++ [p]) c o.
Proof.
  intros u p c o H L. inversion H as [|? ? ? ? D|u0 q o' p' corr other Ho Hq Hu D E1 E2 E3]; subst; [exact D|]. exfalso. destruct Ho as [->| ->]; cbn in L; lia.
Qed.
Lemma drops_app : forall x u A B, drops (u ++ x) A B -> drops u (x ++ A) (x ++ B).
Proof.
  induction x as [|p x IH]; intros u A B H; cbn [app]; [rewrite app_nil_r in H; exact H|]. apply drops_same. apply IH. rewrite <- app_assoc. exact H.
Qed.
Lemma hyph_force : forall mz opt first rs ps, hyphenated FORCE_Y mz opt first rs ps -> Forall (cll mz) rs -> ps = rule_pieces FORCE_Y mz first rs.
Proof.
  intros mz opt first rs ps H. induction H as [first r Hv|first r g rest h ps Hl Hk H IH]; intro F; [reflexivity|]. inversion F as [|? ? Hr F']; subst.
  rewrite pieces_more. f_equal. rewrite <- (IH F'). f_equal. apply link_strict in Hk as [Hk|(_ & _ & _ & Hk & _)]; [exact Hk|congruence|exact Hr|exact F'|eapply len_short; eassumption].
Qed.
Lemma pieces_head : forall yh mz first r rs, exists P, rule_pieces yh mz first (r :: rs) = r :: P.
Proof. intros yh mz first r [|g rest]; eexists; reflexivity. Qed.
Lemma hyph_drops : forall yh mz opt first rs ps, hyphenated yh mz opt first rs ps -> Forall (cll mz) rs -> 
  forall u, (first = false -> u <> []) -> drops u (rule_pieces yh mz first rs) ps.
Proof.
  intros yh mz opt first rs ps H. induction H as [first r Hv|first r g rest h ps Hl Hk H IH]; intros F u Hu; [apply drops_refl|]. inversion F as [|? ? Hr F']; subst.
  rewrite pieces_more. apply drops_same. pose proof Hk as Hk'. apply link_strict in Hk as [Hk|(E & _ & V & Hy & (o & Ho & ->) & Hc)]; [| |exact Hr|exact F'|eapply len_short; eassumption].
  - subst h. apply drops_app. apply IH; [exact F'|]. intros _ X. apply app_eq_nil in X as [X _]. apply app_eq_nil in X as [_ X]. discriminate.
  - rewrite E. cbn [app]. destruct (hyph_head _ _ _ _ _ _ H) as (g' & rs' & ps' & Eg & Eps). injection Eg as <- <-. subst ps.
    destruct (pieces_head yh mz false g rest) as [P EP]. rewrite EP in *. inversion F' as [|? ? Hg _]; subst.
    assert (G3 : 3 <= length g) by (eapply cll_len; exact Hg). apply drops_skip.
    + destruct Ho as [[-> _]|[-> _]]; auto.
    + eapply pair_shaped. exact V.
    + destruct first; [right; left|left; apply Hu; reflexivity]. specialize (Hc eq_refl). inversion Hc as [| | |c1 c2 v I1 I2| | | |]; subst. apply initial_c in I1 as [I1 I1'].
      unfold shaped. cbn [list_ascii_of_string]. constructor; [exact I1|constructor; [exact I1'|constructor; [exact I2|constructor]]].
    + assert (X : drops (((u ++ [r]) ++ [o]) ++ [g]) P ps').
      { apply drops_head; [|lia]. apply IH; [exact F'|]. intros _ X. apply app_eq_nil in X as [_ X]. discriminate. }
      rewrite <- app_assoc in X. exact X.
Qed.

Lemma drops_nil : forall u ps, drops u [] ps -> ps = [].
Proof. intros u ps H. inversion H; subst. reflexivity. Qed.
Lemma drops_cons : forall u q p c ps, drops (u ++ [q]) (p :: c) ps ->
  (exists o, ps = p :: o /\ drops ((u ++ [q]) ++ [p]) c o)
  \/ (exists x o, ps = x :: p :: o /\ (x = L "r" \/ x = L "n") /\ (shaped "CVV" q \/ shaped "CV'V" q) /\ (u <> [] \/ shaped "CCV" p \/ shaped "CCVC" p \/ shaped "CCVCV" p)
      /\ drops ((u ++ [q]) ++ [x; p]) c o).
Proof.
  intros u q p c ps H. inversion H as [|? ? ? ? D|u0 q' o' p' corr other Ho Hq Hu D E1 E2 E3]; subst; [left; eauto|]. apply app_inj_tail in E1 as [-> ->].
  right. exists o', other. auto 6.
Qed.
Lemma strict_cases : forall yh mz first r g rest x, strict_h yh mz first r g rest = [x] -> cll mz r -> Forall (cll mz) (g :: rest) -> long_shape r = false ->
  1 <= length x <= 2 /\ ~ (shaped "CVV" x \/ shaped "CV'V" x) /\ x <> [].
Proof.
  intros yh mz first r g rest x E Hr F Hl. pose proof (strict_link yh mz true first r g rest Hr F Hl) as S. rewrite E in S.
  assert (L2 : 1 <= length x <= 2).
  { inversion S; subst; try (cbn; lia). match goal with X : rn_before _ _ |- _ => destruct X as [[-> _]|[-> _]]; cbn; lia end. }
  split; [exact L2|]. split; [|intros ->; cbn in L2; lia]. intros [X|X]; apply Forall2_length in X; cbn in X; lia.
Qed.
Lemma drops_hyph : forall yh mz rs r first u ps, yh <> FORCE_Y -> Forall (cll mz) (r :: rs) -> short_before_last (r :: rs) -> calm_end (r :: rs) ->
  (first = true <-> u = []) -> (forall P, rule_pieces yh mz first (r :: rs) = r :: P -> drops (u ++ [r]) P ps) ->
  cut (rn_ok yh) (hy_ok yh) mz (Some r) ps -> hyphenated yh mz true first (r :: rs) (r :: ps).
Proof.
  intros yh mz. induction rs as [|g rest IH]; intros r first u ps Hy F S C Hu D Hc.
  - specialize (D [] eq_refl). apply drops_nil in D. subst ps. apply hyph_last. destruct C as (s & v & E & V). exists s, v. split; [exact E|apply is_vowel_spec; exact V].
  - inversion F as [|? ? Hr F']; subst. inversion F' as [|? ? Hg F'']; subst. destruct S as [S1 S2]. specialize (D _ (pieces_more _ _ _ _ _ _)).
    assert (L5 : length r < 5) by (eapply short_len; eassumption).
    destruct (pieces_head yh mz false g rest) as [P EP]. rewrite EP in D.
    pose proof (strict_link yh mz true first r g rest Hr F' S1) as SL.
    assert (G3 : 3 <= length g) by (eapply cll_len; exact Hg).
    assert (Nu : forall (v : list str) z, false = true <-> v ++ [z] = []) by (intros v z; split; [discriminate|intro X; apply app_eq_nil in X as [_ X]; discriminate]).
    destruct (strict_h yh mz first r g rest) as [|x [|]] eqn:Es.
    + cbn [app] in D. apply drops_cons in D as [(o & -> & D)|(x & o & -> & Hx & Hq & Hp & D)].
      * change (r :: g :: o) with (r :: [] ++ g :: o). apply hyph_more; [exact L5|exact SL|].
        apply (IH g false (u ++ [r]) o Hy F' S2 C (Nu _ _)); [|apply (proj2 Hc)]. intros P' EP'. rewrite EP in EP'. injection EP' as <-. exact D.
      * change (r :: x :: g :: o) with (r :: [x] ++ g :: o). destruct Hc as [Hc1 Hc2]. apply hyph_more; [exact L5| |].
        -- apply link_rn; [|exact Hy| |left; reflexivity].
           ++ pose proof (cll_is mz _ r Hr eq_refl) as K. apply shaped_cvv_tarmi in Hq. unfold vowel_pair. destruct (rafsi_tarmi r); try discriminate; auto.
           ++ assert (L1 : length x = 1) by (destruct Hx as [->| ->]; reflexivity).
              destruct Hc1 as [(s & Hs & _)|(q & _ & _ & [X|[[_ X]|(_ & _ & X)]])].
              ** assert (3 <= length x) by (eapply cll_len; exists s; exact Hs). lia.
              ** destruct Hx as [->| ->]; discriminate.
              ** destruct Hx as [->| ->]; discriminate.
              ** destruct g as [|b g]; [cbn in G3; lia|]. cbn [concat app] in X. destruct X as [[-> (t & E)]|[-> (c & t & E & Hc' & N)]].
                 --- left. split; [reflexivity|]. exists g. injection E as -> _. reflexivity.
                 --- right. split; [reflexivity|]. intros (t' & E'). injection E as -> _. injection E' as -> _. apply N. reflexivity.
        -- apply (IH g false ((u ++ [r]) ++ [x]) o Hy F' S2 C (Nu _ _)); [|apply (proj2 Hc2)]. intros P' EP'. rewrite EP in EP'. injection EP' as <-. rewrite <- (app_assoc (u ++ [r])). exact D.
    + destruct (strict_cases yh mz first r g rest x Es Hr F' S1) as (X1 & X2 & X3). cbn [app] in D. apply drops_cons in D as [(o & -> & D)|(y & o & -> & Hx & Hq & Hp & D)].
      * apply drops_cons in D as [(o2 & -> & D)|(y & o2 & -> & _ & Hq & _)]; [|contradiction].
        change (r :: x :: g :: o2) with (r :: [x] ++ g :: o2). destruct Hc as [Hc1 Hc2]. apply hyph_more; [exact L5|exact SL|].
        apply (IH g false ((u ++ [r]) ++ [x]) o2 Hy F' S2 C (Nu _ _)); [|apply (proj2 Hc2)]. intros P' EP'. rewrite EP in EP'. injection EP' as <-. exact D.
      * exfalso. destruct Hc as [_ [[(s & Hs & _)|(q & E & Lq & _)] _]].
        -- assert (3 <= length x) by (eapply cll_len; exists s; exact Hs). lia.
        -- injection E as <-. apply Lq. destruct Hx as [->| ->]; reflexivity.
    + exfalso. revert Es. unfold strict_h. destruct (strict_text _ _ _ _ _ _); discriminate.
Qed.
