(** A zi'evla cannot be cut into CLL rafsi and hyphens: such a word is either a
    lujvo by the rules, or falls apart after its first syllable. *)
From Verif Require Import Str Data Tarmi Rafsi Core Api Lib Spec Shapes Decomp Basic Vowels Katna Dict Errs Builder Jvokaha Slinku Fuel Raises Inv Parts Clusters Forms Chain Score Alt Lujvo Optimal Props1 Props2 Props3 Total Onset Pinned Found Props4 Props5 Props6 Props8 Props9 Props10 Tosm Joint Swap Unique Round Recast RuleSpec Rules Rules2 Props16.

Lemma cll_first : forall mz s p, cll_rafsi mz s p -> exists c t, p = c :: t /\ consonant c.
Proof. intros mz s p H. inversion H; subst; eexists; eexists; (split; [reflexivity|]); try assumption; apply initial_c in H0 as [? ?]; assumption. Qed.
Lemma cll_shape : forall mz s s' p, cll_rafsi mz s p -> cll_rafsi mz s' p -> s = s'.
Proof.
  intros mz s s' p H H'. pose proof (cll_tarmi _ _ _ H) as E. rewrite (cll_tarmi _ _ _ H') in E.
  inversion H; subst; inversion H'; subst; first [reflexivity|discriminate E].
Qed.
Lemma cll_pair : forall mz p, cll mz p -> shaped "CVV" p \/ shaped "CV'V" p -> vowel_pair mz p.
Proof.
  intros mz p [s H] X. destruct X as [X|X]; inversion H; subst; inversion X as [|? ? ? ? F1 X1]; subst; inversion X1 as [|? ? ? ? F2 X2]; subst; inversion X2 as [|? ? ? ? F3 X3]; subst; inversion X3; subst; cbn [fits] in F1, F2, F3.
  all: try (left; constructor; assumption). all: try (right; constructor; assumption).
  all: exfalso; repeat match goal with I : initial_pair _ _ |- _ => apply initial_c in I as [? ?] | I : permissible _ _ _ |- _ => apply permissible_c in I as [? ?] end;
    match goal with V : vowel ?c, K : consonant ?c |- _ => exact (vowel_not_consonant _ V K) | E : ?c = apostrophe, K : consonant ?c |- _ => apply is_consonant_spec in K; rewrite E in K; discriminate | V : vowel apostrophe |- _ => apply is_vowel_spec in V; discriminate | K : consonant apostrophe |- _ => apply is_consonant_spec in K; discriminate | E : apostrophe = _ |- _ => idtac end.
Qed.

Fixpoint ncc (s : str) : bool :=
  match s with
  | a :: t => match t with b :: _ => negb (is_consonant a && is_consonant b) | [] => true end && ncc t
  | [] => true
  end.
Lemma ncc_none : forall s a b, ncc s = true -> contains s [a; b] -> ~ (consonant a /\ consonant b).
Proof.
  intros s a b H (u & v & ->) [Ha Hb]. apply is_consonant_spec in Ha, Hb. induction u as [|x u IH].
  - cbn [app ncc] in H. rewrite Ha, Hb in H. discriminate.
  - cbn [app ncc] in H. apply andb_t in H as [_ H]. exact (IH H).
Qed.

(** ** what has no y is joined by the rules, but for the start *)
Lemma cut_joined : forall yh mz n ps p f, length ps <= n -> placed_rafsi mz f p ps -> cut (rn_ok yh) (hy_ok yh) mz (Some p) ps ->
  ~ In letter_y (concat (p :: ps)) -> ends_in vowel (concat (p :: ps)) ->
  exists rs, cll_rafsi_list mz (p :: rs) /\ hyphenated yh mz true false (p :: rs) (p :: ps).
Proof.
  intros yh mz. induction n as [|n IH]; intros ps p f Hn Hp Hc Hy He; pose proof Hp as (s & Hs & Hsh); (destruct ps as [|q ps]; [|cbn [length] in Hn; try lia]).
  1, 2: exists []; split; [apply Forall_cons; [exists s; exact Hs|apply Forall_nil]|apply hyph_last; cbn [concat] in He; rewrite app_nil_r in He; exact He].
  assert (L5 : length p < 5).
  { inversion Hs; subst; cbn [length]; try lia; discriminate Hsh. }
  cbn [cut] in Hc. destruct Hc as [[Hq|(q0 & Eq & Hq)] Hc].
  - assert (Eq : concat (p :: q :: ps) = p ++ concat (q :: ps)) by reflexivity. rewrite Eq in *.
    destruct (IH ps q false) as (rs & F & Hh); [lia|exact Hq|exact Hc|intro X; apply Hy; apply in_or_app; right; exact X| |].
    { destruct He as (u & c & E & Hv). destruct Hq as (s' & Hs' & _). destruct (cll_first _ _ _ Hs') as (c' & t' & -> & _). cbn [concat app] in *.
      destruct (exists_last (l := c' :: t' ++ concat ps) ltac:(discriminate)) as (u' & c'' & E'). rewrite E' in *. rewrite app_assoc in E. apply app_inj_tail in E as [_ <-]. exists u', c''. auto. }
    exists (q :: rs). split; [apply Forall_cons; [exists s; exact Hs|exact F]|]. apply (hyph_more yh mz true false p q rs [] (q :: ps)); [exact L5| |exact Hh].
    assert (Fq : exists c t, q = c :: t /\ consonant c) by (destruct Hq as (s' & Hs' & _); eapply cll_first; exact Hs').
    apply link_none; [|intros [X _]; discriminate|intros _ X; discriminate]. intros [X|[X|[X Y]]].
    + pose proof (cll_shape _ _ _ _ Hs X) as ->. destruct Hsh as [E|[t E]]; [discriminate|]. injection E as -> _. apply Hy. apply in_or_app. right. left. reflexivity.
    + pose proof (cll_shape _ _ _ _ Hs X) as ->. destruct Hsh as [E|[t E]]; [discriminate|]. injection E as -> _. apply Hy. apply in_or_app. right. left. reflexivity.
    + pose proof (cll_shape _ _ _ _ Hs X) as ->. inversion X as [c1 v c2 K1 K2 K3| | | | | | |]; subst p. destruct (Hsh _ _ _ eq_refl) as [J1 J2].
      destruct Y as (u & a & b & t & E1 & E2 & Y). apply (app_inj_tail [c1; v] u) in E1 as [_ <-]. destruct Fq as (c & t' & E & Hcc). rewrite E2 in E. injection E as <- <-. subst q. destruct Y as [Y|(c & t' & -> & Y)].
      * apply Y. eapply J1; [reflexivity|exact Hcc].
      * eapply J2; [reflexivity|exact Y].
  - injection Eq as <-. destruct Hq as (Hl & [->|[[_ ->]|(Hrn & Hpair & Ho)]]).
    + exfalso. apply Hy. cbn [concat]. apply in_or_app. right. left. reflexivity.
    + exfalso. apply Hy. cbn [concat]. apply in_or_app. right. right. left. reflexivity.
    + assert (L1 : length q = 1) by (destruct Ho as [[-> _]|[-> _]]; reflexivity).
      destruct ps as [|g ps]; [exfalso; destruct Ho as [[_ [t E]]|[_ (c & t & E & _)]]; discriminate|].
      cbn [cut] in Hc. destruct Hc as [[Hg|(q0 & E & Hg)] Hc]; [|exfalso; injection E as <-; destruct Hg as [X _]; contradiction].
      assert (Eq : concat (p :: q :: g :: ps) = (p ++ q) ++ concat (g :: ps)) by (cbn [concat]; rewrite <- app_assoc; reflexivity). rewrite Eq in *.
      destruct (IH ps g false) as (rs & F & Hh); [cbn [length] in Hn; lia|exact Hg|exact Hc|intro X; apply Hy; apply in_or_app; right; exact X| |].
      { destruct He as (u & c & E & Hv). destruct Hg as (s' & Hs' & _). destruct (cll_first _ _ _ Hs') as (c' & t' & -> & _). cbn [concat app] in *.
        destruct (exists_last (l := c' :: t' ++ concat ps) ltac:(discriminate)) as (u' & c'' & E'). rewrite E' in *. rewrite app_assoc in E. apply app_inj_tail in E as [_ <-]. exists u', c''. auto. }
      exists (g :: rs). split; [apply Forall_cons; [exists s; exact Hs|exact F]|]. apply (hyph_more yh mz true false p g rs [q] (g :: ps)); [exact L5| |exact Hh].
      apply link_rn; [eapply cll_pair; [exists s; exact Hs|exact Hpair]|intros ->; discriminate| |left; reflexivity].
      destruct Hg as (s' & Hs' & _). destruct (cll_first _ _ _ Hs') as (c' & t' & -> & _). cbn [concat app] in Ho.
      destruct Ho as [[-> [t E]]|[-> (c & t & E & Hcc & Nr)]]; [left|right]; (split; [reflexivity|]).
      * injection E as -> _. exists t'. reflexivity.
      * intros [t2 E2]. injection E as -> _. injection E2 as -> _. apply Nr. reflexivity.
Qed.

(** ** the tosmabru pattern without y: a syllable before rafsi CCV *)
Lemma no_y_link : forall yh mz r g rest h, link yh mz true false r g rest h -> ~ In letter_y (concat h) -> ~ vowel_pair mz r -> h = [] /\ ~ needs_y mz r g.
Proof.
  intros yh mz r g rest h H Hy Hv. inversion H; subst; try contradiction; try discriminate.
  - exfalso. apply Hy. left. reflexivity.
  - auto.
Qed.
Lemma cvc_not_pair : forall mz r, cll_rafsi mz "CVC" r -> ~ vowel_pair mz r.
Proof. intros mz r H [X|X]; pose proof (cll_shape _ _ _ _ H X); discriminate. Qed.
Lemma ccv_hyph : forall yh mz opt qs first, Forall (cll_rafsi mz "CCV") qs -> qs <> [] -> hyphenated yh mz opt first qs qs.
Proof.
  intros yh mz opt. induction qs as [|q qs IH]; intros first F N; [congruence|]. inversion F as [|? ? Hq F']; subst. destruct qs as [|g rest].
  - apply hyph_last. inversion Hq; subst. eexists [_; _], _. split; [reflexivity|assumption].
  - apply (hyph_more yh mz opt first q g rest [] (g :: rest)); [inversion Hq; subst; cbn; lia| |apply IH; [exact F'|discriminate]].
    apply link_none.
    + intros [X|[X|[X _]]]; pose proof (cll_shape _ _ _ _ Hq X); discriminate.
    + intros [_ T]. destruct T as [? ? ? ? ? ? ? X|? ? ? ? X|? ? ? ? X]; pose proof (cll_shape _ _ _ _ Hq X); discriminate.
    + intros [X|X]; pose proof (cll_shape _ _ _ _ Hq X); discriminate.
Qed.
Lemma cvc_joint : forall r c1 t, (exists c v x, r = [c; v; x] /\ initial_joint r (c1 :: t)) -> exists c v x, r = [c; v; x] /\ initial_pair x c1.
Proof.
  intros r c1 t (c & v & x & -> & s & a & b & t' & E1 & E2 & J). exists c, v, x. split; [reflexivity|]. injection E2 as <- <-.
  apply (app_inj_tail [c; v] s) in E1 as [_ <-]. exact J.
Qed.
Lemma tosm_cut : forall yh mz r rs, tosmabru mz r rs -> forall ps, hyphenated yh mz true false (r :: rs) ps -> ~ In letter_y (concat ps) ->
  exists c v qs, consonant c /\ vowel v /\ (exists x, r = [c; v; x]) /\ Forall (cll_rafsi mz "CCV") qs /\ 2 <= length qs /\ concat ps = c :: v :: concat qs.
Proof.
  intros yh mz r rs T. induction T as [r c1 v c2 c3 v' rest Hr Hj Hg Hi|r g k rest Hr Hj Hg Hcl|r g k rest Hr Hj T IH]; intros ps H Hy;
    inversion H as [|? ? ? ? h ps' L5 Hl Hh]; subst.
  all: assert (Hy1 : ~ In letter_y (concat h)) by (intro X; apply Hy; cbn [concat]; rewrite concat_app; apply in_or_app; right; apply in_or_app; left; exact X).
  all: assert (Hy2 : ~ In letter_y (concat ps')) by (intro X; apply Hy; cbn [concat]; rewrite concat_app; apply in_or_app; right; apply in_or_app; right; exact X).
  all: destruct (no_y_link _ _ _ _ _ _ Hl Hy1 (cvc_not_pair _ _ Hr)) as [-> Nn]; cbn [app] in *.
  - inversion Hh as [|? ? ? ? ? ? L]; subst; [|cbn in L; lia]. inversion Hr as [k u x K1 K2 K3| | | | | | |]; subst r. inversion Hg; subst.
    destruct (cvc_joint [k; u; x] c1 [v; c2; c3; v']) as (k' & u' & x' & E & J); [exists k, u, x; auto|]. injection E as <- <- <-.
    exists k, u, [[x; c1; v]; [c2; c3; v']]. split; [exact K1|]. split; [exact K2|]. split; [exists x; reflexivity|]. split; [|split; [cbn; lia|reflexivity]].
    apply Forall_cons; [constructor; assumption|]. apply Forall_cons; [constructor; assumption|apply Forall_nil].
  - exfalso. inversion Hh as [|? ? ? ? h' ps'' L5' Hl' Hh']; subst. destruct (no_y_link _ _ _ _ _ _ Hl') as [_ N]; [|apply cvc_not_pair; exact Hg|apply N; right; right; auto].
    intro X. apply Hy2. cbn [concat]. rewrite concat_app. apply in_or_app; right; apply in_or_app; left; exact X.
  - destruct (IH _ Hh Hy2) as (c1 & v1 & qs & Hc1 & Hv1 & (x1 & Eg) & F & L & E). inversion Hr as [k' u x K1 K2 K3| | | | | | |]; subst r. rewrite Eg in Hj.
    destruct (cvc_joint [k'; u; x] c1 [v1; x1]) as (k2 & u' & x' & E2 & J); [exists k', u, x; auto|]. injection E2 as <- <- <-.
    exists k', u, ([x; c1; v1] :: qs). split; [exact K1|]. split; [exact K2|]. split; [exists x; reflexivity|]. split; [apply Forall_cons; [constructor; assumption|exact F]|].
    split; [cbn [length]; lia|]. cbn [concat app] in *. rewrite E. reflexivity.
Qed.

(** ** a run of CVV and CV'V has no cluster *)
Lemma pairs_ncc : forall mz rs ps, hyphenated FORCE_Y mz true false rs ps -> Forall (vowel_pair mz) rs -> ~ In letter_y (concat ps) -> ncc (concat ps) = true.
Proof.
  intros mz rs ps H. remember false as f eqn:Ef. induction H as [f r He|f r g rest h ps L5 Hl Hh IH]; intros F Hy; subst f; inversion F as [|? ? V F']; subst.
  - cbn [concat]. rewrite app_nil_r. destruct V as [V|V]; inversion V as [|? ? ? K D|? ? ? K D1 D2| | | | |]; subst.
    + apply is_consonant_spec in K. assert (is_consonant v1 = false /\ is_consonant v2 = false) as [E1 E2] by (destruct D as [D|[D|[D|[D|[]]]]]; injection D as <- <-; split; reflexivity).
      cbn [ncc]. rewrite E1, E2. rewrite andb_false_r. reflexivity.
    + apply is_vowel_spec in D1, D2. cbn [ncc]. rewrite (v_f0 _ D1), (v_f0 _ D2). rewrite !andb_false_r. reflexivity.
  - assert (Hy1 : ~ In letter_y (concat h)) by (intro X; apply Hy; cbn [concat]; rewrite concat_app; apply in_or_app; right; apply in_or_app; left; exact X).
    assert (Hy2 : ~ In letter_y (concat ps)) by (intro X; apply Hy; cbn [concat]; rewrite concat_app; apply in_or_app; right; apply in_or_app; right; exact X).
    assert (h = []) as -> by (inversion Hl; subst; [exfalso; apply Hy1; left; reflexivity|reflexivity|congruence|discriminate]).
    specialize (IH eq_refl F' Hy2). cbn [concat app]. remember (concat ps) as s eqn:Es. clear - V IH. destruct V as [V|V]; inversion V as [|? ? ? K D|? ? ? K D1 D2| | | | |]; subst.
    + assert (is_consonant v1 = false /\ is_consonant v2 = false) as [E1 E2] by (destruct D as [D|[D|[D|[D|[]]]]]; injection D as <- <-; split; reflexivity).
      cbn [app ncc]. rewrite E1, E2, IH. cbn [andb negb]. rewrite andb_false_r. destruct s; reflexivity.
    + apply is_vowel_spec in D1, D2. cbn [app ncc]. rewrite (v_f0 _ D1), (v_f0 _ D2), IH. rewrite !andb_false_r. destruct s; reflexivity.
Qed.

(** ** the word *)
Ltac vc := match goal with V : vowel ?c, K : consonant ?c |- _ => exact (False_ind _ (vowel_not_consonant _ V K)) end.
Lemma pair_dec : forall mz r, cll mz r -> {vowel_pair mz r} + {~ vowel_pair mz r}.
Proof.
  intros mz r H. destruct (tarmi_eqb (rafsi_tarmi r) CVV) eqn:E1; [left|destruct (tarmi_eqb (rafsi_tarmi r) CVhV) eqn:E2; [left|right]].
  - apply tarmi_eqb_eq in E1. left. exact (cll_is _ _ _ H E1).
  - apply tarmi_eqb_eq in E2. right. exact (cll_is _ _ _ H E2).
  - intros [X|X]; apply cll_tarmi in X; cbn in X; rewrite X in *; discriminate.
Qed.
Lemma pairs_or : forall mz rs, Forall (cll mz) rs -> Forall (vowel_pair mz) rs \/ Exists (fun r => ~ vowel_pair mz r) rs.
Proof.
  intros mz rs F. induction F as [|r rs H F IH]; [left; apply Forall_nil|]. destruct (pair_dec mz r H) as [V|V]; [|right; apply Exists_cons_hd; exact V].
  destruct IH as [IH|IH]; [left; apply Forall_cons; assumption|right; apply Exists_cons_tl; exact IH].
Qed.
Lemma ccv_not_pair : forall mz c d t, cll mz (c :: d :: t) -> consonant d -> ~ vowel_pair mz (c :: d :: t).
Proof.
  intros mz c d t H Hd [X|X]; inversion X; subst.
  - match goal with D : diphthong _ |- _ => destruct D as [D|[D|[D|[D|[]]]]]; injection D as <- <-; apply is_consonant_spec in Hd; discriminate end.
  - vc.
Qed.
Lemma hyph_ends_vowel : forall yh mz opt first rs ps, hyphenated yh mz opt first rs ps -> exists r, In r rs /\ ends_in vowel r /\ last rs [] = r.
Proof.
  intros yh mz opt first rs ps H. induction H as [f r He|f r g rest h ps L5 Hl Hh (r' & I & He & El)]; [exists r; split; [left; reflexivity|auto]|].
  exists r'. split; [right; exact I|]. split; [exact He|]. exact El.
Qed.
Lemma cc_start : forall yh mz c d t rs ps, cll mz (c :: d :: t) -> consonant d -> hyphenated yh mz true false ((c :: d :: t) :: rs) ps ->
  hyphenated yh mz true true ((c :: d :: t) :: rs) ps.
Proof.
  intros yh mz c d t rs ps Hc Hd H. pose proof (ccv_not_pair _ _ _ _ Hc Hd) as Np. inversion H as [? ? He|? ? g rest h ps' L5 Hl Hh]; subst; [apply hyph_last; exact He|].
  apply hyph_more; [exact L5| |exact Hh]. inversion Hl; subst; try contradiction.
  - apply link_y. destruct H0 as [H0|[X _]]; [left; exact H0|discriminate].
  - apply link_none; [assumption| |intro; contradiction]. intros [_ T]. assert (X : cll_rafsi mz "CVC" (c :: d :: t)) by (destruct T; assumption).
    inversion X; subst. vc.
Qed.

Definition bare (yh : yset) (mz : bool) : settings := mkSettings yh false CLUSTER false mz.

(** a part of the word that starts with a cluster and is joined by the rules is
    a word of its own *)
Lemma cc_brivla : forall yh c d t rs ps s, cll_rafsi_list false ((c :: d :: t) :: rs) -> consonant d -> 4 <= length s ->
  hyphenated yh false true false ((c :: d :: t) :: rs) ps -> concat ps = s -> standard_spelling s = s -> (Z.of_nat (length s) <= 10 ^ 96)%Z ->
  is_brivla Bound (bare yh false) s = Ok true.
Proof.
  intros yh c d t rs ps s F Hd L4 H Ec Es Hlen. unfold is_brivla, Core.is_brivla. inversion F as [|? ? Hc F']; subst.
  destruct rs as [|g rs].
  - inversion H as [? ? He|]; subst. cbn [concat] in *. rewrite app_nil_r in *.
    assert (G : gismu_form false (standard_spelling (c :: d :: t))).
    { rewrite Es. destruct Hc as [sh Hc]. inversion Hc; subst; cbn in L4; try lia; try (exfalso; vc).
      - exfalso. destruct He as (u & l & E & Hl). apply (app_inj_tail [c; d; v] u) in E as [_ <-]. vc.
      - right. exists c, d, v, c3, v'. auto. }
    apply (C05_gismu_shape Bound (bare yh false)) in G. destruct G as [q G]. rewrite G. reflexivity.
  - rewrite (C44_rules_suffice (bare yh false) _ ps ((c :: d :: t) :: g :: rs)); [reflexivity|rewrite Es; exact Hlen|symmetry; exact Es|exact F|cbn [length]; lia| |].
    + apply cc_start; assumption.
    + intros _ _. apply Exists_cons_hd. apply ccv_not_pair; assumption.
Qed.

Lemma pair_ncc : forall mz p c, vowel_pair mz p -> ncc (p ++ [c]) = true.
Proof.
  intros mz p c [V|V]; inversion V as [|? ? ? K D|? ? ? K D1 D2| | | | |]; subst.
  - assert (is_consonant v1 = false /\ is_consonant v2 = false) as [E1 E2] by (destruct D as [D|[D|[D|[D|[]]]]]; injection D as <- <-; split; reflexivity).
    cbn [app ncc]. rewrite E1, E2. rewrite andb_false_r. reflexivity.
  - apply is_vowel_spec in D1, D2. cbn [app ncc]. rewrite (v_f0 _ D1), (v_f0 _ D2). rewrite !andb_false_r. reflexivity.
Qed.
(** two consonants stand before the first cluster *)
Lemma pair_two : forall mz p c d t u v, vowel_pair mz p -> consonant c -> vowel d -> first_cluster (p ++ c :: d :: t) u v -> at_most_one_consonant u -> False.
Proof.
  intros mz p c d t u v V Hc Hd (Ew & (a & b & t' & -> & Ha & Hb) & _) H1.
  assert (P : exists k x, p = k :: x /\ consonant k /\ Forall (fun y => ~ consonant y) x /\ x <> []).
  { destruct V as [V|V]; inversion V as [|k v1 v2 K D|k v1 v2 K D1 D2| | | | |]; subst; exists k; eexists; (split; [reflexivity|]); (split; [exact K|]); (split; [|discriminate]).
    - destruct D as [D|[D|[D|[D|[]]]]]; injection D as <- <-; repeat (apply Forall_cons; [intro X; apply is_consonant_spec in X; discriminate|]); apply Forall_nil.
    - apply Forall_cons; [intro X; vc|]. apply Forall_cons; [intro X; apply is_consonant_spec in X; discriminate|]. apply Forall_cons; [intro X; vc|apply Forall_nil]. }
  destruct P as (k & x & -> & Hk & Fx & Nx). destruct u as [|k' u].
  - cbn [app] in Ew. injection Ew as <- Ew. destruct x as [|x0 x]; [congruence|]. cbn [app] in Ew. injection Ew as <- _. inversion Fx; subst. contradiction.
  - cbn [app] in Ew. injection Ew as <- Ew. assert (Q : exists u', u = x ++ c :: u').
    { clear H1 Nx V. revert u Ew. induction Fx as [|y x Hy Fx IH]; intros u Ew.
      - cbn [app] in Ew. destruct u as [|c' u]; [|cbn [app] in Ew; injection Ew as <- _; exists u; reflexivity].
        cbn [app] in Ew. injection Ew as <- <- _. vc.
      - cbn [app] in Ew. destruct u as [|y' u]; [cbn [app] in Ew; injection Ew as <- _; contradiction|]. cbn [app] in Ew. injection Ew as <- Ew. destruct (IH _ Ew) as [u' ->]. exists u'. reflexivity. }
    destruct Q as [u' ->]. exact (H1 [] k x c u' eq_refl Hk Hc).
Qed.

Lemma no_y_app : forall (a b : str), ~ In letter_y (a ++ b) -> ~ In letter_y a /\ ~ In letter_y b.
Proof. intros a b H. split; intro X; apply H; apply in_or_app; auto. Qed.

(** ** the option allow_mz does not matter where there is no mz *)
Lemma perm_drop : forall mz a b, permissible mz a b -> [a; b] <> L "mz" -> permissible false a b.
Proof. intros mz a b (H1 & H2 & H3 & H4 & H5 & H6 & H7) N. repeat (split; [assumption|]). destruct H7 as [H7 H8]. split; [exact H7|]. intro E. contradiction. Qed.
Lemma perm_lift : forall mz a b, permissible false a b -> permissible mz a b.
Proof. intros [] a b H; [|exact H]. destruct H as (H1 & H2 & H3 & H4 & H5 & H6 & H7). repeat (split; [assumption|]). destruct H7 as [H7 H8]. split; [exact H7|]. intro E. reflexivity. Qed.
Lemma cll_lift : forall mz s r, cll_rafsi false s r -> cll_rafsi mz s r.
Proof. intros mz s r H. inversion H; subst; constructor; try assumption; apply perm_lift; assumption. Qed.
Lemma cll_drop : forall mz s r, cll_rafsi mz s r -> ~ contains r (L "mz") -> cll_rafsi false s r.
Proof.
  intros mz s r H N. inversion H; subst; constructor; try assumption; (eapply perm_drop; [eassumption|]); intro E; apply N.
  - exists [c1; v], []. rewrite <- E. reflexivity.
  - exists [c1; v], [v']. rewrite <- E. reflexivity.
Qed.
Lemma cll_same : forall mz s r, cll_rafsi mz s r -> cll false r -> cll_rafsi false s r.
Proof. intros mz s r H [s' H']. pose proof (cll_lift mz _ _ H') as X. rewrite (cll_shape _ _ _ _ H X). exact H'. Qed.
Lemma contains_mid : forall (a b c s : str), contains b s -> contains (a ++ b ++ c) s.
Proof. intros a b c s (u & v & ->). exists (a ++ u), (v ++ c). rewrite <- !app_assoc. reflexivity. Qed.
Lemma clash_lift : forall mz r g, clash mz r g -> clash false r g.
Proof. intros mz r g (s & a & b & t & E1 & E2 & [X|X]); exists s, a, b, t; (split; [exact E1|]); (split; [exact E2|]); [left; intro P; apply X, perm_lift, P|right; exact X]. Qed.
Lemma tosm_same : forall mz r rs, tosmabru mz r rs -> cll_rafsi_list false (r :: rs) -> tosmabru false r rs.
Proof.
  intros mz r rs T. induction T as [r c1 v c2 c3 v' rest Hr Hj Hg Hi|r g k rest Hr Hj Hg Hcl|r g k rest Hr Hj T IH]; intro F; inversion F as [|? ? Fr F']; subst; inversion F' as [|? ? Fg F'']; subst.
  - apply tos_gismu; [eapply cll_same; eassumption|exact Hj|eapply cll_same; eassumption|exact Hi].
  - apply tos_y; [eapply cll_same; eassumption|exact Hj|eapply cll_same; eassumption|eapply clash_lift; exact Hcl].
  - apply tos_more; [eapply cll_same; eassumption|exact Hj|apply IH; exact F'].
Qed.
Lemma pair_lift : forall mz r, vowel_pair false r -> vowel_pair mz r.
Proof. intros mz r [X|X]; [left|right]; apply cll_lift; exact X. Qed.
Lemma pair_drop : forall mz r, vowel_pair mz r -> vowel_pair false r.
Proof. intros mz r [X|X]; [left|right]; inversion X; subst; constructor; assumption. Qed.
Lemma link_lift : forall yh mz f r g rest h, link yh false true f r g rest h -> cll_rafsi_list false (r :: g :: rest) -> ~ In letter_y (concat h) -> link yh mz true f r g rest h.
Proof.
  intros yh mz f r g rest h H F Hy. inversion F as [|? ? Fr F']; subst. inversion F' as [|? ? Fg F'']; subst. inversion H as [Hn|Nn Nt Nv|o V Ny' Ho Hop|V Ny' Hf N]; subst.
  - exfalso. apply Hy. left. reflexivity.
  - apply link_none.
    + intros [X|[X|[X Y]]]; apply Nn; [left|right; left|right; right; split; [|eapply clash_lift; exact Y]]; eapply cll_same; eassumption.
    + intros [E T]. apply Nt. split; [exact E|]. eapply tosm_same; [exact T|exact F].
    + intros V E. destruct (Nv (pair_drop _ _ V) E) as [E1 E2]. split; [exact E1|apply cll_lift; exact E2].
  - apply link_rn; [apply pair_lift; exact V|exact Ny'|exact Ho|left; reflexivity].
  - exfalso. apply Hy. right. left. reflexivity.
Qed.
Lemma hyph_lift : forall yh mz f rs ps, hyphenated yh false true f rs ps -> cll_rafsi_list false rs -> ~ In letter_y (concat ps) -> hyphenated yh mz true f rs ps.
Proof.
  intros yh mz f rs ps H. induction H as [f r He|f r g rest h ps L5 Hl Hh IH]; intros F Hy; [apply hyph_last; exact He|].
  cbn [concat] in Hy. rewrite concat_app in Hy. apply no_y_app in Hy as [Hy0 Hy]. apply no_y_app in Hy as [Hy1 Hy2].
  apply hyph_more; [exact L5|apply link_lift; assumption|apply IH; [inversion F; assumption|exact Hy2]].
Qed.
Lemma hyph_drop : forall yh mz rs ps, hyphenated yh mz true false rs ps -> cll_rafsi_list mz rs -> ~ In letter_y (concat ps) -> ~ contains (concat ps) (L "mz") ->
  cll_rafsi_list false rs /\ hyphenated yh false true false rs ps.
Proof.
  intros yh mz rs ps H. remember false as f eqn:Ef. rewrite Ef at 2 3. rewrite Ef in H at 1. rewrite <- Ef in H.
  induction H as [f r He|f r g rest h ps L5 Hl Hh IH]; intros F Hy Hm; subst f; inversion F as [|? ? [s Fr] F']; subst.
  - split; [apply Forall_cons; [|apply Forall_nil]|apply hyph_last; exact He]. exists s. eapply cll_drop; [exact Fr|]. intro X. apply Hm. cbn [concat]. apply (contains_mid [] r []). exact X.
  - cbn [concat] in Hy, Hm. rewrite concat_app in Hy, Hm. apply no_y_app in Hy as [Hy0 Hy]. apply no_y_app in Hy as [Hy1 Hy2].
    destruct IH as [IH1 IH2]; [reflexivity|exact F'|exact Hy2|intro X; apply Hm; rewrite app_assoc; rewrite <- (app_nil_r (concat ps)); apply contains_mid; exact X|].
    assert (Fr' : cll_rafsi false s r) by (eapply cll_drop; [exact Fr|]; intro X; apply Hm; apply (contains_mid [] r); exact X).
    split; [apply Forall_cons; [exists s; exact Fr'|exact IH1]|]. apply hyph_more; [exact L5| |exact IH2].
    destruct (hyph_head _ _ _ _ _ _ Hh) as (g' & rest' & ps2 & Eg & Ep). injection Eg as <- <-.
    inversion Hl as [Hn|Nn Nt Nv|o V Ny' Ho Hop|V Ny' Hf N]; subst h.
    + exfalso. apply Hy1. left. reflexivity.
    + apply link_none; [|intros [X _]; discriminate|intros _ X; discriminate]. intros [X|[X|[X Y]]]; apply Nn; [left; apply cll_lift; exact X|right; left; apply cll_lift; exact X|].
      right; right. split; [apply cll_lift; exact X|]. destruct Y as (u & a & b & t & E1 & E2 & Y). exists u, a, b, t. split; [exact E1|]. split; [exact E2|]. destruct Y as [Y|Y]; [left|right; exact Y].
      intro P. apply Y. eapply perm_drop; [exact P|]. intro E. apply Hm. subst r g ps. cbn [concat app]. rewrite <- app_assoc. cbn [app].
      exists u, (t ++ concat ps2). rewrite <- E. cbn [app]. reflexivity.
    + apply link_rn; [eapply pair_drop; exact V|exact Ny'|exact Ho|left; reflexivity].
    + discriminate.
Qed.

Lemma gismu_lift : forall mz v, gismu_form false v -> gismu_form mz v.
Proof.
  intros mz v [(c1 & v1 & c2 & c3 & v2 & E & H1 & H2 & H3 & H4)|H]; [left|right; exact H]. exists c1, v1, c2, c3, v2. split; [exact E|]. split; [exact H1|]. split; [exact H2|]. split; [apply perm_lift; exact H3|exact H4].
Qed.
Lemma zihevla_uncut : forall st w qs ps, analyse_brivla Bound st w = Ok (ZIhEVLA, qs) -> ~ contains (standard_spelling w) (L "mz") ->
  (Z.of_nat (length (standard_spelling w)) <= 10 ^ 96)%Z -> concat ps = standard_spelling w ->
  ~ cut (rn_ok (y_hyphens st)) (hy_ok (y_hyphens st)) (allow_mz st) None ps.
Proof.
  intros st w qs ps H Em Hlen Ec Hcut. pose proof (C04_lojban_letters _ _ _ _ _ H) as Hlet.
  destruct (C31_zihevla_rules _ _ _ _ H) as (_ & L4 & Ny & Ev & NG & NL & syl & [_ (cu & cv & FC & H1)] & _ & HF & _). cbv zeta in *.
  assert (Suf : forall a s, standard_spelling w = a ++ s -> standard_spelling s = s /\ (Z.of_nat (length s) <= 10 ^ 96)%Z).
  { intros a s E. rewrite E in Hlet, Hlen. apply Forall_app in Hlet as [_ Hlet]. split; [apply letters_spelling; exact Hlet|]. rewrite app_length in Hlen. clear -Hlen. lia. }
  assert (NCC : ncc (standard_spelling w) = true -> False).
  { intro N. destruct FC as (Ew & (a & b & t & -> & Ha & Hb) & _). apply (ncc_none _ a b N); [exists cu, t; exact Ew|auto]. }
  destruct ps as [|p next]; [rewrite <- Ec in L4; cbn in L4; lia|]. cbn [cut] in Hcut. destruct Hcut as [[Hp|(q & X & _)] Hcut]; [|discriminate].
  rewrite <- Ec in Ny, Ev. destruct (cut_joined _ _ _ _ _ _ (le_n _) Hp Hcut Ny Ev) as (rs & F & Hh). clear Hp Hcut.
  destruct (hyph_drop _ _ _ _ Hh F Ny) as [F0 Hh0]; [intro X; apply Em; rewrite <- Ec; exact X|]. pose proof F as Fm. clear F Hh. rename F0 into F. rename Hh0 into Hh. pose proof Ny as Nyw.
  inversion F as [|? ? Hp F']; subst. destruct rs as [|g rest].
  - inversion Hh as [? ? He|]; subst. cbn [concat] in Ec. rewrite app_nil_r in Ec. rewrite <- Ec in L4. assert (NCC0 : ncc p = true -> False) by (rewrite Ec; exact NCC).
    assert (G : gismu_form false p).
    { clear Ec. destruct Hp as [sh Hp]. inversion Hp; subst p; cbn in L4; try lia.
      - exfalso. apply NCC0. pose proof (pairs_ncc false _ _ (hyph_last FORCE_Y false true false _ He)) as N. cbn [concat] in N. rewrite app_nil_r in N. apply N.
        + apply Forall_cons; [right; constructor; assumption|apply Forall_nil].
        + cbn [concat] in Ny. rewrite app_nil_r in Ny. exact Ny.
      - exfalso. destruct He as (u & l & E & Hl). apply (app_inj_tail [_; _; _] u) in E as [_ <-]. match goal with I : permissible _ _ _ |- _ => apply permissible_c in I as [_ ?] end. vc.
      - exfalso. destruct He as (u & l & E & Hl). apply (app_inj_tail [_; _; _] u) in E as [_ <-]. vc.
      - left. exists c1, v, c2, c3, v'. auto.
      - right. exists c1, c2, v, c3, v'. auto. }
    rewrite Ec in G. apply (gismu_lift (allow_mz st)) in G. apply (C05_gismu_shape Bound) in G. destruct G as [q G]. exact (NG _ G).
  - inversion Hh as [|? ? ? ? h ps' L5 Hl Hh']; subst. cbn [concat] in Ec, Ny. rewrite concat_app in Ec, Ny.
    apply no_y_app in Ny as [Ny0 Ny]. apply no_y_app in Ny as [Ny1 Ny2].
    assert (Full : link (y_hyphens st) false true true p g rest h -> False).
    { intro Hl'. apply (NL (p :: h ++ ps')). apply (C44_rules_suffice st w _ (p :: g :: rest)); [exact Hlen|cbn [concat]; rewrite concat_app; exact Ec|exact Fm|cbn [length]; lia| |].
      - apply hyph_lift; [apply hyph_more; [exact L5|exact Hl'|exact Hh']|exact F|exact Nyw].
      - intros Ef _. destruct (pairs_or false _ F) as [V|V]; [exfalso|eapply Exists_impl; [|exact V]; intros x Hx Hv; apply Hx; eapply pair_drop; exact Hv]. apply NCC. rewrite <- Ec.
        rewrite Ef in Hh. pose proof (pairs_ncc false _ _ Hh V) as N. cbn [concat] in N. rewrite concat_app in N. apply N. intro X. apply in_app_or in X as [X|X]; [contradiction|]. apply in_app_or in X as [X|X]; contradiction. }
    inversion F' as [|? ? Hg F'']; subst. destruct (hyph_head _ _ _ _ _ _ Hh') as (g' & rest' & ps2 & Eg & Ep). injection Eg as <- <-.
    inversion Hl as [Hn|Nn Nt Nv|o V Ny' Ho Hop|V Ny' Hf]; subst h.
    + apply Ny1. left. reflexivity.
    + cbn [concat app] in *. destruct (pair_dec _ _ Hp) as [V|V].
      * assert (G : exists c d t, g = c :: d :: t /\ consonant c /\ (consonant d \/ vowel d)).
        { destruct Hg as [sh Hg]. inversion Hg; subst; eexists; eexists; eexists; (split; [reflexivity|]); repeat match goal with I : initial_pair _ _ |- _ => apply initial_c in I as [? ?] end; (split; [assumption|]); auto.
          right. match goal with D : diphthong _ |- _ => destruct D as [D|[D|[D|[D|[]]]]]; injection D as <- <-; apply is_vowel_spec; reflexivity end. }
        destruct G as (c & d & t & -> & Hcc & [Hd|Hd]).
        -- destruct (le_lt_dec 4 (length (concat ps'))) as [L|L].
           ++ symmetry in Ec. destruct (Suf _ _ Ec) as [Es Hle].
              pose proof (cc_brivla (y_hyphens st) c d t rest ps' _ F' Hd L Hh' eq_refl Es Hle) as B. refine (HF (concat ps') _ B).
              rewrite Ec. exists p, [], (concat ps'). rewrite app_nil_r. split; [|split; [|split; [reflexivity|left; subst ps'; eexists; eexists; split; [reflexivity|exact Hcc]]]].
              ** split; [reflexivity|]. subst ps'. split; [eexists; eexists; eexists; split; [reflexivity|auto]|]. intros a b. apply ncc_none. cbn [concat app firstn]. eapply pair_ncc. exact V.
              ** destruct V as [V|V]; inversion V; discriminate.
           ++ apply Full. assert (R : rest = []).
              { destruct rest as [|k rest]; [reflexivity|exfalso]. inversion Hh' as [|? ? ? ? h2 ps3 L5' Hl' Hh2]; subst. destruct (hyph_head _ _ _ _ _ _ Hh2) as (k' & ? & ps4 & Ek & ->). injection Ek as <- <-.
                match goal with E : _ = (c :: d :: t) :: ps2 |- _ => rewrite <- E in L end. cbn [concat] in L. rewrite concat_app in L. cbn [concat] in L. rewrite !app_length in L.
                assert (3 <= length (c :: d :: t)) by (destruct Hg as [sh Hg]; inversion Hg; subst; cbn [length]; lia).
                inversion F'' as [|? ? Hk _]; subst. destruct Hk as [sh Hk]. inversion Hk; subst; cbn [length] in L; cbn [length] in *; lia. }
              apply link_none; [exact Nn| |].
              ** intros [_ T]. assert (X : cll_rafsi false "CVC" p) by (destruct T; assumption). exact (cvc_not_pair _ _ X V).
              ** intros _ _. split; [exact R|]. rewrite Ep in L. cbn [concat] in L. rewrite app_length in L. destruct Hg as [sh Hg]. inversion Hg; subst; cbn [length] in L; try lia; try vc; try exact Hg.
                 match goal with D : diphthong _ |- _ => destruct D as [D|[D|[D|[D|[]]]]]; injection D as <- <-; apply is_consonant_spec in Hd; discriminate end.
        -- rewrite Ep in Ec. cbn [concat] in Ec. refine (pair_two false p c d (t ++ concat ps2) cu cv V Hcc Hd _ H1). rewrite <- Ec in FC. exact FC.
      * destruct (tarmi_eqb (rafsi_tarmi p) CVC) eqn:Et.
        -- apply tarmi_eqb_eq in Et. pose proof (cll_is _ _ _ Hp Et) as Hcvc. destruct (tosm false p (g :: rest)) eqn:Eto.
           ++ apply (tosm_spec false (g :: rest) p F' Hcvc) in Eto. destruct (tosm_cut _ _ _ _ Eto _ Hh) as (c & v & qs' & Hc & Hv & _ & Fq & L2 & Eq).
              { cbn [concat app]. intro X. apply in_app_or in X as [X|X]; contradiction. }
              cbn [concat app] in Eq. rewrite Eq in Ec. symmetry in Ec. destruct (Suf [c; v] _ Ec) as [Es Hle].
              destruct qs' as [|q1 qs']; [cbn in L2; lia|]. inversion Fq as [|? ? Hq Fq']; subst. inversion Hq as [| | |a b y Hi Hy'| | | |]; subst q1. destruct (initial_c _ _ Hi) as [Ha Hb].
              assert (L : 4 <= length (concat ([a; b; y] :: qs'))). { destruct qs' as [|q2 qs']; [cbn in L2; lia|]. inversion Fq' as [|? ? Hq2 _]; subst. inversion Hq2; subst. cbn [concat app length]. lia. }
              assert (Fc : cll_rafsi_list false ([a; b; y] :: qs')) by (eapply Forall_impl; [|exact Fq]; intros x Hx; eexists; exact Hx).
              pose proof (cc_brivla (y_hyphens st) a b [y] qs' _ _ Fc Hb L (ccv_hyph _ _ _ _ _ Fq ltac:(discriminate)) eq_refl Es Hle) as B. refine (HF _ _ B).
              rewrite Ec. exists [c; v], [], (concat ([a; b; y] :: qs')). split; [|split; [discriminate|split; [reflexivity|left; eexists; eexists; split; [reflexivity|exact Ha]]]].
              split; [reflexivity|]. split; [eexists; eexists; eexists; split; [reflexivity|auto]|]. intros a' b'. apply ncc_none. apply is_vowel_spec in Hv. cbn [concat app firstn ncc]. rewrite (v_f0 _ Hv), andb_false_r. reflexivity.
           ++ apply Full. apply link_none; [exact Nn| |contradiction]. intros [_ T]. apply (tosm_spec false (g :: rest) p F' Hcvc) in T. congruence.
        -- apply Full. apply link_none; [exact Nn| |contradiction]. intros [_ T]. assert (X : cll_rafsi false "CVC" p) by (destruct T; assumption). apply cll_tarmi in X. rewrite X in Et. discriminate.
    + apply Full. apply link_rn; [exact V|exact Ny'|exact Ho|left; reflexivity].
    + discriminate.
Qed.
