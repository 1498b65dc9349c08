(** jvokaha_2 finds exactly the cuts of the specification (sound and complete),
    and a word has at most one cut. *)
From Verif Require Import Str Data Tarmi Core Lib Spec Shapes.

Definition rn_ok (yh : yset) : bool := negb (yset_eqb yh FORCE_Y).
Definition hy_ok (yh : yset) : bool := negb (yset_eqb yh STANDARD).

Lemma tarmi_in_two : forall t a b, tarmi_in t [a; b] = true <-> t = a \/ t = b.
Proof.
  intros. unfold tarmi_in. cbn. rewrite !orb_true_iff, !tarmi_eqb_eq. intuition discriminate.
Qed.

Lemma initial_first : forall a b, mems [a; b] INITIAL = true ->
  N.eqb a c_r = false /\ N.eqb a c_n = false /\ N.eqb a c_h = false.
Proof.
  intros a b H. apply mems_In in H.
  assert (G : forallb (fun p => match p with x :: _ => negb (N.eqb x c_r) && negb (N.eqb x c_n) && negb (N.eqb x c_h) | [] => true end) INITIAL = true)
    by (vm_compute; reflexivity).
  eapply forallb_forall in G; [|exact H]. cbn beta iota in G.
  destruct (N.eqb a c_r), (N.eqb a c_n), (N.eqb a c_h); try discriminate; auto.
Qed.

(** compute with [rafsi_tarmi] on explicit letters *)
Ltac tarmi_compute :=
  unfold rafsi_tarmi, is_gismu_shape; change (L "'y") with [c_h; c_y]; cbn [str_eqb]; red1;
  repeat (use_facts; red1).
Ltac tarmi_compute_in H :=
  unfold rafsi_tarmi, is_gismu_shape in H; change (L "'y") with [c_h; c_y] in H; cbn [str_eqb] in H; red1_in H;
  repeat (use_facts_in H; red1_in H).

(** A hyphen taken by hyphen_len is well placed. *)
Lemma hyphen_len_sound : forall yh prev w k, hyphen_len yh prev w = Ok (Some k) ->
  forall next, concat next = skipn k w ->
  exists q, prev = Some q /\ placed_hyphen (rn_ok yh) (hy_ok yh) q (firstn k w) next /\ 0 < k <= length w
    /\ firstn k w <> [].
Proof.
  intros yh [q|] [|l0 w] k H next Hn; try discriminate. cbn [hyphen_len] in H.
  dif H; [|discriminate]. apply negb_true_iff, Nat.eqb_neq in Heqb.
  exists q. split; [reflexivity|]. unfold placed_hyphen.
  dif H.
  { injection H as <-. apply N.eqb_eq in Heqb0. subst l0. cbn [firstn length].
    split; [|split; [cbn; lia|discriminate]]. split; [assumption|]. left; reflexivity. }
  inv_bind H. dif H.
  - injection H as <-. apply andb_t in Heqb1 as [-> Ht].
    cbn [firstn length]. split; [|split; [cbn; lia|discriminate]]. split; [assumption|]. right; right.
    unfold rn_ok. destruct (yset_eqb yh FORCE_Y); [discriminate|]. split; [reflexivity|]. split.
    { apply tarmi_in_two in Ht as [Ht|Ht]; apply rafsi_tarmi_shaped in Ht; try discriminate; auto. }
    cbn [skipn] in Hn. dif E.
    + left. apply str_eqb_eq in Heqb1. destruct w as [|l1 w]; [discriminate|]. cbn in Heqb1. injection Heqb1 as -> ->. split; [reflexivity|]. exists w. exact Hn.
    + dif E; [|discriminate]. inv_bind E. injection E as E. apply andb_t in E as [E1 E2].
      right. apply N.eqb_eq in Heqb2. subst l0. split; [reflexivity|].
      apply idx_ok in E0. destruct w as [|l1 w]; [discriminate|]. cbn in E0. injection E0 as <-.
      exists l1, w. split; [assumption|]. split; [apply is_consonant_spec; assumption|].
      apply negb_true_iff, N.eqb_neq in E2. intro F. cbn in F. injection F as ->. apply E2. reflexivity.
  - dif H; [|discriminate]. injection H as <-. apply andb_t in Heqb2 as [H1 H2].
    apply str_eqb_eq in H2. rewrite H2. split.
    + split; [assumption|]. right; left. split; [exact H1|reflexivity].
    + destruct w; [discriminate|]. cbn. split; [lia|discriminate].
Qed.

(** ** Soundness *)
Lemma j2_sound : forall f yh mz orig w acc r,
  jvokaha2_loop f yh mz orig w acc = Ok r -> (acc = [] -> w = orig) ->
  exists ps, r = acc ++ ps /\ concat ps = w /\ cut (rn_ok yh) (hy_ok yh) mz (last_opt acc) ps.
Proof.
  induction f as [|f IH]; intros yh mz orig w acc r H Horig; [discriminate|].
  cbn [jvokaha2_loop] in H. destruct w as [|l0 w'].
  { injection H as <-. exists []. rewrite app_nil_r. cbn. auto. }
  set (w := l0 :: w') in *.
  assert (nonnil : forall (x : str), acc ++ [x] <> []) by (intros x F; apply app_eq_nil in F as [_ F]; discriminate).
  assert (step : forall k, jvokaha2_loop f yh mz orig (skipn k w) (acc ++ [firstn k w]) = Ok r ->
     (forall next, concat next = skipn k w ->
        cut (rn_ok yh) (hy_ok yh) mz (Some (firstn k w)) next ->
        (placed_rafsi mz (match last_opt acc with None => true | _ => false end) (firstn k w) next
         \/ exists q, last_opt acc = Some q /\ placed_hyphen (rn_ok yh) (hy_ok yh) q (firstn k w) next)) ->
     exists ps, r = acc ++ ps /\ concat ps = w /\ cut (rn_ok yh) (hy_ok yh) mz (last_opt acc) ps).
  { intros k Hk Hp. apply IH in Hk; [|intro F; destruct (nonnil _ F)].
    destruct Hk as (ps & -> & Ec & Hc). rewrite last_opt_app in Hc.
    exists (firstn k w :: ps). rewrite <- app_assoc. split; [reflexivity|].
    split; [cbn [concat]; rewrite Ec; apply firstn_skipn|]. cbn [cut]. auto. }
  inv_bind H. destruct x as [k|].
  { apply (step k); [assumption|]. intros next Hn _. right.
    destruct (hyphen_len_sound _ _ _ _ E _ Hn) as (q & Eq & Hq & _). eauto. }
  clear E.
  dif H.
  { apply (step 3); [assumption|]. intros next Hn _. left. apply andb_t in Heqb as [H1 H2].
    apply tarmi_eqb_eq in H1. exists "CVV"%string. split; [|exact I].
    apply tarmi_CVV in H1 as (a & b & c & E & Ha & Hb & Hc).
    unfold w in *. destruct w' as [|l1 [|l2 w']]; try discriminate.
    cbn [firstn] in E |- *. unfold slice in H2. cbn [Nat.sub skipn firstn] in H2.
    injection E as -> -> ->.
    constructor; [apply is_consonant_spec; assumption|]. apply mems_In in H2. exact H2. }
  dif H.
  { apply (step 4); [assumption|]. intros next Hn _. left. apply tarmi_eqb_eq in Heqb0.
    apply tarmi_CVhV in Heqb0 as (a & b & c & Ef & Ha & Hb & Hc). rewrite Ef.
    exists "CV'V"%string. split; [|exact I].
    constructor; [apply is_consonant_spec|apply is_vowel_spec|apply is_vowel_spec]; assumption. }
  cbv zeta in H. dif H; [discriminate|].
  (* a four-letter rafsi with its clusters checked *)
  assert (four : forall next, tarmi_in (rafsi_tarmi (firstn 4 w)) [CVCC; CCVC] = true ->
     (next = [] \/ exists t, next = L "y" :: t) ->
     forall fst, placed_rafsi mz fst (firstn 4 w) next).
  { intros next H4 Hn fst. rewrite H4 in Heqb1. cbn [andb] in Heqb1.
    apply tarmi_in_two in H4 as [H4|H4].
    - apply tarmi_CVCC in H4 as (a & b & c & d & Ef & Ha & Hb & Hc & Hd).
      unfold w in *. destruct w' as [|l1 [|l2 [|l3 w']]]; try discriminate.
      cbn [firstn] in Ef |- *. injection Ef as -> -> -> ->. cbn [nth_error] in Heqb1. rewrite Hb in Heqb1.
      unfold slice in Heqb1. cbn [Nat.sub skipn firstn] in Heqb1. apply negb_false_iff in Heqb1.
      exists "CVCC"%string. split; [|assumption].
      constructor; [apply is_consonant_spec|apply is_vowel_spec|apply valid_pairs_spec]; assumption.
    - apply tarmi_CCVC in H4 as (a & b & c & d & Ef & Ha & Hb & Hc & Hd).
      unfold w in *. destruct w' as [|l1 [|l2 [|l3 w']]]; try discriminate.
      cbn [firstn] in Ef |- *. injection Ef as -> -> -> ->. cbn [nth_error] in Heqb1.
      use_facts_in Heqb1. cbn [firstn] in Heqb1. apply negb_false_iff in Heqb1.
      exists "CCVC"%string. split; [|assumption].
      constructor; [apply initial_spec|apply is_vowel_spec|apply is_consonant_spec]; assumption. }
  dif H.
  { apply andb_t in Heqb2 as [H4 Hl]. apply Nat.eqb_eq in Hl.
    replace (skipn 5 w) with (skipn 4 w) in H by (rewrite !skipn_all2 by lia; reflexivity).
    apply (step 4); [assumption|]. intros next Hn Hc. left. apply four; [assumption|].
    left. rewrite skipn_all2 in Hn by lia. destruct next as [|n0 next]; [reflexivity|].
    cbn in Hc. destruct Hc as [[(s & Hs & _)|(q & Eq & Hq)] _].
    - inversion Hs; subst; discriminate.
    - destruct Hq as [_ [->|[[_ ->]|[_ [_ [[-> _]|[-> _]]]]]]]; discriminate. }
  dif H.
  { apply andb_t in Heqb3 as [H4 Hy].
    destruct (nth_error w 4) as [c|] eqn:En; [|discriminate]. apply N.eqb_eq in Hy. subst c.
    assert (Ew : w = firstn 4 w ++ [c_y] ++ skipn 5 w).
    { clear - En. unfold w in *. clear w. destruct w' as [|a [|b [|c [|d w']]]]; cbn in En |- *; try discriminate. congruence. }
    assert (E4 : tarmi_in (rafsi_tarmi (firstn 4 w)) [CVCC; CCVC] = true) by assumption.
    apply IH in H; [|intro F; apply app_eq_nil in F as [_ F]; discriminate].
    destruct H as (ps & -> & Ec & Hc).
    change [firstn 4 w; [c_y]] with ([firstn 4 w] ++ [[c_y]]) in Hc. rewrite app_assoc, last_opt_app in Hc.
    exists (firstn 4 w :: [c_y] :: ps). rewrite <- app_assoc. split; [reflexivity|]. split.
    { cbn [concat]. rewrite Ec. symmetry. exact Ew. }
    cbn [cut]. split; [left; apply four; [assumption|right; eexists; reflexivity]|].
    split; [|assumption]. right. exists (firstn 4 w). split; [reflexivity|].
    split; [|left; reflexivity].
    apply tarmi_in_two in E4 as [E4|E4];
      [apply tarmi_CVCC in E4 as (? & ? & ? & ? & -> & _)|apply tarmi_CCVC in E4 as (? & ? & ? & ? & -> & _)]; discriminate. }
  dif H.
  { injection H as <-. exists [w]. split; [reflexivity|]. split; [cbn; rewrite app_nil_r; reflexivity|].
    cbn [cut]. split; [|exact I]. left. apply tarmi_in_two in Heqb4 as [H5|H5].
    - apply tarmi_CVCCV in H5 as (a & b & c & d & e & Ew & Ha & Hb & Hc & Hd & He). unfold w in *; injection Ew as -> ->.
      assert (E4 : rafsi_tarmi (firstn 4 [a; b; c; d; e]) = CVCC).
      { cbn [firstn]. tarmi_compute. reflexivity. }
      rewrite E4 in Heqb1. cbn [tarmi_in existsb tarmi_eqb andb orb nth_error] in Heqb1. rewrite Hb in Heqb1.
      cbn in Heqb1. apply negb_false_iff in Heqb1.
      exists "CVCCV"%string. split; [|reflexivity].
      constructor; [apply is_consonant_spec|apply is_vowel_spec|apply valid_pairs_spec|apply is_vowel_spec]; assumption.
    - apply tarmi_CCVCV in H5 as (a & b & c & d & e & Ew & Ha & Hb & Hc & Hd & He). unfold w in *; injection Ew as -> ->.
      assert (E4 : rafsi_tarmi (firstn 4 [a; b; c; d; e]) = CCVC).
      { cbn [firstn]. tarmi_compute. reflexivity. }
      rewrite E4 in Heqb1. cbn [tarmi_in existsb tarmi_eqb andb orb nth_error] in Heqb1. rewrite (k_f0 b Hb) in Heqb1.
      cbn in Heqb1. apply negb_false_iff in Heqb1.
      exists "CCVCV"%string. split; [|reflexivity].
      constructor; [apply initial_spec|apply is_vowel_spec|apply is_consonant_spec|apply is_vowel_spec]; assumption. }
  dif H.
  { dif H; [discriminate|]. apply (step 3); [assumption|]. intros next Hn _. left.
    apply tarmi_eqb_eq in Heqb5. apply tarmi_CVC in Heqb5 as (a & b & c & Ef & Ha & Hb & Hc).
    unfold w in *. destruct w' as [|l1 [|l2 w']]; try discriminate.
    cbn [firstn skipn] in *. injection Ef as -> -> ->.
    exists "CVC"%string. split.
    { constructor; [apply is_consonant_spec|apply is_vowel_spec|apply is_consonant_spec]; assumption. }
    intros c1 v c2 Ep. injection Ep as <- <- <-. split.
    - intros d t Ed Hd. rewrite Ed in Hn. subst w'. apply is_consonant_spec in Hd.
      assert (E4 : rafsi_tarmi [a; b; c; d] = CVCC).
      { cbn [firstn]. tarmi_compute. reflexivity. }
      cbn [firstn nth_error] in Heqb1. rewrite E4, Hb in Heqb1. cbn in Heqb1. apply negb_false_iff in Heqb1.
      apply valid_pairs_spec. exact Heqb1.
    - intros d e t Ed Hbad. rewrite Ed in Hn. subst w'. apply triple_spec in Hbad.
      unfold slice in Heqb6. cbn [Nat.sub skipn firstn] in Heqb6. congruence. }
  dif H; [|discriminate]. dif H; [discriminate|]. dif H; [discriminate|].
  apply (step 3); [assumption|]. intros next Hn _. left.
  apply tarmi_eqb_eq in Heqb6. apply tarmi_CCV in Heqb6 as (a & b & c & Ef & Ha & Hb & Hc).
  apply negb_false_iff in Heqb7.
  exists "CCV"%string. split.
  - rewrite Ef. constructor; [apply initial_spec|apply is_vowel_spec; assumption].
    unfold w in *. destruct w' as [|l1 [|l2 w']]; try discriminate.
    cbn [firstn] in *. injection Ef as -> -> ->. assumption.
  - intros Hfirst t Et. destruct (last_opt acc) eqn:El; [discriminate|].
    apply last_opt_none in El. rewrite <- (Horig El) in Heqb8.
    rewrite str_eqb_refl in Heqb8. cbn [andb] in Heqb8.
    apply str_eqb_neq in Heqb8. apply Heqb8. unfold slice.
    rewrite <- Hn, Et. reflexivity.
Qed.

Lemma jvokaha_2_sound : forall yh mz w ps,
  jvokaha_2 yh mz w = Ok ps -> concat ps = w /\ cut (rn_ok yh) (hy_ok yh) mz None ps.
Proof.
  intros yh mz w ps H. apply j2_sound in H; [|auto]. destruct H as (ps' & -> & H1 & H2). auto.
Qed.

(** ** Completeness *)
Lemma cll_rafsi_head : forall mz s p, cll_rafsi mz s p -> exists a b c t,
  p = a :: b :: c :: t /\ is_consonant a = true
  /\ (is_vowel b = true \/ (is_consonant b = true /\ mems [a; b] INITIAL = true /\ is_vowel c = true)).
Proof.
  intros mz s p H. inversion H; subst; repeat eexists;
    repeat match goal with
    | G : vowel _ |- _ => apply is_vowel_spec in G
    | G : consonant _ |- _ => apply is_consonant_spec in G
    | G : initial_pair _ _ |- _ => apply initial_spec in G
    end; try assumption; auto.
  all: try (right; match goal with G : mems _ _ = true |- _ => destruct (initial_consonants _ _ G) end; auto; fail).
  all: try match goal with G : mems _ _ = true |- _ => destruct (initial_consonants _ _ G) end; auto.
  left. unfold diphthong in H1. cbn in H1. decompose [or] H1; try contradiction;
    match goal with G : _ = [_; _] |- _ => injection G as <- <- end; reflexivity.
Qed.

(** What a text can start with after the piece [q]. *)
Lemma cut_start : forall rn hy mz q p next, cut rn hy mz (Some q) (p :: next) ->
  (exists a b c t, concat (p :: next) = a :: b :: c :: t /\ is_consonant a = true
     /\ (is_vowel b = true \/ (is_consonant b = true /\ mems [a; b] INITIAL = true /\ is_vowel c = true)))
  \/ (exists t, concat (p :: next) = c_y :: t)
  \/ (exists t, concat (p :: next) = c_h :: c_y :: t)
  \/ ((shaped "CVV" q \/ shaped "CV'V" q) /\ length q <> 1).
Proof.
  intros rn hy mz q p next [[(s & Hs & _)|(q' & Eq & Hq)] _].
  - left. destruct (cll_rafsi_head _ _ _ Hs) as (a & b & c & t & -> & Ha & Hb).
    exists a, b, c, (t ++ concat next). auto.
  - injection Eq as <-. destruct Hq as [Hl [->|[[_ ->]|[_ [Hq _]]]]].
    + right; left. eexists. reflexivity.
    + right; right; left. eexists. reflexivity.
    + auto.
Qed.

Lemma hyphen_len_rafsi : forall yh prev a b t, is_consonant a = true ->
  is_vowel b = true \/ mems [a; b] INITIAL = true -> hyphen_len yh prev (a :: b :: t) = Ok None.
Proof.
  intros yh [q|] a b t Ha Hb; [|reflexivity]. unfold hyphen_len.
  destruct (negb (length q =? 1)); [|reflexivity]. use_facts.
  change (L "nr") with [c_n; c_r]. change (L "'y") with [c_h; c_y]. cbn [firstn str_eqb idx nth_error bind].
  use_facts. cbn [andb]. rewrite andb_false_r.
  destruct Hb as [Hb|Hb].
  - use_facts. rewrite andb_false_r. cbn [andb]. unfold idx. cbn [nth_error bind]. use_facts. cbn [andb].
    destruct (yset_eqb yh FORCE_Y); [reflexivity|]. destruct (N.eqb a c_r); reflexivity.
  - destruct (initial_first _ _ Hb) as (H1 & H2 & _). rewrite H1, H2.
    destruct (yset_eqb yh FORCE_Y); reflexivity.
Qed.

Lemma hyphen_len_placed : forall yh q p next,
  placed_hyphen (rn_ok yh) (hy_ok yh) q p next ->
  hyphen_len yh (Some q) (p ++ concat next) = Ok (Some (length p)).
Proof.
  intros yh q p next [Hl H]. apply Nat.eqb_neq in Hl.
  destruct H as [->|[[Hy ->]|[Hr [Hq H]]]].
  - cbn. rewrite Hl. reflexivity.
  - unfold hy_ok in Hy. unfold hyphen_len. change (L "'y") with [c_h; c_y].
    cbn [app firstn nth_error]. rewrite Hl. cbn [negb].
    change (N.eqb c_h c_y) with false. change (str_eqb [c_h; c_y] (L "nr")) with false.
    change (N.eqb c_h c_r) with false. cbv iota.
    rewrite Hy, str_eqb_refl. destruct (yset_eqb yh FORCE_Y); reflexivity.
  - unfold rn_ok in Hr. apply negb_true_iff in Hr.
    assert (Ht : tarmi_in (rafsi_tarmi q) [CVV; CVhV] = true).
    { apply tarmi_in_two. destruct Hq as [Hq|Hq]; [left|right]; apply shaped_rafsi_tarmi; try discriminate; assumption. }
    unfold hyphen_len.
    destruct H as [[-> (t & Et)]|[-> (c & t & Et & Hc & Hcr)]]; rewrite Et.
    + change (L "n" ++ L "r" ++ t) with (c_n :: c_r :: t). cbn [firstn]. rewrite Hl. cbn [negb].
      change (N.eqb c_n c_y) with false. rewrite Hr. change (str_eqb [c_n; c_r] (L "nr")) with true.
      cbv iota. cbn [bind andb]. rewrite Ht. reflexivity.
    + apply is_consonant_spec in Hc. change (L "r") with [c_r] in *. cbn [app firstn nth_error]. rewrite Hl. cbn [negb].
      change (N.eqb c_r c_y) with false. rewrite Hr. change (L "nr") with [c_n; c_r]. cbn [str_eqb].
      change (N.eqb c_r c_n) with false. cbn [andb]. change (N.eqb c_r c_r) with true.
      unfold idx. cbn [nth_error bind]. rewrite Hc.
      replace (N.eqb c c_r) with false by (symmetry; apply N.eqb_neq; congruence).
      cbn [negb andb]. rewrite Ht. reflexivity.
Qed.

Lemma cut_nonnil : forall rn hy mz prev p next, cut rn hy mz prev (p :: next) -> p <> [].
Proof.
  intros rn hy mz prev p next [[(s & Hs & _)|(q & _ & Hq)] _].
  - inversion Hs; discriminate.
  - destruct Hq as [_ [->|[[_ ->]|[_ [_ [[-> _]|[-> _]]]]]]]; discriminate.
Qed.

Lemma shaped3_tarmi : forall a b c, is_consonant a = true -> is_vowel b = true -> is_consonant c = true ->
  rafsi_tarmi [a; b; c] = CVC.
Proof. intros. tarmi_compute. reflexivity. Qed.

Lemma rafsi_tarmi_2 : forall x y, tarmi_in (rafsi_tarmi [x; y]) [CVV; CVhV; CVCC; CCVC; CVCCV; CCVCV; CVC; CCV] = false.
Proof.
  intros x y. unfold rafsi_tarmi. destruct (str_eqb _ _); [reflexivity|]. destruct (_ && _); reflexivity.
Qed.

Lemma j2_complete : forall n ps, length ps <= n -> forall f yh mz orig acc,
  cut (rn_ok yh) (hy_ok yh) mz (last_opt acc) ps ->
  (acc = [] -> concat ps = orig) -> (acc <> [] -> length (concat ps) < length orig) ->
  length (concat ps) < f ->
  jvokaha2_loop f yh mz orig (concat ps) acc = Ok (acc ++ ps).
Proof.
  induction n as [|n IH]; intros ps Hn f yh mz orig acc Hcut Ho1 Ho2 Hf.
  { destruct ps; [|cbn in Hn; lia]. destruct f; [lia|]. cbn. rewrite app_nil_r. reflexivity. }
  destruct ps as [|p next].
  { destruct f; [lia|]. cbn. rewrite app_nil_r. reflexivity. }
  assert (Hne := cut_nonnil _ _ _ _ _ _ Hcut).
  assert (Hcut0 := Hcut).
  cbn [cut] in Hcut. destruct Hcut as [Hp Hc].
  destruct f as [|f]; [lia|]. cbn [concat] in *. rewrite app_length in *.
  assert (Hlen : 0 < length p) by (destruct p; [contradiction|cbn; lia]).
  assert (rec : jvokaha2_loop f yh mz orig (concat next) (acc ++ [p]) = Ok (acc ++ p :: next)).
  { rewrite (IH next).
    - rewrite <- app_assoc. reflexivity.
    - cbn in Hn. lia.
    - rewrite last_opt_app. assumption.
    - intro F. apply app_eq_nil in F as [_ F]. discriminate.
    - intros _. destruct acc as [|a0 acc].
      + rewrite <- (Ho1 eq_refl), app_length. lia.
      + assert (length p + length (concat next) < length orig) by (apply Ho2; discriminate). lia.
    - lia. }
  assert (fs : firstn (length p) (p ++ concat next) = p /\ skipn (length p) (p ++ concat next) = concat next).
  { rewrite firstn_app, firstn_all, skipn_app, skipn_all, Nat.sub_diag. cbn. rewrite app_nil_r. auto. }
  destruct fs as [fs1 fs2].
  destruct p as [|p0 p']; [contradiction|]. cbn [jvokaha2_loop app].
  change (p0 :: p' ++ concat next) with ((p0 :: p') ++ concat next).
  set (p := p0 :: p') in *. clearbody p. clear p0 p'.
  destruct Hp as [Hp|(q & Eq & Hq)].
  2:{ rewrite Eq. rewrite hyphen_len_placed by assumption. cbn [bind].
      rewrite fs1, fs2. exact rec. }
  destruct Hp as (s & Hs & Hpos).
  assert (Hhy : hyphen_len yh (last_opt acc) (p ++ concat next) = Ok None).
  { destruct (cll_rafsi_head _ _ _ Hs) as (a & b & c & t & -> & Ha & Hb). apply hyphen_len_rafsi; [assumption|]. tauto. }
  rewrite Hhy. cbn [bind]. clear Hhy.
  inversion Hs; subst s p; cbn [length] in fs1, fs2;
    repeat match goal with
    | G : vowel _ |- _ => apply is_vowel_spec in G
    | G : consonant _ |- _ => apply is_consonant_spec in G
    | G : initial_pair _ _ |- _ => apply initial_spec in G
    end.
  - (* CVC *)
    cbn [app] in *. destruct (Hpos _ _ _ eq_refl) as [Hpair Htri].
    change (firstn 3 (c1 :: v :: c2 :: concat next)) with [c1; v; c2].
    change (firstn 4 (c1 :: v :: c2 :: concat next)) with (c1 :: v :: c2 :: firstn 1 (concat next)).
    change (nth_error (c1 :: v :: c2 :: concat next) 1) with (Some v).
    assert (T3 : rafsi_tarmi [c1; v; c2] = CVC) by (apply shaped3_tarmi; assumption).
    rewrite T3. cbn [tarmi_eqb tarmi_val Z.eqb Pos.eqb andb].
    assert (Tri : mems (slice 2 5 (c1 :: v :: c2 :: concat next)) BANNED_TRIPLES = false).
    { unfold slice. cbn [Nat.sub skipn]. destruct (concat next) as [|x [|y t]] eqn:En.
      1,2: match goal with |- ?b = false => destruct b eqn:F end; [|reflexivity];
           apply triple_short in F as (? & ? & ? & F & _); discriminate F.
      - cbn [firstn]. destruct (mems [c2; x; y] BANNED_TRIPLES) eqn:F; [|reflexivity].
        apply triple_spec in F. destruct (Htri x y t eq_refl F). }
    rewrite Tri.
    assert (No5 : tarmi_in (rafsi_tarmi (c1 :: v :: c2 :: concat next)) [CVCCV; CCVCV] = false
            /\ match nth_error (c1 :: v :: c2 :: concat next) 4 with Some x => N.eqb x c_y | None => false end
               && tarmi_in (rafsi_tarmi (c1 :: v :: c2 :: firstn 1 (concat next))) [CVCC; CCVC] = false
            /\ (length (c1 :: v :: c2 :: concat next) =? 4)
               && tarmi_in (rafsi_tarmi (c1 :: v :: c2 :: firstn 1 (concat next))) [CVCC; CCVC] = false
            /\ tarmi_eqb (rafsi_tarmi (c1 :: v :: c2 :: firstn 1 (concat next))) CVhV = false).
    { destruct next as [|p2 next].
      { cbn [concat firstn nth_error length Nat.eqb]. rewrite T3. auto. }
      destruct (cut_start _ _ _ _ _ _ Hc) as [(a & b & c & t & E & Ha & Hb)|[(t & E)|[(t & E)|[Hbad _]]]].
      - rewrite E. cbn [firstn nth_error length].
        assert (Eb : N.eqb b c_y = false) by (destruct Hb as [Hb|[Hb _]]; use_facts; reflexivity).
        assert (T4 : rafsi_tarmi [c1; v; c2; a] = CVCC) by (tarmi_compute; reflexivity).
        rewrite Eb, T4. cbn [Nat.eqb andb]. repeat split; tarmi_compute; reflexivity.
      - rewrite E. cbn [firstn nth_error length].
        assert (T4 : rafsi_tarmi [c1; v; c2; c_y] = OTHER_RAFSI).
        { tarmi_compute. reflexivity. }
        rewrite T4. cbn [tarmi_in existsb tarmi_eqb tarmi_val Z.eqb Pos.eqb orb]. rewrite !andb_false_r.
        repeat split. destruct t as [|x [|? ?]]; tarmi_compute; try reflexivity.
      - rewrite E. cbn [firstn nth_error length].
        assert (T4 : rafsi_tarmi [c1; v; c2; c_h] = OTHER_RAFSI).
        { tarmi_compute. reflexivity. }
        rewrite T4. cbn [tarmi_in existsb tarmi_eqb tarmi_val Z.eqb Pos.eqb orb]. rewrite !andb_false_r.
        repeat split. destruct t as [|x [|? ?]]; tarmi_compute; try reflexivity.
      - exfalso. destruct Hbad as [Hb|Hb]; inv_shaped Hb; clash. }
    destruct No5 as (N5 & N4y & N4l & NhV).
    rewrite N5, NhV.
    rewrite (andb_comm (tarmi_in _ [CVCC; CCVC]) (length _ =? 4)), N4l.
    rewrite (andb_comm (tarmi_in _ [CVCC; CCVC]) (match nth_error _ 4 with Some x => _ | None => _ end)), N4y.
    replace (tarmi_in _ _ && _) with false.
    { cbn [skipn]. exact rec. }
    symmetry. destruct (tarmi_in (rafsi_tarmi (c1 :: v :: c2 :: firstn 1 (concat next))) [CVCC; CCVC]) eqn:T4; [|reflexivity].
    cbn [andb]. use_facts. apply negb_false_iff.
    apply tarmi_in_two in T4 as [T4|T4].
    + apply tarmi_CVCC in T4 as (a & b & c & d & E & _ & _ & Hd1 & Hd). destruct (concat next) as [|x t] eqn:En; [discriminate|].
      cbn [firstn] in E. injection E as _ _ _ ->. unfold slice. cbn [Nat.sub skipn firstn].
      apply valid_pairs_spec. apply (Hpair d t eq_refl). apply is_consonant_spec. assumption.
    + apply tarmi_CCVC in T4 as (a & b & c & d & E & _ & Hv & _). injection E as -> -> -> ?. clash.
  - (* CVV *)
    assert (Hv : is_vowel v1 = true /\ is_vowel v2 = true).
    { unfold diphthong in H0. cbn in H0. decompose [or] H0; try contradiction;
        match goal with G : _ = [_; _] |- _ => injection G as <- <- end; auto. }
    destruct Hv. cbn [app firstn nth_error]. 
    assert (T3 : rafsi_tarmi [c; v1; v2] = CVV) by (tarmi_compute; reflexivity). rewrite T3.
    assert (Hd : mems (slice 1 3 (c :: v1 :: v2 :: concat next)) (Ls ["ai"; "ei"; "oi"; "au"]%string) = true).
    { apply mems_In. exact H0. }
    rewrite Hd. cbn [tarmi_eqb tarmi_val Z.eqb Pos.eqb andb skipn]. exact rec.
  - (* CVhV *)
    unfold apostrophe in *. fold c_h in *. cbn [app firstn nth_error].
    assert (T3 : rafsi_tarmi [c; v1; c_h] = OTHER_RAFSI) by (tarmi_compute; reflexivity). rewrite T3.
    assert (T4 : rafsi_tarmi [c; v1; c_h; v2] = CVhV) by (tarmi_compute; reflexivity). rewrite T4.
    cbn [tarmi_eqb tarmi_val Z.eqb Pos.eqb andb skipn]. exact rec.
  - (* CCV *)
    destruct (initial_consonants _ _ H) as [Hk1 Hk2]. cbn [app] in *.
    assert (T3 : rafsi_tarmi [c1; c2; v] = CCV) by (tarmi_compute; reflexivity).
    change (firstn 2 (c1 :: c2 :: v :: concat next)) with [c1; c2].
    change (firstn 3 (c1 :: c2 :: v :: concat next)) with [c1; c2; v].
    change (firstn 4 (c1 :: c2 :: v :: concat next)) with (c1 :: c2 :: v :: firstn 1 (concat next)).
    change (nth_error (c1 :: c2 :: v :: concat next) 1) with (Some c2).
    rewrite T3. cbn [tarmi_eqb tarmi_val Z.eqb Pos.eqb andb].
    assert (No5 : tarmi_in (rafsi_tarmi (c1 :: c2 :: v :: concat next)) [CVCCV; CCVCV] = false
            /\ match nth_error (c1 :: c2 :: v :: concat next) 4 with Some x => N.eqb x c_y | None => false end
               && tarmi_in (rafsi_tarmi (c1 :: c2 :: v :: firstn 1 (concat next))) [CVCC; CCVC] = false
            /\ (length (c1 :: c2 :: v :: concat next) =? 4)
               && tarmi_in (rafsi_tarmi (c1 :: c2 :: v :: firstn 1 (concat next))) [CVCC; CCVC] = false
            /\ tarmi_eqb (rafsi_tarmi (c1 :: c2 :: v :: firstn 1 (concat next))) CVhV = false).
    { destruct next as [|p2 next].
      { cbn [concat firstn nth_error length Nat.eqb]. rewrite T3. auto. }
      destruct (cut_start _ _ _ _ _ _ Hc) as [(a & b & c & t & E & Ha & Hb)|[(t & E)|[(t & E)|[Hbad _]]]].
      - rewrite E. cbn [firstn nth_error length].
        assert (Eb : N.eqb b c_y = false) by (destruct Hb as [Hb|[Hb _]]; use_facts; reflexivity).
        assert (T4 : rafsi_tarmi [c1; c2; v; a] = CCVC) by (tarmi_compute; reflexivity).
        rewrite Eb, T4. cbn [Nat.eqb andb]. repeat split; tarmi_compute; reflexivity.
      - rewrite E. cbn [firstn nth_error length].
        assert (T4 : rafsi_tarmi [c1; c2; v; c_y] = OTHER_RAFSI).
        { tarmi_compute. reflexivity. }
        rewrite T4. cbn [tarmi_in existsb tarmi_eqb tarmi_val Z.eqb Pos.eqb orb]. rewrite !andb_false_r.
        repeat split. destruct t as [|x [|? ?]]; tarmi_compute; try reflexivity.
      - rewrite E. cbn [firstn nth_error length].
        assert (T4 : rafsi_tarmi [c1; c2; v; c_h] = OTHER_RAFSI).
        { tarmi_compute. reflexivity. }
        rewrite T4. cbn [tarmi_in existsb tarmi_eqb tarmi_val Z.eqb Pos.eqb orb]. rewrite !andb_false_r.
        repeat split. destruct t as [|x [|? ?]]; tarmi_compute; try reflexivity.
      - exfalso. destruct Hbad as [Hb|Hb]; inv_shaped Hb; clash. }
    destruct No5 as (N5 & N4y & N4l & NhV).
    rewrite N5, NhV.
    rewrite (andb_comm (tarmi_in _ [CVCC; CCVC]) (length _ =? 4)), N4l.
    rewrite (andb_comm (tarmi_in _ [CVCC; CCVC]) (match nth_error _ 4 with Some x => _ | None => _ end)), N4y.
    use_facts. rewrite H. cbn [negb]. rewrite andb_false_r.
    replace (str_eqb _ orig && _) with false.
    { cbn [skipn]. exact rec. }
    symmetry. destruct (str_eqb (c1 :: c2 :: v :: concat next) orig) eqn:Eo; [|reflexivity].
    apply str_eqb_eq in Eo. destruct acc as [|a0 acc].
    + cbn [andb last_opt] in *. apply str_eqb_neq. unfold slice. cbn [Nat.sub skipn]. intro F.
      destruct next as [|p2 next]; [discriminate|].
      destruct Hc as [[(s & Hs2 & _)|(q & Eq & Hq)] _].
      * destruct (cll_rafsi_head _ _ _ Hs2) as (a & b & c & t & -> & Ha & Hb). cbn in F. injection F as -> _. discriminate.
      * injection Eq as <-. destruct Hq as [_ [->|[[_ ->]|[_ [Hbad _]]]]].
        -- cbn in F. discriminate.
        -- eapply Hpos; [reflexivity|]. reflexivity.
        -- destruct Hbad as [Hb|Hb]; inv_shaped Hb; clash.
    + assert (3 + length (concat next) < length orig) by (apply Ho2; discriminate).
      rewrite <- Eo in H1. cbn in H1. clear -H1. lia.
  - (* CVCC *)
    destruct (permissible_consonants _ _ _ H1) as [Hk1 Hk2]. apply valid_pairs_spec in H1.
    cbn [app firstn nth_error].
    assert (T3 : rafsi_tarmi [c1; v; c2] = CVC) by (tarmi_compute; reflexivity). rewrite T3.
    assert (T4 : rafsi_tarmi [c1; v; c2; c3] = CVCC) by (tarmi_compute; reflexivity). rewrite T4.
    cbn [tarmi_in existsb tarmi_eqb tarmi_val Z.eqb Pos.eqb andb orb]. use_facts.
    unfold slice. cbn [Nat.sub skipn firstn]. rewrite H1. cbn [negb].
    destruct Hpos as [->|[t ->]].
    + cbn [concat length Nat.eqb]. exact rec.
    + cbn [concat L app length Nat.eqb nth_error]. change (N.eqb 121 c_y) with true. cbv iota.
      assert (Hc2 : cut (rn_ok yh) (hy_ok yh) mz (Some (L "y")) t) by (destruct Hc; assumption).
      rewrite (IH t).
      * rewrite <- app_assoc. reflexivity.
      * cbn in Hn. lia.
      * change [[c1; v; c2; c3]; [c_y]] with ([[c1; v; c2; c3]] ++ [[c_y]]). rewrite app_assoc, last_opt_app. assumption.
      * intro F. apply app_eq_nil in F as [_ F]. discriminate.
      * intros _. cbn [length concat L app] in *. destruct acc as [|a0 acc].
        -- rewrite <- (Ho1 eq_refl). cbn. lia.
        -- assert (4 + S (length (concat t)) < length orig) by (apply Ho2; discriminate). lia.
      * cbn [length concat L app] in *. lia.
  - (* CCVC *)
    destruct (initial_consonants _ _ H) as [Hk1 Hk2].
    cbn [app firstn nth_error].
    assert (T3 : rafsi_tarmi [c1; c2; v] = CCV) by (tarmi_compute; reflexivity). rewrite T3.
    assert (T4 : rafsi_tarmi [c1; c2; v; c3] = CCVC) by (tarmi_compute; reflexivity). rewrite T4.
    cbn [tarmi_in existsb tarmi_eqb tarmi_val Z.eqb Pos.eqb andb orb]. use_facts.
    rewrite H. cbn [negb].
    destruct Hpos as [->|[t ->]].
    + cbn [concat length Nat.eqb]. exact rec.
    + cbn [concat L app length Nat.eqb nth_error]. change (N.eqb 121 c_y) with true. cbv iota.
      assert (Hc2 : cut (rn_ok yh) (hy_ok yh) mz (Some (L "y")) t) by (destruct Hc; assumption).
      cbn [skipn]. rewrite (IH t).
      * rewrite <- app_assoc. reflexivity.
      * cbn in Hn. lia.
      * change [[c1; c2; v; c3]; [c_y]] with ([[c1; c2; v; c3]] ++ [[c_y]]). rewrite app_assoc, last_opt_app. assumption.
      * intro F. apply app_eq_nil in F as [_ F]. discriminate.
      * intros _. cbn [length concat L app] in *. destruct acc as [|a0 acc].
        -- rewrite <- (Ho1 eq_refl). cbn. lia.
        -- assert (4 + S (length (concat t)) < length orig) by (apply Ho2; discriminate). lia.
      * cbn [length concat L app] in *. lia.
  - (* CVCCV *)
    destruct (permissible_consonants _ _ _ H1) as [Hk1 Hk2]. apply valid_pairs_spec in H1. subst next.
    cbn [concat app firstn length nth_error]. 
    assert (T3 : rafsi_tarmi [c1; v; c2] = CVC) by (tarmi_compute; reflexivity). rewrite T3.
    assert (T4 : rafsi_tarmi [c1; v; c2; c3] = CVCC) by (tarmi_compute; reflexivity). rewrite T4.
    assert (T5 : rafsi_tarmi [c1; v; c2; c3; v'] = CVCCV) by (tarmi_compute; reflexivity). rewrite T5.
    cbn [tarmi_in existsb tarmi_eqb tarmi_val Z.eqb Pos.eqb andb orb Nat.eqb]. use_facts.
    unfold slice. cbn [Nat.sub skipn firstn]. rewrite H1. reflexivity.
  - (* CCVCV *)
    destruct (initial_consonants _ _ H) as [Hk1 Hk2]. subst next.
    cbn [concat app firstn length nth_error]. 
    assert (T3 : rafsi_tarmi [c1; c2; v] = CCV) by (tarmi_compute; reflexivity). rewrite T3.
    assert (T4 : rafsi_tarmi [c1; c2; v; c3] = CCVC) by (tarmi_compute; reflexivity). rewrite T4.
    assert (T5 : rafsi_tarmi [c1; c2; v; c3; v'] = CCVCV) by (tarmi_compute; reflexivity). rewrite T5.
    cbn [tarmi_in existsb tarmi_eqb tarmi_val Z.eqb Pos.eqb andb orb Nat.eqb]. use_facts.
    rewrite H. reflexivity.
Qed.

(** The splitter finds a cut exactly when there is one. *)
Theorem jvokaha_2_spec : forall yh mz w ps,
  jvokaha_2 yh mz w = Ok ps <-> concat ps = w /\ cut (rn_ok yh) (hy_ok yh) mz None ps.
Proof.
  intros yh mz w ps. split; [apply jvokaha_2_sound|]. intros [<- H].
  unfold jvokaha_2. rewrite (j2_complete (length ps) ps); auto; try congruence.
Qed.

Theorem cut_unique : forall rn hy mz ps qs,
  (rn, hy) <> (false, false) ->
  cut rn hy mz None ps -> cut rn hy mz None qs -> concat ps = concat qs -> ps = qs.
Proof.
  intros rn hy mz ps qs Hb Hp Hq E.
  assert (exists yh, rn = rn_ok yh /\ hy = hy_ok yh) as (yh & -> & ->).
  { destruct rn, hy; [exists ALLOW_Y|exists STANDARD|exists FORCE_Y|congruence]; split; reflexivity. }
  assert (H1 : jvokaha_2 yh mz (concat ps) = Ok ps) by (apply jvokaha_2_spec; auto).
  assert (H2 : jvokaha_2 yh mz (concat ps) = Ok qs) by (apply jvokaha_2_spec; auto).
  congruence.
Qed.

Lemma cut_mono : forall mz ps prev, cut false false mz prev ps -> cut false true mz prev ps.
Proof.
  induction ps as [|p ps IH]; intros prev H; cbn in *; [exact I|].
  destruct H as [H1 H2]. split; [|auto].
  destruct H1 as [H1|(q & -> & Hq & H1)]; [left; exact H1|right; exists q; split; [reflexivity|]].
  split; [exact Hq|]. destruct H1 as [H1|[(H1 & _)|(H1 & _)]]; [auto|discriminate|discriminate].
Qed.

Theorem cut_unique_all : forall rn hy mz ps qs,
  cut rn hy mz None ps -> cut rn hy mz None qs -> concat ps = concat qs -> ps = qs.
Proof.
  intros rn hy mz ps qs Hp Hq E. destruct rn, hy.
  1-3: eapply cut_unique; try eassumption; discriminate.
  apply (cut_unique false true mz); try (apply cut_mono); try assumption; discriminate.
Qed.
