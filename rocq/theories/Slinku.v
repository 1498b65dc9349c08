(** What follows when a cmavo to is put before a CLL lujvo: how the cut of
    "to" + w relates to the cut of w. *)
From Verif Require Import Str Data Tarmi Rafsi Core Api Lib Spec Shapes Decomp Basic Vowels Katna Dict Errs Builder Jvokaha Fuel Raises Inv Parts Clusters Forms Chain Score Alt Lujvo.

Lemma cut_unique_after : forall yh mz q ps qs, cut (rn_ok yh) (hy_ok yh) mz (Some q) ps -> cut (rn_ok yh) (hy_ok yh) mz (Some q) qs ->
  concat ps = concat qs -> ps = qs.
Proof.
  intros yh mz q ps qs H1 H2 E.
  pose proof (j2_complete _ ps (le_n _) (S (length (concat ps))) yh mz (c_y :: concat ps) [q] H1) as A.
  pose proof (j2_complete _ qs (le_n _) (S (length (concat qs))) yh mz (c_y :: concat qs) [q] H2) as B.
  specialize (A ltac:(discriminate) ltac:(cbn [length]; lia) ltac:(lia)). specialize (B ltac:(discriminate) ltac:(cbn [length]; lia) ltac:(lia)).
  rewrite E in A. rewrite A in B. injection B as ->. reflexivity.
Qed.

(** ** Deleting the hyphens r and n *)
Lemma drops_norn : forall u corr other, drops u corr other -> forallb norn corr = true -> corr = filter norn other.
Proof.
  induction 1 as [u|u p corr other D IH|u q o p corr other Ho Hq Hs D IH]; intro F; [reflexivity| |].
  - cbn [forallb] in F. apply andb_t in F as [F1 F2]. cbn [filter]. rewrite F1. f_equal. auto.
  - cbn [forallb] in F. apply andb_t in F as [F1 F2]. cbn [filter]. replace (norn o) with false by (destruct Ho as [-> | ->]; reflexivity).
    rewrite F1. f_equal. auto.
Qed.

Lemma drops_refl : forall l u, drops u l l.
Proof. induction l; intro u; [apply drops_end|apply drops_same; auto]. Qed.

(** the next piece of a cut whose text starts with a consonant, after a piece that is not CVV or CV'V *)
Lemma cut_consonant : forall rn hy mz q p next c t, cut rn hy mz (Some q) (p :: next) -> ~ (shaped "CVV" q \/ shaped "CV'V" q) ->
  concat (p :: next) = c :: t -> is_consonant c = true -> placed_rafsi mz false p next.
Proof.
  intros rn hy mz q p next c t [[H|(q' & Eq & _ & H)] _] Hq E Hc; [exact H|]. injection Eq as <-. exfalso.
  destruct H as [->|[[_ ->]|(_ & X & _)]]; [| |contradiction]; cbn [concat app] in E; injection E as <- _; discriminate.
Qed.
Lemma cut_vowel : forall rn hy mz q p next c t, cut rn hy mz q (p :: next) ->
  concat (p :: next) = c :: t -> is_vowel c = true -> False.
Proof.
  intros rn hy mz q p next c t [[(s & H & _)|(q' & _ & _ & H)] _] E Hc.
  - apply cll_rafsi_head in H as (a & b & d & u & -> & Ha & _). cbn [concat app] in E. injection E as -> _. apply k_f0 in Ha. congruence.
  - destruct H as [->|[[_ ->]|(_ & _ & [[-> _]|[-> _]])]]; cbn [concat app] in E; injection E as <- _; discriminate.
Qed.

Lemma cut_nil : forall rn hy mz q ps, cut rn hy mz q ps -> concat ps = [] -> ps = [].
Proof.
  intros rn hy mz q [|p ps] H E; [reflexivity|]. apply cut_nonnil in H. cbn [concat] in E. apply app_eq_nil in E as [E _]. contradiction.
Qed.
Lemma cut_y : forall rn hy mz q ps t, cut rn hy mz q ps -> concat ps = c_y :: t -> exists r, ps = [c_y] :: r /\ concat r = t /\ cut rn hy mz (Some [c_y]) r.
Proof.
  intros rn hy mz q [|p ps] t H E; [discriminate|]. destruct H as [[(s & H & _)|(q' & _ & _ & H)] G].
  - exfalso. apply cll_rafsi_head in H as (a & b & d & u & -> & Ha & _). cbn [concat app] in E. injection E as -> _. discriminate.
  - destruct H as [->|[[_ ->]|(_ & _ & [[-> _]|[-> _]])]]; cbn [concat app] in E; try discriminate. injection E as E. exists ps. auto.
Qed.
Lemma cut_apostrophe : forall rn hy mz q p next c t, cut rn hy mz q (p :: next) -> concat (p :: next) = c_h :: c :: t -> is_vowel c = true -> False.
Proof.
  intros rn hy mz q p next c t [[(s & H & _)|(q' & _ & _ & H)] _] E Hc.
  - apply cll_rafsi_head in H as (a & b & d & u & -> & Ha & _). cbn [concat app] in E. injection E as -> _. discriminate.
  - destruct H as [->|[[_ ->]|(_ & _ & [[-> _]|[-> _]])]]; cbn [concat app] in E; try discriminate. injection E as <- _. discriminate.
Qed.

Definition plain_before (prev : option str) : Prop := forall q, prev = Some q -> ~ (shaped "CVV" q \/ shaped "CV'V" q).
Lemma not_cvv : forall mz s r, cll_rafsi mz s r -> s <> "CVV"%string -> s <> "CV'V"%string -> ~ (shaped "CVV" r \/ shaped "CV'V" r).
Proof.
  intros mz s r H N1 N2 X. apply shaped_cvv_tarmi in X. rewrite (cll_tarmi _ _ _ H) in X. inversion H; subst; try congruence; discriminate.
Qed.
Lemma cut_consonant' : forall rn hy mz prev p next c t, cut rn hy mz prev (p :: next) -> plain_before prev ->
  concat (p :: next) = c :: t -> is_consonant c = true -> exists s, cll_rafsi mz s p /\
    match s with "CVCC"%string | "CCVC"%string => next = [] \/ exists t, next = L "y" :: t | "CVCCV"%string | "CCVCV"%string => next = [] | _ => True end.
Proof.
  intros rn hy mz prev p next c t H Hb E Hc. assert (G : exists b, placed_rafsi mz b p next).
  { destruct prev as [q|]; [exists false; eapply cut_consonant; eauto|]. exists true. destruct H as [[H|(q & X & _)] _]; [exact H|discriminate]. }
  destruct G as (b & s & Hs & Hp). exists s. split; [exact Hs|]. inversion Hs; subst; auto.
Qed.

(* the letter [k] of a piece is at once a vowel and a consonant, or a hyphen letter *)
Ltac clash := exfalso; first
  [ discriminate
  | match goal with
    | A : is_vowel ?k = true, B : is_consonant ?k = true |- _ => apply v_f0 in A; congruence
    | A : is_vowel c_h = true |- _ => discriminate A
    | A : is_vowel c_y = true |- _ => discriminate A
    | A : is_consonant c_h = true |- _ => discriminate A
    | A : is_consonant c_y = true |- _ => discriminate A
    end ].

Lemma shift : forall n yh mz arr prev P q c, length arr <= n ->
  cut (rn_ok yh) (hy_ok yh) mz prev arr -> plain_before prev ->
  cut (rn_ok yh) (hy_ok yh) mz (Some q) P -> plain_before (Some q) ->
  is_consonant c = true -> concat arr = c :: concat P ->
  concat (filter norn arr) = c :: concat (filter norn P).
Proof.
  induction n as [|n IH]; intros yh mz arr prev P q c Hn Ha Hb HP Hq Hc E.
  { destruct arr; [discriminate|]. cbn in Hn. lia. }
  destruct arr as [|p next]; [discriminate|].
  destruct (cut_consonant' _ _ _ _ _ _ _ _ Ha Hb E Hc) as (s & Hs & Hp). cbn [filter]. rewrite (cll_norn mz p) by (exists s; exact Hs). cbn [concat].
  destruct P as [|p1 P1].
  { exfalso. apply cll_rafsi_head in Hs as (a & b & d & u & -> & _). discriminate. }
  pose proof Ha as [_ Hnext]. pose proof HP as [_ HP1].
  assert (V : forall v t, concat (p1 :: P1) = v :: t -> is_vowel v = true -> False) by (intros; eapply cut_vowel; eassumption).
  assert (CV : forall k v t, concat (p1 :: P1) = k :: v :: t -> is_consonant k = true -> is_vowel v = true ->
    exists s', cll_rafsi mz s' p1 /\ In s' ["CVC"; "CVV"; "CV'V"; "CVCC"; "CVCCV"]%string /\
    match s' with "CVCC"%string => P1 = [] \/ exists t, P1 = L "y" :: t | "CVCCV"%string => P1 = [] | _ => True end).
  { intros k v t E1 Hk Hv. destruct (cut_consonant' _ _ _ _ _ _ _ _ HP Hq E1 Hk) as (s' & Hs' & Hp'). exists s'. split; [exact Hs'|].
    inversion Hs'; subst; bfacts; cbn [concat app] in E1; injection E1; intros; subst; try clash; cbn; split; auto 10. }
  assert (Hcp : cll mz p) by (exists s; exact Hs).
  inversion Hs; subst; bfacts; change (concat (p1 :: P1)) with (p1 ++ concat P1) in E, V, CV; cbn [concat app] in E; injection E as Ec E; subst c.
  all: try (exfalso; eapply V; [symmetry; exact E|assumption]).
  - (* CCV *)
    destruct (CV c2 v (concat next)) as (s' & Hs' & Hin & Hend); [symmetry; assumption|assumption|assumption|].
    assert (Hp1 : norn p1 = true) by (apply (cll_norn mz); exists s'; exact Hs'). cbn [filter]. rewrite Hp1. cbn [concat].
    inversion Hs'; subst; bfacts; cbn [In] in Hin; try (exfalso; clear -Hin; intuition discriminate); cbn [app] in E; injection E as ? ? E; subst.
    + (* CVC *)
      cbn [app]. do 3 f_equal. apply (IH yh mz next (Some [c1; c0; v0]) P1 [c0; v0; c3]); auto; [cbn in Hn; lia| |].
      * intros q0 X. injection X as <-. eapply not_cvv; [exact Hs| |]; discriminate.
      * intros q0 X. injection X as <-. eapply not_cvv; [exact Hs'| |]; discriminate.
    + (* CVV *) exfalso. destruct next as [|n0 next]; [discriminate|]. eapply cut_vowel; [exact Hnext|eassumption|assumption].
    + (* CV'V *) exfalso. destruct next as [|n0 next]; [discriminate|]. eapply cut_apostrophe; [exact Hnext|eassumption|assumption].
    + (* CVCC *) exfalso. destruct next as [|n0 next]; [discriminate|].
      assert (PB : plain_before (Some [c1; c0; v0])) by (intros q0 X; injection X as <-; eapply not_cvv; [exact Hs| |]; discriminate).
      destruct (cut_consonant' _ _ _ _ _ _ _ _ Hnext PB E ltac:(assumption)) as (s2 & Hs2 & _). apply cll_rafsi_head in Hs2 as (x & y & z & u & -> & Hx & Hyz).
      cbn [concat app] in E. injection E as ? ? E; subst. destruct Hyz as [Hy|(_ & _ & Hz)]; [clash|].
      destruct Hend as [->|(t & ->)]; [discriminate|]. cbn [concat app] in E. injection E as -> _. clash.
    + (* CVCCV *)
      destruct next as [|n0 next]; [discriminate|].
      assert (PB : plain_before (Some [c1; c0; v0])) by (intros q0 X; injection X as <-; eapply not_cvv; [exact Hs| |]; discriminate).
      destruct (cut_consonant' _ _ _ _ _ _ _ _ Hnext PB E ltac:(assumption)) as (s2 & Hs2 & _).
      assert (N0 : norn n0 = true) by (apply (cll_norn mz); exists s2; exact Hs2). apply cll_rafsi_head in Hs2 as (x & y & z & u & -> & Hx & Hyz).
      cbn [concat app] in E. injection E as ? ? ? E; subst. apply app_eq_nil in E as [-> E]. destruct Hnext as [_ Hnext]. apply cut_nil in Hnext; [|exact E]. subst next.
      cbn [filter]. rewrite N0. reflexivity.
  - (* CCVC *)
    destruct (CV c2 v (c3 :: concat next)) as (s' & Hs' & Hin & Hend); [symmetry; assumption|assumption|assumption|].
    assert (Hp1 : norn p1 = true) by (apply (cll_norn mz); exists s'; exact Hs'). cbn [filter]. rewrite Hp1. cbn [concat].
    inversion Hs'; subst; bfacts; cbn [In] in Hin; try (exfalso; clear -Hin; intuition discriminate); cbn [app] in E; injection E as ? ? ? E; subst; try clash.
    + (* CVC *)
      cbn [app]. do 4 f_equal. destruct Hp as [->|(t & ->)].
      * symmetry in E. apply cut_nil in HP1; [|exact E]. subst P1. reflexivity.
      * cbn [concat app] in E. symmetry in E. destruct (cut_y _ _ _ _ _ _ HP1 E) as (r & -> & Er & Cr). destruct Hnext as [_ Hnext].
        rewrite (cut_unique_after _ _ _ _ _ Cr Hnext Er). reflexivity.
    + (* CVCC *) destruct Hp as [->|(t & ->)]; cbn [concat app] in E; [discriminate|]. injection E as <- _. clash.
    + (* CVCCV *) destruct Hp as [->|(t & ->)]; cbn [concat app] in E; [discriminate|]. injection E as <- _. clash.
  - (* CCVCV *)
    subst next. destruct (CV c2 v [c3; v']) as (s' & Hs' & Hin & Hend); [symmetry; assumption|assumption|assumption|].
    inversion Hs'; subst; bfacts; cbn [In] in Hin; try (exfalso; clear -Hin; intuition discriminate); cbn [app concat] in E; injection E as ? ? ? E; subst; try clash.
    destruct P1 as [|p2 P2]; [discriminate|]. exfalso. eapply cut_vowel; [exact HP1|symmetry; exact E|assumption].
Qed.

(** "to" + a CLL lujvo: the first piece takes one consonant of it *)
Lemma to_cut : forall rn hy mz ps arr, cut rn hy mz None ps -> cut rn hy mz None arr -> concat ps = L "to" ++ concat arr -> 2 <= length (rafsi_of ps) -> arr <> [] ->
  exists c P, ps = [116%N; 111%N; c] :: P /\ concat arr = c :: concat P /\ is_consonant c = true.
Proof.
  intros rn hy mz ps arr Hp Ha E H2 Hn. destruct arr as [|a0 arr]; [congruence|]. destruct Ha as [[(s0 & Hs0 & _)|(q & X & _)] _]; [|discriminate].
  apply cll_rafsi_head in Hs0 as (x & y & z & u & -> & Hx & Hyz). destruct ps as [|p P]; [discriminate|].
  destruct Hp as [[(s & Hs & He)|(q & X & _)] _]; [|discriminate]. cbn [concat app L] in E.
  inversion Hs; subst; bfacts; cbn [concat app] in E; injection E; intros; subst; try clash.
  - eexists _, P. split; [reflexivity|]. split; [|assumption]. cbn [concat app]. f_equal. symmetry. assumption.
  - destruct Hyz as [Hy|(_ & _ & Hz)]; [clash|]. destruct He as [->|(t & ->)]; cbn [concat app] in *; [discriminate|].
    match goal with X : _ = z :: _ |- _ => injection X as <- _ end. clash.
  - cbn in H2. lia.
Qed.

Lemma drops_rafsi : forall u corr other, drops u corr other -> rafsi_of corr = rafsi_of other.
Proof.
  induction 1 as [u|u p corr other D IH|u q o p corr other Ho Hq Hs D IH]; [reflexivity| |]; unfold rafsi_of in *; cbn [filter]; rewrite IH; [reflexivity|].
  destruct Ho as [-> | ->]; reflexivity.
Qed.

Lemma cvc_not_cvv : forall a b c, is_consonant c = true -> cvv_like [a; b; c] = false.
Proof.
  intros a b c H. destruct (cvv_like [a; b; c]) eqn:E; [|reflexivity]. apply cvv_like_spec in E as (k & v1 & v2 & [X|X] & _ & _ & Hv); [injection X as -> -> ->|discriminate].
  apply v_f0 in Hv. congruence.
Qed.

(** the expected word of a lujvo whose first rafsi is not CVV or CV'V *)
Lemma lujvo_without_rn : forall lk yh cs gl mz w arr gen correct, cll_lujvo lk yh cs gl mz w arr gen correct ->
  cvv_like (hd [] (rafsi_of arr)) = false ->
  jvokaha_2 yh mz correct = Ok (filter norn arr) /\ rafsi_of (filter norn arr) = rafsi_of arr /\ correct = concat (filter norn arr)
  /\ alternates false (filter norn arr) /\ exists s l, correct = s ++ [l] /\ gen = is_consonant l.
Proof.
  intros lk yh cs gl mz w arr gen correct X Hf. pose proof (x_cut _ _ _ _ _ _ _ _ _ X) as C.
  pose proof (x_word _ _ _ _ _ _ _ _ _ X) as Hw. unfold expected_word in Hw. inv_bind Hw. destruct x as [[w' sc] ix]. rename E into He.
  assert (w' = correct). { destruct gen; [congruence|]. destruct lk; [discriminate|]. inv_bind Hw. destruct x; congruence. } subst w'.
  destruct (expected_cut_rn _ _ _ _ _ _ _ _ _ (cut_rafsi_cll _ _ _ _ _ C) (cut_short _ _ _ _ _ C) He) as (qs & Q1 & Q2 & Q3 & Q4 & Q5).
  specialize (Q5 Hf).
  assert (L : exists s l, correct = s ++ [l] /\ gen = is_consonant l).
  { unfold expected_entry in He. inv_bind He. apply best_word_chain in He as (choice & c & l & _ & _ & _ & _ & _ & _ & _ & El & Hl).
    apply last_opt_some in El as [s El]. exists s, l. split; [exact El|]. destruct gen; [congruence|]. symmetry. apply v_f0. exact Hl. }
  destruct (yset_eqb yh FORCE_Y) eqn:Ey.
  - assert (yh = FORCE_Y) by (destruct yh; try discriminate; reflexivity). rewrite (x_force _ _ _ _ _ _ _ _ _ X H). pose proof (x_concat _ _ _ _ _ _ _ _ _ X) as Ec.
    assert (qs = arr). { apply (cut_unique_all (rn_ok yh) true mz); [exact Q1|eapply cut_hy; exact C|]. rewrite Q2, Ec. apply (x_force _ _ _ _ _ _ _ _ _ X H). }
    subst qs. assert (F : filter norn arr = arr).
    { clear -Q5. induction arr as [|p arr IH]; [reflexivity|]. cbn [forallb] in Q5. apply andb_t in Q5 as [Q Q5]. cbn [filter]. rewrite Q. f_equal. auto. }
    rewrite F. rewrite (x_force _ _ _ _ _ _ _ _ _ X H) in L. split; [apply jvokaha_2_spec; auto|auto 10].
  - destruct (x_drops _ _ _ _ _ _ _ _ _ X) as (corr & Ec & D); [intros ->; discriminate|]. pose proof Ec as Ec0. apply jvokaha_2_spec in Ec as [Ec Ecut].
    assert (corr = qs). { apply (cut_unique_all (rn_ok yh) true mz); [eapply cut_hy; exact Ecut|exact Q1|congruence]. } subst qs.
    pose proof (drops_norn _ _ _ D Q5) as F. rewrite <- F. split; [exact Ec0|]. split; [exact Q3|]. split; [congruence|auto].
Qed.

(** ** C30 for CLL lujvo *)
Theorem lujvo_not_slinkuhi : forall yh cs gl mz w arr correct, cll_lujvo Bound yh cs gl mz w arr false correct ->
  forall ps, jvk Bound yh CLUSTER false mz (L "to" ++ w) <> Ok ps.
Proof.
  intros yh cs gl mz w arr correct X ps J. apply jvk_cll_lujvo in J as (gen' & correct' & Y).
  pose proof (x_concat _ _ _ _ _ _ _ _ _ X) as Ea. pose proof (x_concat _ _ _ _ _ _ _ _ _ Y) as Ep. rewrite <- Ea in Ep.
  pose proof (x_cut _ _ _ _ _ _ _ _ _ X) as Ca. pose proof (x_cut _ _ _ _ _ _ _ _ _ Y) as Cp. pose proof (x_two _ _ _ _ _ _ _ _ _ X) as H2.
  assert (Na : arr <> []) by (intros ->; cbn in H2; lia).
  destruct (to_cut _ _ _ _ _ Cp Ca Ep (x_two _ _ _ _ _ _ _ _ _ Y) Na) as (c & P & -> & E & Hc).
  assert (S : concat (filter norn arr) = c :: concat (filter norn P)).
  { destruct Cp as [_ CP]. eapply (shift (length arr)); [apply le_n|exact Ca| |exact CP| |exact Hc|exact E].
    - intros q Q. discriminate.
    - intros q Q G. injection Q as <-. apply shaped_cvv_tarmi in G. rewrite shaped3_tarmi in G; [discriminate|reflexivity|reflexivity|exact Hc]. }
  assert (Fa : cvv_like (hd [] (rafsi_of arr)) = false).
  { destruct arr as [|a0 arr]; [congruence|]. pose proof Ca as [[(s0 & Hs0 & _)|(q & Q & _)] _]; [|discriminate].
    destruct (cll_rafsi_head _ _ _ Hs0) as (x & y & z & u & -> & Hx & [Hy|(Hy & _)]).
    - exfalso. cbn [concat app] in E. injection E as _ E. destruct P as [|p1 P]; [discriminate|]. destruct Cp as [_ CP]. eapply cut_vowel; [exact CP|symmetry; exact E|exact Hy].
    - cbn [rafsi_of filter length Nat.ltb Nat.leb hd]. destruct (cvv_like (x :: y :: z :: u)) eqn:G; [|reflexivity].
      apply cvv_like_spec in G as (k & v1 & v2 & [G|G] & _ & Hv & _); injection G as -> -> _; apply v_f0 in Hv; congruence. }
  destruct (lujvo_without_rn _ _ _ _ _ _ _ _ _ X Fa) as (_ & _ & Eu & _).
  destruct (lujvo_without_rn _ _ _ _ _ _ _ _ _ Y) as (Jp & Rp & Eu' & Al & Le); [apply cvc_not_cvv; exact Hc|].
  assert (Et : correct' = L "to" ++ correct).
  { rewrite Eu', Eu, S. cbn [filter]. reflexivity. }
  (* to + the word the builder makes is a CLL lujvo *)
  assert (Z : cll_lujvo Bound yh CLUSTER false mz (L "to" ++ correct) (filter norn ([116%N; 111%N; c] :: P)) gen' correct').
  { split.
    - rewrite <- Et. symmetry. exact Eu'.
    - apply jvokaha_2_spec in Jp as [_ Jp]. exact Jp.
    - rewrite Rp. apply (x_two _ _ _ _ _ _ _ _ _ Y).
    - rewrite <- Et. exact Le.
    - rewrite Rp. apply (x_word _ _ _ _ _ _ _ _ _ Y).
    - intros _. exact Et.
    - intros _. exists (filter norn ([116%N; 111%N; c] :: P)). split; [exact Jp|apply drops_refl].
    - exact Al. }
  apply cll_lujvo_jvk in Z.
  pose proof (x_word _ _ _ _ _ _ _ _ _ X) as Hw. unfold expected_word in Hw. inv_bind Hw. destruct x as [[w' sc] ix]. inv_bind Hw. destruct x; [discriminate|]. injection Hw as ->.
  unfold slinkuhi, Core.is_slinkuhi in E1. inv_bind E1. destruct (is_vowel x) eqn:Hv.
  - rewrite Eu, S in E2. injection E2 as <-. apply v_f0 in Hv. congruence.
  - rewrite Z in E1. discriminate.
Qed.
