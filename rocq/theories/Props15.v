(** A CLL lujvo is never a cmavo followed by another content word. *)
From Verif Require Import Str Data Tarmi Rafsi Core Api Lib Spec Shapes Decomp Basic Vowels Katna Dict Errs Builder Jvokaha Slinku Fuel Raises Inv Parts Clusters Forms Chain Score Alt Lujvo Optimal Props1 Props2 Props3 Total Onset Pinned Found Props4 Props5 Props6 Props7 Props8 Props9 Tosm Props10 Joint Swap Unique Round Recast.

Lemma lujvo_bound : forall lk st w ps, analyse_brivla lk st w = Ok (LUJVO, ps) -> lk = Bound.
Proof.
  intros lk st w ps H. destruct lk; [exfalso|reflexivity]. apply analyse_inv in H.
  inversion H as [G|l ps' E1 E2 E3 E4 J' |l c' e t' E1 E2 E3 J' Hca Ei Ev' Ny Ck|l c' e t' ps' E1 E2 E3 E4 J' Hca Ei Ev' H2 HC Et]; subst.
  - destruct (is_consonant l) eqn:El; [congruence|]. apply jvk_cll_lujvo in J' as (gen & correct & Y).
    destruct (x_last _ _ _ _ _ _ _ _ _ Y) as (s & l' & Es & Eg). rewrite Es, last_opt_app in E1. injection E1 as ->. rewrite El in Eg. subst gen.
    pose proof (x_word _ _ _ _ _ _ _ _ _ Y) as Hw. unfold expected_word in Hw. inv_bind Hw. destruct x as [[? ?] ?]. discriminate.
  - destruct (is_consonant l); discriminate.
Qed.
Lemma short_rejected : forall st c d v r, is_consonant c = true -> is_consonant d = true -> is_vowel v = true -> analyse_brivla Bound st [c; d; v] <> Ok r.
Proof.
  intros st c d v [t ps] Hc Hd Hv H.
  assert (E : standard_spelling [c; d; v] = [c; d; v]).
  { apply letters_spelling. apply is_consonant_spec in Hc, Hd. apply is_vowel_spec in Hv. apply Forall_cons; [right; left; exact Hc|]. apply Forall_cons; [right; left; exact Hd|]. apply Forall_cons; [left; exact Hv|apply Forall_nil]. }
  apply analyse_inv in H. rewrite E in H.
  inversion H as [G|l ps' E1 E2 E3 E4 J' |l c' e t' E1 E2 E3 J' Hca Ei Ev' Ny Ck|l c' e t' ps' E1 E2 E3 E4 J' Hca Ei Ev' H2 HC Et]; subst.
  - discriminate.
  - apply jvk_cll_lujvo in J' as (gen & correct & Y). pose proof (x_two _ _ _ _ _ _ _ _ _ Y) as H2.
    pose proof (two_rafsi _ _ (cut_rafsi_cll _ _ _ _ _ (x_cut _ _ _ _ _ _ _ _ _ Y)) H2) as L. rewrite (x_concat _ _ _ _ _ _ _ _ _ Y) in L. cbn in L. lia.
  - discriminate Ck.
  - cbn [split_on] in H2. destruct (N.eqb_spec c_y c); [subst; discriminate|]. destruct (N.eqb_spec c_y d); [subst; discriminate|]. destruct (N.eqb_spec c_y v); [subst; discriminate|]. cbn in H2. lia.
Qed.

(** ** C32: nothing that is left after a cmavo is accepted at all, of any type and
    with any setting of the other options *)
Theorem C32_no_brivla : forall lk st st' w ps a b c u, analyse_brivla lk st w = Ok (LUJVO, ps) ->
  standard_spelling w = a ++ b -> cmavo a -> b = c :: u -> consonant c ->
  y_hyphens st' = y_hyphens st -> allow_mz st' = allow_mz st ->
  forall r, analyse_brivla lk st' b <> Ok r.
Proof.
  intros lk st st' w ps a b c u H E (k & v & x & Ea & Hk & Hvv & Hx) Eb Hc Ey Em [t qs] X.
  assert (Es : standard_spelling b = b).
  { apply C04_lojban_letters in H. rewrite E in H. apply Forall_app in H as [_ H]. apply letters_spelling. exact H. }
  destruct (lujvo_inv _ _ _ _ H) as (correct & Y & Hv). rewrite E in *. apply is_consonant_spec in Hk, Hc. apply is_vowel_spec in Hvv.
  assert (lk = Bound) as -> by (eapply lujvo_bound; exact H).
  assert (Hx' : forallb vh x = true).
  { apply forallb_forall. intros y Hy. eapply Forall_forall in Hx; [|exact Hy]. unfold vh. destruct Hx as [Hx| ->]; [apply is_vowel_spec in Hx; rewrite Hx; reflexivity|apply orb_true_r]. }
  assert (Ht : t <> CMEVLA).
  { intros ->. destruct (C03_type_last_letter _ _ _ _ _ X) as [[_ (s & l & El & Hl)]|[Q _]]; [|cbn in Q; intuition discriminate]. rewrite Es in El.
    destruct Hv as (l' & Ev & Hl'). rewrite El, app_assoc, last_opt_app in Ev. injection Ev as ->. apply is_consonant_spec in Hl. clash. }
  subst a b. destruct x as [|e x].
  - cbn [app] in Y. destruct (recast_lujvo (y_hyphens st) (consonants st) (glides st) CLUSTER false (allow_mz st) k v 116%N 111%N c u ps correct) as (qs' & J);
      [constructor; assumption|constructor; [reflexivity|reflexivity|assumption]|exact Y|].
    rewrite <- Ey, <- Em in J.
    apply (accepted_no_cut _ _ _ _ _ c u X Ht Es Hc qs'). rewrite Es. exact J.
  - destruct (after_cmavo _ _ _ _ _ c u _ _ _ _ _ _ Y Hk Hvv Hx' eq_refl Hc) as [(d & v' & -> & Hd & Hv')|(d & u' & -> & Hd & Hi)].
    + exact (short_rejected _ _ _ _ _ Hc Hd Hv' X).
    + assert (Hp : initial_pair c d) by (eapply C18_initial_pair; [exact X|exact Es|apply is_consonant_spec; exact Hc|apply is_consonant_spec; exact Hd]).
      apply initial_spec in Hp. congruence.
Qed.

(** "pa" before "slinku'i", which looks like a zi'evla but is none; a rest that
    begins with a vowel can be a word *)
Example C32_brivla_example :
  (exists ps, analyse_brivla Bound default_settings (L "tosmanru") = Ok (LUJVO, ps))
  /\ (exists ps, analyse_brivla Bound default_settings (L "paslinku'i") = Ok (LUJVO, ps)) /\ cmavo (L "pa")
  /\ analyse_brivla Bound default_settings (L "slinku'i") = Err NotBrivlaError
  /\ analyse_brivla Bound default_settings (L "spageti") = Ok (ZIhEVLA, [L "spageti"])
  /\ (exists ps, analyse_brivla Bound default_settings (L "ba'ardupli") = Ok (LUJVO, ps))
  /\ (exists t ps, analyse_brivla Bound default_settings (L "ardupli") = Ok (t, ps)).
Proof.
  split; [eexists; vm_compute; reflexivity|]. split; [eexists; vm_compute; reflexivity|].
  split; [exists 112%N, 97%N, []; repeat split; auto; [apply is_consonant_spec|apply is_vowel_spec]; reflexivity|].
  split; [vm_compute; reflexivity|]. split; [vm_compute; reflexivity|]. split; [eexists; vm_compute; reflexivity|]. eexists. eexists. vm_compute. reflexivity.
Qed.
Print Assumptions C32_no_brivla.
