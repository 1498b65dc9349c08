(** C42: compounds that fall apart. *)
From Verif Require Import Str Data Tarmi Rafsi Core Api Lib Spec Shapes Decomp Basic Inv Ext4 Props1 Props6 Props10.

Lemma extended_y : forall lk st w ps, analyse_brivla lk st w = Ok (EXTENDED_LUJVO, ps) -> In c_y (standard_spelling w).
Proof.
  intros lk st w ps H. apply analyse_inv in H. inversion H as [|l qs E1 E2 E3 E4 J Et|l c e t E1 E2 E3 J Hca Ei Ev Ny Ck|l c e t qs E1 E2 E3 E4 J Hca Ei Ev H2 AC Et]; subst.
  - destruct (is_consonant l); discriminate.
  - destruct (in_dec N.eq_dec c_y (standard_spelling w)) as [I|I]; [exact I|]. rewrite (split_on_none _ _ I) in H2. cbn in H2. lia.
Qed.
(** An accepted compound with y is never a cmavo followed by a gismu or a zi'evla:
    if it is a cmavo followed by a brivla, then by another compound. *)
Theorem C42_gismu_zihevla_partial : forall lk st a b ps t qs, cmavo a ->
  standard_spelling (a ++ b) = a ++ b -> standard_spelling b = b ->
  analyse_brivla lk st (a ++ b) = Ok (EXTENDED_LUJVO, ps) -> analyse_brivla lk st b = Ok (t, qs) ->
  t = LUJVO \/ t = EXTENDED_LUJVO.
Proof.
  intros lk st a b ps t qs (c & v & x & -> & Hc & Hv & F) Sab Sb H Hb.
  assert (Y : In c_y b).
  { pose proof (extended_y _ _ _ _ H) as I. rewrite Sab in I. apply in_app_or in I as [I|I]; [|exact I]. exfalso.
    destruct I as [->|[->|I]]; [apply is_consonant_spec in Hc; discriminate|apply is_vowel_spec in Hv; discriminate|].
    rewrite Forall_forall in F. apply F in I as [I|I]; [apply is_vowel_spec in I; discriminate|discriminate]. }
  destruct t; auto; exfalso.
  - apply analyse_inv in Hb. rewrite Sb in Hb. inversion Hb as [G| | |]; subst; try (destruct (is_consonant _); discriminate). exact (gismu_noy _ _ G Y).
  - apply C31_zihevla_rules in Hb as (_ & _ & N & _). rewrite Sb in N. exact (N Y).
  - apply C03_type_last_letter in Hb as [[D _]|[D _]]; [discriminate|cbn in D; intuition discriminate].
  - apply C03_type_last_letter in Hb as [[_ (u & d & E & K)]|[D _]]; [|cbn in D; intuition discriminate].
    apply C03_type_last_letter in H as [[D _]|[_ (u' & d' & E' & K')]]; [discriminate|]. rewrite Sb in E. rewrite Sab, E, app_assoc in E'.
    apply app_inj_tail in E' as [_ <-]. apply is_consonant_spec in K. apply is_vowel_spec in K'. rewrite (v_f0 _ K') in K. discriminate.
Qed.
(** Both remaining cases occur: maugeirsugycau is accepted, and so is the CLL lujvo
    geirsugycau, from which the cmavo mau would break off. *)
Theorem C42_cll_refuted : exists a b ps qs, cmavo a
  /\ standard_spelling (a ++ b) = a ++ b /\ standard_spelling b = b
  /\ analyse_brivla Bound default_settings (a ++ b) = Ok (EXTENDED_LUJVO, ps)
  /\ analyse_brivla Bound default_settings b = Ok (LUJVO, qs).
Proof.
  exists (L "mau"), (L "geirsugycau"). eexists _, _. split; [|split; [vm_compute; reflexivity|split; [vm_compute; reflexivity|split; vm_compute; reflexivity]]].
  exists 109%N, 97%N, [117%N]. split; [reflexivity|]. split; [apply is_consonant_spec; reflexivity|]. split; [apply is_vowel_spec; reflexivity|].
  constructor; [left; apply is_vowel_spec; reflexivity|constructor].
Qed.
