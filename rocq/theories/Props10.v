(** Property C32: no accepted CLL lujvo falls apart. *)
From Verif Require Import Str Data Tarmi Rafsi Core Api Lib Spec Shapes Decomp Basic Vowels Katna Dict Errs Builder Jvokaha Fuel Raises Inv Parts Clusters Zihevla Forms Chain Score Alt Lujvo Slinku Compound Whole Total Onset Tosm Props1 Props2 Props3.

(** ** C32 *)
(** a cmavo: a consonant, then vowels and apostrophes, a vowel first *)
Definition cmavo (a : str) : Prop :=
  exists c v x, a = c :: v :: x /\ consonant c /\ vowel v /\ Forall (fun y => vowel y \/ y = apostrophe) x.

Lemma lujvo_inv : forall lk st w ps, analyse_brivla lk st w = Ok (LUJVO, ps) ->
  exists correct, cll_lujvo Bound (y_hyphens st) (consonants st) (glides st) (allow_mz st) (standard_spelling w) ps false correct
    /\ ends_vowel (standard_spelling w).
Proof.
  intros lk st w ps H. assert (Hv : ends_vowel (standard_spelling w)).
  { destruct (C03_type_last_letter _ _ _ _ _ H) as [[X _]|[_ (s & l & E & Hl)]]; [discriminate|].
    exists l. rewrite E. split; [apply last_opt_app|apply is_vowel_spec; exact Hl]. }
  apply analyse_inv in H. set (v := standard_spelling w) in *.
  inversion H as [G|l ps' E1 E2 E3 E4 J' |l c' e t' E1 E2 E3 J' Hca Ei Ev' Ny Ck|l c' e t' ps' E1 E2 E3 E4 J' Hca Ei Ev' H2 HC Et]; subst.
  - destruct (is_consonant l) eqn:El; [congruence|]. apply jvk_cll_lujvo in J' as (gen & correct & Y).
    destruct (x_last _ _ _ _ _ _ _ _ _ Y) as (s & l' & Es & Eg). rewrite Es, last_opt_app in E1. injection E1 as ->. rewrite El in Eg. subst gen.
    destruct lk; [|exists correct; split; [exact Y|exact Hv]].
    pose proof (x_word _ _ _ _ _ _ _ _ _ Y) as Hw. unfold expected_word in Hw. inv_bind Hw. destruct x as [[? ?] ?]. discriminate.
  - destruct (is_consonant l); discriminate.
Qed.

Lemma letters_spelling : forall s, Forall lojban_letter s -> standard_spelling s = s.
Proof.
  intros s F. assert (G : Forall (fun c => N.eqb c 46%N = false /\ N.eqb c 104%N = false /\ N.eqb c 44%N = false /\ lower_char c = [c]) s).
  { eapply Forall_impl; [|exact F]. intros c Hc.
    assert (K : is_lojban_letter c = true \/ c = c_y).
    { unfold is_lojban_letter. destruct Hc as [Hc|[Hc|[Hc|Hc]]]; [apply is_vowel_spec in Hc|apply is_consonant_spec in Hc| |right; exact Hc]; left; [rewrite Hc|rewrite Hc|subst c]; rewrite ?orb_true_r; reflexivity. }
    destruct K as [K|K]; [|subst c; repeat split]. apply lojban_letter_facts in K as (_ & H2 & H3 & H4 & H5 & _). auto. }
  unfold standard_spelling.
  replace (match s with c :: r0 => if N.eqb c 46 then r0 else s | [] => [] end) with s by (destruct G as [|c s (-> & _) G]; reflexivity).
  clear F. induction G as [|c s (_ & H3 & H4 & H5) G IH]; [reflexivity|]. unfold lower in *. cbn [flat_map].
  rewrite H5. cbn [app map]. rewrite H3. cbn [filter]. rewrite H4. cbn [negb]. f_equal. exact IH.
Qed.

Lemma gismu_onset : forall mz v, is_gismu v mz = true -> onset v /\ ends_vowel v /\ length v = 5.
Proof.
  intros mz v H. apply is_gismu_spec in H as [(c1 & v1 & c2 & c3 & v2 & -> & G)|(c1 & c2 & v1 & c3 & v2 & -> & G)]; decompose [and] G; bfacts.
  - split; [apply on_cv; assumption|]. split; [|reflexivity]. exists v2. split; [reflexivity|assumption].
  - split; [apply on_ccvcv; assumption|]. split; [|reflexivity]. exists v2. split; [reflexivity|assumption].
Qed.
Lemma two_rafsi : forall mz ps, Forall (cll mz) (rafsi_of ps) -> 2 <= length (rafsi_of ps) -> 4 <= length (concat ps).
Proof.
  assert (A : forall mz ps, Forall (cll mz) (rafsi_of ps) -> 3 * length (rafsi_of ps) <= length (concat ps)).
  { intros mz ps F. induction ps as [|p ps IH]; [cbn; lia|]. unfold rafsi_of in *. cbn [filter concat] in *. rewrite app_length.
    destruct (2 <? length p); [inversion F; subst; pose proof (cll_len _ _ H1); specialize (IH H2); cbn [length]; lia|specialize (IH F); lia]. }
  intros mz ps F H. specialize (A mz ps F). lia.
Qed.

Theorem C32_no_tosmabru : forall lk st w ps a b, analyse_brivla lk st w = Ok (LUJVO, ps) ->
  standard_spelling w = a ++ b -> cmavo a ->
  forall lk' st' t qs, analyse_brivla lk' st' b = Ok (t, qs) -> t <> GISMU /\ t <> LUJVO.
Proof.
  intros lk st w ps a b H E (c & v & x & Ea & Hc & Hvv & Hx) lk' st' t qs Hb.
  assert (Eb : standard_spelling b = b).
  { apply C04_lojban_letters in H. rewrite E in H. apply Forall_app in H as [_ H]. apply letters_spelling. exact H. }
  destruct (lujvo_inv _ _ _ _ H) as (u & Y & _). rewrite E in Y. apply is_consonant_spec in Hc. apply is_vowel_spec in Hvv.
  assert (Hx' : forallb vh x = true).
  { apply forallb_forall. intros y Hy. eapply Forall_forall in Hx; [|exact Hy]. unfold vh. destruct Hx as [Hx| ->]; [apply is_vowel_spec in Hx; rewrite Hx; reflexivity|apply orb_true_r]. }
  assert (K : ends_vowel b -> onset b -> 4 <= length b -> False) by (intros; eapply lujvo_no_tosmabru; eassumption).
  split; intros ->.
  - assert (G : exists qs, analyse_brivla lk' st' b = Ok (GISMU, qs)) by (exists qs; exact Hb).
    apply C05_gismu_shape in G. rewrite Eb in G. apply is_gismu_spec, gismu_onset in G as (G1 & G2 & G3). apply K; [exact G2|exact G1|lia].
  - destruct (lujvo_inv _ _ _ _ Hb) as (u' & Y' & Hv). rewrite Eb in *. apply K; [exact Hv|eapply lujvo_onset; eassumption|].
    pose proof (x_two _ _ _ _ _ _ _ _ _ Y') as H2. rewrite <- (x_concat _ _ _ _ _ _ _ _ _ Y').
    pose proof (cut_rafsi_cll _ _ _ _ _ (x_cut _ _ _ _ _ _ _ _ _ Y')) as F. eapply two_rafsi; eassumption.
Qed.

(** "tosymabru" is accepted, "tosmabru" is to + mabru; the hypotheses with a
    cmavo of two and of four letters *)
Example C32_example :
  analyse_brivla Bound default_settings (L "tosmabru") = Err NotBrivlaError
  /\ analyse_brivla Bound default_settings (L "mabru") = Ok (GISMU, [L "mabru"])
  /\ (exists ps, analyse_brivla Bound default_settings (L "tosmanru") = Ok (LUJVO, ps)) /\ cmavo (L "to")
  /\ (exists ps, analyse_brivla Bound default_settings (L "ci'irmabru") = Ok (LUJVO, ps)) /\ cmavo (L "ci'i")
  /\ analyse_brivla Bound default_settings (L "ci'imabru") = Err NotBrivlaError.
Proof.
  split; [vm_compute; reflexivity|]. split; [vm_compute; reflexivity|]. split; [eexists; vm_compute; reflexivity|]. split.
  { exists 116%N, 111%N, []. split; [reflexivity|]. split; [apply is_consonant_spec; reflexivity|]. split; [apply is_vowel_spec; reflexivity|constructor]. }
  split; [eexists; vm_compute; reflexivity|]. split; [|vm_compute; reflexivity].
  exists 99%N, 105%N, [apostrophe; 105%N]. split; [reflexivity|]. split; [apply is_consonant_spec; reflexivity|]. split; [apply is_vowel_spec; reflexivity|].
  constructor; [right; reflexivity|constructor; [left; apply is_vowel_spec; reflexivity|constructor]].
Qed.
(** The same is false of the words with y: das-nir-vib-y-dukti is accepted, and so
    is snirvib-y-dukti. *)
Theorem C42_extended_refuted : exists a b ps qs, cmavo a
  /\ analyse_brivla Bound default_settings (a ++ b) = Ok (EXTENDED_LUJVO, ps)
  /\ analyse_brivla Bound default_settings b = Ok (EXTENDED_LUJVO, qs).
Proof.
  exists (L "da"), (L "snirvibydukti"). eexists _, _. split; [|split; vm_compute; reflexivity].
  exists 100%N, 97%N, []. split; [reflexivity|]. split; [apply is_consonant_spec; reflexivity|]. split; [apply is_vowel_spec; reflexivity|constructor].
Qed.
Print Assumptions C32_no_tosmabru.
Print Assumptions C42_extended_refuted.

