(** Replacing a tanru component by one of its rafsi, written literally, leaves a
    part of its forms. *)
From Verif Require Import Str Data Tarmi Rafsi Core Api Lib Spec Shapes Decomp Basic Vowels Katna Dict Errs Builder Jvokaha Fuel Raises Inv Parts Clusters Zihevla Forms Chain Score Alt Lujvo Slinku Optimal Props2 Props4 Props5.

(** [r] is a rafsi of the word [v]: listed in the dictionary, or [v] is a gismu and
    [r] is [v] itself or [v] without its last vowel *)
Definition own_rafsi (mz : bool) (v r : str) : Prop :=
  (exists rs, In (v, rs) RAFSI_LIST /\ In r rs)
  \/ (gismu_form mz v /\ (r = v \/ exists c, vowel c /\ v = r ++ [c])).
(** the component [u] is the component [v], or a literal rafsi of it *)
Definition pinned (mz : bool) (v u : str) : Prop :=
  u = v \/ exists r, u = L "-" ++ r ++ L "-" /\ own_rafsi mz (standard_spelling v) r.

Lemma dict_ok : forall v rs r, In (v, rs) RAFSI_LIST -> In r rs -> dict_get v = Some rs /\ is_only_lojban_characters v = true
  /\ (rafsi_tarmi r = CVV -> exists c v1 v2, r = [c; v1; v2] /\ mems [v1; v2] START_VOWEL_CLUSTERS = true).
Proof.
  assert (G : forallb (fun wr : str * list str => match snd wr with [] => true | _ =>
     match dict_get (fst wr) with Some rs => if list_eq_dec (list_eq_dec N.eq_dec) rs (snd wr) then true else false | None => false end
     && is_only_lojban_characters (fst wr)
     && forallb (fun r => match rafsi_tarmi r with CVV => mems (skipn 1 r) START_VOWEL_CLUSTERS | _ => true end) (snd wr) end) RAFSI_LIST = true)
    by (vm_compute; reflexivity).
  intros v rs r H Hr. rewrite forallb_forall in G. apply G in H. cbn [fst snd] in H. destruct rs as [|r0 rs0] eqn:Ers; [destruct Hr|].
  rewrite <- Ers in *. clear Ers r0 rs0. apply andb_t in H as [H H3]. apply andb_t in H as [H1 H2].
  destruct (dict_get v) as [rs'|]; [|discriminate]. destruct (list_eq_dec (list_eq_dec N.eq_dec) rs' rs) as [->|]; [|discriminate].
  split; [reflexivity|]. split; [exact H2|]. intro Ht. rewrite forallb_forall in H3. apply H3 in Hr.
  rewrite Ht in Hr. apply tarmi_CVV in Ht as (a & b & c & -> & _). exists a, b, c. split; [reflexivity|exact Hr].
Qed.
Lemma dict_cll : forall mz v rs r, In (v, rs) RAFSI_LIST -> In r rs -> cll mz r.
Proof.
  intros mz v rs r H Hr. pose proof (dict_valid mz _ _ _ H Hr) as Hv.
  destruct (tarmi_eqb (rafsi_tarmi r) CVV) eqn:E.
  - apply tarmi_eqb_eq in E. destruct (dict_ok _ _ _ H Hr) as (_ & _ & G). destruct (G E) as (c & v1 & v2 & -> & Hm).
    apply tarmi_CVV in E as (a & b & d & Eq & Ha & _). injection Eq as <- <- <-.
    exists "CVV"%string. apply r_cvv; [apply is_consonant_spec; exact Ha|].
    apply start_spec in Hm as [(x & Hx & _)|Hm]; [discriminate|exact Hm].
  - apply valid_cll; [exact Hv|]. intro G. rewrite G in E. discriminate.
Qed.
Lemma gismu_cll : forall mz v, is_gismu v mz = true -> cll mz v /\ cll mz (dropl 1 v)
  /\ is_only_lojban_characters v = true
  /\ (rafsi_tarmi v = CVCCV \/ rafsi_tarmi v = CCVCV)
  /\ (rafsi_tarmi (dropl 1 v) = CVCC \/ rafsi_tarmi (dropl 1 v) = CCVC).
Proof.
  intros mz v H. apply is_gismu_spec in H as [(a & b & c & d & e & -> & H1 & H2 & H3 & H4)|(a & b & c & d & e & -> & H1 & H2 & H3 & H4)].
  - assert (C1 : cll mz [a; b; c; d; e]) by (eexists; apply r_cvccv; assumption).
    assert (C2 : cll mz [a; b; c; d]) by (eexists; apply r_cvcc; assumption).
    change (dropl 1 [a; b; c; d; e]) with [a; b; c; d].
    split; [exact C1|]. split; [exact C2|]. split; [|split].
    + apply letters_only; [discriminate|]. apply forallb_forall. apply Forall_forall. eapply cll_lojban. exact C1.
    + left. apply (cll_tarmi mz "CVCCV"). apply r_cvccv; assumption.
    + left. apply (cll_tarmi mz "CVCC"). apply r_cvcc; assumption.
  - assert (C1 : cll mz [a; b; c; d; e]) by (eexists; apply r_ccvcv; assumption).
    assert (C2 : cll mz [a; b; c; d]) by (eexists; apply r_ccvc; assumption).
    change (dropl 1 [a; b; c; d; e]) with [a; b; c; d].
    split; [exact C1|]. split; [exact C2|]. split; [|split].
    + apply letters_only; [discriminate|]. apply forallb_forall. apply Forall_forall. eapply cll_lojban. exact C1.
    + right. apply (cll_tarmi mz "CCVCV"). apply r_ccvcv; assumption.
    + right. apply (cll_tarmi mz "CCVC"). apply r_ccvc; assumption.
Qed.
Lemma own_cll : forall mz v r, own_rafsi mz v r -> cll mz r.
Proof.
  intros mz v r [(rs & H & Hr)|(H & Hr)]; [eapply dict_cll; eassumption|].
  apply is_gismu_spec in H. destruct (gismu_cll _ _ H) as (G1 & G2 & _).
  destruct Hr as [->|(c & _ & ->)]; [exact G1|]. unfold dropl in G2. rewrite app_length, Nat.add_sub in G2.
  rewrite firstn_app, Nat.sub_diag, firstn_all, app_nil_r in G2. exact G2.
Qed.
Lemma only_last : forall v, is_only_lojban_characters v = true -> exists l, last_opt v = Some l /\ N.eqb l c_dash = false.
Proof.
  intros v H. destruct (only_Forall _ H) as [Hn HF]. destruct (last_opt v) as [l|] eqn:El; [|apply last_opt_none in El; congruence].
  exists l. split; [reflexivity|]. apply last_opt_some in El as [s ->]. apply Forall_app in HF as [_ HF]. inversion HF as [|? ? Hl _]; subst.
  destruct (N.eqb l c_dash) eqn:E; [|reflexivity]. apply N.eqb_eq in E. subst l. discriminate.
Qed.

Lemma short_forms_incl : forall rs exp fi la cs gl forms r fs, short_rafsi_forms rs exp fi la cs gl = Ok forms ->
  In r rs -> rafsi_tarmi r <> OTHER_RAFSI -> get_rafsi_for_rafsi r (Tar (rafsi_tarmi r)) fi la cs gl = Ok fs -> incl fs forms.
Proof.
  induction rs as [|r0 rs IH]; intros exp fi la cs gl forms r fs H Hr Ht Hf; [destruct Hr|]. cbn [short_rafsi_forms] in H. cbv zeta in H.
  inv_bind H. inv_bind H. injection H as <-. destruct Hr as [->|Hr].
  - replace (tarmi_eqb (rafsi_tarmi r) OTHER_RAFSI) with false in E by (destruct (rafsi_tarmi r); try reflexivity; congruence).
    cbn [andb] in E. rewrite Hf in E. injection E as <-. apply incl_appl, incl_refl.
  - apply incl_appr. eapply IH; eassumption.
Qed.

Lemma forms_cvcc : forall r fi la cs gl, rafsi_tarmi r = CVCC \/ rafsi_tarmi r = CCVC ->
  get_rafsi_for_rafsi r (Tar (rafsi_tarmi r)) fi la cs gl = get_rafsi_for_rafsi r SHORT_BRIVLA fi la cs gl.
Proof. intros r fi la cs gl [->| ->]; reflexivity. Qed.
Lemma forms_long : forall r fi la cs gl, rafsi_tarmi r = CVCCV \/ rafsi_tarmi r = CCVCV ->
  get_rafsi_for_rafsi r (Tar (rafsi_tarmi r)) fi la cs gl = get_rafsi_for_rafsi r LONG_BRIVLA fi la cs gl.
Proof. intros r fi la cs gl [->| ->]; reflexivity. Qed.
Lemma gismu_analysis : forall lk st v, is_gismu v (allow_mz st) = true -> is_only_lojban_characters v = true ->
  analyse_brivla lk (ana_settings st) v = Ok (GISMU, [v]).
Proof.
  intros lk st v H Ho. destruct (only_Forall _ Ho) as [_ HF]. pose proof (lojban_spelling _ HF) as Es.
  destruct (proj1 (C05_gismu_shape lk (ana_settings st) v)) as [ps Hp].
  - rewrite Es. apply is_gismu_spec. exact H.
  - pose proof (C05_gismu_pieces _ _ _ _ Hp) as ->. rewrite Es in Hp. exact Hp.
Qed.

Theorem pinned_forms : forall lk st fi la v u fv fu, pinned (allow_mz st) v u ->
  rafsi_list_for (analyse_brivla lk) (jvk lk) st fi la (standard_spelling v) = Ok fv ->
  rafsi_list_for (analyse_brivla lk) (jvk lk) st fi la (standard_spelling u) = Ok fu -> incl fu fv.
Proof.
  intros lk st fi la v u fv fu [->|(r & -> & Ho)] Hv Hu; [rewrite Hv in Hu; injection Hu as <-; apply incl_refl|].
  pose proof (own_cll _ _ _ Ho) as Hc.
  assert (Es : standard_spelling (L "-" ++ r ++ L "-") = dashed r).
  { pose proof (dashed_spelling _ _ Hc) as E. apply normalise_spec in E. symmetry. exact E. }
  rewrite Es, rafsi_list_for_dashed in Hu by exact Hc. set (w := standard_spelling v) in *. clearbody w.
  assert (Hw : is_only_lojban_characters w = true).
  { destruct Ho as [(rs & H & Hr)|(H & Hr)]; [apply (dict_ok _ _ _ H Hr)|]. apply is_gismu_spec in H. apply (gismu_cll _ _ H). }
  destruct (only_last _ Hw) as (l & El & Ed). unfold rafsi_list_for in Hv. cbv zeta in Hv. unfold idx_last in Hv at 1. rewrite El in Hv. cbn [bind] in Hv.
  rewrite Ed, Hw in Hv. cbn [negb] in Hv. inv_bind Hv. rename x into short, E into Esh. inv_bind Hv. rename x into bt, E into Ebt.
  inv_bind Hv. rename x into sf, E into Esf. inv_bind Hv. rename x into lf, E into Elf. injection Hv as <-.
  destruct Ho as [(rs & H & Hr)|(H & Hr)].
  - apply incl_appl. destruct (dict_ok _ _ _ H Hr) as (Hd & _). rewrite Hd in Esh.
    eapply short_forms_incl; [exact Esh|exact Hr| |exact Hu]. apply cll_proper in Hc. intro G. rewrite G in Hc. discriminate.
  - apply incl_appr. apply is_gismu_spec in H. destruct (gismu_cll _ _ H) as (_ & _ & _ & T1 & T2).
    rewrite (gismu_analysis lk st w H Hw) in Ebt. injection Ebt as <-. destruct Hr as [->|(c & _ & E)].
    + apply incl_appr. rewrite forms_long in Hu by exact T1. rewrite Hu in Elf. injection Elf as <-. apply incl_refl.
    + apply incl_appl. assert (Er : dropl 1 w = r).
      { rewrite E. unfold dropl. rewrite app_length, Nat.add_sub, firstn_app, Nat.sub_diag, firstn_all, app_nil_r. reflexivity. }
      rewrite Er in *. rewrite forms_cvcc in Hu by exact T2. rewrite Hu in Esf. injection Esf as <-. apply incl_refl.
Qed.

Lemma pinned_lists : forall lk st n vs us i rv ru, Forall2 (pinned (allow_mz st)) vs us ->
  rafsi_list_list_loop (analyse_brivla lk) (jvk lk) st n i (map standard_spelling vs) = Ok rv ->
  rafsi_list_list_loop (analyse_brivla lk) (jvk lk) st n i (map standard_spelling us) = Ok ru ->
  Forall2 (@incl (str * nat)) ru rv.
Proof.
  intros lk st n vs us i rv ru H. revert i rv ru. induction H as [|v u vs us Hp H IH]; intros i rv ru Hv Hu; cbn in Hv, Hu.
  - injection Hv as <-. injection Hu as <-. constructor.
  - inv_bind Hv. inv_bind Hv. injection Hv as <-. inv_bind Hu. inv_bind Hu. injection Hu as <-. constructor.
    + eapply pinned_forms; eassumption.
    + eapply IH; eassumption.
Qed.
Lemma incl_choice : forall choice (ru rv : list (list (str * nat))), Forall2 (@In _) choice ru -> Forall2 (@incl _) ru rv -> Forall2 (@In _) choice rv.
Proof.
  intros choice ru rv H. revert rv. induction H as [|x l ch ru Hx H IH]; intros rv F; inversion F; subst; constructor; auto.
Qed.

(** pinning components never gives a better word; and if a pinned tanru has a word, so has the tanru *)
Theorem pinned_best : forall lk gen st vs us rv ru w sc ix, exp_rafsi_shapes st = false ->
  Forall2 (pinned (allow_mz st)) vs us ->
  get_rafsi_list_list (analyse_brivla lk) (jvk lk) st (map standard_spelling vs) = Ok rv ->
  get_rafsi_list_list (analyse_brivla lk) (jvk lk) st (map standard_spelling us) = Ok ru ->
  best_word gen st ru = Ok (w, sc, ix) ->
  (exists w' sc' ix', best_word gen st rv = Ok (w', sc', ix') /\ (sc' <= sc)%Z)
  \/ (best_word gen st rv = Err NoLujvoFoundError /\ (BEST_INIT <= sc)%Z).
Proof.
  intros lk gen st vs us rv ru w sc ix Hex Hp Hv Hu H.
  destruct (best_word_chain _ _ _ _ _ _ H) as (choice & c & l & F & C & W & S & I & T & K & El & Hl).
  assert (Hi : Forall2 (@incl (str * nat)) ru rv).
  { unfold get_rafsi_list_list in Hv, Hu. rewrite map_length in *. rewrite (Forall2_length _ _ _ _ _ Hp) in Hv. eapply pinned_lists; eassumption. }
  pose proof (list_fine _ _ _ _ Hex Hv) as Hf.
  rewrite <- S. apply (best_word_optimal gen st rv choice c l); try assumption.
  - eapply incl_choice; eassumption.
  - rewrite <- (Forall2_length _ _ _ _ _ Hi). exact C.
  - rewrite W. exact El.
Qed.
