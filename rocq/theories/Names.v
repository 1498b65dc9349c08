(** Names: words built with generate_cmevla=True (jvozba.py:421-504) are read
    back by analyse_brivla (tools.py:239-285) as the builder joined them. *)
From Verif Require Import Str Data Tarmi Rafsi Core Api Lib Spec Shapes Decomp Basic Vowels Katna Dict Errs Builder Jvokaha Fuel Raises Inv Parts Clusters Zihevla Forms Chain Score Alt Lujvo Slinku Compound Whole Optimal Props1 Props2 Props3 Total Onset Pinned Found Props4 Props5 Props6 Props8 Props9 Joint Swap Unique Round Props12 Ext Ext2 Ext3 Ext4 Props14.

(** the best name for such components is cut where the builder joined it *)
Theorem construction_named : forall st vs rll w sc ix ch c ps, exp_rafsi_shapes st = false ->
  get_rafsi_list_list (analyse_brivla Bound) (jvk Bound) st vs = Ok rll -> best_word true st rll = Ok (w, sc, ix) ->
  construction Bound true st vs w sc ix ch c ps -> homely_all st vs ps ->
  exists arr p rest, (ps = p :: map snd rest /\ linked true st (length vs) true p rest /\ arr = alt p rest)
    /\ rafsi_of arr = map p_r ps /\ concat arr = w /\ (forall b, analyse_brivla Bound (with_exp st b) w = Ok (CMEVLA, arr)) /\ get_rafsi_indices arr = ix.
Proof.
  intros st vs rll w sc ix ch c ps Hex Hr Hb K Hh. destruct (built_expected _ _ _ _ _ _ _ _ _ _ Hex Hr Hb K Hh) as (F & S & (x & Ech) & He).
  destruct (chain_linked_spots _ _ _ _ _ (k_chain _ _ _ _ _ _ _ _ _ _ K) (Nat.eq_le_incl _ _ (k_len _ _ _ _ _ _ _ _ _ _ K)) ps (k_pieces _ _ _ _ _ _ _ _ _ _ K))
    as (p & rest & Eps & Hrest & Hl & Ew & Ei).
  exists (alt p rest), p, rest. split; [auto|].
  assert (Hc : cll_list (allow_mz st) p rest) by (rewrite Eps in F, S; exact (cll_list_of _ _ _ F S)).
  assert (Er : rafsi_of (alt p rest) = map p_r ps) by (rewrite Eps; eapply alt_rafsi; eassumption).
  split; [exact Er|].
  assert (Ecat : concat (alt p rest) = w).
  { rewrite <- (k_word _ _ _ _ _ _ _ _ _ _ K), Ew. apply alt_concat.
    destruct (k_built _ _ _ _ _ _ _ _ _ _ K) as (w0 & r & t & B). destruct (b_last _ _ _ _ _ _ _ _ B) as (ps' & E & _).
    assert (last (map snd rest) p = (r, t, [])) as X.
    { transitivity (last (p :: map snd rest) p); [destruct rest; [congruence|reflexivity]|]. unfold pc in *. rewrite <- Eps, E. apply last_last. }
    unfold pc in *. rewrite X. reflexivity. }
  assert (Hcut : cut (rn_ok (y_hyphens st)) (hy_ok (y_hyphens st)) (allow_mz st) None (alt p rest)).
  { pose proof (alt_cut _ _ _ _ _ _ None Hl Hc eq_refl) as C. unfold hy_ok. destruct (yset_eqb (y_hyphens st) STANDARD) eqn:Ey; [|exact C].
    assert (Hy : y_hyphens st = STANDARD) by (destruct (y_hyphens st); try discriminate; reflexivity).
    apply cut_no_hy; [exact C|]. eapply alt_no_hy; [exact Hc|]. destruct rest as [|[g q] r]; [congruence|].
    split; [exact (first_no_hy _ _ _ _ _ Hy Hl Hc)|]. destruct Hl as [_ Hl]. destruct Hc as (_ & _ & _ & Hc). eapply tail_no_hy; [exact Hl|exact Hc|].
    pose proof (pieces_spelt _ _ _ _ (k_pieces _ _ _ _ _ _ _ _ _ _ K) F) as Sp. rewrite Ech, Eps in Sp. cbn [map snd tl] in Sp. inversion Sp; subst. assumption. }
  split; [exact Ecat|]. split; [|unfold get_rafsi_indices; rewrite (alt_indices _ _ _ _ _ _ _ Hl Hc), <- Ei; exact (k_idx _ _ _ _ _ _ _ _ _ _ K)].
  assert (Fr : Forall (cll (allow_mz st)) (map p_r ps)) by (apply Forall_map; eapply Forall_impl; [|exact F]; intros q [Q _]; exact Q).
  assert (Esp : standard_spelling w = w).
  { apply word_spelling. rewrite <- Ecat. clear -Hcut.
    assert (G : forall ps prev, cut (rn_ok (y_hyphens st)) (hy_ok (y_hyphens st)) (allow_mz st) prev ps -> Forall (fun c => word_letter c = true) (concat ps)).
    { induction ps as [|q ps IH]; intros prev H; [constructor|]. destruct H as [H1 H2]. cbn [concat]. apply Forall_app. split; [|eapply IH; exact H2].
      destruct H1 as [(s & Hs & _)|(q' & _ & _ & Hq)]; [eapply Forall_impl; [|eapply cll_lojban; exists s; exact Hs]; intros a Ha; unfold word_letter; rewrite Ha; reflexivity|].
      destruct Hq as [->|[[_ ->]|[_ [_ [[-> _]|[-> _]]]]]]; apply Forall_forall; apply forallb_forall; reflexivity. }
    eapply G. exact Hcut. }
  destruct (k_end _ _ _ _ _ _ _ _ _ _ K) as (s & l & Es & Hv).
  assert (Hgen : expected_word Bound (y_hyphens st) (consonants st) (glides st) (allow_mz st) true (rafsi_of (alt p rest)) = Ok w).
  { unfold expected_word. rewrite Er, He. cbn [bind]. reflexivity. }
  assert (L6 : 6 <= length w).
  { rewrite <- (k_word _ _ _ _ _ _ _ _ _ _ K). eapply r_len, chain_ripe; [exact (k_chain _ _ _ _ _ _ _ _ _ _ K)|].
    eapply tforms_fine; [exact Fr|]. eapply pieces_tforms; [exact (k_pieces _ _ _ _ _ _ _ _ _ _ K)|exact F]. }
  assert (X : cll_lujvo Bound (y_hyphens st) (consonants st) (glides st) (allow_mz st) w (alt p rest) true w).
  { constructor; try assumption.
    - rewrite Er, Eps. destruct rest; [congruence|]. cbn. lia.
    - exists s, l. split; [exact Es|]. symmetry. exact Hv.
    - reflexivity.
    - intros _. exists (alt p rest). split; [apply jvokaha_2_spec; auto|apply drops_refl].
    - eapply alt_alternates; eassumption. }
  apply cll_lujvo_jvk in X. intro b. rewrite analyse_brivla_eq. unfold analyse_body. cbn [with_exp y_hyphens consonants glides allow_mz].
  assert (Hw : w <> []) by (intros ->; cbn in L6; lia).
  rewrite normalise_ok by exact Hw. cbn [bind]. rewrite Esp, Es, last_opt_app, Hv. cbn [negb andb]. rewrite <- Es.
  destruct (is_gismu (w ++ [c_a]) (allow_mz st)) eqn:Eg; [|rewrite X; reflexivity].
  exfalso. apply gismu_len in Eg as (? & ? & ? & ? & ? & E & _). apply (f_equal (@length _)) in E. rewrite app_length in E. cbn in E. lia.
Qed.
