(** Properties C47 and C48: names built from tanru. *)
From Verif Require Import Str Data Tarmi Rafsi Core Api Lib Spec Shapes Decomp Basic Vowels Katna Dict Errs Builder Jvokaha Fuel Raises Inv Parts Clusters Zihevla Forms Chain Score Alt Lujvo Slinku Compound Whole Optimal Props1 Props2 Props3 Total Onset Pinned Found Props4 Props5 Props6 Props8 Props9 Joint Swap Unique Round Props12 Ext Ext2 Ext3 Ext4 Props14 Names.

(** C47.  A name built from components none of which is a zi'evla is accepted as
    a name under the same options, and its rafsi stand where the builder says. *)
Theorem C47_names_accepted_partial : forall st t ws w sc ix,
  exp_rafsi_shapes st = false -> words_of t ws -> Forall (fun v => no_zihevla Bound st (standard_spelling v)) ws ->
  get_lujvo_with_analytics Bound true st t = Ok (w, sc, ix) ->
  exists pieces, analyse_brivla Bound st w = Ok (CMEVLA, pieces) /\ concat pieces = w /\ get_rafsi_indices pieces = ix.
Proof.
  intros st t ws w sc ix Hex Hw Hz H. destruct (analytics_best _ _ _ _ _ _ _ _ Hw H) as (rll & Er & Eb).
  destruct (best_word_construction _ _ _ _ _ _ _ _ Er Eb) as (ch & c & ps & K).
  assert (Hh : homely_all st (map standard_spelling ws) ps).
  { apply homely_sources; [|exact (k_source _ _ _ _ _ _ _ _ _ _ K)]. apply Forall_map. eapply Forall_impl; [|exact Hz]. intros v. apply no_zihevla_homely. exact Hex. }
  destruct (construction_named _ _ _ _ _ _ _ _ _ Hex Er Eb K Hh) as (arr & _ & _ & _ & _ & A0 & A1 & A2). specialize (A1 false).
  replace (with_exp st false) with st in A1 by (destruct st; cbn in *; subst; reflexivity). exists arr. auto.
Qed.
Example C47_example :
  let ws := map L ["sanmi"; "tavla"; "brod-"]%string in
  let st := mkSettings FORCE_Y false CLUSTER false false in
  words_of (TList ws) ws /\ Forall (fun v => no_zihevla Bound st (standard_spelling v)) ws
  /\ get_lujvo_with_analytics Bound true st (TList ws) = Ok (L "saitavbrod", 9825%Z, [(0, 3); (3, 6); (6, 10)])
  /\ analyse_brivla Bound st (L "saitavbrod") = Ok (CMEVLA, Ls ["sai"; "tav"; "brod"]%string).
Proof.
  cbv zeta. split; [reflexivity|]. split; [|split; vm_compute; reflexivity].
  repeat apply Forall_cons; [| | |apply Forall_nil].
  - left. split; [apply no_dash; vm_compute; discriminate|]. intros ps. vm_compute. discriminate.
  - left. split; [apply no_dash; vm_compute; discriminate|]. intros ps. vm_compute. discriminate.
  - right; right. exists (L "brod"). split; [reflexivity|]. apply is_gismu_spec. vm_compute. reflexivity.
Qed.

(** With a zi'evla among the components it fails: after a first rafsi CVV the
    builder puts no hyphen in a name, but the analyser then asks for one. *)
Theorem C47_refuted : exists t w sc ix, get_lujvo_with_analytics Bound true default_settings t = Ok (w, sc, ix)
  /\ exp_rafsi_shapes default_settings = false /\ analyse_brivla Bound default_settings w = Err NotBrivlaError.
Proof.
  exists (TList (map L ["sanmi"; "bakni"; "spageti"; "ckule"]%string)), (L "saibakyspageti'ykul"), 19013%Z, [(0, 3); (3, 6); (7, 14); (16, 19)].
  split; [vm_compute; reflexivity|]. split; [reflexivity|]. vm_compute. reflexivity.
Qed.

(** C48.  A name built from dictionary words none of which is a zi'evla is taken
    apart into those words, when each piece of it is a form of its word only. *)
Theorem C48_names_round_trip : forall st t ws w sc ix, words_of t ws ->
  Forall (fun v => no_zihevla Bound st (standard_spelling v) /\ exists rs, In (standard_spelling v, rs) RAFSI_LIST) ws ->
  get_lujvo_with_analytics Bound true st t = Ok (w, sc, ix) ->
  Forall2 (fun v range => its_own (standard_spelling v) (substring w range)) ws ix ->
  get_veljvo Bound st w = Ok (map standard_spelling ws).
Proof.
  intros st t ws w sc ix Hw Hd H Ho. set (st0 := with_exp st false).
  assert (H0 : get_lujvo_with_analytics Bound true st0 t = Ok (w, sc, ix)).
  { unfold get_lujvo_with_analytics in *. inv_bind H. rewrite E. cbn [bind]. apply process_ok in E. rewrite (words_raw _ _ Hw) in E. subst x.
    rewrite lujvo_from_list_eq in *. unfold st0. rewrite <- dict_lists_exp by (apply Forall_map; eapply Forall_impl; [|exact Hd]; intros v [_ Q]; exact Q). inv_bind H. rewrite E. cbn [bind]. rewrite best_exp. exact H. }
  clear H. destruct (analytics_best _ _ _ _ _ _ _ _ Hw H0) as (rll & Er & Eb).
  destruct (best_word_construction _ _ _ _ _ _ _ _ Er Eb) as (ch & c & ps & K). pose proof (k_source _ _ _ _ _ _ _ _ _ _ K) as S.
  assert (Hh : homely_all st0 (map standard_spelling ws) ps).
  { apply homely_sources; [|exact S]. apply Forall_map. eapply Forall_impl; [|exact Hd]. intros v [Q _]. apply no_zihevla_homely; [reflexivity|exact Q]. }
  destruct (construction_named st0 _ _ _ _ _ _ _ _ eq_refl Er Eb K Hh) as (arr & p & rest & (Eps & Hl & ->) & _ & Ec & A1 & A2).
  specialize (A1 (exp_rafsi_shapes st)). replace (with_exp st0 (exp_rafsi_shapes st)) with st in A1 by (destruct st; reflexivity).
  assert (F : Forall (fun q => cpiece st0 q \/ zpiece st0 q) (p :: map snd rest)).
  { rewrite <- Eps. clear -Hh. induction Hh as [|v q vs ps Hq M IH]; constructor; [|exact IH]. destruct Hq as (G1 & G2 & _). left; split; assumption. }
  rewrite Eps in S. pose proof (linked_gaps _ _ _ _ _ _ Hl) as Hg.
  assert (R : selrafsi_loop Bound (y_hyphens st) (allow_mz st) (length (alt p rest)) 0 (alt p rest) = Ok (map standard_spelling ws)).
  { change (y_hyphens st) with (y_hyphens st0). change (allow_mz st) with (allow_mz st0). eapply ext_back; try eassumption; [reflexivity|reflexivity| |].
    - apply Forall_map. eapply Forall_impl; [|exact Hd]. intros v Q. left. exact Q.
    - rewrite <- (alt_pieces _ _ _ F Hg). unfold rafsi_pieces. rewrite <- (proj1 (rafsi_indices_spec (alt p rest))), A2, Ec.
      clear - Ho. induction Ho; cbn [map]; constructor; assumption. }
  unfold get_veljvo. rewrite A1. cbn [bind]. exact R.
Qed.
Example C48_example :
  let ws := map L ["sanmi"; "tavla"; "klama"]%string in
  let st := mkSettings ALLOW_Y true TWO_CONSONANTS true false in
  words_of (TList ws) ws
  /\ Forall (fun v => no_zihevla Bound st (standard_spelling v) /\ exists rs, In (standard_spelling v, rs) RAFSI_LIST) ws
  /\ exists w sc ix, get_lujvo_with_analytics Bound true st (TList ws) = Ok (w, sc, ix)
     /\ Forall2 (fun v range => its_own (standard_spelling v) (substring w range)) ws ix
     /\ w = L "saita'aklam" /\ get_veljvo Bound st w = Ok ws.
Proof.
  cbv zeta. split; [reflexivity|]. split.
  { repeat apply Forall_cons; [| | |apply Forall_nil];
      (split; [left; split; [apply no_dash; vm_compute; discriminate|]; intros ps; vm_compute; discriminate|]; eexists; apply dict_get_spec; vm_compute; reflexivity). }
  eexists; eexists; eexists. split; [vm_compute; reflexivity|]. split; [|split; vm_compute; reflexivity].
  repeat apply Forall2_cons; try apply Forall2_nil; apply own_by; vm_compute; reflexivity.
Qed.
Print Assumptions C47_names_accepted_partial.
Print Assumptions C47_refuted.
Print Assumptions C48_names_round_trip.
