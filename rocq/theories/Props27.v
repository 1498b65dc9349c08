(** C29 and C58: get_veljvo and score_lujvo answer together with the analyser. *)
From Verif Require Import Str Data Tarmi Rafsi Core Api Lib Spec Shapes Decomp Basic Vowels Katna Dict Errs Builder Jvokaha Fuel Raises Inv Parts Clusters Zihevla Forms Chain Score Alt Lujvo Slinku Compound Whole Optimal Props1 Props2 Props3 Total Onset Pinned Found Props4 Props5 Props6 Props8 Props9 Props10 Joint Swap Unique Round Props12 Props13 Ext Ext2 Ext3 Ext4 Props14 RuleSpec Rules Rules2 Props16 ZiCut Props17 Mixed Props20 Props21 Cli Props23 Safe Props7 Props26.

(** ** C58 *)
(** get_veljvo and score_lujvo both answer exactly the words accepted as compounds
    or names, both raise DecompositionError for gismu and zi'evla, and both raise
    the analyser's exception for all other strings. *)
Theorem C58_with_the_analyser : forall st w,
  match analyse_brivla Bound st w with
  | Ok (t, ps) =>
      (In t [LUJVO; EXTENDED_LUJVO; CMEVLA] /\ (exists es, get_veljvo Bound st w = Ok es /\ length es = length (filter (fun p => negb (is_hyphen p)) ps))
        /\ exists s, score_lujvo Bound st w = Ok s)
      \/ (In t [GISMU; ZIhEVLA] /\ get_veljvo Bound st w = Err DecompositionError /\ score_lujvo Bound st w = Err DecompositionError)
  | Err e => get_veljvo Bound st w = Err e /\ score_lujvo Bound st w = Err e
  end.
Proof.
  intros st w. destruct (C38_get_veljvo_compounds_only Bound st w) as [K1 K2]. destruct (analyse_brivla Bound st w) as [[t ps]|e] eqn:E.
  - assert (G : In t [GISMU; ZIhEVLA] \/ t = LUJVO \/ t = EXTENDED_LUJVO \/ t = CMEVLA).
    { destruct t; cbn; try tauto. exfalso. destruct (C03_type_last_letter _ _ _ _ _ E) as [[X _]|[X _]]; [discriminate|cbn in X; intuition discriminate]. }
    destruct G as [G|G].
    + right. pose proof (K1 _ _ eq_refl G) as V. split; [exact G|]. split; [exact V|]. unfold score_lujvo. rewrite V. reflexivity.
    + left. split; [cbn; intuition auto|]. exact (C43_decomposed _ _ _ _ E G).
  - pose proof (K2 _ eq_refl) as V. split; [exact V|]. unfold score_lujvo. rewrite V. reflexivity.
Qed.
(** so for regular words nothing but NotBrivlaError and DecompositionError is raised *)
Theorem C58_regular_exceptions : forall st w e, w <> [] -> regular (standard_spelling w) ->
  get_veljvo Bound st w = Err e \/ score_lujvo Bound st w = Err e ->
  (e = NotBrivlaError /\ analyse_brivla Bound st w = Err NotBrivlaError)
  \/ (e = DecompositionError /\ exists t ps, analyse_brivla Bound st w = Ok (t, ps) /\ In t [GISMU; ZIhEVLA]).
Proof.
  intros st w e N R H. pose proof (C58_with_the_analyser st w) as C. destruct (analyse_brivla Bound st w) as [[t ps]|x] eqn:E.
  - right. destruct C as [(_ & (es & V & _) & (s & S))|(G & V & S)].
    + rewrite V, S in H. destruct H; discriminate.
    + rewrite V, S in H. split; [destruct H; congruence|]. eauto.
  - left. rewrite (C08_regular _ _ _ N R E) in *. destruct C as [V S]. rewrite V, S in H. split; [destruct H; congruence|reflexivity].
Qed.
Example C58_example :
  get_veljvo Bound default_settings (L "brivla") = Ok (map L ["bridi"; "valsi"]%string)
  /\ get_veljvo Bound default_settings (L "bridi") = Err DecompositionError /\ score_lujvo Bound default_settings (L "spageti") = Err DecompositionError
  /\ regular (standard_spelling (L "skamyspagety")) /\ get_veljvo Bound default_settings (L "skamyspagety") = Err NotBrivlaError.
Proof.
  repeat (split; [vm_compute; reflexivity|]). split; [|vm_compute; reflexivity]. change (regular (L "skamyspagety")). apply regular_simple; no_cut.
Qed.
Print Assumptions C58_with_the_analyser.
Print Assumptions C58_regular_exceptions.

(** ** C29 *)
(** For regular words the exceptions agree as well, so every result is the same. *)
Theorem C29_regular : forall st st' w, same_but_glides st st' -> exp_rafsi_shapes st = false -> w <> [] -> regular (standard_spelling w) ->
  analyse_brivla Bound st w = analyse_brivla Bound st' w
  /\ get_veljvo Bound st w = get_veljvo Bound st' w
  /\ score_lujvo Bound st w = score_lujvo Bound st' w
  /\ Api.is_brivla Bound st w = Api.is_brivla Bound st' w.
Proof.
  intros st st' w S Hx N R. destruct (C29_analysis_partial Bound st st' w S Hx) as (A & V & Sc & _).
  assert (EA : analyse_brivla Bound st w = analyse_brivla Bound st' w).
  { destruct (analyse_brivla Bound st w) as [r|e] eqn:E; [symmetry; apply A; reflexivity|].
    destruct (analyse_brivla Bound st' w) as [r'|e'] eqn:E'; [destruct (A r') as [_ X]; specialize (X eq_refl); discriminate|].
    rewrite (C08_regular _ _ _ N R E), (C08_regular _ _ _ N R E'). reflexivity. }
  pose proof (C58_with_the_analyser st w) as C. pose proof (C58_with_the_analyser st' w) as C'. rewrite <- EA in C'.
  assert (EV : get_veljvo Bound st w = get_veljvo Bound st' w).
  { destruct (get_veljvo Bound st w) as [r|e] eqn:E; [symmetry; apply V; reflexivity|]. destruct (analyse_brivla Bound st w) as [[t ps]|x].
    - destruct C as [(_ & (es & X & _) & _)|(G & X & _)]; [discriminate|]. destruct C' as [(G' & _)|(_ & X' & _)]; [|congruence]. exfalso. clear -G G'. cbn in G, G'. intuition congruence.
    - destruct C as [X _], C' as [X' _]. congruence. }
  split; [exact EA|]. split; [exact EV|]. split.
  - unfold score_lujvo. rewrite EV, EA. reflexivity.
  - unfold Api.is_brivla, Core.is_brivla. rewrite EA. reflexivity.
Qed.
Example C29_regular_example :
  same_but_glides (mkSettings STANDARD false CLUSTER true false) default_settings /\ regular (standard_spelling (L "skamyspageti"))
  /\ analyse_brivla Bound (mkSettings STANDARD false CLUSTER true false) (L "skamyspageti") = Ok (EXTENDED_LUJVO, map L ["skam"; "y"; "spageti"]%string).
Proof.
  split; [repeat split; reflexivity|]. split; [|vm_compute; reflexivity]. change (regular (L "skamyspageti")). apply regular_simple; no_cut.
Qed.
Print Assumptions C29_regular.
