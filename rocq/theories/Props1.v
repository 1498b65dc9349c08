(** Properties C01 C02 C03 C22 C23 C24 C25 C27 C28 C33 C38.
    Each theorem is quantified over every string, option and, where the builder
    is involved, both readings of the missing import ([Unbound], [Bound]). *)
From Verif Require Import Str Data Tarmi Rafsi Core Api Lib Spec Shapes Decomp Basic Vowels Katna Dict.

Definition w_brivla := L "brivlatengo'u".

(** ** C01: decomposition loses and invents no letters *)
Theorem C01_decomposition_lossless : forall lk st w t pieces,
  analyse_brivla lk st w = Ok (t, pieces) -> concat pieces = standard_spelling w.
Proof. intros lk st w t ps H. apply normalise_spec. eapply analyse_concat. exact H. Qed.
Example C01_example : exists pieces,
  analyse_brivla Bound default_settings (L ".BRIvla,tengohu") = Ok (LUJVO, pieces)
  /\ pieces = map L ["bri"; "vla"; "ten"; "go'u"]%string.
Proof. eexists. split; [vm_compute; reflexivity|reflexivity]. Qed.
Print Assumptions C01_decomposition_lossless.

(** ** C02: index ranges point at the rafsi *)
Theorem C02_indices_point_at_rafsi : forall pieces,
  map (substring (concat pieces)) (get_rafsi_indices pieces)
    = filter (fun p => negb (is_hyphen p)) pieces
  /\ ranges 0 (length (concat pieces)) (get_rafsi_indices pieces).
Proof. exact rafsi_indices_spec. Qed.
Theorem C02_indices_of_analysis : forall lk st w t pieces,
  analyse_brivla lk st w = Ok (t, pieces) ->
  map (substring (standard_spelling w)) (get_rafsi_indices pieces)
    = filter (fun p => negb (is_hyphen p)) pieces
  /\ ranges 0 (length (standard_spelling w)) (get_rafsi_indices pieces).
Proof.
  intros lk st w t ps H. rewrite <- (C01_decomposition_lossless _ _ _ _ _ H).
  apply rafsi_indices_spec.
Qed.
Example C02_example : exists pieces,
  analyse_brivla Bound default_settings (L "bacyzdani") = Ok (LUJVO, pieces)
  /\ get_rafsi_indices pieces = [(0, 3); (4, 9)].
Proof. eexists. split; vm_compute; reflexivity. Qed.
Print Assumptions C02_indices_point_at_rafsi.
Print Assumptions C02_indices_of_analysis.

(** ** C03: word type agrees with the last letter *)
Theorem C03_type_last_letter : forall lk st w t pieces,
  analyse_brivla lk st w = Ok (t, pieces) ->
  (t = CMEVLA /\ ends_in consonant (standard_spelling w))
  \/ (In t [GISMU; ZIhEVLA; LUJVO; EXTENDED_LUJVO] /\ ends_in vowel (standard_spelling w)).
Proof. intros lk st w. exact (analyse_type lk (word_fuel w) st w). Qed.
Example C03_example :
  (exists p, analyse_brivla Bound default_settings (L "bacyzdan") = Ok (CMEVLA, p))
  /\ (exists p, analyse_brivla Bound default_settings (L "spageti") = Ok (ZIhEVLA, p)).
Proof. split; eexists; vm_compute; reflexivity. Qed.
Print Assumptions C03_type_last_letter.

(** ** C22: dictionary lookup *)
Theorem C22_lookup_sound : forall r w, search_selrafsi_from_rafsi r = Some w ->
  (exists rs, In (w, rs) RAFSI_LIST /\ In r rs)
  \/ (length r = 4 /\ exists v rs, vowel v /\ w = r ++ [v] /\ In (w, rs) RAFSI_LIST).
Proof. exact search_sound. Qed.
Theorem C22_lookup_complete : forall r w rs, In (w, rs) RAFSI_LIST -> In r rs ->
  search_selrafsi_from_rafsi r = Some w.
Proof. exact search_complete. Qed.
Theorem C22_rafsi_owner_unique : forall r w w' rs rs',
  In (w, rs) RAFSI_LIST -> In r rs -> In (w', rs') RAFSI_LIST -> In r rs' -> w = w'.
Proof.
  intros r w w' rs rs' H1 H2 H3 H4. apply (search_complete _ _ _ H1) in H2.
  apply (search_complete _ _ _ H3) in H4. rewrite H2 in H4. injection H4 as ->. reflexivity.
Qed.
Theorem C22_four_letter_lookup : forall r v rs,
  In (r ++ [v], rs) RAFSI_LIST -> length r = 4 -> vowel v -> ~ In apostrophe r -> r <> L "brod" ->
  exists v' rs', vowel v' /\ In (r ++ [v'], rs') RAFSI_LIST
    /\ search_selrafsi_from_rafsi r = Some (r ++ [v']).
Proof. exact search_gismu. Qed.
Example C22_example : search_selrafsi_from_rafsi (L "ba'u") = Some (L "bacru")
  /\ search_selrafsi_from_rafsi (L "bacr") = Some (L "bacru")
  /\ search_selrafsi_from_rafsi (L "tend") = Some (L "tende")
  /\ search_selrafsi_from_rafsi (L "xax") = None.
Proof. repeat split; vm_compute; reflexivity. Qed.
Print Assumptions C22_lookup_sound.
Print Assumptions C22_lookup_complete.
Print Assumptions C22_rafsi_owner_unique.
Print Assumptions C22_four_letter_lookup.

(** ** C23: CLL lujvo are uniquely readable *)
Theorem C23_splitter_finds_the_cut : forall yh mz w pieces,
  jvokaha_2 yh mz w = Ok pieces <->
  concat pieces = w
  /\ cut (match yh with FORCE_Y => false | _ => true end)
         (match yh with STANDARD => false | _ => true end) mz None pieces.
Proof. intros [] mz w ps; apply jvokaha_2_spec. Qed.
Theorem C23_unique_cut : forall rn hy mz ps qs,
  cut rn hy mz None ps -> cut rn hy mz None qs -> concat ps = concat qs -> ps = qs.
Proof. exact cut_unique_all. Qed.
Example C23_example :
  jvokaha_2 STANDARD false (L "ba'urtadni") = Ok (map L ["ba'u"; "r"; "tadni"]%string)
  /\ jvokaha_2 ALLOW_Y false (L "ba'u'ytadni") = Ok (map L ["ba'u"; "'y"; "tadni"]%string).
Proof. split; vm_compute; reflexivity. Qed.
Print Assumptions C23_splitter_finds_the_cut.
Print Assumptions C23_unique_cut.

(** ** C24: vowel runs *)
Theorem C24_vowel_run_split : forall vs l,
  split_vowel_cluster vs = Ok l <-> concat l = vs /\ syllables l.
Proof. exact split_vowel_cluster_spec. Qed.
Theorem C24_vowel_run_unique : forall l l',
  syllables l -> syllables l' -> concat l = concat l' -> l = l'.
Proof.
  intros l l' H H' E.
  assert (F : split_vowel_cluster (concat l) = Ok l) by (apply split_vowel_cluster_spec; auto).
  assert (F' : split_vowel_cluster (concat l) = Ok l') by (apply split_vowel_cluster_spec; auto).
  rewrite F in F'. injection F' as ->. reflexivity.
Qed.
Theorem C24_vowel_run_failure : forall vs e, split_vowel_cluster vs = Err e -> e = DecompositionError.
Proof. exact split_vowel_cluster_err. Qed.
Example C24_example : split_vowel_cluster (L "auiau") = Ok (map L ["au"; "iau"]%string)
  /\ split_vowel_cluster (L "aiia") = Err DecompositionError.
Proof. split; vm_compute; reflexivity. Qed.
Print Assumptions C24_vowel_run_split.
Print Assumptions C24_vowel_run_unique.
Print Assumptions C24_vowel_run_failure.

(** ** C25: the settings iterator *)
Theorem C25_settings_iterator : forall (A : Type) (options : list (list A)), exists l,
  settings_iter options = map (map Some) l
  /\ length l = fold_right (fun o n => length o * n) 1 options
  /\ (forall choice, In choice l <-> Forall2 (@In A) choice options)
  /\ (Forall (@NoDup A) options -> NoDup l).
Proof. intros A. exact settings_iter_spec. Qed.
Example C25_example : settings_iter [[1; 2]; [3; 4; 5]]
  = map (map Some) [[1; 3]; [2; 3]; [1; 4]; [2; 4]; [1; 5]; [2; 5]].
Proof. vm_compute. reflexivity. Qed.
Print Assumptions C25_settings_iterator.

(** ** C27: a tanru string and its word list are interchangeable *)
Theorem C27_string_or_list : forall lk gen st words s,
  spaced (fun c => is_space c = true) words s ->
  get_lujvo_with_analytics lk gen st (TStr s) = get_lujvo_with_analytics lk gen st (TList words)
  /\ get_lujvo lk gen st (TStr s) = get_lujvo lk gen st (TList words).
Proof.
  intros lk gen st ws s H. unfold get_lujvo_with_analytics, get_lujvo, process_tanru.
  rewrite (split_ws_spaced _ _ H). split; reflexivity.
Qed.
Example C27_example :
  spaced (fun c => is_space c = true) [L "lujvo"; L "zbasu"] (L "  lujvo   zbasu ").
Proof.
  apply (spaced_word _ (L "  ") (L "lujvo") _ (L "   zbasu ")).
  3,4,5: idtac. 1-2: repeat constructor; discriminate. 1: repeat constructor; cbn; discriminate.
  2: right; do 2 eexists; split; [reflexivity|reflexivity].
  apply (spaced_word _ (L "   ") (L "zbasu") _ (L " ")).
  1-2: repeat constructor; discriminate. 1: repeat constructor; cbn; discriminate.
  2: right; do 2 eexists; split; [reflexivity|reflexivity].
  apply spaced_end. repeat constructor.
Qed.
Print Assumptions C27_string_or_list.

(** ** C28: get_lujvo is the first component of get_lujvo_with_analytics *)
Theorem C28_get_lujvo_first_component : forall lk gen st t,
  get_lujvo lk gen st t =
  match get_lujvo_with_analytics lk gen st t with Ok (w, _, _) => Ok w | Err e => Err e end.
Proof. exact get_lujvo_fst. Qed.
Example C28_example :
  get_lujvo_with_analytics Bound false default_settings (TStr (L "lujvo zbasu bangu"))
    = Ok (L "jvozbabau", 8776%Z, [(0, 3); (3, 6); (6, 9)])
  /\ get_lujvo Bound false default_settings (TStr (L "lujvo zbasu bangu")) = Ok (L "jvozbabau").
Proof. split; vm_compute; reflexivity. Qed.
Print Assumptions C28_get_lujvo_first_component.

(** ** C33: rafsi shapes *)
Theorem C33_shapes_exact : forall s,
  (rafsi_tarmi s = CVC <-> shaped "CVC" s) /\ (rafsi_tarmi s = CVV <-> shaped "CVV" s)
  /\ (rafsi_tarmi s = CVhV <-> shaped "CV'V" s) /\ (rafsi_tarmi s = CCV <-> shaped "CCV" s)
  /\ (rafsi_tarmi s = CVCC <-> shaped "CVCC" s) /\ (rafsi_tarmi s = CCVC <-> shaped "CCVC" s)
  /\ (rafsi_tarmi s = CVCCV <-> shaped "CVCCV" s) /\ (rafsi_tarmi s = CCVCV <-> shaped "CCVCV" s).
Proof.
  intro s.
  split; [apply (rafsi_tarmi_spec s CVC); discriminate|].
  split; [apply (rafsi_tarmi_spec s CVV); discriminate|].
  split; [apply (rafsi_tarmi_spec s CVhV); discriminate|].
  split; [apply (rafsi_tarmi_spec s CCV); discriminate|].
  split; [apply (rafsi_tarmi_spec s CVCC); discriminate|].
  split; [apply (rafsi_tarmi_spec s CCVC); discriminate|].
  split; [apply (rafsi_tarmi_spec s CVCCV); discriminate|].
  apply (rafsi_tarmi_spec s CCVCV); discriminate.
Qed.
Theorem C33_dictionary_shapes : forall w rs r, In (w, rs) RAFSI_LIST -> In r rs ->
  shaped "CVC" r \/ shaped "CVV" r \/ shaped "CV'V" r \/ shaped "CCV" r.
Proof. exact short_shapes. Qed.
Example C33_example : rafsi_tarmi (L "ba'u") = CVhV /\ rafsi_tarmi (L "bau") = CVV
  /\ rafsi_tarmi (L "zbasu") = CCVCV /\ In (L "bacru", [L "ba'u"]) RAFSI_LIST.
Proof. repeat split; try (vm_compute; reflexivity). do 3 right. left. reflexivity. Qed.
Print Assumptions C33_shapes_exact.
Print Assumptions C33_dictionary_shapes.

(** ** C38: get_veljvo accepts only compound words *)
Theorem C38_get_veljvo_compounds_only : forall lk st w,
  (forall t pieces, analyse_brivla lk st w = Ok (t, pieces) -> In t [GISMU; ZIhEVLA] ->
     get_veljvo lk st w = Err DecompositionError)
  /\ (forall e, analyse_brivla lk st w = Err e -> get_veljvo lk st w = Err e).
Proof.
  intros lk st w. unfold get_veljvo. split.
  - intros t ps -> [<-|[<-|[]]]; reflexivity.
  - intros e ->. reflexivity.
Qed.
Example C38_example : get_veljvo Bound default_settings (L "spageti") = Err DecompositionError
  /\ get_veljvo Bound default_settings (L "a") = Err NotBrivlaError
  /\ get_veljvo Bound default_settings (L "jvozbabau") = Ok (map L ["lujvo"; "zbasu"; "bangu"]%string).
Proof. repeat split; vm_compute; reflexivity. Qed.
Print Assumptions C38_get_veljvo_compounds_only.
