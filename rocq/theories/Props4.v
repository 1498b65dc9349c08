(** Properties C11 C12 C13 C17 C34 (builder half): what get_lujvo builds. *)
From Verif Require Import Str Data Tarmi Rafsi Core Api Lib Spec Shapes Decomp Basic Vowels Katna Dict Errs Builder Jvokaha Fuel Raises Inv Parts Clusters Forms Chain Score.

(** the words of a tanru: the list itself, or the words of the string *)
Definition words_of (t : tanru) (ws : list str) : Prop :=
  match t with TList l => ws = l | TStr s => spaced (fun c => is_space c = true) ws s end.

Lemma words_raw : forall t ws, words_of t ws -> raw_words t = ws.
Proof. intros [s|l] ws H; cbn in *; [apply split_ws_spaced; exact H|auto]. Qed.

(** ** C11: each component contributes one of its own rafsi *)
(** [r] is a rafsi or other form of the word [v] *)
Definition belongs (v r : str) : Prop :=
  (* given literally, with hyphens *)
  (exists a b, v = a ++ r ++ b /\ b <> [] /\ Forall (fun c => [c] = L "-") (a ++ b))
  (* listed for it *)
  \/ (exists rs, In (v, rs) RAFSI_LIST /\ In r rs)
  (* a gismu without its last vowel *)
  \/ ((shaped "CVCCV" v \/ shaped "CCVCV" v) /\ exists c, vowel c /\ v = r ++ [c])
  (* the whole word *)
  \/ r = v.

Lemma drop_while_split : forall p s, exists a, s = a ++ drop_while p s /\ Forall (fun c => p c = true) a.
Proof.
  intros p s. exists (take_while p s). split; [symmetry; apply take_drop_while|apply take_while_Forall].
Qed.
Lemma strip_split : forall p s, exists a b, s = a ++ strip_char p s ++ b /\ Forall (fun c => p c = true) (a ++ b).
Proof.
  intros p s. unfold strip_char. destruct (drop_while_split p s) as (a & E & Ha).
  destruct (drop_while_split p (rev (drop_while p s))) as (b & E' & Hb).
  exists a, (rev b). split.
  - rewrite E at 1. f_equal. rewrite <- (rev_involutive (drop_while p s)) at 1. rewrite E' at 1. apply rev_app_distr.
  - apply Forall_app. split; [exact Ha|]. apply Forall_rev. exact Hb.
Qed.
Lemma source_belongs : forall lk st v r t, source lk st v r t -> belongs v r.
Proof.
  intros lk st v r t H. pose proof (source_usable _ _ _ _ _ H) as U.
  assert (lit : last_opt v = Some c_dash -> r = strip_char (N.eqb c_dash) v -> belongs v r).
  { intros El Er. left. destruct (strip_split (N.eqb c_dash) v) as (a & b & E & F). exists a, b. rewrite Er. split; [exact E|]. split.
    - intros ->. rewrite app_nil_r in E. rewrite <- Er in E. destruct (u_last _ _ _ U) as (s & d & Ed & Hd).
      rewrite E, Ed, app_assoc, last_opt_app in El. injection El as ->. discriminate.
    - eapply Forall_impl; [|exact F]. intros c Hc. cbn beta in Hc. apply N.eqb_eq in Hc. rewrite <- Hc. reflexivity. }
  destruct H as [r t ps Hl Hf Er Ho Hr Ha Ht|r ps Hl Hf Er Ho Hr Hta Ha|r Hl Hf Er Ho Hr Hta Hex Hz|r Hl Hf Er Hv|r rs Hl Ho Hd Hr|r ps Hl Ho Ha Er|t ps Hl Ho Ha Ht]; auto.
  - right; left. exists rs. auto.
  - right; right; left. destruct (only_Forall _ Ho) as [_ HF]. pose proof (lojban_spelling _ HF) as Es.
    pose proof (analyse_inv _ _ _ _ _ Ha) as Hi. rewrite Es in Hi.
    assert (Hg : is_gismu v (allow_mz st) = true).
    { inversion Hi; subst; try assumption; match goal with G : _ = GISMU |- _ => destruct (is_consonant _); discriminate G
                  | G : GISMU = _ |- _ => destruct (is_consonant _); discriminate G end. }
    pose proof (gismu_len _ _ Hg) as (a & b & c & d & e & -> & He). cbn in Er. subst r. split.
    + apply is_gismu_spec in Hg as [(a' & b' & c' & d' & e' & Q & H1 & H2 & H3 & H4)|(a' & b' & c' & d' & e' & Q & H1 & H2 & H3 & H4)];
        injection Q as -> -> -> -> ->; [left; apply permissible_c in H3|right; apply initial_c in H1];
        repeat (apply Forall2_cons; [first [assumption|apply H3|apply H1]|]); apply Forall2_nil.
    + exists e. split; [apply is_vowel_spec; exact He|reflexivity].
  - right; right; right. reflexivity.
Qed.

Theorem C11_own_rafsi : forall lk gen st t ws w sc ix,
  words_of t ws -> get_lujvo_with_analytics lk gen st t = Ok (w, sc, ix) ->
  Forall2 (fun v range => belongs (standard_spelling v) (substring w range)) ws ix.
Proof.
  intros lk gen st t ws w sc ix Hw H. apply analytics_construction in H as (choice & c & ps & K). rewrite (words_raw _ _ Hw) in K.
  destruct (k_built _ _ _ _ _ _ _ _ _ _ K) as (w0 & r & tt & B).
  pose proof (b_layout _ _ _ _ _ _ _ _ B) as Hl. rewrite (k_word _ _ _ _ _ _ _ _ _ _ K), (k_idx _ _ _ _ _ _ _ _ _ _ K) in Hl.
  apply layout_facts in Hl as (Hm & _). pose proof (k_source _ _ _ _ _ _ _ _ _ _ K) as Hs. clear -Hm Hs.
  remember (map standard_spelling ws) as vs eqn:Ev. revert ws Ev ix Hm. induction Hs as [|v p vs ps Hp Hs IH]; intros ws Ev ix Hm.
  - destruct ws; [|discriminate]. destruct ix; [constructor|discriminate].
  - destruct ws as [|u ws]; [discriminate|]. injection Ev as -> Ev. destruct ix as [|x ix]; [discriminate|]. injection Hm as Hx Hm.
    constructor; [|eapply IH; [exact Ev|exact Hm]]. rewrite Hx. eapply source_belongs. exact Hp.
Qed.
Example C11_example :
  get_lujvo_with_analytics Bound false default_settings (TList (map L ["sutra"; "-bau-"; "zdani"]%string))
    = Ok (L "sutybauzda", 9896%Z, [(0, 3); (4, 7); (7, 10)])
  /\ In (L "sutra", [L "sut"]) RAFSI_LIST.
Proof. split; [vm_compute; reflexivity|]. apply dict_get_spec. vm_compute. reflexivity. Qed.
Print Assumptions C11_own_rafsi.

(** ** C12: the index list of a built lujvo is well formed *)
Theorem C12_index_list : forall lk gen st t ws w sc ix,
  words_of t ws -> get_lujvo_with_analytics lk gen st t = Ok (w, sc, ix) ->
  length ix = length ws
  /\ ranges 0 (length w) ix
  /\ (exists j rest, ix = (0, j) :: rest)
  /\ (exists i rest, ix = rest ++ [(i, length w)])
  /\ Forall (fun range => substring w range <> []) ix
  /\ (forall before i j k m after, ix = before ++ (i, j) :: (k, m) :: after ->
       substring w (j, k) = [] \/ hyphen (substring w (j, k))).
Proof.
  intros lk gen st t ws w sc ix Hw H. apply analytics_construction in H as (choice & c & ps & K). rewrite (words_raw _ _ Hw) in K.
  destruct (k_built _ _ _ _ _ _ _ _ _ _ K) as (w0 & r & tt & B).
  pose proof (b_layout _ _ _ _ _ _ _ _ B) as Hl. rewrite (k_word _ _ _ _ _ _ _ _ _ _ K), (k_idx _ _ _ _ _ _ _ _ _ _ K) in Hl.
  apply layout_facts in Hl as (H1 & H2 & H3 & H4 & H5 & H6). pose proof (k_source _ _ _ _ _ _ _ _ _ _ K) as Hs.
  cbn [length] in *. rewrite Nat.sub_0_r in *.
  split. { rewrite H6, map_length, <- (Forall2_length _ _ _ _ _ Hs), map_length. reflexivity. }
  split; [exact H2|]. split; [exact H3|]. split; [exact H4|]. split; [|exact H5].
  assert (G : Forall (fun s => s <> []) (map (substring w) ix)); [|rewrite Forall_map in G; exact G]. rewrite H1. apply Forall_map.
  clear -Hs. induction Hs as [|v p vs ps Hp Hs IH]; constructor; [|exact IH]. apply source_usable in Hp. eapply usable_ne. exact Hp.
Qed.
Example C12_example :
  get_lujvo_with_analytics Bound false default_settings (TList (map L ["gleki"; "kurji"; "-bau-"]%string))
    = Ok (L "geirkujbau", 9784%Z, [(0, 3); (4, 7); (7, 10)]).
Proof. vm_compute. reflexivity. Qed.
Print Assumptions C12_index_list.

(** ** C13: the returned score is the lujvo score of the returned word *)
Theorem C13_score : forall lk gen st t w sc ix,
  get_lujvo_with_analytics lk gen st t = Ok (w, sc, ix) ->
  exists ks bonus, Forall2 (fun range k => rank (substring w range) k) ix ks
  /\ (bonus = 0%Z \/ bonus = 1%Z) /\ (bonus = 1%Z <-> tie w ix)
  /\ sc = (1000 * Z.of_nat (length w) + 100 * occurrences letter_y w - 10 * total ks - vowels_in w - bonus)%Z.
Proof.
  intros lk gen st t w sc ix H. apply analytics_construction in H as (choice & c & ps & K).
  destruct (k_built _ _ _ _ _ _ _ _ _ _ K) as (w0 & r & tt & B).
  pose proof (b_layout _ _ _ _ _ _ _ _ B) as Hl. pose proof (k_word _ _ _ _ _ _ _ _ _ _ K) as Ew. pose proof (k_idx _ _ _ _ _ _ _ _ _ _ K) as Ei.
  apply layout_facts in Hl as (H1 & _).
  destruct (chain_scored _ _ _ _ _ (k_chain _ _ _ _ _ _ _ _ _ _ K) ltac:(rewrite (k_len _ _ _ _ _ _ _ _ _ _ K); lia) _ (k_pieces _ _ _ _ _ _ _ _ _ _ K))
    as (r0 & suf0 & g & r1 & suf1 & u & rest & S).
  exists (map rank_of (map rafsi_str ps)), (tiebreak (r0 ++ suf0 ++ g ++ r1 ++ suf1)).
  rewrite Ew, Ei in *. split.
  - rewrite <- H1, map_map. clear. induction ix as [|x ix IH]; constructor; [apply rank_spec|exact IH].
  - split; [apply tiebreak_cases|]. split.
    + pose proof (scored_tie _ _ _ _ _ _ _ _ _ _ _ S) as T. rewrite Ew, Ei in T. apply T. intro Er.
      destruct (s_rest0 _ _ _ _ _ _ _ _ _ _ _ S Er) as (_ & ps' & t1 & E). destruct (b_last _ _ _ _ _ _ _ _ B) as (ps'' & E' & _).
      rewrite E in E'. apply app_inj_tail in E' as [_ E']. injection E' as _ _ ->. reflexivity.
    + rewrite <- (k_score _ _ _ _ _ _ _ _ _ _ K), (s_score _ _ _ _ _ _ _ _ _ _ _ S), Ew, base_spec. unfold ranks. lia.
Qed.
(** the hyphen r counts as a letter of the second stretch: geirkujbau gets the bonus *)
Example C13_example :
  get_lujvo_with_analytics Bound false default_settings (TList (map L ["gleki"; "kurji"; "-bau-"]%string))
    = Ok (L "geirkujbau", (1000 * 10 - 10 * (8 + 5 + 8) - 5 - 1)%Z, [(0, 3); (4, 7); (7, 10)])
  /\ get_lujvo_with_analytics Bound false default_settings (TList (map L ["sutra"; "-bau-"; "zdani"]%string))
    = Ok (L "sutybauzda", (1000 * 10 + 100 - 10 * (5 + 8 + 7) - 4)%Z, [(0, 3); (4, 7); (7, 10)]).
Proof. split; vm_compute; reflexivity. Qed.
Print Assumptions C13_score.

(** ** C17: built words contain no forbidden cluster *)
Theorem C17_clusters : forall lk gen st t w,
  get_lujvo lk gen st t = Ok w -> Forall lojban_letter w /\ clusters_ok (allow_mz st) w.
Proof.
  intros lk gen st t w H. rewrite get_lujvo_fst in H. destruct (get_lujvo_with_analytics lk gen st t) as [[[w' sc] ix]|] eqn:E; [|discriminate].
  injection H as ->. apply analytics_construction in E as (choice & c & ps & K). destruct (k_built _ _ _ _ _ _ _ _ _ _ K) as (w0 & r & tt & B).
  pose proof (b_good _ _ _ _ _ _ _ _ B) as G. rewrite (k_word _ _ _ _ _ _ _ _ _ _ K) in G. exact G.
Qed.
Theorem C17_initial_pair : forall lk gen st t w a b rest,
  get_lujvo lk gen st t = Ok w -> w = a :: b :: rest -> consonant a -> consonant b -> initial_pair a b.
Proof.
  intros lk gen st t w x y z H Ew. rewrite get_lujvo_fst in H. destruct (get_lujvo_with_analytics lk gen st t) as [[[w' sc] ix]|] eqn:E; [|discriminate].
  injection H as ->. apply analytics_construction in E as (choice & c & ps & K). destruct (k_built _ _ _ _ _ _ _ _ _ _ K) as (w0 & r & tt & B).
  pose proof (b_starts _ _ _ _ _ _ _ _ B) as G. rewrite (k_word _ _ _ _ _ _ _ _ _ _ K) in G. exact (G x y z Ew).
Qed.
Example C17_example :
  get_lujvo Bound false default_settings (TStr (L "spageti cidja")) = Ok (L "spageti'ydja")
  /\ get_lujvo Bound false default_settings (TStr (L "-tan- djica")) = Ok (L "tanydji").
Proof. split; vm_compute; reflexivity. Qed.
Print Assumptions C17_clusters.
Print Assumptions C17_initial_pair.

(** ** C34: mz needs the option (words built by get_lujvo) *)
Theorem C34_built_words : forall lk gen st t w,
  get_lujvo lk gen st t = Ok w -> allow_mz st = false -> ~ contains w (L "mz").
Proof.
  intros lk gen st t w H Hm C. apply C17_clusters in H as [_ [H _]].
  assert (P : permissible (allow_mz st) 109%N 122%N) by (apply H; [exact C|apply is_consonant_spec; reflexivity..]).
  destruct P as (_ & _ & _ & _ & _ & _ & _ & P). rewrite P in Hm by reflexivity. discriminate.
Qed.
Example C34_built_example :
  get_lujvo Bound false default_settings (TStr (L "-jam- zbasu")) = Ok (L "jamyzba")
  /\ get_lujvo Bound false (mkSettings STANDARD false CLUSTER false true) (TStr (L "-jam- zbasu")) = Ok (L "jamzba").
Proof. split; vm_compute; reflexivity. Qed.
Print Assumptions C34_built_words.
