(** Without experimental shapes the option glides has no effect. *)
From Verif Require Import Str Data Tarmi Rafsi Core Api Lib Spec Shapes Decomp Basic Vowels Katna Dict Errs Builder Jvokaha Fuel Raises Inv Parts Clusters Zihevla Forms Chain Score Alt Lujvo Compound Whole.

Definition with_glides (st : settings) (g : bool) : settings :=
  mkSettings (y_hyphens st) (exp_rafsi_shapes st) (consonants st) g (allow_mz st).

(** ** The builder *)
Definition inert (x : str * nat) : Prop := snd x = 2 \/ is_consonant (hd 0%N (fst x)) = true.

Lemma slice_nil : forall n (s : str), slice n n s = [].
Proof. intros. unfold slice. rewrite Nat.sub_diag. reflexivity. Qed.

Lemma combine_glides : forall w r wc rc sc ix tos gen n st g g', inert (r, rc) ->
  combine w r wc rc sc ix tos gen n (with_glides st g) = combine w r wc rc sc ix tos gen n (with_glides st g').
Proof.
  intros w r wc rc sc ix tos gen n st g g' H. unfold combine. cbn [y_hyphens consonants glides allow_mz with_glides]. cbv zeta.
  destruct (idx_last w) as [ll|]; [|cbn [bind]; reflexivity]. cbn [bind]. destruct (idx r 0) as [r0|] eqn:E0; [|cbn [bind]; reflexivity]. cbn [bind].
  repeat match goal with |- (if ?b then _ else _) = (if ?b then _ else _) => destruct b; [reflexivity|] end.
  destruct (idx_last ix) as [li|]; [|cbn [bind]; reflexivity]. cbn [bind]. rewrite slice_nil. change (tarmi_in (rafsi_tarmi []) [CVV; CVC]) with false. cbn [andb].
  destruct (glue _ _ _ _ _ _ _ _) as [hy|]; [|cbn [bind]; reflexivity]. destruct (next_tosmabru _ _ _ _ _) as [tos'|]; [|cbn [bind]; reflexivity].
  replace (next_consonants w r hy wc rc (consonants st) g) with (next_consonants w r hy wc rc (consonants st) g'); [reflexivity|].
  unfold next_consonants. destruct H as [H|H]; cbn [fst snd] in H.
  - subst rc. reflexivity.
  - destruct (str_eqb hy [c_n] || str_eqb hy [c_r]); [reflexivity|]. destruct (cset_eqb _ CLUSTER); [|cbn [bind]; reflexivity]. destruct (negb _); [|cbn [bind]; reflexivity].
    destruct (last_sound w) as [l|]; [|cbn [bind]; reflexivity]. cbn [bind]. destruct r as [|c r]; [discriminate|]. cbn [hd] in H. unfold first_sound.
    assert (Hh : N.eqb c_h c = false) by (destruct (N.eqb_spec c_h c); [subst c; discriminate|reflexivity]). cbn [drop_while]. rewrite Hh. cbn [idx nth_error bind]. rewrite H. reflexivity.
Qed.

Lemma fold_res_ext : forall A B (f g : A -> B -> res A) l a, (forall a b, In b l -> f a b = g a b) -> fold_res f l a = fold_res g l a.
Proof.
  induction l as [|b l IH]; intros a H; [reflexivity|]. cbn [fold_res]. rewrite (H a b) by (left; reflexivity). destruct (g a b); [|cbn [bind]; reflexivity]. cbn [bind].
  apply IH. intros. apply H. right. assumption.
Qed.

Lemma best_word_glides : forall gen st rll g g', Forall (Forall inert) rll ->
  best_word gen (with_glides st g) rll = best_word gen (with_glides st g') rll.
Proof.
  intros gen st rll g g' F. unfold best_word. replace (lujvo_table gen (with_glides st g) rll) with (lujvo_table gen (with_glides st g') rll); [reflexivity|].
  unfold lujvo_table. destruct (idxl rll 0) as [l0|] eqn:E0; [|cbn [bind]; reflexivity]. cbn [bind].
  assert (X : forall t, fold_res (next_step gen (with_glides st g')) (skipn 2 rll) t = fold_res (next_step gen (with_glides st g)) (skipn 2 rll) t).
  { intro t. apply fold_res_ext. intros t' rl Hrl. unfold next_step. apply fold_res_ext. intros t'' [r rc] Hr. apply fold_res_ext. intros t3 [[[tos k] ?] [[w sc] ix]] _.
    assert (Hi : inert (r, rc)). { rewrite Forall_forall in F. assert (G : In rl rll) by (rewrite <- (firstn_skipn 2 rll); apply in_or_app; right; exact Hrl). apply F in G. rewrite Forall_forall in G. auto. }
    rewrite (combine_glides _ _ _ _ _ _ _ _ _ st g' g Hi). reflexivity. }
  destruct l0 as [|x l0]; [apply X|]. destruct (idxl rll 1) as [l1|] eqn:E1; [|cbn [bind]; reflexivity]. cbn [bind].
  replace (first_step gen (with_glides st g) (length rll) (x :: l0) l1) with (first_step gen (with_glides st g') (length rll) (x :: l0) l1).
  { destruct (first_step _ _ _ _ _); [|cbn [bind]; reflexivity]. cbn [bind]. apply X. }
  unfold first_step. apply fold_res_ext. intros t [r0 n0] _. apply fold_res_ext. intros t' [r1 n1] Hr. destruct (first_tos r0 gen); [|cbn [bind]; reflexivity]. cbn [bind].
  assert (Hi : inert (r1, n1)). { rewrite Forall_forall in F. assert (G : In l1 rll) by (unfold idxl in E1; destruct (nth_error rll 1) eqn:En; [|discriminate]; injection E1 as ->; eapply nth_error_In; exact En).
    apply F in G. rewrite Forall_forall in G. auto. }
  rewrite (combine_glides _ _ _ _ _ _ _ _ _ st g' g Hi). reflexivity.
Qed.

Lemma forms_glides : forall r t fi la cs g g', t <> EXPERIMENTAL_RAFSI -> get_rafsi_for_rafsi r t fi la cs g = get_rafsi_for_rafsi r t fi la cs g'.
Proof.
  intros r t fi la cs g g' H. unfold get_rafsi_for_rafsi. destruct (if fi then _ else _); [|cbn [bind]; reflexivity]. cbn [bind]. destruct t; try reflexivity. congruence.
Qed.
Lemma short_glides : forall rs fi la cs g g', short_rafsi_forms rs false fi la cs g = short_rafsi_forms rs false fi la cs g'.
Proof.
  induction rs as [|r rs IH]; intros; [reflexivity|]. cbn [short_rafsi_forms]. rewrite (IH fi la cs g g').
  destruct (_ && _); [reflexivity|]. rewrite (forms_glides r (Tar (rafsi_tarmi r)) fi la cs g g') by discriminate. reflexivity.
Qed.
Lemma list_for_glides : forall ana jv st g g' fi la v, exp_rafsi_shapes st = false ->
  rafsi_list_for ana jv (with_glides st g) fi la v = rafsi_list_for ana jv (with_glides st g') fi la v.
Proof.
  intros ana jv st g g' fi la v H. unfold rafsi_list_for. cbn [with_glides consonants glides exp_rafsi_shapes allow_mz y_hyphens]. cbv zeta. unfold ana_settings. cbn [with_glides exp_rafsi_shapes allow_mz y_hyphens]. rewrite H.
  destruct (idx_last v) as [c|]; [|cbn [bind]; reflexivity]. cbn [bind].
  assert (S : forall rs, short_rafsi_forms rs false fi la (consonants st) g = short_rafsi_forms rs false fi la (consonants st) g') by (intro; apply short_glides).
  assert (F : forall r t, t <> EXPERIMENTAL_RAFSI -> get_rafsi_for_rafsi r t fi la (consonants st) g = get_rafsi_for_rafsi r t fi la (consonants st) g') by (intros; apply forms_glides; assumption).
  destruct (N.eqb c c_dash).
  - destruct (idx v 0); [|cbn [bind]; reflexivity]. cbn [bind]. destruct (negb (is_only_lojban_characters _)); [reflexivity|].
    destruct (idx_last (strip_char _ _)); [|cbn [bind]; reflexivity]. cbn [bind]. destruct (N.eqb _ c_h); [reflexivity|]. destruct (negb (N.eqb _ _)).
    + rewrite F by discriminate. reflexivity.
    + destruct (tarmi_eqb _ _).
      * destruct (ana _ _) as [[t ps]|e]; [|destruct e; reflexivity]. cbn [bind]. destruct (wtype_eqb t ZIhEVLA); [|cbn [bind]; reflexivity]. apply F. discriminate.
      * destruct (negb _); [reflexivity|]. apply F. discriminate.
  - destruct (negb (is_only_lojban_characters v)); [reflexivity|].
    replace (match dict_get v with Some rs => short_rafsi_forms rs false fi la (consonants st) g | None => Ok [] end)
      with (match dict_get v with Some rs => short_rafsi_forms rs false fi la (consonants st) g' | None => Ok [] end) by (destruct (dict_get v); [rewrite S|]; reflexivity).
    rewrite !F by discriminate. reflexivity.
Qed.
Lemma list_list_glides : forall ana jv st g g' n l i, exp_rafsi_shapes st = false ->
  rafsi_list_list_loop ana jv (with_glides st g) n i l = rafsi_list_list_loop ana jv (with_glides st g') n i l.
Proof.
  induction l as [|v l IH]; intros i H; [reflexivity|]. cbn [rafsi_list_list_loop]. rewrite (list_for_glides _ _ _ g g') by assumption. rewrite IH by assumption. reflexivity.
Qed.

Lemma forms_inert : forall r t fi la cs g fs, r <> [] -> t <> EXPERIMENTAL_RAFSI -> (forall x, t = Tar x -> rafsi_tarmi r = x) ->
  get_rafsi_for_rafsi r t fi la cs g = Ok fs -> Forall inert fs.
Proof.
  intros r t fi la cs g fs Hr Ht Hx H. apply Forall_forall. intros [f n] Hin. destruct (forms_shape _ _ _ _ _ _ _ _ _ Hr H Hin) as (suf & -> & _ & ->).
  assert (K : t = Tar CVV \/ t = Tar CVhV \/ credit cs g t (prefix_of fi r ++ r ++ suf) = 2) by (destruct t as [| | |[]]; cbn [credit]; auto; congruence).
  unfold inert. cbn [fst snd]. destruct K as [K|[K|K]]; [right|right|left; exact K].
  - specialize (Hx _ K). apply tarmi_CVV in Hx as (a & b & c & -> & Ha & _ & _). unfold prefix_of. cbn [hd]. rewrite (k_f0 _ Ha). destruct fi; exact Ha.
  - specialize (Hx _ K). apply tarmi_CVhV in Hx as (a & b & c & -> & Ha & _ & _). unfold prefix_of. cbn [hd]. rewrite (k_f0 _ Ha). destruct fi; exact Ha.
Qed.

Lemma list_inert : forall lk st fi la v l, exp_rafsi_shapes st = false ->
  rafsi_list_for (analyse_brivla lk) (jvk lk) st fi la v = Ok l -> Forall inert l.
Proof.
  intros lk st fi la v l H E. apply Forall_forall. intros x Hx. destruct (forms_source _ _ _ _ _ _ _ E Hx) as (r & t & fs & Hs & Hf & Hin).
  pose proof (source_usable _ _ _ _ _ Hs) as U.
  assert (F : Forall inert fs).
  { eapply forms_inert; [| | |exact Hf].
    - destruct (u_first _ _ _ U) as (c & s & -> & _). discriminate.
    - intros ->. inversion Hs. congruence.
    - intros y Hy. apply (u_tarmi _ _ _ U y Hy). }
  rewrite Forall_forall in F. auto.
Qed.
Lemma list_list_inert : forall lk st n l i rll, exp_rafsi_shapes st = false ->
  rafsi_list_list_loop (analyse_brivla lk) (jvk lk) st n i l = Ok rll -> Forall (Forall inert) rll.
Proof.
  induction l as [|v l IH]; intros i rll H E; cbn [rafsi_list_list_loop] in E; [injection E as <-; constructor|].
  inv_bind E. rename x into x1, E0 into E1. inv_bind E. injection E as <-. constructor; [eapply list_inert; eassumption|eapply IH; eassumption].
Qed.

Theorem builder_glides : forall lk gen st l g g', exp_rafsi_shapes st = false ->
  lujvo_from_list lk gen (with_glides st g) l = lujvo_from_list lk gen (with_glides st g') l.
Proof.
  intros lk gen st l g g' H. rewrite !lujvo_from_list_eq. unfold get_rafsi_list_list. rewrite (list_list_glides _ _ st g g') by assumption.
  destruct (rafsi_list_list_loop _ _ _ _ _ _) as [rll|] eqn:E; [|cbn [bind]; reflexivity]. cbn [bind]. apply list_list_inert in E; [|exact H]. rewrite (best_word_glides gen st rll g g' E). reflexivity.
Qed.

(** ** Canonical lujvo *)
Lemma pieces_glides : forall cs g g' n ps i, piece_forms_loop cs g n i ps = piece_forms_loop cs g' n i ps.
Proof. induction ps as [|p ps IH]; intros; [reflexivity|]. cbn [piece_forms_loop]. rewrite (forms_glides _ _ _ _ _ g g') by discriminate. rewrite IH. reflexivity. Qed.
Lemma pieces_inert : forall cs g n ps i rll, Forall (fun p => p <> []) ps -> piece_forms_loop cs g n i ps = Ok rll -> Forall (Forall inert) rll.
Proof.
  induction ps as [|p ps IH]; intros i rll F E; cbn [piece_forms_loop] in E; [injection E as <-; constructor|]. inversion F; subst.
  inv_bind E. rename x into x1, E0 into E1. inv_bind E. injection E as <-. constructor; [|eapply IH; eassumption].
  eapply forms_inert; [| | |exact E1]; [assumption|discriminate|]. intros y Hy. congruence.
Qed.
Lemma expected_glides : forall yh cs g g' mz gen rs, Forall (fun p => p <> []) rs -> expected_entry yh cs g mz gen rs = expected_entry yh cs g' mz gen rs.
Proof.
  intros. unfold expected_entry, piece_forms. rewrite (pieces_glides _ g g'). destruct (piece_forms_loop _ _ _ _ _) as [rll|] eqn:E; [|cbn [bind]; reflexivity]. cbn [bind].
  apply pieces_inert in E; [|assumption]. apply (best_word_glides gen (mkSettings yh false cs g mz) rll g g' E).
Qed.
Lemma jvk_glides : forall lk yh cs g g' mz w, jvk lk yh cs g mz w = jvk lk yh cs g' mz w.
Proof.
  intros. rewrite !jvk_eq. destruct (jvokaha_2 yh mz w) as [arr|]; [|cbn [bind]; reflexivity]. cbn [bind]. destruct (_ =? 1); [reflexivity|].
  destruct (idx_last arr); [|cbn [bind]; reflexivity]. cbn [bind]. destruct (idx_last _); [|cbn [bind]; reflexivity]. cbn [bind]. unfold expected_word.
  rewrite (expected_glides yh cs g g'); [reflexivity|]. apply Forall_forall. intros p Hp. apply filter_In in Hp as [_ Hp]. intros ->. discriminate.
Qed.

(** ** The part loop *)
(** Two loop states that the rest of the loop treats alike. *)
Definition alike (a b : astate) : Prop :=
  a_parts a = a_parts b /\ a_hyphen a = a_hyphen b /\ a_mahor a = a_mahor b /\ a_break a = a_break b
  /\ a_cluster a = a_cluster b /\ (a_cluster a = true \/ a_cons a = a_cons b).

Lemma loop_parts_nonempty : forall ana jv st cm ys ps i a b, analyse_loop ana jv st cm ys i ps a = Ok b -> Forall (fun p => p <> []) ps.
Proof.
  induction ps as [|p ps IH]; intros i a b H; [constructor|]. cbn [analyse_loop] in H. inv_bind H. constructor; [|eapply IH; eassumption].
  intros ->. cbn [analyse_part part_head bind] in E. discriminate.
Qed.

Lemma count_cluster_true : forall found num, exists n, count_found found num true = (n, true).
Proof.
  induction found as [|p found IH]; intros num; cbn [count_found]; [eauto|]. cbv zeta. destruct (tarmi_in _ _); [apply IH|]. destruct (negb _); apply IH.
Qed.

(** The answer of the dictionary-free part does not mention the option. *)
Lemma part_tail_glides : forall st g g' cm ys i part cl,
  part_tail (with_glides st g) cm ys i part cl = part_tail (with_glides st g') cm ys i part cl.
Proof. reflexivity. Qed.
Lemma part_tail_req : forall st cm ys i part cl cl' p, Forall (fun p => p <> []) ys ->
  part_tail st cm ys i part cl = Ok p -> exists q, part_tail st cm ys i part cl' = Ok (mkP (p_part p) (p_copy p) (p_hyphen p) (p_can p) q (p_adda p)).
Proof.
  intros st cm ys i part cl cl' p F H. unfold part_tail in *. inv_bind H. rename x into l, E into El. rewrite El. cbn [bind]. destruct (N.eqb l c_h).
  - inv_bind H. rename x into req0. clear E. cbv zeta in *.
    match goal with |- exists q, bind ?X _ = _ => assert (R : exists q, X = Ok q) end.
    { destruct (_ && _) eqn:B; [|eauto]. apply andb_true_iff in B as [_ B]. apply Nat.ltb_lt in B.
      destruct (nth_error ys (i + 1)) as [n|] eqn:En; [|apply nth_error_None in En; unfold str, char in *; lia]. unfold idxl. unfold str, char in *. rewrite En. cbn [bind].
      apply nth_error_In in En. rewrite Forall_forall in F. specialize (F _ En). destruct n as [|c n]; [congruence|]. cbn [idx nth_error bind]. eauto. }
    destruct R as [q ->]. cbn [bind]. inv_bind H. rename x into l', E into El'. rewrite El'. cbn [bind]. dif H; [discriminate|]. injection H as <-. cbn. eauto.
  - dif H; injection H as <-; cbn; eauto.
Qed.

Lemma part_kaha_glides : forall ana st g pa p num cl, part_kaha ana (with_glides st g) pa p num cl = part_kaha ana st pa p num cl.
Proof. reflexivity. Qed.

Lemma check_required : forall ana jv yh ex mz v t, check_zihevla_or_rafsi ana jv true yh ex mz v = Ok t -> t = ZIhEVLA.
Proof.
  intros ana jv yh ex mz v t H. destruct (check_types _ _ _ _ _ _ _ _ H) as [->| ->]; [reflexivity|]. apply check_rafsi_iff in H as [H _]. discriminate.
Qed.

(** With a cluster already seen, the counter does not matter. *)
Lemma part_kaha_cluster : forall ana st pa p num num' did found n cl,
  part_kaha ana st pa p num true = Ok (did, found, n, cl) -> cl = true /\ exists n', part_kaha ana st pa p num' true = Ok (did, found, n', true).
Proof.
  intros ana st pa p num num' did found n cl H. unfold part_kaha in *. inv_bind H. rename x into u. rewrite E. clear E. cbn [bind]. clear u.
  destruct (jvokaha_2 _ _ _) as [[|f0 fs]|e].
  - injection H as <- <- <- <-. eauto.
  - dif H; [discriminate|]. destruct (count_cluster_true (f0 :: fs) num) as [n1 E1]. destruct (count_cluster_true (f0 :: fs) num') as [n2 E2].
    rewrite E1 in H. rewrite E2. injection H as <- <- <- <-. eauto.
  - destruct (count_cluster_true [p_part p] num) as [n1 E1]. destruct (count_cluster_true [p_part p] num') as [n2 E2].
    destruct e; try discriminate; rewrite E1 in H; rewrite E2; injection H as <- <- <- <-; eauto.
Qed.

(** A part that begins with a vowel is not taken apart. *)
Lemma part_kaha_vowel : forall ana st pa p c s c' s' num cl num' cl' r,
  p_copy p = c :: s -> is_vowel c = true -> p_part p = c' :: s' -> is_vowel c' = true ->
  part_kaha ana st pa p num cl = Ok r ->
  part_kaha ana st pa p num cl = Ok (false, [], num, cl) /\ part_kaha ana st pa p num' cl' = Ok (false, [], num', cl').
Proof.
  intros ana st pa p c s c' s' num cl num' cl' r Hc Hv Hp Hv' H. unfold part_kaha in *. inv_bind H. rename x into u. rewrite E. clear E. cbn [bind]. clear u.
  unfold jvokaha_2 in *. rewrite Hc in *. rewrite j2_vowel in * by assumption. cbn [count_found] in *. rewrite Hp in *. rewrite rafsi_tarmi_vowel in * by assumption. auto.
Qed.

Lemma part_tail_first : forall st cm ys i part cl p c s, part_tail st cm ys i part cl = Ok p -> part = c :: s -> is_vowel c = true ->
  (exists s', p_copy p = c :: s') /\ (exists s', p_part p = c :: s').
Proof.
  intros st cm ys i part cl p c s H -> Hc. unfold part_tail in H. inv_bind H. rename x into l, E into El. destruct (N.eqb_spec l c_h) as [->|].
  - inv_bind H. cbv zeta in H. inv_bind H. dif H; [discriminate|]. injection H as <-. cbn [p_copy p_part].
    assert (D : exists s', dropl 1 (c :: s) = c :: s').
    { unfold dropl. cbn [length]. rewrite Nat.sub_succ, Nat.sub_0_r. destruct s as [|d s]; [|cbn [length firstn]; eauto]. cbn in El. injection El as ->. discriminate. }
    destruct D as [s' ->]. eauto.
  - dif H; injection H as <-; cbn [p_copy p_part app]; eauto.
Qed.

Lemma part_glides : forall lk st g g' cm ys i p a b r, exp_rafsi_shapes st = false -> Forall (fun p => p <> []) ys -> alike a b ->
  analyse_part (analyse_brivla lk) (jvk lk) (with_glides st g) cm ys i p a = Ok r ->
  exists r', analyse_part (analyse_brivla lk) (jvk lk) (with_glides st g') cm ys i p b = Ok r' /\ alike r r'.
Proof.
  intros lk st g g' cm ys i p0 a b r He F (A1 & A2 & A3 & A4 & A5 & A6) H. unfold analyse_part in *. cbv zeta in *. rewrite <- A1, <- A2, <- A3, <- A4.
  inv_bind H. destruct x as [part nh]. rename E into Eh. rewrite Eh. cbn [bind]. destruct (tarmi_eqb (rafsi_tarmi part) CVC).
  { injection H as <-. eexists. split; [reflexivity|]. unfold alike. cbn. rewrite <- A5. repeat split; auto. destruct A6 as [A6|A6]; [auto|]. rewrite A6. auto. }
  inv_bind H. rename x into c0, E into Ec. rewrite Ec. cbn [bind]. destruct part as [|c part]; [discriminate|]. injection Ec as ->.
  cbn [with_glides glides consonants exp_rafsi_shapes y_hyphens allow_mz] in *. rewrite He in *.
  inv_bind H. rename x into p, E into Ep. rewrite (part_tail_glides _ g g') in Ep. inv_bind H. destruct x as [[[did found] num] cl]. rename E into Ek.
  (* the zi'evla branch *)
  assert (Z : forall q num2 cl2, did = false ->
     (t <- match check_zihevla_or_rafsi (analyse_brivla lk) (jvk lk) (p_req p || negb false) (y_hyphens st) false (allow_mz st) (p_part p) with
           | Err NotZihevlaError => Err NotBrivlaError | r => r end ;;
      _ <- (if wtype_eqb t ZIhEVLA && p_adda p then
              b <- succeeds (jvokaha_2 (y_hyphens st) (allow_mz st) (p_part p)) ;; if b then Err NotBrivlaError else Ok tt else Ok tt) ;;
      q0 <- idx (p_part p) 0 ;;
      Ok (mkA (match nh with [] => a_parts a | _ => a_parts a ++ [nh] end ++ [p_copy p]) (p_hyphen p) (if wtype_eqb t ZIhEVLA then true else cl)
              (if (0 <? i) && (is_consonant c0 || is_glide (c0 :: part)) then false else a_mahor a) false
              (if is_consonant q0 || g && is_glide (p_part p) then num + 1 else num))) = Ok r ->
     exists r', (t <- match check_zihevla_or_rafsi (analyse_brivla lk) (jvk lk) (q || negb false) (y_hyphens st) false (allow_mz st) (p_part p) with
           | Err NotZihevlaError => Err NotBrivlaError | r => r end ;;
      _ <- (if wtype_eqb t ZIhEVLA && p_adda p then
              b <- succeeds (jvokaha_2 (y_hyphens st) (allow_mz st) (p_part p)) ;; if b then Err NotBrivlaError else Ok tt else Ok tt) ;;
      q0 <- idx (p_part p) 0 ;;
      Ok (mkA (match nh with [] => a_parts a | _ => a_parts a ++ [nh] end ++ [p_copy p]) (p_hyphen p) (if wtype_eqb t ZIhEVLA then true else cl2)
              (if (0 <? i) && (is_consonant c0 || is_glide (c0 :: part)) then false else a_mahor a) false
              (if is_consonant q0 || g' && is_glide (p_part p) then num2 + 1 else num2))) = Ok r' /\ alike r r').
  { clear. intros q num2 cl2 _ H. cbn [negb] in *. rewrite orb_true_r in *. inv_bind H. rename x into t, E into Et.
    assert (Et' : check_zihevla_or_rafsi (analyse_brivla lk) (jvk lk) true (y_hyphens st) false (allow_mz st) (p_part p) = Ok t).
    { destruct (check_zihevla_or_rafsi _ _ _ _ _ _ _) as [t'|e]; [exact Et|destruct e; discriminate]. }
    rewrite Et'. cbn [bind]. inv_bind H. rename x into u, E into Eu. rewrite Eu. cbn [bind]. inv_bind H. rename x into q0, E into Eq. rewrite Eq. cbn [bind].
    injection H as <-. eexists. split; [reflexivity|]. unfold alike. cbn. assert (T : t = ZIhEVLA).
    { apply check_required in Et'. exact Et'. }
    subst t. cbn. repeat split; auto. }
  rewrite <- A5 in *.
  set (cbA := if a_break a && (is_consonant c0 || g && is_glide (c0 :: part)) then true else a_cluster a) in *.
  set (cbB := if a_break a && (is_consonant c0 || g' && is_glide (c0 :: part)) then true else a_cluster a) in *.
  destruct (bool_dec cbA cbB) as [Ecb|Ecb].
  - rewrite <- Ecb, Ep. cbn [bind].
    assert (K : exists num', (if p_can p then part_kaha (analyse_brivla lk) (with_glides st g') ((c0 :: part) ++ [c_a]) p (a_cons b) cbA else Ok (false, [], a_cons b, cbA)) = Ok (did, found, num', cl)
              /\ (cl = true \/ num' = num)).
    { destruct A6 as [A6|A6].
      - assert (C : cbA = true) by (unfold cbA; rewrite A6; destruct (_ && _); reflexivity). rewrite C in *. destruct (p_can p).
        + rewrite part_kaha_glides in *. destruct (part_kaha_cluster _ _ _ _ _ (a_cons b) _ _ _ _ Ek) as [-> [n' Hn]]. eauto.
        + injection Ek as <- <- <- <-. eauto.
      - rewrite <- A6. exists num. split; [|auto]. rewrite <- Ek. reflexivity. }
    destruct K as (num' & -> & Hn). cbn [bind]. destruct did.
    + inv_bind H. rename x into u1, E into E1. rewrite E1. cbn [bind]. inv_bind H. rename x into u2, E into E2.
      change (tosmabru_check (jvk lk) (with_glides st g')) with (tosmabru_check (jvk lk) (with_glides st g)). rewrite E2. cbn [bind]. injection H as <-.
      eexists. split; [reflexivity|]. unfold alike. cbn. repeat split; auto. destruct Hn; auto.
    + destruct (Z (p_req p) num' cl eq_refl H) as (r' & -> & Hr). eauto.
  - assert (Hg : is_glide (c0 :: part) = true) by (unfold cbA, cbB in Ecb; destruct (is_glide (c0 :: part)); [reflexivity|]; rewrite !andb_false_r in Ecb; congruence).
    assert (Hv : is_vowel c0 = true).
    { destruct (is_consonant c0) eqn:Hk; [unfold cbA, cbB in Ecb; cbn [orb] in Ecb; congruence|]. apply glide_spec in Hg as (x & y & t & Hx & Hin & _). injection Hx as -> _. cbn in Hin. destruct Hin as [<-|[<-|[]]]; reflexivity. }
    destruct (part_tail_req _ _ _ _ _ _ cbB _ F Ep) as [q Eq]. rewrite Eq. cbn [bind p_can p_part p_copy p_hyphen p_req p_adda].
    destruct (part_tail_first _ _ _ _ _ _ _ _ _ Ep eq_refl Hv) as [[s1 Hc] [s2 Hp]].
    assert (K : did = false /\ exists num' cl', (if p_can p then part_kaha (analyse_brivla lk) (with_glides st g') ((c0 :: part) ++ [c_a])
        (mkP (p_part p) (p_copy p) (p_hyphen p) (p_can p) q (p_adda p)) (a_cons b) cbB else Ok (false, [], a_cons b, cbB)) = Ok (false, [], num', cl')).
    { destruct (p_can p) eqn:Hcan.
      - destruct (part_kaha_vowel _ _ _ _ _ _ _ _ _ _ (a_cons b) cbB _ Hc Hv Hp Hv Ek) as [K1 K2]. split; [congruence|]. exists (a_cons b), cbB. exact K2.
      - injection Ek as <- <- <- <-. eauto. }
    destruct K as (-> & num' & cl' & ->). cbn [bind]. destruct (Z q num' cl' eq_refl H) as (r' & -> & Hr). eauto.
Qed.

Lemma loop_glides : forall lk st g g' cm ys ps i a b r, exp_rafsi_shapes st = false -> Forall (fun p => p <> []) ys -> alike a b ->
  analyse_loop (analyse_brivla lk) (jvk lk) (with_glides st g) cm ys i ps a = Ok r ->
  exists r', analyse_loop (analyse_brivla lk) (jvk lk) (with_glides st g') cm ys i ps b = Ok r' /\ alike r r'.
Proof.
  induction ps as [|p ps IH]; intros i a b r He F A H; cbn [analyse_loop] in *; [injection H as <-; eauto|].
  inv_bind H. rename x into a1. destruct (part_glides _ _ _ g' _ _ _ _ _ _ _ He F A E) as (b1 & E1 & A1). rewrite E1. cbn [bind]. eapply IH; eassumption.
Qed.

Lemma compound_glides : forall lk st g g' cm v0 v ys r, exp_rafsi_shapes st = false ->
  analyse_compound (analyse_brivla lk) (jvk lk) (with_glides st g) cm v0 v ys = Ok r ->
  analyse_compound (analyse_brivla lk) (jvk lk) (with_glides st g') cm v0 v ys = Ok r.
Proof.
  intros lk st g g' cm v0 v ys r He H. unfold analyse_compound in *. inv_bind H. rename x into a.
  assert (A : alike (mkA [] [] false true false 0) (mkA [] [] false true false 0)) by (repeat split; auto).
  destruct (loop_glides lk st g g' cm ys ys 0 _ _ a He (loop_parts_nonempty _ _ _ _ _ _ _ _ _ E) A E) as (b & -> & B1 & B2 & B3 & B4 & B5 & B6).
  cbn [bind]. cbn [with_glides consonants y_hyphens allow_mz] in *. rewrite <- B1, <- B3, <- B5.
  destruct B6 as [B6|B6]; [rewrite B6 in *; exact H|]. rewrite <- B6. exact H.
Qed.

Theorem analyse_glides : forall lk st g g' w r, exp_rafsi_shapes st = false ->
  analyse_brivla lk (with_glides st g) w = Ok r -> analyse_brivla lk (with_glides st g') w = Ok r.
Proof.
  intros lk st g g' w r He H. rewrite analyse_brivla_eq in *. unfold analyse_body in *. inv_bind H. rename x into v, E into Ev. rewrite Ev. cbn [bind].
  destruct (last_opt v) as [l|]; [|discriminate]. cbv zeta in *. cbn [with_glides y_hyphens consonants glides allow_mz] in *.
  repeat match goal with |- (if ?b then _ else _) = _ => destruct b; [exact H|] end. rewrite (jvk_glides lk _ _ g' g). destruct (jvk lk _ _ g _ v) as [ps|e]; [exact H|].
  assert (O : analyse_other (analyse_brivla lk) (jvk lk) (with_glides st g) (is_consonant l) v = Ok r ->
              analyse_other (analyse_brivla lk) (jvk lk) (with_glides st g') (is_consonant l) v = Ok r).
  { clear H. intro H. unfold analyse_other in *. inv_bind H. rename x into c, E into Ec. rewrite Ec. cbn [bind].
    destruct (negb _); [discriminate|]. cbv zeta in *. destruct (_ =? 1); [exact H|]. eapply compound_glides; eassumption. }
  destruct e; try discriminate; auto.
Qed.
