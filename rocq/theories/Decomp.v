(** The pieces of a decomposition join to the word (C01), and related facts about
    jvokaha_2 and the loop over y-parts. *)
From Verif Require Import Str Data Tarmi Rafsi Core Api Lib Spec.

Lemma firstn_skipn_app : forall A n (s : list A), firstn n s ++ skipn n s = s.
Proof. intros; apply firstn_skipn. Qed.

(** ** jvokaha_2 *)
Lemma jvokaha2_loop_concat : forall fuel yh mz orig w acc r,
  jvokaha2_loop fuel yh mz orig w acc = Ok r -> concat r = concat acc ++ w.
Proof.
  induction fuel as [|f IH]; intros yh mz orig w acc r H; [discriminate|].
  cbn [jvokaha2_loop] in H. destruct w as [|l0 w']; [injection H as ->; rewrite app_nil_r; reflexivity|].
  set (w := l0 :: w') in *.
  assert (step : forall k, jvokaha2_loop f yh mz orig (skipn k w) (acc ++ [firstn k w]) = Ok r ->
                      concat r = concat acc ++ w).
  { intros k Hk. apply IH in Hk. rewrite Hk, concat_app. cbn. rewrite app_nil_r, <- app_assoc.
    rewrite firstn_skipn. reflexivity. }
  inv_bind H. destruct x as [k|]; [eauto|].
  dif H; [eauto|]. dif H; [eauto|]. dif H; [discriminate|]. dif H.
  { apply andb_t in Heqb2 as [_ El].
    apply IH in H. rewrite H, concat_app. cbn [concat]. rewrite app_nil_r, <- app_assoc.
    apply Nat.eqb_eq in El. rewrite firstn_all2, skipn_all2 by lia. rewrite app_nil_r. reflexivity. }
  dif H.
  { apply andb_t in Heqb3 as [_ Ey].
    apply IH in H. rewrite H, concat_app. cbn [concat]. rewrite <- app_assoc. f_equal.
    destruct (nth_error w 4) eqn:En; [|discriminate]. apply N.eqb_eq in Ey. subst c.
    rewrite <- (firstn_skipn 4 w) at 3. rewrite <- !app_assoc. f_equal.
    clear - En. unfold w in *. clear w.
    destruct w' as [|a [|b [|c [|d w']]]]; cbn in En |- *; try discriminate. congruence. }
  dif H. { injection H as <-. rewrite concat_app. cbn [concat]. rewrite app_nil_r. reflexivity. }
  dif H. { dif H; [discriminate|eauto]. }
  dif H; [|discriminate]. dif H; [discriminate|]. dif H; [discriminate|eauto].
Qed.

Lemma jvokaha_2_concat : forall yh mz w r, jvokaha_2 yh mz w = Ok r -> concat r = w.
Proof. intros yh mz w r H. apply jvokaha2_loop_concat in H. exact H. Qed.

Lemma jvokaha_body_pieces : forall glfl yh cs gl mz w r,
  jvokaha_body glfl yh cs gl mz w = Ok r -> jvokaha_2 yh mz w = Ok r.
Proof.
  intros glfl yh cs gl mz w r H. unfold jvokaha_body in H. inv_bind H.
  destruct (_ =? 1) in H; [discriminate|]. inv_bind H. inv_bind H. inv_bind H. inv_bind H.
  destruct x3; [congruence|discriminate].
Qed.

Lemma jvokaha_pieces : forall lk f yh cs gl mz w r,
  jvokaha lk f yh cs gl mz w = Ok r -> jvokaha_2 yh mz w = Ok r.
Proof.
  intros lk [|f] yh cs gl mz w r H; [discriminate|]. eapply jvokaha_body_pieces. exact H.
Qed.

(** ** The loop over y-parts *)

Lemma part_head_eq : forall i part nh part' nh',
  part_head i part nh = Ok (part', nh') ->
  nh' ++ part' = nh ++ part /\ part' <> [] /\ last_opt part' = last_opt part
  /\ (exists h, nh' = nh ++ h /\ part = h ++ part').
Proof.
  intros i part nh part' nh' H. unfold part_head in H.
  destruct part as [|c rest]; [discriminate|].
  destruct (N.eqb c c_h) eqn:Ec.
  - apply N.eqb_eq in Ec. subst c. destruct rest as [|r0 rest]; [discriminate|].
    destruct (negb (is_vowel r0)); [discriminate|]. inv_bind H. inv_bind H.
    destruct (mems _ _) in H; [discriminate|]. injection H as <- <-.
    rewrite <- app_assoc. repeat split; [discriminate | eauto].
  - destruct (_ && _) in H; [discriminate|]. injection H as <- <-.
    repeat split; [discriminate|]. exists []. rewrite app_nil_r. auto.
Qed.

Lemma part_tail_eq : forall st cm ys i part cl p,
  part_tail st cm ys i part cl = Ok p ->
  p_copy p ++ p_hyphen p = part
  /\ (last_opt part <> Some c_h -> p_hyphen p = [])
  /\ p_part p = (if p_adda p then p_copy p ++ [c_a] else p_copy p).
Proof.
  intros st cm ys i part cl p H. unfold part_tail in H. inv_bind H.
  destruct (idx_last_ok _ _ _ E) as [s' ->]. rewrite last_opt_app.
  destruct (N.eqb x c_h) eqn:Ex.
  - apply N.eqb_eq in Ex. subst x. inv_bind H. rewrite dropl_app in H. inv_bind H.
    destruct (negb _) in H; [discriminate|]. injection H as <-. cbn.
    repeat split. congruence.
  - destruct (_ || _) in H; injection H as <-; cbn; rewrite ?app_nil_r; auto.
Qed.

Lemma concat_opt : forall (parts : list str) nh,
  concat (match nh with [] => parts | _ => parts ++ [nh] end) = concat parts ++ nh.
Proof.
  intros parts [|c nh]; [rewrite app_nil_r; reflexivity|].
  rewrite concat_app. cbn. rewrite app_nil_r. reflexivity.
Qed.

Lemma part_kaha_found : forall ana st pa p num cl did found num' cl',
  part_kaha ana st pa p num cl = Ok (did, found, num', cl') ->
  (did = true -> jvokaha_2 (y_hyphens st) (allow_mz st) (p_copy p) = Ok found) /\
  (did = false -> found = []).
Proof.
  intros ana st pa p num cl did found num' cl' H. unfold part_kaha in H. inv_bind H.
  destruct (jvokaha_2 _ _ _) as [[|f0 fs]|e] eqn:Ej.
  - injection H as <- <- <- <-. split; congruence.
  - destruct (_ && _) in H; [discriminate|].
    destruct (count_found _ _ _) in H. injection H as <- <- <- <-. split; congruence.
  - destruct e; try discriminate; destruct (count_found _ _ _) in H;
      injection H as <- <- <- <-; split; congruence.
Qed.

(** What one iteration adds to the pieces. *)
Lemma analyse_part_concat : forall ana jvk st cm ys i part0 a a',
  analyse_part ana jvk st cm ys i part0 a = Ok a' ->
  concat (a_parts a') ++ a_hyphen a'
    = concat (a_parts a) ++ a_hyphen a ++ (if i =? 0 then [] else [c_y]) ++ part0
  /\ (last_opt part0 <> Some c_h -> a_hyphen a' = []).
Proof.
  intros ana jvk st cm ys i part0 a a' H. unfold analyse_part in H.
  set (nh0 := if i =? 0 then a_hyphen a else a_hyphen a ++ [c_y]) in *.
  assert (Enh0 : nh0 = a_hyphen a ++ (if i =? 0 then [] else [c_y])).
  { unfold nh0. destruct (i =? 0); [rewrite app_nil_r|]; reflexivity. }
  inv_bind H. destruct x as [part nh].
  destruct (part_head_eq _ _ _ _ _ E) as [E1 [E2 [E3 _]]].
  set (rp := match nh with [] => a_parts a | _ => a_parts a ++ [nh] end) in *.
  assert (Erp : concat rp ++ part = concat (a_parts a) ++ a_hyphen a ++ (if i =? 0 then [] else [c_y]) ++ part0).
  { unfold rp. rewrite concat_opt, <- app_assoc, E1, Enh0, <- app_assoc. reflexivity. }
  rewrite <- Erp.
  destruct (tarmi_eqb (rafsi_tarmi part) CVC) eqn:Ecvc.
  { injection H as <-. cbn. rewrite concat_app. cbn. rewrite !app_nil_r. auto. }
  inv_bind H. inv_bind H. rename x0 into p.
  destruct (part_tail_eq _ _ _ _ _ _ _ E4) as [Ep [Eh Epp]].
  rewrite <- E3.
  assert (fin : forall piece, concat piece = p_copy p ->
     concat (rp ++ piece) ++ p_hyphen p = concat rp ++ part).
  { intros piece Hp. rewrite concat_app, Hp, <- app_assoc, Ep. reflexivity. }
  inv_bind H. destruct x0 as [[[did found] num] cl].
  destruct did.
  - inv_bind H. inv_bind H. injection H as <-. cbn. split; [|assumption].
    apply fin. destruct (p_can p); [|discriminate].
    destruct (part_kaha_found _ _ _ _ _ _ _ _ _ _ E5) as [Hk _].
    eapply jvokaha_2_concat. apply Hk. reflexivity.
  - inv_bind H. inv_bind H. inv_bind H. injection H as <-. cbn. split; [|assumption].
    apply fin. cbn. apply app_nil_r.
Qed.

Lemma analyse_loop_concat : forall ana jvk st cm ys parts i a a',
  analyse_loop ana jvk st cm ys i parts a = Ok a' -> parts <> [] ->
  concat (a_parts a') ++ a_hyphen a'
    = concat (a_parts a) ++ a_hyphen a ++ (if i =? 0 then [] else [c_y]) ++ join_on c_y parts
  /\ (forall x, last_opt parts = Some x -> last_opt x <> Some c_h -> a_hyphen a' = []).
Proof.
  induction parts as [|p ps IH]; intros i a a' H Hne; [congruence|].
  cbn [analyse_loop] in H. inv_bind H.
  destruct (analyse_part_concat _ _ _ _ _ _ _ _ _ E) as [E1 E2].
  destruct ps as [|q qs].
  - cbn in H. injection H as <-. cbn. split; [assumption|]. intros y Hy. injection Hy as <-. assumption.
  - apply IH in H; [|discriminate]. destruct H as [E3 E4]. split.
    + rewrite E3. cbn [Nat.eqb]. rewrite app_assoc, E1, <- !app_assoc. reflexivity.
    + exact E4.
Qed.

Lemma split_on_last : forall c s l, l <> c -> exists pre q, split_on c (s ++ [l]) = pre ++ [q ++ [l]].
Proof.
  intros c s l Hl. induction s as [|x s [pre [q IH]]].
  - exists [], []. cbn. destruct (N.eqb_spec c l); [congruence|reflexivity].
  - cbn. destruct (N.eqb c x).
    + exists ([] :: pre), q. rewrite IH. reflexivity.
    + rewrite IH. destruct pre as [|p pre]; cbn.
      * exists [], (x :: q). reflexivity.
      * exists ((x :: p) :: pre), q. reflexivity.
Qed.

(** ** Letter classes *)
Lemma vowel_not : forall c, is_vowel c = true ->
  is_consonant c = false /\ N.eqb c c_h = false /\ N.eqb c c_y = false.
Proof.
  intros c H. apply memc_In in H. cbn in H. decompose [or] H; subst; try contradiction; auto.
Qed.
Lemma consonant_not : forall c, is_consonant c = true ->
  is_vowel c = false /\ N.eqb c c_h = false /\ N.eqb c c_y = false.
Proof.
  intros c H. apply memc_In in H. cbn in H. decompose [or] H; subst; try contradiction; auto.
Qed.

(** ** analyse_brivla: the pieces join to the normalised word *)
Lemma analyse_body_concat : forall ana jvk st w t ps,
  (forall yh cs gl mz x r, jvk yh cs gl mz x = Ok r -> concat r = x) ->
  analyse_body ana jvk st w = Ok (t, ps) -> normalise w = Ok (concat ps).
Proof.
  intros ana jvk st w t ps Hj H. unfold analyse_body in H. inv_bind H. rewrite E. f_equal. symmetry.
  rename x into v. destruct (last_opt v) as [l|] eqn:El; [|discriminate].
  dif H; [discriminate|]. dif H; [discriminate|].
  dif H. { injection H as <- <-. cbn. apply app_nil_r. }
  destruct (jvk _ _ _ _ _) as [parts|e] eqn:Ej.
  { injection H as <- <-. eauto. }
  assert (H' : analyse_other ana jvk st (is_consonant l) v = Ok (t, ps))
    by (destruct e; try discriminate; exact H).
  clear H. rename H' into H. unfold analyse_other in H. inv_bind H. dif H; [discriminate|].
  cbv zeta in H. dif H.
  - dif H; [discriminate|].
    destruct (check_zihevla_or_rafsi _ _ _ _ _ _ _) as [?|[]]; try discriminate.
    injection H as <- <-. cbn. apply app_nil_r.
  - unfold analyse_compound in H.
    inv_bind H. dif H; [discriminate|]. inv_bind H. inv_bind H. dif H; [discriminate|].
    injection H as <- <-. rename x0 into a.
    apply analyse_loop_concat in E1; [|apply split_on_nonnil].
    cbn [a_parts a_hyphen concat app Nat.eqb] in E1. rewrite join_split in E1. destruct E1 as [E1 E4].
    apply last_opt_some in El as [s' ->].
    assert (Hly : l <> c_y /\ l <> c_h).
    { apply andb_false_iff in Heqb. split; intros ->; cbn in Heqb; destruct Heqb; discriminate. }
    destruct Hly as [Hly Hlh].
    destruct (split_on_last c_y s' l Hly) as [pre [q Eq]]. rewrite Eq in E4.
    specialize (E4 (q ++ [l]) (last_opt_app _ _ _)). rewrite last_opt_app in E4.
    rewrite E4, app_nil_r in E1 by congruence. assumption.
Qed.

Lemma analyse_concat : forall lk f st w t ps,
  analyse lk f st w = Ok (t, ps) -> normalise w = Ok (concat ps).
Proof.
  intros lk [|f] st w t ps H; [discriminate|]. eapply analyse_body_concat; [|exact H].
  intros. eapply jvokaha_2_concat. eapply jvokaha_pieces. eassumption.
Qed.

(** ** The specification's standard spelling *)
Lemma normalise_spec : forall w r, normalise w = Ok r -> r = standard_spelling w.
Proof.
  intros [|c w] r H; [discriminate|]. cbn [normalise] in H. injection H as <-.
  reflexivity.
Qed.
Lemma normalise_ok : forall w, w <> [] -> normalise w = Ok (standard_spelling w).
Proof.
  intros [|c w] H; [congruence|]. destruct (normalise (c :: w)) eqn:E; [|discriminate].
  f_equal. apply normalise_spec. assumption.
Qed.
