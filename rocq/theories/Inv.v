(** How analyse_brivla can accept a word: four cases. *)
From Verif Require Import Str Data Tarmi Rafsi Core Api Lib Spec Shapes Decomp Basic Vowels Katna Dict Errs Builder Jvokaha Fuel Raises.

Definition caught (e : exn) : Prop := In e [DecompositionError; InvalidClusterError; IndexError].

Inductive accepted (lk : binding) (st : settings) (v : str) : wtype -> list str -> Prop :=
| acc_gismu : is_gismu v (allow_mz st) = true -> accepted lk st v GISMU [v]
| acc_cll l ps : last_opt v = Some l -> is_consonant l || is_vowel l = true ->
    is_gismu v (allow_mz st) = false ->
    (is_consonant l = true -> is_gismu (v ++ [c_a]) (allow_mz st) = false) ->
    jvk lk (y_hyphens st) (consonants st) (glides st) (allow_mz st) v = Ok ps ->
    accepted lk st v (if is_consonant l then CMEVLA else LUJVO) ps
| acc_zihevla l c e t : last_opt v = Some l -> is_vowel l = true ->
    is_gismu v (allow_mz st) = false ->
    jvk lk (y_hyphens st) (consonants st) (glides st) (allow_mz st) v = Err e -> caught e ->
    idx v 0 = Ok c -> is_vowel c || is_consonant c = true ->
    ~ In c_y v ->
    check_zihevla_or_rafsi (analyse_brivla lk) (jvk lk) true (y_hyphens st) (exp_rafsi_shapes st)
      (allow_mz st) v = Ok t ->
    accepted lk st v ZIhEVLA [v]
| acc_compound l c e t ps : last_opt v = Some l -> is_consonant l || is_vowel l = true ->
    is_gismu v (allow_mz st) = false ->
    (is_consonant l = true -> is_gismu (v ++ [c_a]) (allow_mz st) = false) ->
    jvk lk (y_hyphens st) (consonants st) (glides st) (allow_mz st) v = Err e -> caught e ->
    idx v 0 = Ok c -> is_vowel c || is_consonant c = true ->
    2 <= length (split_on c_y v) ->
    analyse_compound (analyse_brivla lk) (jvk lk) st (is_consonant l) c v (split_on c_y v) = Ok (t, ps) ->
    t = (if is_consonant l then CMEVLA else EXTENDED_LUJVO) ->
    accepted lk st v t ps.

Lemma split_on_single : forall c s, length (split_on c s) = 1 -> ~ In c s.
Proof.
  intros c s H. pose proof (split_on_nosep c s) as G. pose proof (join_split c s) as J.
  destruct (split_on c s) as [|p [|q r]]; try discriminate. cbn in J. subst p. apply G. left. reflexivity.
Qed.

Lemma gismu_len : forall v mz, is_gismu v mz = true ->
  exists a b c d e, v = [a; b; c; d; e] /\ is_vowel e = true.
Proof.
  intros v mz H. unfold is_gismu in H. destruct (is_gismu_shape v) eqn:E; [|discriminate].
  unfold is_gismu_shape in E. destruct v as [|a [|b [|c [|d [|e [|]]]]]]; try discriminate.
  dif E; [discriminate|]. apply negb_false_iff, andb_t in Heqb0 as [_ Hv]. exists a, b, c, d, e. auto.
Qed.

Theorem analyse_inv : forall lk st w t ps, analyse_brivla lk st w = Ok (t, ps) ->
  accepted lk st (standard_spelling w) t ps.
Proof.
  intros lk st w t ps H. rewrite analyse_brivla_eq in H. unfold analyse_body in H.
  inv_bind H. apply normalise_spec in E. subst x. set (v := standard_spelling w) in *. clearbody v.
  destruct (last_opt v) as [l|] eqn:El; [|discriminate]. cbv zeta in H.
  destruct (negb (is_consonant l) && negb (is_vowel l)) eqn:E1; [discriminate|].
  destruct (is_consonant l && is_gismu (v ++ [c_a]) (allow_mz st)) eqn:E2; [discriminate|].
  destruct (negb (is_consonant l) && is_gismu v (allow_mz st)) eqn:E3.
  { injection H as <- <-. apply andb_t in E3 as [_ E3]. constructor. exact E3. }
  assert (Hcv : is_consonant l || is_vowel l = true) by (destruct (is_consonant l), (is_vowel l); cbn in *; congruence).
  assert (Hg : is_gismu v (allow_mz st) = false).
  { destruct (is_gismu v (allow_mz st)) eqn:G; [|reflexivity]. exfalso.
    apply gismu_len in G as (a & b & c & d & e & -> & He). cbn in El. injection El as <-.
    rewrite (v_f0 _ He) in E3. discriminate. }
  assert (Hga : is_consonant l = true -> is_gismu (v ++ [c_a]) (allow_mz st) = false)
    by (intro G; rewrite G in E2; exact E2).
  destruct (jvk _ _ _ _ _ _) as [parts|e] eqn:Ej.
  { injection H as <- <-. econstructor; eassumption. }
  assert (Hc : caught e /\ analyse_other (analyse_brivla lk) (jvk lk) st (is_consonant l) v = Ok (t, ps)).
  { destruct e; try discriminate; (split; [cbn; auto|exact H]). }
  destruct Hc as [Hc Ho]. clear H. unfold analyse_other in Ho. inv_bind Ho. rename x into c.
  dif Ho; [discriminate|]. apply negb_false_iff in Heqb. cbv zeta in Ho.
  destruct (length (split_on c_y v) =? 1) eqn:E1y.
  - destruct (is_consonant l) eqn:Ecl; [discriminate|].
    destruct (check_zihevla_or_rafsi _ _ _ _ _ _ _) as [t'|e'] eqn:Ez; [|destruct e'; discriminate].
    injection Ho as <- <-. eapply acc_zihevla; try eassumption.
    apply Nat.eqb_eq in E1y. apply split_on_single. exact E1y.
  - eapply acc_compound; try eassumption.
    + apply Nat.eqb_neq in E1y. pose proof (split_on_nonnil c_y v). clear - E1y H. destruct (split_on c_y v) as [|? [|]]; cbn in *; try congruence; lia.
    + unfold analyse_compound in Ho. inv_bind Ho. dif Ho; [discriminate|]. inv_bind Ho. inv_bind Ho.
      destruct x1; [discriminate|]. injection Ho as <- <-. reflexivity.
Qed.
(** and conversely *)
Lemma analyse_nonempty : forall lk st w t ps, analyse_brivla lk st w = Ok (t, ps) -> w <> [].
Proof. intros lk st w t ps H ->. rewrite analyse_brivla_eq in H. discriminate. Qed.

Lemma analyse_spelling : forall lk st w w', w <> [] -> w' <> [] -> standard_spelling w = standard_spelling w' ->
  analyse_brivla lk st w = analyse_brivla lk st w'.
Proof.
  intros lk st w w' H H' E. rewrite !analyse_brivla_eq. unfold analyse_body.
  rewrite !normalise_ok by assumption. rewrite E. reflexivity.
Qed.

(** is_gismu *)
Lemma is_gismu_spec : forall mz v, is_gismu v mz = true <->
  (exists c1 v1 c2 c3 v2, v = [c1; v1; c2; c3; v2] /\ consonant c1 /\ vowel v1 /\ permissible mz c2 c3 /\ vowel v2)
  \/ (exists c1 c2 v1 c3 v2, v = [c1; c2; v1; c3; v2] /\ initial_pair c1 c2 /\ vowel v1 /\ consonant c3 /\ vowel v2).
Proof.
  intros mz v. split.
  - intro H. unfold is_gismu in H. destruct (is_gismu_shape v) eqn:E; [|discriminate]. cbn [negb] in H.
    unfold is_gismu_shape in E. destruct v as [|a [|b [|c [|d [|e [|]]]]]]; try discriminate.
    dif E; [discriminate|]. apply negb_false_iff, andb_t in Heqb0 as [Ha He]. apply andb_t in Ha as [Ha Hd].
    destruct (is_vowel b) eqn:Hb.
    + left. cbn in H. apply valid_pairs_spec in H. exists a, b, c, d, e.
      repeat split; try (apply is_consonant_spec; assumption); try (apply is_vowel_spec; assumption); apply H.
    + right. cbn in H. apply initial_spec in H. cbn [andb] in E. dif E; [|discriminate]. apply andb_t in Heqb0 as [Hb' Hc].
      exists a, b, c, d, e. repeat split; try (apply is_consonant_spec; assumption); try (apply is_vowel_spec; assumption); assumption.
  - intros [(a & b & c & d & e & -> & H1 & H2 & H3 & H4)|(a & b & c & d & e & -> & H1 & H2 & H3 & H4)]; bfacts.
    + unfold is_gismu, is_gismu_shape. use_facts. cbn. assumption.
    + unfold is_gismu, is_gismu_shape. use_facts. cbn. assumption.
Qed.
