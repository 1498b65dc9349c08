(** Small properties: index ranges, word types, white space, option enumeration,
    vowel runs. *)
From Verif Require Import Str Data Tarmi Rafsi Core Api Lib Spec Shapes Decomp.

(** ** get_rafsi_indices *)
Lemma hyphens_spec : forall p, mems p HYPHENS = is_hyphen p.
Proof.
  intro p. unfold is_hyphen. destruct (in_dec _ _ _) as [H|H].
  - apply mems_In. cbn in H |- *. tauto.
  - destruct (mems p HYPHENS) eqn:E; [|reflexivity]. apply mems_In in E. exfalso. apply H. cbn in E |- *. tauto.
Qed.

Lemma substring_mid : forall a p b, substring (a ++ p ++ b) (length a, length a + length p) = p.
Proof.
  intros. unfold substring. cbn [fst snd]. replace (length a + length p - length a) with (length p) by lia.
  rewrite skipn_app, skipn_all, Nat.sub_diag. cbn [skipn app].
  rewrite firstn_app, firstn_all, Nat.sub_diag. cbn. apply app_nil_r.
Qed.

Lemma rafsi_indices_loop_spec : forall ps pre,
  map (substring (pre ++ concat ps)) (rafsi_indices_loop (length pre) ps)
    = filter (fun p => negb (is_hyphen p)) ps
  /\ ranges (length pre) (length (pre ++ concat ps)) (rafsi_indices_loop (length pre) ps).
Proof.
  induction ps as [|p ps IH]; intro pre.
  - cbn. rewrite app_nil_r. split; [reflexivity|lia].
  - cbn [rafsi_indices_loop concat filter]. rewrite hyphens_spec.
    specialize (IH (pre ++ p)). rewrite <- app_assoc, app_length in IH. destruct IH as [IH1 IH2].
    destruct (is_hyphen p); cbn [negb app].
    + split; [exact IH1|].
      set (l := rafsi_indices_loop (length pre + length p) ps) in *. clearbody l.
      destruct l as [|[i j] l]; cbn [ranges] in *; [lia | intuition lia].
    + cbn [map]. rewrite substring_mid, IH1. split; [reflexivity|].
      cbn [ranges]. split; [lia|]. split; [lia|]. exact IH2.
Qed.

Lemma rafsi_indices_spec : forall ps,
  map (substring (concat ps)) (get_rafsi_indices ps) = filter (fun p => negb (is_hyphen p)) ps
  /\ ranges 0 (length (concat ps)) (get_rafsi_indices ps).
Proof. intro ps. exact (rafsi_indices_loop_spec ps []). Qed.

(** ** Word types *)
Lemma analyse_type : forall lk f st w t ps,
  analyse lk f st w = Ok (t, ps) ->
  (t = CMEVLA /\ ends_in consonant (standard_spelling w))
  \/ (In t [GISMU; ZIhEVLA; LUJVO; EXTENDED_LUJVO] /\ ends_in vowel (standard_spelling w)).
Proof.
  intros lk [|f] st w t ps H; [discriminate|]. cbn [analyse] in H. unfold analyse_body in H.
  inv_bind H. apply normalise_spec in E. subst x. set (v := standard_spelling w) in *. clearbody v.
  destruct (last_opt v) as [l|] eqn:El; [|discriminate].
  apply last_opt_some in El as [s ->].
  assert (Ht : match t with CMEVLA => is_consonant l = true | RAFSI => False
               | _ => is_consonant l = false end /\ (is_consonant l = true \/ is_vowel l = true)).
  { destruct (is_consonant l) eqn:Ec.
    - cbn [negb andb] in H. dif H; [discriminate|]. split; [|auto].
      destruct (jvokaha _ _ _ _ _ _ _) as [r|e]; [injection H as <- _; reflexivity|].
      assert (H' : analyse_other (analyse lk f) (jvokaha lk f) st true (s ++ [l]) = Ok (t, ps))
        by (destruct e; try discriminate; exact H).
      unfold analyse_other in H'. inv_bind H'. dif H'; [discriminate|]. cbv zeta in H'. dif H'; [discriminate|].
      unfold analyse_compound in H'. inv_bind H'. dif H'; [discriminate|].
      inv_bind H'. inv_bind H'. dif H'; [discriminate|]. injection H' as <- _. reflexivity.
    - cbn [negb andb] in H. destruct (is_vowel l) eqn:Ev; [|discriminate]. cbn [negb] in H.
      split; [|auto].
      dif H. { injection H as <- _. reflexivity. }
      destruct (jvokaha _ _ _ _ _ _ _) as [r|e]; [injection H as <- _; reflexivity|].
      assert (H' : analyse_other (analyse lk f) (jvokaha lk f) st false (s ++ [l]) = Ok (t, ps))
        by (destruct e; try discriminate; exact H).
      unfold analyse_other in H'. inv_bind H'. dif H'; [discriminate|]. cbv zeta in H'. dif H'.
      + destruct (check_zihevla_or_rafsi _ _ _ _ _ _ _) as [?|[]]; try discriminate.
        injection H' as <- _. reflexivity.
      + unfold analyse_compound in H'. inv_bind H'. dif H'; [discriminate|].
        inv_bind H'. inv_bind H'. dif H'; [discriminate|]. injection H' as <- _. reflexivity. }
  destruct Ht as [Ht1 Ht2].
  destruct t; try contradiction; try (left; split; [reflexivity|]; exists s, l; split; [reflexivity|];
    apply is_consonant_spec; assumption);
  right; (split; [cbn; tauto|]); exists s, l; (split; [reflexivity|]); apply is_vowel_spec; destruct Ht2; congruence.
Qed.

(** ** White space *)
Lemma split_ws_spaces : forall sep s, Forall (fun c => is_space c = true) sep ->
  split_ws_aux [] (sep ++ s) = split_ws_aux [] s.
Proof.
  induction sep as [|c sep IH]; intros s H; [reflexivity|]. inversion H; subst.
  cbn [app split_ws_aux]. rewrite H2. apply IH. assumption.
Qed.
Lemma split_ws_word : forall w cur s, Forall (fun c => ~ is_space c = true) w ->
  split_ws_aux cur (w ++ s) = split_ws_aux (rev w ++ cur) s.
Proof.
  induction w as [|c w IH]; intros cur s H; [reflexivity|]. inversion H; subst.
  cbn [app split_ws_aux]. destruct (is_space c); [congruence|]. rewrite IH by assumption.
  cbn [rev]. rewrite <- app_assoc. reflexivity.
Qed.
Lemma split_ws_spaced : forall ws s, spaced (fun c => is_space c = true) ws s -> split_ws s = ws.
Proof.
  unfold split_ws. induction 1 as [s H | sep w ws rest H1 H2 H3 H4 IH H5].
  - rewrite <- (app_nil_r s). rewrite split_ws_spaces by assumption. reflexivity.
  - rewrite split_ws_spaces, split_ws_word by assumption. rewrite app_nil_r.
    destruct H5 as [->|[c [r [-> Hc]]]].
    + cbn in IH. subst ws. cbn. destruct (rev w) eqn:E.
      * apply (f_equal (@rev _)) in E. rewrite rev_involutive in E. contradiction.
      * rewrite <- E, rev_involutive. reflexivity.
    + cbn [split_ws_aux] in IH |- *. rewrite Hc in IH |- *. rewrite IH.
      destruct (rev w) eqn:E.
      * apply (f_equal (@rev _)) in E. rewrite rev_involutive in E. contradiction.
      * rewrite <- E, rev_involutive. reflexivity.
Qed.

Lemma get_lujvo_fst : forall lk gen st t,
  get_lujvo lk gen st t =
  match get_lujvo_with_analytics lk gen st t with Ok (w, _, _) => Ok w | Err e => Err e end.
Proof.
  intros. unfold get_lujvo, get_lujvo_with_analytics.
  destruct (process_tanru t); [|reflexivity]. cbn [bind].
  destruct (lujvo_from_list _ _ _ _) as [[[? ?] ?]|]; reflexivity.
Qed.

(** ** The settings iterator *)
Section iterator.
Context {A : Type}.

Definition product (ss : list (list A)) : nat := fold_right (fun s n => length s * n) 1 ss.

Lemma possibilities_product : forall ss, possibilities ss = product ss.
Proof.
  intro ss. unfold possibilities.
  assert (G : forall n, fold_left (fun acc (s : list A) => acc * length s) ss n = n * product ss).
  { induction ss as [|s ss IH]; intro n; cbn [fold_left product fold_right]; [lia|].
    fold (product ss). rewrite IH. nia. }
  rewrite G. lia.
Qed.

Lemma settings_item_div : forall ss i base n, base <> 0 -> n <> 0 ->
  settings_item ss i (base * n) = settings_item (A := A) ss (i / n) base.
Proof.
  induction ss as [|s ss IH]; intros i base n Hb Hn; [reflexivity|].
  cbn [settings_item].
  rewrite (Nat.mul_comm base n), <- Nat.div_div by assumption. f_equal.
  rewrite (Nat.mul_comm n base), <- Nat.mul_assoc, (Nat.mul_comm n), Nat.mul_assoc.
  destruct (Nat.eq_dec (length s) 0) as [E|E].
  - rewrite E, Nat.mul_0_r, Nat.mul_0_l. clear IH.
    revert i n Hn. induction ss as [|s' ss IH]; intros i n Hn; [reflexivity|]. cbn [settings_item Nat.div].
    cbn. f_equal. apply IH; assumption.
  - apply IH; nia.
Qed.

Lemma settings_item_cons : forall s ss i, length s <> 0 ->
  settings_item (s :: ss) i 1 = nth_error s (i mod length s) :: settings_item (A := A) ss (i / length s) 1.
Proof.
  intros. cbn [settings_item]. rewrite Nat.div_1_r. f_equal. apply settings_item_div; lia.
Qed.

Lemma settings_item_some : forall ss i, i < product ss ->
  exists v, settings_item ss i 1 = map Some v /\ Forall2 (@In A) v ss.
Proof.
  induction ss as [|s ss IH]; intros i Hi; [exists []; repeat constructor|].
  cbn [product fold_right] in Hi.
  assert (Hs : length s <> 0) by (intro E; rewrite E in Hi; lia).
  rewrite settings_item_cons by assumption.
  assert (Hq : i / length s < product ss) by (apply Nat.div_lt_upper_bound; [lia|exact Hi]).
  destruct (IH _ Hq) as [v [E1 E2]].
  assert (Hr : i mod length s < length s) by (apply Nat.mod_upper_bound; lia).
  destruct (nth_error s (i mod length s)) as [x|] eqn:Ex.
  - exists (x :: v). rewrite E1. split; [reflexivity|]. constructor; [|assumption].
    eapply nth_error_In; eassumption.
  - apply nth_error_None in Ex. lia.
Qed.

Lemma settings_item_onto : forall ss v, Forall2 (@In A) v ss ->
  exists i, i < product ss /\ settings_item ss i 1 = map Some v.
Proof.
  induction 1 as [|x s v ss Hx Hv [q [Hq E]]].
  - exists 0. cbn. split; [lia|reflexivity].
  - apply In_nth_error in Hx as [r Hr].
    assert (r < length s) by (apply nth_error_Some; congruence).
    exists (length s * q + r). cbn [product fold_right].
    fold (product ss). split; [nia|].
    rewrite settings_item_cons by lia.
    rewrite Nat.add_comm, (Nat.mul_comm (length s)), Nat.mod_add, Nat.mod_small by lia.
    rewrite Nat.div_add, Nat.div_small by lia. cbn. rewrite E, Hr. reflexivity.
Qed.

Lemma settings_item_inj : forall ss i j, Forall (@NoDup A) ss -> i < product ss -> j < product ss ->
  settings_item ss i 1 = settings_item ss j 1 -> i = j.
Proof.
  induction ss as [|s ss IH]; intros i j Hd Hi Hj E; [cbn in *; lia|].
  inversion Hd; subst. cbn [product fold_right] in Hi, Hj. fold (product ss) in *.
  assert (Hs : length s <> 0) by (intro F; rewrite F in Hi; lia).
  rewrite !settings_item_cons in E by assumption. injection E as E1 E2.
  apply IH in E2; [|assumption|apply Nat.div_lt_upper_bound; lia|apply Nat.div_lt_upper_bound; lia].
  assert (Er : i mod length s = j mod length s).
  { eapply NoDup_nth_error; [eassumption|apply Nat.mod_upper_bound; assumption|exact E1]. }
  rewrite (Nat.div_mod i (length s)), (Nat.div_mod j (length s)) by assumption. congruence.
Qed.

Lemma settings_iter_spec : forall ss, exists l,
  settings_iter ss = map (map Some) l
  /\ length l = product ss
  /\ (forall v, In v l <-> Forall2 (@In A) v ss)
  /\ (Forall (@NoDup A) ss -> NoDup l).
Proof.
  intro ss. unfold settings_iter. rewrite possibilities_product.
  assert (G : forall k n, k + n <= product ss -> exists l,
    map (fun i => settings_item ss i 1) (seq k n) = map (map Some) l).
  { intros k n. revert k. induction n as [|n IH]; intros k Hk; [exists []; reflexivity|].
    destruct (settings_item_some ss k) as [v [E _]]; [lia|].
    destruct (IH (S k)) as [l El]; [lia|]. exists (v :: l). cbn. congruence. }
  destruct (G 0 (product ss)) as [l El]; [lia|]. exists l.
  assert (inj : forall a b : list A, map Some a = map Some b -> a = b).
  { induction a as [|x a IH]; destruct b; cbn; intro H; try discriminate; [reflexivity|].
    injection H as -> H. f_equal; auto. }
  split; [assumption|]. split; [|split].
  - apply (f_equal (@length _)) in El. rewrite !map_length, seq_length in El. congruence.
  - intro v. split.
    + intro Hv. apply (in_map (map Some)) in Hv. rewrite <- El in Hv. apply in_map_iff in Hv as [i [E Hi]].
      apply in_seq in Hi. destruct (settings_item_some ss i) as [v' [E' Hv']]; [lia|].
      rewrite E' in E. apply inj in E. subst; assumption.
    + intro Hv. destruct (settings_item_onto ss v Hv) as [i [Hi E]].
      assert (In (map Some v) (map (map Some) l)).
      { rewrite <- El, <- E. apply in_map_iff. exists i. split; [reflexivity|]. apply in_seq. lia. }
      apply in_map_iff in H as [v' [E' H]]. apply inj in E'. subst; assumption.
  - intro Hd. apply (NoDup_map_inv (map Some)). rewrite <- El.
    assert (F : forall l', NoDup l' -> (forall i, In i l' -> i < product ss) ->
        NoDup (map (fun i => settings_item ss i 1) l')).
    { induction 1 as [|a l' Ha Hl IH]; intro Hb; cbn; constructor.
      - intro Hi. apply in_map_iff in Hi as [j [E Hj]]. apply settings_item_inj in E; try assumption.
        + subst; contradiction.
        + apply Hb; right; assumption.
        + apply Hb; left; reflexivity.
      - apply IH. intros; apply Hb; right; assumption. }
    apply F; [apply seq_NoDup|]. intros i Hi. apply in_seq in Hi. lia.
Qed.
End iterator.
