(** The table of best words built by get_lujvo_from_list: every entry comes from
    choosing one form per component and joining them left to right. *)
From Verif Require Import Str Data Tarmi Rafsi Core Api Lib Spec Shapes.

(** Joining one chosen form per component, left to right; [n] is the number of
    components. *)
Inductive chain (gen : bool) (st : settings) (n : nat) : list (str * nat) -> cand -> Prop :=
| chain_two r0 n0 r1 n1 tos c :
    first_tos r0 gen = Ok tos ->
    combine r0 r1 n0 n1 (score r0) [(0, length (strip_hyphens r0))] tos gen n st = Ok (Some c) ->
    chain gen st n [(r0, n0); (r1, n1)] c
| chain_next l c r rc c' :
    chain gen st n l c ->
    combine (c_word c) r (c_cons c) rc (c_score c) (c_idx c) (c_tos c) gen 0 st = Ok (Some c') ->
    chain gen st n (l ++ [(r, rc)]) c'.

(** ** Folds *)
Lemma fold_res_inv : forall A B (P : A -> Prop) (f : A -> B -> res A) l a a',
  (forall a b a', In b l -> P a -> f a b = Ok a' -> P a') ->
  P a -> fold_res f l a = Ok a' -> P a'.
Proof.
  intros A B P f l. induction l as [|b l IH]; intros a a' H Ha E; cbn in E.
  - injection E as <-. assumption.
  - inv_bind E. eapply IH; [| |exact E].
    + intros. eapply H; [right|..]; eassumption.
    + eapply H; [left; reflexivity|..]; eassumption.
Qed.

(** ** Table operations *)
Lemma key_eqb_eq : forall a b, key_eqb a b = true <-> a = b.
Proof.
  intros [[a b] c] [[a' b'] c']. cbn. rewrite !andb_true_iff, !Nat.eqb_eq, N.eqb_eq.
  split; [intros [[-> ->] ->]; reflexivity|intro H; injection H as -> -> ->; auto].
Qed.
Lemma key_eqb_refl : forall a, key_eqb a a = true.
Proof. intro; apply key_eqb_eq; reflexivity. Qed.
Lemma tbl_set_In : forall k e t x, In x (tbl_set k e t) -> x = (k, e) \/ In x t.
Proof.
  induction t as [|[k' e'] t IH]; cbn; intros x H.
  - destruct H as [<-|[]]; auto.
  - destruct (key_eqb k k') eqn:E.
    + apply key_eqb_eq in E. subst. destruct H as [<-|H]; auto.
    + destruct H as [<-|H]; [auto|]. apply IH in H. tauto.
Qed.
Lemma tbl_get_In : forall k t e, tbl_get k t = Some e -> In (k, e) t.
Proof.
  induction t as [|[k' e'] t IH]; cbn; intros e H; [discriminate|].
  destruct (key_eqb k k') eqn:E.
  - apply key_eqb_eq in E. subst. injection H as ->. auto.
  - right. auto.
Qed.
Lemma tbl_iter_In : forall t x, In x (tbl_iter t) -> In x t.
Proof.
  intros t x H. unfold tbl_iter in H. apply in_flat_map in H as (a & _ & H).
  apply in_flat_map in H as (b & _ & H). apply filter_In in H. tauto.
Qed.

(** the table entry made from a joined word *)
Definition entry_of (c : cand) (ke : key * entry) : Prop :=
  exists l, last_opt (c_word c) = Some l
  /\ ke = ((c_tos c, c_cons c, l), (c_word c, c_score c, c_idx c)).

Lemma update_In : forall c t t' x, update_current_best c t = Ok t' -> In x t' ->
  In x t \/ exists c', c = Some c' /\ entry_of c' x.
Proof.
  intros [c|] t t' x H Hx; cbn in H; [|injection H as <-; auto].
  inv_bind H. unfold idx_last in E. destruct (last_opt (c_word c)) eqn:El; [|discriminate].
  injection E as ->.
  assert (G : In x (tbl_set (c_tos c, c_cons c, x0) (c_word c, c_score c, c_idx c) t) ->
     In x t \/ exists c', Some c = Some c' /\ entry_of c' x).
  { intro G. apply tbl_set_In in G as [->|G]; [|auto]. right. exists c. split; [reflexivity|].
    exists x0. auto. }
  destruct (tbl_get _ _) as [[[w s] ix]|].
  - destruct (s >? c_score c)%Z; injection H as <-; auto.
  - injection H as <-. auto.
Qed.

(** ** Soundness of the table *)
Definition sound (gen : bool) (st : settings) (n : nat) (rll : list (list (str * nat))) (t : table) : Prop :=
  forall x, In x t -> exists choice c, Forall2 (@In (str * nat)) choice rll /\ chain gen st n choice c /\ entry_of c x.

Lemma first_step_sound : forall gen st n l0 l1 t, first_step gen st n l0 l1 = Ok t -> sound gen st n [l0; l1] t.
Proof.
  intros gen st n l0 l1 t H. unfold first_step in H.
  eapply (fold_res_inv _ _ (sound gen st n [l0; l1])); [| |exact H].
  - intros a [r0 n0] a' H0 Ha E.
    eapply (fold_res_inv _ _ (sound gen st n [l0; l1])); [|exact Ha|exact E].
    intros b [r1 n1] b' H1 Hb F. inv_bind F. inv_bind F. intros y Hy.
    destruct (update_In _ _ _ _ F Hy) as [G|(c & -> & G)]; [auto|].
    exists [(r0, n0); (r1, n1)], c. split; [repeat constructor; assumption|].
    split; [econstructor; eassumption|assumption].
  - intros x [].
Qed.

Lemma next_step_sound : forall gen st n rll rl t t', sound gen st n rll t ->
  next_step gen st t rl = Ok t' -> sound gen st n (rll ++ [rl]) t'.
Proof.
  intros gen st n rll rl t t' Ht H. unfold next_step in H.
  eapply (fold_res_inv _ _ (sound gen st n (rll ++ [rl]))); [| |exact H].
  - intros a [r rc] a' H0 Ha E.
    eapply (fold_res_inv _ _ (sound gen st n (rll ++ [rl]))); [|exact Ha|exact E].
    intros b [[[tos k] ch] [[w sc] ix]] b' H1 Hb F. inv_bind F. intros y Hy.
    destruct (update_In _ _ _ _ F Hy) as [G|(c & -> & G)]; [auto|].
    apply tbl_iter_In in H1. destruct (Ht _ H1) as (ch0 & c0 & K1 & K2 & (l & K3 & K4)).
    injection K4 as -> -> -> -> -> ->.
    exists (ch0 ++ [(r, rc)]), c. split; [apply Forall2_app; [assumption|repeat constructor; assumption]|].
    split; [econstructor; eassumption|assumption].
  - intros x [].
Qed.

Lemma table_sound : forall gen st rll t, lujvo_table gen st rll = Ok t -> sound gen st (length rll) rll t.
Proof.
  intros gen st rll t H. unfold lujvo_table in H. inv_bind H. inv_bind H.
  destruct rll as [|l0 rll]; [discriminate|]. cbn in E. injection E as <-.
  assert (G : forall ls done t0, sound gen st (length (l0 :: rll)) done t0 ->
    fold_res (next_step gen st) ls t0 = Ok t -> sound gen st (length (l0 :: rll)) (done ++ ls) t).
  { induction ls as [|l ls IH]; intros done t0 Hs F; cbn in F.
    - injection F as <-. rewrite app_nil_r. assumption.
    - inv_bind F. change (l :: ls) with ([l] ++ ls). rewrite app_assoc. eapply IH; [|exact F].
      eapply next_step_sound; eassumption. }
  destruct l0 as [|f0 l0].
  - injection E0 as <-.
    assert (N : forall ls t0, fold_res (next_step gen st) ls [] = Ok t0 -> t0 = []).
    { induction ls as [|l ls IH]; intros t0 F; cbn in F; [injection F as <-; reflexivity|].
      inv_bind F. assert (x = []); [|subst; auto].
      unfold next_step in E. revert E. clear. 
      assert (K : forall rl acc, fold_res (fun t '(rafsi, rc) =>
        fold_res (fun t '((tos, k, _), (w, sc, ix)) =>
          c <- combine w rafsi k rc sc ix tos gen 0 st ;;
          update_current_best c t) (tbl_iter []) t) rl acc = Ok x -> x = acc).
      { induction rl as [|[r c] rl IH]; intros acc E; cbn in E; [injection E as ->; reflexivity|]. apply IH. exact E. }
      apply K. }
    apply N in H. subst. intros x [].
  - inv_bind E0. destruct rll as [|l1 rll]; [discriminate|]. cbn in E. injection E as <-.
    cbn [skipn] in H. apply (G rll [f0 :: l0; l1]) with (t0 := x0); [|exact H].
    apply first_step_sound. exact E0.
Qed.

Lemma pick_best_In : forall gen es best bs w sc ix, pick_best gen es best bs = Some (w, sc, ix) ->
  best = Some (w, sc, ix)
  \/ exists tos k l, In ((tos, k, l), (w, sc, ix)) es
     /\ (is_vowel l && negb gen) || (is_consonant l && gen) = true.
Proof.
  induction es as [|[[[tos k] l] [[w0 s0] i0]] es IH]; intros best bs w sc ix H; cbn [pick_best] in H; [auto|].
  dif H.
  - apply IH in H as [H|(tos' & k' & l' & H1 & H2)].
    + injection H as <- <- <-. right. exists tos, k, l. split; [left; reflexivity|].
      apply andb_t in Heqb. tauto.
    + right. exists tos', k', l'. split; [right; exact H1|exact H2].
  - apply IH in H as [H|(tos' & k' & l' & H1 & H2)]; [auto|].
    right. exists tos', k', l'. split; [right; exact H1|exact H2].
Qed.

(** jvozba.py:444-498 without the slinku'i test *)
Definition best_word (gen : bool) (st : settings) (rll : list (list (str * nat))) : res entry :=
  t <- lujvo_table gen st rll ;;
  match pick_best gen (tbl_bucket t 0 2) None BEST_INIT with
  | None => Err NoLujvoFoundError
  | Some e => Ok e
  end.

Lemma get_lujvo_from_list_eq : forall lk ana jvk l gen st,
  get_lujvo_from_list lk ana jvk l gen st =
  (rll <- get_rafsi_list_list ana jvk st l ;;
   let* '(w, sc, ix) := best_word gen st rll in
   if gen then Ok (w, sc, ix)
   else match lk with
        | Unbound => Err NameError
        | Bound => b <- Core.is_slinkuhi jvk (y_hyphens st) (allow_mz st) w ;;
                   if b : bool then Err NoLujvoFoundError else Ok (w, sc, ix)
        end).
Proof.
  intros. unfold get_lujvo_from_list, best_word. destruct (get_rafsi_list_list _ _ _ _) as [rll|]; [|reflexivity].
  cbn [bind]. destruct (lujvo_table _ _ _) as [t|]; [|reflexivity]. cbn [bind].
  destruct (pick_best _ _ _ _) as [[[w sc] ix]|]; reflexivity.
Qed.

Lemma best_word_chain : forall gen st rll w sc ix, best_word gen st rll = Ok (w, sc, ix) ->
  exists choice c l, Forall2 (@In (str * nat)) choice rll /\ chain gen st (length rll) choice c
  /\ c_word c = w /\ c_score c = sc /\ c_idx c = ix /\ c_tos c = 0 /\ c_cons c = 2
  /\ last_opt w = Some l /\ (if gen then is_consonant l = true else is_vowel l = true).
Proof.
  intros gen st rll w sc ix H. unfold best_word in H. inv_bind H. apply table_sound in E.
  destruct (pick_best _ _ _ _) as [e|] eqn:F; [|discriminate]. injection H as ->.
  apply pick_best_In in F as [F|(tos & k & l & F1 & F2)]; [discriminate|].
  unfold tbl_bucket in F1. apply filter_In in F1 as [F1 F3]. cbn in F3. apply andb_t in F3 as [F3 F4].
  apply Nat.eqb_eq in F3, F4. subst tos k.
  destruct (E _ F1) as (ch & c & K1 & K2 & (l' & K3 & K4)). injection K4 as K5 K6 -> -> -> ->.
  exists ch, c, l'. repeat (split; [auto|]).
  destruct gen; rewrite ?andb_true_r, ?andb_false_r, ?orb_false_r, ?orb_false_l in F2; cbn in F2; exact F2.
Qed.

(** ** Shape of one join *)
Lemma combine_word : forall w r wc rc sc ix tos gen n st c,
  combine w r wc rc sc ix tos gen n st = Ok (Some c) ->
  exists hyphen i, w <> [] /\ r <> [] /\ c_word c = w ++ hyphen ++ r
  /\ glue w r (tarmi_ignoring_hyphen r) gen n (y_hyphens st) (last w 0%N) (hd 0%N r) = Some hyphen
  /\ next_tosmabru tos r (tarmi_ignoring_hyphen r) (last w 0%N) (hd 0%N r) = Some (c_tos c)
  /\ c_score c = (sc + score hyphen + score r - tiebreak (w ++ hyphen ++ r))%Z
  /\ i = length w + length hyphen + (if N.eqb (hd 0%N r) c_h then 1 else 0)
  /\ c_idx c = ix ++ [(i, i + length (strip_hyphens r))]
  /\ next_consonants w r hyphen wc rc (consonants st) (glides st) = Ok (c_cons c)
  /\ (is_consonant (last w 0%N) && is_consonant (hd 0%N r) = true ->
      mems [last w 0%N; hd 0%N r] (valid_pairs (allow_mz st)) = true)
  /\ (hd 0%N r = c_h -> is_hy (last w 0%N) = true)
  /\ mems (last w 0%N :: firstn 2 r) BANNED_TRIPLES = false
  /\ (is_hy (last w 0%N) = true \/ tarmi_ignoring_hyphen r <> OTHER_RAFSI)
  /\ ix <> [].
Proof.
  intros w r wc rc sc ix tos gen n st c H. unfold combine in H. cbv zeta in H.
  inv_bind H. inv_bind H. rename x into ll, x0 into r0.
  apply idx_last_ok in E as [w' ->]. apply idx0_ok in E0 as [r' ->].
  dif H; [discriminate|]. dif H; [discriminate|]. dif H; [discriminate|]. dif H; [discriminate|].
  inv_bind H. dif H; [discriminate|]. dif H; [|discriminate]. rename s into hyphen. dif H; [|discriminate].
  inv_bind H. injection H as <-. cbn [c_word c_tos c_score c_idx c_cons hd].
  exists hyphen, (length (w' ++ [ll]) + length hyphen + (if N.eqb r0 c_h then 1 else 0)).
  rewrite !last_last. rewrite Heqo0, Heqo.
  split; [destruct w'; discriminate|]. split; [discriminate|].
  repeat (split; [reflexivity|]). split; [exact E0|].
  split. { intro G. rewrite G in Heqb. cbn [andb] in Heqb. apply negb_false_iff in Heqb. exact Heqb. }
  split. { intros ->. destruct (is_hy ll); [reflexivity|]. cbn in Heqb0. discriminate. }
  split; [exact Heqb1|].
  split. { destruct (is_hy ll); [auto|]. right. intro G. rewrite G in Heqb2. discriminate. }
  apply idx_last_ok in E as [ix0 ->]. destruct ix0; discriminate.
Qed.

Lemma chain_prefix : forall gen st n choice c, chain gen st n choice c ->
  exists r0 n0 rest u, choice = (r0, n0) :: rest /\ c_word c = r0 ++ u /\ r0 <> [].
Proof.
  induction 1 as [r0 n0 r1 n1 tos c H1 H2 | l c r rc c' Hc IH H].
  - apply combine_word in H2 as (hy & i & G1 & G2 & G3 & _). exists r0, n0, [(r1, n1)], (hy ++ r1). auto.
  - destruct IH as (r0 & n0 & rest & u & -> & E2 & E3).
    apply combine_word in H as (hy & i & G1 & G2 & G3 & _). rewrite E2, <- app_assoc in G3.
    exists r0, n0, (rest ++ [(r, rc)]), (u ++ hy ++ r). auto.
Qed.
Lemma chain_length : forall gen st n choice c, chain gen st n choice c -> 2 <= length choice.
Proof. induction 1; [cbn; lia|]. rewrite app_length. cbn. lia. Qed.
