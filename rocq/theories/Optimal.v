(** The table search of jvozba.py:422-498 loses nothing: every way of choosing one
    form per component and joining them is matched by a table entry of no higher
    score. *)
From Verif Require Import Str Data Tarmi Rafsi Core Api Lib Spec Shapes Decomp Basic Vowels Katna Dict Errs Builder Jvokaha Fuel Raises Inv Parts Clusters Zihevla Forms Chain.

(** ** Table entries only get better *)
Definition covered (t : table) (k : key) (s : Z) : Prop :=
  exists w s' ix, tbl_get k t = Some (w, s', ix) /\ (s' <= s)%Z.

Lemma tbl_get_set : forall k k' e t, tbl_get k (tbl_set k' e t) = if key_eqb k k' then Some e else tbl_get k t.
Proof.
  induction t as [|[k0 e0] t IH]; cbn.
  - reflexivity.
  - destruct (key_eqb k' k0) eqn:E; cbn.
    + apply key_eqb_eq in E. subst k0. destruct (key_eqb k k'); reflexivity.
    + destruct (key_eqb k k0) eqn:E0; [|exact IH]. destruct (key_eqb k k') eqn:E1; [|reflexivity].
      apply key_eqb_eq in E0, E1. subst. rewrite key_eqb_refl in E. discriminate.
Qed.

Lemma update_mono : forall c t t' k s, update_current_best c t = Ok t' -> covered t k s -> covered t' k s.
Proof.
  intros [c|] t t' k s H (w & s0 & ix & G & L); cbn in H; [|injection H as <-; exists w, s0, ix; auto].
  inv_bind H. set (k' := (c_tos c, c_cons c, x)) in *.
  destruct (tbl_get k' t) as [[[w1 s1] i1]|] eqn:Ek.
  - destruct (s1 >? c_score c)%Z eqn:Es; injection H as <-; [|exists w, s0, ix; auto].
    unfold covered. rewrite tbl_get_set. destruct (key_eqb k k') eqn:E1; [|exists w, s0, ix; auto].
    apply key_eqb_eq in E1. subst k. rewrite Ek in G. injection G as <- <- <-.
    do 3 eexists. split; [reflexivity|]. apply Z.gtb_lt in Es. lia.
  - injection H as <-. unfold covered. rewrite tbl_get_set. destruct (key_eqb k k') eqn:E1; [|exists w, s0, ix; auto].
    apply key_eqb_eq in E1. subst k. congruence.
Qed.

Lemma update_covers : forall c t t' l, update_current_best (Some c) t = Ok t' -> last_opt (c_word c) = Some l ->
  covered t' (c_tos c, c_cons c, l) (c_score c).
Proof.
  intros c t t' l H Hl. cbn in H. inv_bind H. unfold idx_last in E. rewrite Hl in E. injection E as <-.
  set (k := (c_tos c, c_cons c, l)) in *.
  destruct (tbl_get k t) as [[[w1 s1] i1]|] eqn:Ek.
  - destruct (s1 >? c_score c)%Z eqn:Es; injection H as <-.
    + unfold covered. rewrite tbl_get_set, key_eqb_refl. do 3 eexists. split; [reflexivity|]. lia.
    + exists w1, s1, i1. split; [exact Ek|]. rewrite Z.gtb_ltb in Es. apply Z.ltb_ge in Es. lia.
  - injection H as <-. unfold covered. rewrite tbl_get_set, key_eqb_refl. do 3 eexists. split; [reflexivity|]. lia.
Qed.

Lemma fold_res_reach : forall A B (Q : A -> Prop) (f : A -> B -> res A) l a a' b,
  (forall a b a', In b l -> Q a -> f a b = Ok a' -> Q a') ->
  In b l -> (forall a a', f a b = Ok a' -> Q a') -> fold_res f l a = Ok a' -> Q a'.
Proof.
  intros A B Q f l. induction l as [|x l IH]; intros a a' b Hm Hin Hb E; [destruct Hin|]. cbn in E. inv_bind E. rename x0 into a1.
  destruct Hin as [->|Hin].
  - eapply fold_res_inv; [| |exact E].
    + intros a0 b0 a0' H1. apply Hm. right. exact H1.
    + eapply Hb. exact E0.
  - eapply IH; [|exact Hin|exact Hb|exact E]. intros a0 b0 a0' H1. apply Hm. right. exact H1.
Qed.

(** ** Joining to a long word depends only on the key *)
Lemma tarmi_long : forall s, 6 <= length s -> rafsi_tarmi s = OTHER_RAFSI.
Proof.
  intros s H. destruct s as [|a [|b [|c [|d [|e [|f s]]]]]]; cbn [length] in H; try lia.
  unfold rafsi_tarmi. destruct (str_eqb _ _) eqn:E; [apply str_eqb_eq in E; discriminate|]. cbn [length].
  destruct (_ && _); reflexivity.
Qed.
Lemma tiebreak_long : forall w, 9 <= length w -> tiebreak w = 0%Z.
Proof.
  intros w H. unfold tiebreak. rewrite (tarmi_long (skipn 3 w)) by (rewrite skipn_length; lia).
  rewrite andb_false_r. reflexivity.
Qed.
Lemma glue_long : forall w w' r t gen n yh ll r0, 6 <= length w -> 6 <= length w' ->
  glue w r t gen n yh ll r0 = glue w' r t gen n yh ll r0.
Proof.
  intros w w' r t gen n yh ll r0 H H'. unfold glue.
  replace (length w =? 5) with false by (symmetry; apply Nat.eqb_neq; lia).
  replace (length w' =? 5) with false by (symmetry; apply Nat.eqb_neq; lia).
  replace (length w <=? 5) with false by (symmetry; apply Nat.leb_gt; lia).
  replace (length w' <=? 5) with false by (symmetry; apply Nat.leb_gt; lia). reflexivity.
Qed.
Lemma last_sound_app : forall w f c, last_sound f = Ok c -> last_sound (w ++ f) = Ok c.
Proof.
  intros w f c H. unfold last_sound in *. rewrite rev_app_distr.
  assert (G : forall s, drop_while is_hy s <> [] -> drop_while is_hy (s ++ rev w) = drop_while is_hy s ++ rev w).
  { induction s as [|x s IH]; cbn; intro Hn; [congruence|]. destruct (is_hy x); [auto|reflexivity]. }
  rewrite G; [|intro K; rewrite K in H; discriminate].
  destruct (drop_while is_hy (rev f)); [discriminate|exact H].
Qed.

(** a form of a component, exp_rafsi_shapes off *)
Definition fine (cs : cset) (x : str * nat) : Prop :=
  3 <= length (fst x) /\ (exists v s, last_sound (fst x) = Ok v /\ first_sound (fst x) = Ok s)
  /\ (cs = CLUSTER -> snd x = 2 \/ exists v, last_sound (fst x) = Ok v /\ is_vowel v = true).
(** a word joined so far *)
Definition mellow (cs : cset) (w : str) (k : nat) : Prop :=
  cs = CLUSTER -> k = 2 \/ exists v, last_sound w = Ok v /\ is_vowel v = true.

Lemma next_cons_le : forall w r h k rc cs gl m, next_consonants w r h k rc cs gl = Ok m -> m <= 2.
Proof. intros w r h k rc cs gl m H. unfold next_consonants in H. inv_bind H. cbv zeta in H. injection H as <-. destruct (_ && _); [|destruct (k + x) as [|[|]]]; lia. Qed.
Lemma next_cons_mellow : forall w r h k rc cs gl m, next_consonants w r h k rc cs gl = Ok m -> fine cs (r, rc) -> mellow cs (w ++ h ++ r) m.
Proof.
  intros w r h k rc cs gl m H (_ & _ & F) ->. specialize (F eq_refl). cbn [fst snd] in F. unfold next_consonants in H. inv_bind H. cbv zeta in H. injection H as <-.
  destruct F as [->|(v & Hv & Hv')].
  - left. destruct (_ || _) in E; [injection E as <-|cbn in E; injection E as <-]; cbn [cset_eqb andb]; destruct k; cbn; rewrite ?Nat.add_succ_r; reflexivity.
  - right. exists v. split; [|exact Hv']. rewrite app_assoc. apply last_sound_app. exact Hv.
Qed.

Lemma next_cons_exchange : forall w w' r h k rc cs gl m, mellow cs w k -> mellow cs w' k ->
  next_consonants w r h k rc cs gl = Ok m -> next_consonants w' r h k rc cs gl = Ok m \/ exists e, next_consonants w' r h k rc cs gl = Err e.
Proof.
  intros w w' r h k rc cs gl m M M' H. unfold next_consonants in *.
  destruct (_ || _) eqn:Eh; [left; exact H|]. destruct (cset_eqb cs CLUSTER) eqn:Ec; [|left; exact H].
  assert (Ecs : cs = CLUSTER) by (destruct cs; first [reflexivity|discriminate]).
  destruct (negb (rc =? 2)) eqn:Er; [|left; exact H].
  destruct (last_sound w') as [l'|e'] eqn:El'; [|right; eexists; reflexivity].
  inv_bind H. inv_bind E. rename x0 into l. inv_bind E. rename x0 into rr. injection E as <-. injection H as <-. left. cbn [bind]. rewrite E1. cbn [bind].
  subst cs. specialize (M eq_refl). specialize (M' eq_refl). cbn [cset_eqb andb bind].
  destruct M as [->|(v & V1 & V2)]; [reflexivity|]. destruct M' as [->|(v' & V1' & V2')]; [reflexivity|].
  rewrite El' in V1'. injection V1' as <-. rewrite V1 in E0. injection E0 as <-.
  rewrite (v_f0 _ V2), (v_f0 _ V2'). reflexivity.
Qed.

Lemma combine_exchange : forall w w' r k rc sc sc' ix ix' tos gen st d o,
  6 <= length w -> 6 <= length w' -> 3 <= length r -> last_opt w = last_opt w' ->
  mellow (consonants st) w k -> mellow (consonants st) w' k ->
  combine w r k rc sc ix tos gen 0 st = Ok (Some d) -> combine w' r k rc sc' ix' tos gen 0 st = Ok o ->
  exists d', o = Some d' /\ c_tos d' = c_tos d /\ c_cons d' = c_cons d /\ last_opt (c_word d') = last_opt (c_word d)
    /\ (c_score d' - sc' = c_score d - sc)%Z.
Proof.
  intros w w' r k rc sc sc' ix ix' tos gen st d o H6 H6' H3 Hl M M' H H'.
  unfold combine in H, H'. cbv zeta in H, H'. unfold idx_last in H at 1, H' at 1. rewrite <- Hl in H'.
  destruct (last_opt w) as [ll|]; [|discriminate]. cbn [bind] in H, H'.
  destruct (idx r 0) as [r0|] eqn:Er0; [|discriminate]. cbn [bind] in H, H'.
  dif H; [discriminate|]. dif H; [discriminate|]. dif H; [discriminate|]. dif H; [discriminate|].
  inv_bind H. inv_bind H'.
  assert (S0 : forall (p : nat * nat) (u : str), slice (fst p) (fst p) u = []).
  { intros p u. unfold slice. rewrite Nat.sub_diag. reflexivity. }
  rewrite !S0 in *. 
  dif H; [discriminate|].
  rewrite (glue_long w' w) in H' by assumption.
  destruct (glue w r _ _ _ _ _ _) as [h|]; [|discriminate].
  destruct (next_tosmabru _ _ _ _ _) as [tos'|]; [|discriminate].
  inv_bind H. inv_bind H'. rename x1 into m, x2 into m'.
  destruct (next_cons_exchange _ _ _ _ _ _ _ _ _ M M' E1) as [G|[e G]]; [|congruence].
  rewrite G in E2. injection E2 as <-. injection H as <-. injection H' as <-.
  eexists. split; [reflexivity|]. cbn [c_tos c_cons c_word c_score]. split; [reflexivity|]. split; [reflexivity|]. split.
  - assert (r <> []) by (clear -H3; intros ->; inversion H3). clear -H. rewrite !app_assoc, !last_opt_app_ne by assumption. reflexivity.
  - clear -H6 H6' H3. rewrite !tiebreak_long by (rewrite !app_length; lia). lia.
Qed.

(** ** What holds of every joined word *)
Record ripe (cs : cset) (c : cand) : Prop := {
  r_tos : c_tos c <= 2; r_cons : c_cons c <= 2; r_len : 6 <= length (c_word c); r_mellow : mellow cs (c_word c) (c_cons c) }.

Lemma combine_ripe : forall w r k rc sc ix tos gen n st c, tos <= 2 -> 3 <= length w -> fine (consonants st) (r, rc) ->
  combine w r k rc sc ix tos gen n st = Ok (Some c) -> ripe (consonants st) c.
Proof.
  intros w r k rc sc ix tos gen n st c Ht Hw Hf H.
  apply combine_word in H as (h & i & _ & _ & Ew & _ & Et & _ & _ & _ & Ec & _).
  split.
  - unfold next_tosmabru in Et. unfold TOSMABRU, TOSYNONE, TOSYhUhU in Et.
    repeat match type of Et with
    | (if ?b then _ else _) = _ => destruct b
    | match ?o with Some _ => _ | None => _ end = _ => destruct o
    end; try discriminate; injection Et as <-; lia.
  - eapply next_cons_le. exact Ec.
  - rewrite Ew, !app_length. destruct Hf as [Hf _]. cbn [fst] in Hf. lia.
  - rewrite Ew. eapply next_cons_mellow; eassumption.
Qed.

Lemma first_tos_le : forall r gen tos, first_tos r gen = Ok tos -> tos <= 2.
Proof.
  intros r gen tos H. unfold first_tos in H. dif H; [injection H as <-; unfold TOSYNONE; lia|]. inv_bind H.
  destruct (N.eqb _ _) in H; injection H as <-; unfold TOSYhUhU, TOSMABRU; lia.
Qed.

Lemma chain_ripe : forall gen st n choice c, chain gen st n choice c -> Forall (fine (consonants st)) choice -> ripe (consonants st) c.
Proof.
  induction 1 as [r0 n0 r1 n1 tos c H1 H2|l c r rc c' Hc IH H]; intros F.
  - inversion F as [|? ? F0 F1]; subst. inversion F1 as [|? ? F2 _]; subst.
    eapply combine_ripe; [eapply first_tos_le; exact H1| |exact F2|exact H2]. apply F0.
  - apply Forall_app in F as [F0 F1]. inversion F1 as [|? ? F2 _]; subst. specialize (IH F0). destruct IH as [I1 I2 I3 I4].
    eapply combine_ripe; [exact I1| |exact F2|exact H]. lia.
Qed.

(** ** The table covers every chain *)
Definition covers (gen : bool) (st : settings) (n : nat) (rll : list (list (str * nat))) (t : table) : Prop :=
  forall choice c l, Forall2 (@In (str * nat)) choice rll -> chain gen st n choice c -> last_opt (c_word c) = Some l ->
  covered t (c_tos c, c_cons c, l) (c_score c).

Lemma chain_two_inv : forall gen st n x y c, chain gen st n [x; y] c ->
  exists tos, first_tos (fst x) gen = Ok tos
  /\ combine (fst x) (fst y) (snd x) (snd y) (score (fst x)) [(0, length (strip_hyphens (fst x)))] tos gen n st = Ok (Some c).
Proof.
  intros gen st n x y c H. remember [x; y] as l eqn:E. destruct H as [r0 n0 r1 n1 tos c H1 H2|l c r rc c' Hc H].
  - injection E as <- <-. eauto.
  - exfalso. apply chain_length in Hc. destruct l as [|? [|? [|]]]; cbn in *; try lia; discriminate.
Qed.
Lemma chain_next_inv : forall gen st n l x c', 2 <= length l -> chain gen st n (l ++ [x]) c' ->
  exists c, chain gen st n l c /\ combine (c_word c) (fst x) (c_cons c) (snd x) (c_score c) (c_idx c) (c_tos c) gen 0 st = Ok (Some c').
Proof.
  intros gen st n l x c' Hl H. remember (l ++ [x]) as l' eqn:E. destruct H as [r0 n0 r1 n1 tos c H1 H2|l0 c r rc c' Hc H].
  - exfalso. destruct l as [|? [|? [|]]]; cbn in *; try lia; discriminate.
  - apply app_inj_tail in E as [-> <-]. eauto.
Qed.

Lemma first_step_covers : forall gen st n l0 l1 t, first_step gen st n l0 l1 = Ok t -> covers gen st n [l0; l1] t.
Proof.
  intros gen st n l0 l1 t H choice c l F C Hl.
  inversion F as [|x ? choice' ? F0 F']; subst. inversion F' as [|y ? choice'' ? F1 F'']; subst. inversion F''; subst.
  apply chain_two_inv in C as (tos & C1 & C2). destruct x as [r0 n0], y as [r1 n1]. cbn [fst snd] in *.
  unfold first_step in H.
  assert (Mono : forall a b a' x0, (let '(r0, n0) := x0 in let '(r1, n1) := b in
      tos <- first_tos r0 gen ;;
      c <- combine r0 r1 n0 n1 (score r0) [(0, length (strip_hyphens r0))] tos gen n st ;;
      update_current_best c a) = Ok a' -> covered a (c_tos c, c_cons c, l) (c_score c) -> covered a' (c_tos c, c_cons c, l) (c_score c)).
  { intros a [p1 m1] a' [p0 m0] E G. inv_bind E. inv_bind E. eapply update_mono; eassumption. }
  eapply (fold_res_reach _ _ (fun t => covered t (c_tos c, c_cons c, l) (c_score c)) _ l0 [] t (r0, n0)); [|exact F0| |exact H].
  - intros a [p0 m0] a' Hin G E. eapply (fold_res_inv _ _ (fun t => covered t (c_tos c, c_cons c, l) (c_score c))); [|exact G|exact E].
    intros a0 b0 a0' _ G0 E0. eapply (Mono a0 b0 a0' (p0, m0)); [exact E0|exact G0].
  - intros a a' E. eapply (fold_res_reach _ _ (fun t => covered t (c_tos c, c_cons c, l) (c_score c)) _ l1 a a' (r1, n1)); [|exact F1| |exact E].
    + intros a0 b0 a0' _ G0 E0. eapply (Mono a0 b0 a0' (r0, n0)); [exact E0|exact G0].
    + intros a0 a0' E0. rewrite C1 in E0. cbn [bind] in E0. rewrite C2 in E0. cbn [bind] in E0.
      eapply update_covers; eassumption.
Qed.

Lemma covered_iter : forall t tos k l s, covered t (tos, k, l) s -> tos <= 2 -> k <= 2 ->
  exists w s' ix, In ((tos, k, l), (w, s', ix)) (tbl_iter t) /\ (s' <= s)%Z.
Proof.
  intros t tos k l s (w & s' & ix & G & L) Ht Hk. exists w, s', ix. split; [|exact L].
  apply tbl_get_In in G. unfold tbl_iter. apply in_flat_map. exists tos. split; [destruct tos as [|[|[|]]]; cbn; auto; lia|].
  apply in_flat_map. exists k. split; [destruct k as [|[|[|]]]; cbn; auto; lia|].
  unfold tbl_bucket. apply filter_In. split; [exact G|]. cbn. rewrite !Nat.eqb_refl. reflexivity.
Qed.

Lemma Forall2_In_fine : forall cs choice rll, Forall2 (@In (str * nat)) choice rll -> Forall (Forall (fine cs)) rll -> Forall (fine cs) choice.
Proof.
  induction 1 as [|x l ch rll H _ IH]; intro F; [constructor|]. inversion F as [|? ? F0 F1]; subst.
  constructor; [|auto]. rewrite Forall_forall in F0. auto.
Qed.

Lemma next_step_covers : forall gen st n rll rl t t', 2 <= length rll -> Forall (Forall (fine (consonants st))) (rll ++ [rl]) ->
  sound gen st n rll t -> covers gen st n rll t -> next_step gen st t rl = Ok t' -> covers gen st n (rll ++ [rl]) t'.
Proof.
  intros gen st n rll rl t t' Hlen HF Hs Hc H choice c' l F C Hl.
  apply Forall2_app_inv_r in F as (ch & chx & F0 & Fx & ->). inversion Fx as [|x ? ? ? Hx Fn]; subst. inversion Fn; subst.
  apply chain_next_inv in C as (c & C & J). 2: { rewrite (Forall2_length _ _ _ _ _ F0). exact Hlen. }
  apply Forall_app in HF as [HF HFx]. inversion HFx as [|? ? Hrl _]; subst.
  assert (R : ripe (consonants st) c) by (eapply chain_ripe; [exact C|eapply Forall2_In_fine; eassumption]).
  destruct R as [R1 R2 R3 R4].
  destruct (last_opt (c_word c)) as [lc|] eqn:Elc. 2: { apply last_opt_none in Elc. rewrite Elc in R3. cbn in R3. lia. }
  pose proof (Hc _ _ _ F0 C Elc) as Cov. apply covered_iter in Cov as (w & s' & ix & Hin & Hle); [|assumption|assumption].
  destruct x as [r rc]. cbn [fst snd] in J.
  assert (Hfine : fine (consonants st) (r, rc)) by (rewrite Forall_forall in Hrl; auto).
  destruct (Hs _ (tbl_iter_In _ _ Hin)) as (ch2 & c2 & G1 & G2 & (l2 & G3 & G4)).
  injection G4 as T2 K2 L2 -> -> ->. subst l2.
  assert (R' : ripe (consonants st) c2) by (eapply chain_ripe; [exact G2|eapply Forall2_In_fine; eassumption]).
  destruct R' as [_ _ Q3 Q4].
  unfold next_step in H.
  set (Q := fun t => covered t (c_tos c', c_cons c', l) (c_score c')).
  assert (Mono : forall a b a' x0, (let '(rafsi, rc) := x0 in let '((tos, k, _), (w, sc, ix)) := b : key * entry in
      c <- combine w rafsi k rc sc ix tos gen 0 st ;;
      update_current_best c a) = Ok a' -> Q a -> Q a').
  { intros a [[[b1 b2] b3] [[b4 b5] b6]] a' [p0 m0] E G. inv_bind E. eapply update_mono; eassumption. }
  eapply (fold_res_reach _ _ Q _ rl [] t' (r, rc)); [|exact Hx| |exact H].
  - intros a [p0 m0] a' _ G E. eapply (fold_res_inv _ _ Q); [|exact G|exact E].
    intros a0 b0 a0' _ G0 E0. eapply (Mono a0 b0 a0' (p0, m0)); [exact E0|exact G0].
  - intros a a' E. eapply (fold_res_reach _ _ Q _ (tbl_iter t) a a' _); [|exact Hin| |exact E].
    + intros a0 b0 a0' _ G0 E0. eapply (Mono a0 b0 a0' (r, rc)); [exact E0|exact G0].
    + intros a0 a0' E0. cbn beta iota in E0. inv_bind E0. rename x into o.
      destruct (combine_exchange (c_word c) (c_word c2) r (c_cons c) rc (c_score c) (c_score c2) (c_idx c) (c_idx c2) (c_tos c) gen st c' o)
        as (d' & -> & D1 & D2 & D3 & D4).
      * exact R3.
      * exact Q3.
      * apply Hfine.
      * congruence.
      * exact R4.
      * rewrite K2. exact Q4.
      * exact J.
      * exact E1.
      * assert (Cd : covered a0' (c_tos d', c_cons d', l) (c_score d')).
        { eapply update_covers; [exact E0|]. rewrite D3. exact Hl. }
        unfold Q. destruct Cd as (u1 & u2 & u3 & Cd & Le). rewrite D1, D2 in Cd. exists u1, u2, u3. split; [exact Cd|]. lia.
Qed.

Lemma table_covers : forall gen st rll t, Forall (Forall (fine (consonants st))) rll -> lujvo_table gen st rll = Ok t ->
  covers gen st (length rll) rll t.
Proof.
  intros gen st rll t HF H. unfold lujvo_table in H. inv_bind H. inv_bind H.
  destruct rll as [|l0 rll]; [discriminate|]. cbn in E. injection E as <-. rename x0 into t1.
  assert (G : forall ls done t0, 2 <= length done -> Forall (Forall (fine (consonants st))) (done ++ ls) ->
    sound gen st (length (l0 :: rll)) done t0 -> covers gen st (length (l0 :: rll)) done t0 ->
    fold_res (next_step gen st) ls t0 = Ok t -> covers gen st (length (l0 :: rll)) (done ++ ls) t).
  { induction ls as [|l ls IH]; intros done t0 Hd Hf Hs Hc F; cbn in F.
    - injection F as <-. rewrite app_nil_r. assumption.
    - inv_bind F. rename x into t2. change (l :: ls) with ([l] ++ ls) in *. rewrite app_assoc in *.
      assert (Hf' : Forall (Forall (fine (consonants st))) (done ++ [l])) by (apply Forall_app in Hf; tauto).
      eapply IH; [| | | |exact F].
      + rewrite app_length. lia.
      + exact Hf.
      + eapply next_step_sound; eassumption.
      + eapply next_step_covers; eassumption. }
  destruct l0 as [|f0 l0].
  - intros choice c l F. inversion F as [|? ? ? ? F0]; subst. destruct F0.
  - inv_bind E0. destruct rll as [|l1 rll]; [discriminate|]. cbn in E. injection E as <-.
    cbn [skipn] in H. apply (G rll [f0 :: l0; l1]) with (t0 := t1); [cbn; lia|exact HF| | |exact H].
    + apply first_step_sound. exact E0.
    + apply first_step_covers. exact E0.
Qed.

(** ** The entry picked at the end *)
Definition right_end (gen : bool) (l : char) : bool := (is_vowel l && negb gen) || (is_consonant l && gen).
Lemma pick_best_le : forall gen es best bs,
  match pick_best gen es best bs with
  | Some (w, s, ix) => (best = Some (w, s, ix) \/ (s < bs)%Z)
      /\ forall tos k l w' s' ix', In ((tos, k, l), (w', s', ix')) es -> right_end gen l = true -> (s <= s')%Z \/ (best = Some (w, s, ix) /\ (bs <= s')%Z)
  | None => best = None /\ forall tos k l w' s' ix', In ((tos, k, l), (w', s', ix')) es -> right_end gen l = true -> (bs <= s')%Z
  end.
Proof.
  intros gen es. induction es as [|[[[tos0 k0] l0] [[w0 s0] i0]] es IH]; intros best bs; cbn [pick_best].
  - destruct best as [[[w s] ix]|]; (split; [auto|]); intros ? ? ? ? ? ? [].
  - fold (right_end gen l0). destruct (right_end gen l0 && (s0 <? bs)%Z) eqn:E.
    + apply andb_t in E as [E1 E2]. apply Z.ltb_lt in E2. specialize (IH (Some (w0, s0, i0)) s0).
      destruct (pick_best gen es (Some (w0, s0, i0)) s0) as [[[w s] ix]|]; [|destruct IH; discriminate].
      destruct IH as [I1 I2]. assert (Hs : (s <= s0)%Z) by (destruct I1 as [I1|I1]; [injection I1 as _ <- _; lia|lia]).
      split; [right; lia|]. intros tos k l w' s' ix' [G|G] Hr; left.
      * injection G as _ _ _ _ <- _. exact Hs.
      * destruct (I2 _ _ _ _ _ _ G Hr) as [|[_ K]]; lia.
    + assert (Ge : right_end gen l0 = true -> (bs <= s0)%Z).
      { intro Hr. rewrite Hr in E. cbn in E. apply Z.ltb_ge in E. exact E. }
      specialize (IH best bs). destruct (pick_best gen es best bs) as [[[w s] ix]|].
      * destruct IH as [I1 I2]. split; [exact I1|]. intros tos k l w' s' ix' [G|G] Hr.
        -- injection G as _ _ <- _ <- _. specialize (Ge Hr). destruct I1 as [I1|I1]; [right; auto|left; lia].
        -- eauto.
      * destruct IH as [I1 I2]. split; [exact I1|]. intros tos k l w' s' ix' [G|G] Hr.
        -- injection G as _ _ <- _ <- _. auto.
        -- eauto.
Qed.

(** ** The search answers *)
Definition heard (c : cand) : Prop := c_word c <> [] /\ c_idx c <> [] /\ exists v, last_sound (c_word c) = Ok v.
Lemma combine_total : forall w r k rc sc ix tos gen n st, w <> [] -> ix <> [] -> (exists v, last_sound w = Ok v) ->
  fine (consonants st) (r, rc) -> exists o, combine w r k rc sc ix tos gen n st = Ok o /\ forall c, o = Some c -> heard c.
Proof.
  intros w r k rc sc ix tos gen n st Hw Hi [v Hv] Hf.
  assert (G : exists o, combine w r k rc sc ix tos gen n st = Ok o).
  { destruct Hf as (Hf & (v' & s' & F1 & F2) & _). cbn [fst] in *. unfold combine. cbv zeta.
    destruct (last_opt w) as [ll|] eqn:El; [|apply last_opt_none in El; contradiction]. unfold idx_last at 1. rewrite El. cbn [bind].
    destruct r as [|r0 r']; [cbn in Hf; lia|]. cbn [idx nth_error bind].
    destruct (_ && _); [eauto|]. destruct (_ && _); [eauto|]. destruct (mems _ _); [eauto|]. destruct (_ && _); [eauto|].
    destruct (last_opt ix) as [li|] eqn:Eli; [|apply last_opt_none in Eli; contradiction]. unfold idx_last. rewrite Eli. cbn [bind].
    destruct (_ && _); [eauto|]. destruct (glue _ _ _ _ _ _ _ _); [|eauto]. destruct (next_tosmabru _ _ _ _ _); [|eauto].
    unfold next_consonants. rewrite Hv, F2. cbn [bind].
    destruct (_ || _); [cbn [bind]; eauto|]. destruct (cset_eqb _ _); [|cbn [bind]; eauto]. destruct (negb _); cbn [bind]; eauto. }
  destruct G as [o G]. exists o. split; [exact G|]. intros c ->. apply combine_word in G as (h & i & _ & Hr & Ew & _ & _ & _ & _ & Ei & _).
  split; [rewrite Ew; destruct w; [contradiction|discriminate]|]. split; [rewrite Ei; destruct ix; discriminate|].
  destruct Hf as (_ & (v' & s' & F1 & _) & _). exists v'. rewrite Ew, app_assoc. apply last_sound_app. exact F1.
Qed.

Definition all_heard (t : table) : Prop := forall k w s ix, In (k, (w, s, ix)) t -> w <> [] /\ ix <> [] /\ exists v, last_sound w = Ok v.
Lemma update_total : forall o t, (forall c, o = Some c -> heard c) -> all_heard t ->
  exists t', update_current_best o t = Ok t' /\ all_heard t'.
Proof.
  intros [c|] t Hc Ht; [|exists t; auto]. destruct (Hc c eq_refl) as (H1 & H2 & H3).
  destruct (last_opt (c_word c)) as [l|] eqn:El; [|apply last_opt_none in El; contradiction].
  assert (G : exists t', update_current_best (Some c) t = Ok t').
  { cbn. unfold idx_last. rewrite El. cbn [bind]. destruct (tbl_get _ _) as [[[? ?] ?]|]; [|eauto]. destruct (_ >? _)%Z; eauto. }
  destruct G as [t' G]. exists t'. split; [exact G|]. intros k w s ix Hin.
  destruct (update_In _ _ _ _ G Hin) as [K|(c' & K & (l' & K1 & K2))]; [eapply Ht; exact K|].
  injection K as <-. injection K2 as -> -> -> ->. auto.
Qed.
Lemma fold_res_total : forall A B (P : A -> Prop) (f : A -> B -> res A) l a,
  (forall a b, In b l -> P a -> exists a', f a b = Ok a' /\ P a') -> P a -> exists a', fold_res f l a = Ok a' /\ P a'.
Proof.
  intros A B P f l. induction l as [|b l IH]; intros a H Ha; [exists a; auto|]. cbn.
  destruct (H a b (or_introl eq_refl) Ha) as (a1 & E & Ha1). rewrite E. cbn [bind]. apply IH; [|exact Ha1].
  intros a0 b0 Hin. apply H. right. exact Hin.
Qed.
Lemma first_sound_ne : forall cs x, fine cs x -> fst x <> [].
Proof. intros cs x [H _] E. rewrite E in H. cbn in H. lia. Qed.

Lemma table_total : forall gen st l0 l1 rll, Forall (Forall (fine (consonants st))) (l0 :: l1 :: rll) ->
  exists t, lujvo_table gen st (l0 :: l1 :: rll) = Ok t.
Proof.
  intros gen st l0 l1 rll HF. inversion HF as [|? ? F0 HF']; subst. inversion HF' as [|? ? F1 FR]; subst. rewrite Forall_forall in F0, F1.
  unfold lujvo_table. cbn [idxl nth_error bind skipn].
  assert (G1 : exists t1, first_step gen st (length (l0 :: l1 :: rll)) l0 l1 = Ok t1 /\ all_heard t1).
  { unfold first_step. apply (fold_res_total _ _ all_heard); [|intros ? ? ? ? []].
    intros a [r0 n0] Hin Ha. apply (fold_res_total _ _ all_heard); [|exact Ha].
    intros a0 [r1 n1] Hin1 Ha0. specialize (F0 _ Hin). specialize (F1 _ Hin1). pose proof (first_sound_ne _ _ F0) as N0. cbn [fst] in N0.
    assert (T : exists tos, first_tos r0 gen = Ok tos).
    { unfold first_tos. destruct (_ || _); [eauto|]. destruct (last_opt r0) as [l|] eqn:El; [|apply last_opt_none in El; contradiction].
      unfold idx_last. rewrite El. cbn [bind]. eauto. }
    destruct T as [tos ->]. cbn [bind].
    destruct (combine_total r0 r1 n0 n1 (score r0) [(0, length (strip_hyphens r0))] tos gen (length (l0 :: l1 :: rll)) st) as (o & -> & Ho);
      [exact N0|discriminate| |exact F1|].
    { destruct F0 as (_ & (v & s & Q & _) & _). exists v. exact Q. }
    cbn [bind]. apply update_total; assumption. }
  assert (G2 : forall ls t1, Forall (Forall (fine (consonants st))) ls -> all_heard t1 ->
    exists t, fold_res (next_step gen st) ls t1 = Ok t /\ all_heard t).
  { intros ls t1 Hls H1. apply (fold_res_total _ _ all_heard); [|exact H1].
    intros a rl Hin Ha. rewrite Forall_forall in Hls. specialize (Hls _ Hin). rewrite Forall_forall in Hls.
    unfold next_step. apply (fold_res_total _ _ all_heard); [|intros ? ? ? ? []].
    intros a0 [r rc] Hr Ha0. apply (fold_res_total _ _ all_heard); [|exact Ha0].
    intros a1 [[[tos k] lc] [[w sc] ix]] Hb Ha1. apply tbl_iter_In in Hb. destruct (Ha _ _ _ _ Hb) as (B1 & B2 & B3).
    destruct (combine_total w r k rc sc ix tos gen 0 st) as (o & -> & Ho); [exact B1|exact B2|exact B3|apply Hls; exact Hr|].
    cbn [bind]. apply update_total; assumption. }
  destruct l0 as [|f0 l0].
  - cbn [bind]. destruct (G2 rll [] FR) as (t & E & _); [intros ? ? ? ? []|]. eauto.
  - destruct G1 as (t1 & E1 & H1). rewrite E1. cbn [bind]. destruct (G2 rll t1 FR H1) as (t & E & _). eauto.
Qed.

(** ** Optimality *)
Theorem best_word_optimal : forall gen st rll choice c l, Forall (Forall (fine (consonants st))) rll ->
  Forall2 (@In (str * nat)) choice rll -> chain gen st (length rll) choice c -> c_tos c = 0 -> c_cons c = 2 ->
  last_opt (c_word c) = Some l -> (if gen then is_consonant l = true else is_vowel l = true) ->
  (exists w sc ix, best_word gen st rll = Ok (w, sc, ix) /\ (sc <= c_score c)%Z)
  \/ (best_word gen st rll = Err NoLujvoFoundError /\ (BEST_INIT <= c_score c)%Z).
Proof.
  intros gen st rll choice c l HF F C Ht Hk Hl Hr.
  assert (T : exists t, lujvo_table gen st rll = Ok t).
  { pose proof (chain_length _ _ _ _ _ C) as Lc. rewrite (Forall2_length _ _ _ _ _ F) in Lc.
    destruct rll as [|l0 [|l1 rll]]; cbn in Lc; try lia. apply table_total. exact HF. }
  destruct T as [t Et]. pose proof (table_covers _ _ _ _ HF Et) as Cov. specialize (Cov _ _ _ F C Hl).
  destruct Cov as (w & s & ix & G & Le). apply tbl_get_In in G. rewrite Ht, Hk in G.
  assert (Hb : In (0, 2, l, (w, s, ix)) (tbl_bucket t 0 2)).
  { unfold tbl_bucket. apply filter_In. split; [exact G|reflexivity]. }
  assert (Hre : right_end gen l = true).
  { unfold right_end. destruct gen; rewrite Hr; cbn; rewrite ?orb_true_r; reflexivity. }
  unfold best_word. rewrite Et. cbn [bind]. pose proof (pick_best_le gen (tbl_bucket t 0 2) None BEST_INIT) as P.
  destruct (pick_best _ _ _ _) as [[[w' s'] ix']|].
  - left. exists w', s', ix'. split; [reflexivity|]. destruct P as [_ P]. destruct (P _ _ _ _ _ _ Hb Hre) as [K|[K _]]; [lia|discriminate].
  - right. split; [reflexivity|]. destruct P as [_ P]. specialize (P _ _ _ _ _ _ Hb Hre). lia.
Qed.

(** ** The forms of a component are fine *)
Lemma accepted_len : forall lk st w t ps, analyse_brivla lk st w = Ok (t, ps) -> t = ZIhEVLA \/ t = GISMU -> 4 <= length (standard_spelling w).
Proof.
  intros lk st w t ps H Ht. apply analyse_inv in H. set (v := standard_spelling w) in *. clearbody v.
  destruct H as [Hg|l ps Hl Hlc Hg Hg' Hj|l c e t Hl Hlc Hg Hj Hc H0 H1 H2 Hz|l c e t ps Hl Hlc Hg Hg' Hj Hc H0 H1 H2 Hz Et].
  - destruct (gismu_len _ _ Hg) as (a & b & c & d & e & -> & _). cbn. lia.
  - destruct (is_consonant l), Ht; discriminate.
  - unfold check_zihevla_or_rafsi in Hz. cbn [andb] in Hz. destruct (length v <? 4) eqn:E; [discriminate|]. apply Nat.ltb_ge in E. exact E.
  - subst t. destruct (is_consonant l), Ht; discriminate.
Qed.
Lemma valid_length : forall r mz, is_valid_rafsi r mz = true -> 3 <= length r.
Proof.
  intros r mz H. apply valid_proper in H. destruct r as [|a [|b [|c r]]]; cbn [length]; try lia; exfalso; revert H.
  - discriminate.
  - unfold rafsi_tarmi. destruct (str_eqb _ _); [discriminate|]. cbn [length Nat.eqb negb]. rewrite andb_false_r.
    destruct (is_vowel a); discriminate.
  - unfold rafsi_tarmi. destruct (str_eqb _ _); [discriminate|]. destruct (_ && _); discriminate.
Qed.
Lemma source_length : forall lk st v r t, source lk st v r t -> exp_rafsi_shapes st = false -> 3 <= length r /\ t <> EXPERIMENTAL_RAFSI.
Proof.
  intros lk st v r t H Hex.
  destruct H as [r t ps Hl Hf Er Ho Hr Ha Ht|r ps Hl Hf Er Ho Hr Hta Ha|r Hl Hf Er Ho Hr Hta Hex' Hz|r Hl Hf Er Hv|r rs Hl Ho Hd Hr|r ps Hl Ho Ha Er|t ps Hl Ho Ha Ht];
    try (split; [|discriminate]).
  - destruct (only_Forall _ Ho) as [Hn HF]. pose proof (accepted_len _ _ _ _ _ Ha Ht) as G.
    rewrite lojban_spelling in G by (apply Forall_app; split; [exact HF|constructor; [reflexivity|constructor]]).
    rewrite app_length in G. cbn in G. lia.
  - destruct (only_Forall _ Ho) as [Hn HF]. pose proof (accepted_len _ _ _ _ _ Ha (or_introl eq_refl)) as G.
    rewrite lojban_spelling in G by exact HF. lia.
  - congruence.
  - eapply valid_length. exact Hv.
  - eapply (valid_length _ (allow_mz st)), dict_valid; eassumption.
  - destruct (only_Forall _ Ho) as [Hn HF]. pose proof (accepted_len _ _ _ _ _ Ha (or_intror eq_refl)) as G.
    rewrite lojban_spelling in G by exact HF. subst r. unfold dropl. rewrite firstn_length. lia.
  - destruct (only_Forall _ Ho) as [Hn HF]. pose proof (accepted_len _ _ _ _ _ Ha Ht) as G.
    rewrite lojban_spelling in G by exact HF. lia.
Qed.

Lemma last_sound_hy : forall s c h, forallb is_hy h = true -> is_hy c = false -> last_sound ((s ++ [c]) ++ h) = Ok c.
Proof.
  intros s c h Hh Hc. unfold last_sound. rewrite !rev_app_distr. rewrite drop_while_app.
  - cbn [rev app drop_while]. rewrite Hc. reflexivity.
  - apply forallb_forall. intros x Hx. apply in_rev in Hx. rewrite forallb_forall in Hh. auto.
Qed.

Lemma piece_fine : forall st fi la x p, piece st fi la x p -> snd (fst p) <> EXPERIMENTAL_RAFSI -> 3 <= length (fst (fst p)) ->
  fine (consonants st) x.
Proof.
  intros st fi la [f n] [[r t] suf] (U & Ef & Hs & Hn) Ht Hl. cbn [fst snd] in *.
  destruct (u_last _ _ _ U) as (s & d & Er & Hd). destruct (u_first _ _ _ U) as (c0 & s0 & Er0 & Hc0).
  assert (LS : last_sound f = Ok d).
  { rewrite Ef. generalize (prefix_of fi r). intro u. rewrite Er, !app_assoc.
    apply last_sound_hy; [eapply suffixed_hy; exact Hs|apply vc_not_hy; exact Hd]. }
  split; [|split]; cbn [fst snd].
  - rewrite Ef, !app_length. lia.
  - exists d. assert (G : exists q, first_sound f = Ok q).
    { rewrite Ef. unfold first_sound.
      assert (Hh : N.eqb c_h c0 = false).
      { destruct (N.eqb c_h c0) eqn:E; [|reflexivity]. apply N.eqb_eq in E. subst c0. discriminate. }
      destruct (prefix_cases fi r) as [->|[-> _]]; cbn [app drop_while]; rewrite ?N.eqb_refl; rewrite Er0; cbn [app drop_while]; rewrite Hh; cbn; eauto. }
    destruct G as [q G]. eauto.
  - intro Ec. destruct (match t with Tar CVV | Tar CVhV => true | _ => false end) eqn:Et.
    + right. exists d. split; [exact LS|].
      assert (T : rafsi_tarmi r = CVV \/ rafsi_tarmi r = CVhV).
      { destruct t as [| | |x]; try discriminate. destruct (u_tarmi _ _ _ U x eq_refl) as [T _]. rewrite T.
        destruct x; try discriminate; auto. }
      destruct T as [T|T]; [apply tarmi_CVV in T as (a & b & c & E & _ & _ & Hv)|apply tarmi_CVhV in T as (a & b & c & E & _ & _ & Hv)];
        rewrite E in Er.
      * change [a; b; c] with ([a; b] ++ [c]) in Er. apply app_inj_tail in Er as [_ <-]. exact Hv.
      * change [a; b; c_h; c] with ([a; b; c_h] ++ [c]) in Er. apply app_inj_tail in Er as [_ <-]. exact Hv.
    + left. rewrite Hn. destruct t as [| | |x]; try reflexivity; [contradiction|]. destruct x; try reflexivity; discriminate.
Qed.

Theorem forms_fine : forall lk st fi la v forms, exp_rafsi_shapes st = false ->
  rafsi_list_for (analyse_brivla lk) (jvk lk) st fi la v = Ok forms -> Forall (fine (consonants st)) forms.
Proof.
  intros lk st fi la v forms Hex H. apply Forall_forall. intros [f n] Hin.
  destruct (forms_source _ _ _ _ _ _ _ H Hin) as (r & t & fs & Hs & Hf & Hi).
  pose proof (source_usable _ _ _ _ _ Hs) as U. destruct (source_length _ _ _ _ _ Hs Hex) as [Hl Ht].
  destruct (forms_shape _ _ _ _ _ _ _ _ _ (usable_ne _ _ _ U) Hf Hi) as (suf & Ef & Hsuf & Hk).
  apply (piece_fine st fi la _ (r, t, suf)); [|exact Ht|exact Hl]. split; [exact U|]. auto.
Qed.
Theorem list_fine : forall lk st vs rll, exp_rafsi_shapes st = false ->
  get_rafsi_list_list (analyse_brivla lk) (jvk lk) st vs = Ok rll -> Forall (Forall (fine (consonants st))) rll.
Proof.
  intros lk st vs rll Hex H. unfold get_rafsi_list_list in H. destruct (list_list_nth _ _ _ _ _ _ _ H) as [_ N1].
  apply Forall_forall. intros fs Hin. apply In_nth_error in Hin as [k Hk]. apply N1 in Hk as (v & _ & Hv).
  eapply forms_fine; eassumption.
Qed.
