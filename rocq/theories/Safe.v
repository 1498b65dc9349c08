(** When the splitter and the analyser can raise IndexError or
    DecompositionError on words that contain y. *)
From Verif Require Import Str Data Tarmi Rafsi Core Api Lib Spec Shapes Decomp Basic Vowels Katna Dict Errs Builder Jvokaha Fuel Raises Inv Parts Clusters Zihevla Forms Chain Score Alt Lujvo Slinku Optimal Props5 Total.

(** ** IndexError in jvokaha_2 *)
(** the two letters before a final r that make it look for a letter after the r *)
Definition bad2 (a b : char) : Prop :=
  is_vowel b = true /\ (is_vowel a = true \/ a = c_h) \/ a = c_h /\ b = c_y.
Definition bad_end (w : str) : Prop := exists u a b, w = u ++ [a; b; c_r] /\ bad2 a b.
Lemma bad_app : forall u w, bad_end w -> bad_end (u ++ w).
Proof. intros u w (v & a & b & -> & H). exists (u ++ v), a, b. split; [rewrite app_assoc; reflexivity|exact H]. Qed.

Lemma hyphen_len_index : forall yh prev w, hyphen_len yh prev w = Err IndexError ->
  w = [c_r] /\ exists q, prev = Some q /\ length q <> 1.
Proof.
  intros yh prev w H. unfold hyphen_len in H. destruct prev as [q|]; [|discriminate]. destruct w as [|l0 w]; [discriminate|].
  destruct (negb (length q =? 1)) eqn:El; [|discriminate]. apply negb_true_iff, Nat.eqb_neq in El.
  destruct (N.eqb l0 c_y); [discriminate|].
  destruct (yset_eqb _ FORCE_Y); [cbn [bind] in H; cbn [andb] in H; destruct (_ && _); discriminate|].
  destruct (str_eqb _ (L "nr")); [cbn [bind] in H; repeat (destruct (_ && _) in H; try discriminate); discriminate|].
  destruct (N.eqb l0 c_r) eqn:Er; [|cbn [bind andb] in H; destruct (_ && _); discriminate].
  destruct w as [|l1 w]; [|exfalso; unfold idx in H; cbn [nth_error bind] in H; repeat (destruct (_ && _) in H; try discriminate); discriminate].
  apply N.eqb_eq in Er. subst l0. split; [reflexivity|]. exists q. auto.
Qed.
(** what it reads as a hyphen before a final r *)
Lemma hyphen_len_before_r : forall yh prev w k, hyphen_len yh prev w = Ok (Some k) -> skipn k w = [c_r] ->
  length (firstn k w) = 1 \/ firstn k w = L "'y".
Proof.
  intros yh prev w k H E. unfold hyphen_len in H. destruct prev as [q|]; [|discriminate]. destruct w as [|l0 w]; [discriminate|].
  destruct (negb (length q =? 1)); [|discriminate]. destruct (N.eqb l0 c_y); [injection H as <-; left; reflexivity|].
  inv_bind H. destruct (_ && _) in H; [injection H as <-; left; reflexivity|].
  destruct (_ && _) eqn:Ey in H; [|discriminate]. injection H as <-. right. apply andb_t in Ey as [_ Ey]. apply str_eqb_eq in Ey. exact Ey.
Qed.
Lemma j2_index : forall f yh mz orig w acc, jvokaha2_loop f yh mz orig w acc = Err IndexError ->
  (w = [c_r] /\ exists q, last_opt acc = Some q /\ length q <> 1) \/ bad_end w.
Proof.
  induction f as [|f IH]; intros yh mz orig w acc H; [discriminate|]. cbn [jvokaha2_loop] in H.
  destruct w as [|l0 w']; [discriminate|]. set (w := l0 :: w') in *.
  assert (step : forall k x, skipn k w <> [c_r] \/ length x = 1 -> jvokaha2_loop f yh mz orig (skipn k w) (acc ++ x :: nil) = Err IndexError -> bad_end w).
  { intros k x Hx G. apply IH in G as [[G1 (q & G2 & G3)]|G].
    - rewrite last_opt_app in G2. injection G2 as <-. destruct Hx; contradiction.
    - rewrite <- (firstn_skipn k w). apply bad_app. exact G. }
  assert (split : forall k p, firstn k w = p -> skipn k w = [c_r] -> w = p ++ [c_r]) by (intros k p E1 E2; rewrite <- (firstn_skipn k w), E1, E2; reflexivity).
  assert (DEC : forall k, skipn k w = [c_r] \/ skipn k w <> [c_r]) by (intro k; destruct (str_dec (skipn k w) [c_r]); auto).
  destruct (hyphen_len yh (last_opt acc) w) as [[k|]|e] eqn:Eh; cbn [bind] in H.
  3:{ assert (e = IndexError) by congruence. subst e. apply hyphen_len_index in Eh. left. exact Eh. }
  { right. destruct (DEC k) as [D|D]; [|eapply step; [left; exact D|exact H]].
    destruct (hyphen_len_before_r _ _ _ _ Eh D) as [L1|Ey]; [eapply step; [right; exact L1|exact H]|].
    exists [], c_h, c_y. split; [exact (split _ _ Ey D)|right; auto]. }
  right. clear Eh. dif H.
  { apply andb_t in Heqb as [T _]. apply tarmi_eqb_eq in T. apply tarmi_CVV in T as (a & b & c & E & Ha & Hb & Hc).
    destruct (DEC 3) as [D|D]; [|eapply step; [left; exact D|exact H]]. exists [a], b, c. split; [exact (split _ _ E D)|left; auto]. }
  dif H.
  { apply tarmi_eqb_eq in Heqb0. apply tarmi_CVhV in Heqb0 as (a & b & c & E & Ha & Hb & Hc).
    destruct (DEC 4) as [D|D]; [|eapply step; [left; exact D|exact H]]. exists [a; b], c_h, c. split; [exact (split _ _ E D)|left; auto]. }
  cbv zeta in H. dif H; [discriminate|].
  dif H.
  { apply andb_t in Heqb2 as [_ Hl]. apply Nat.eqb_eq in Hl. eapply step; [|exact H]. left. rewrite skipn_all2 by lia. discriminate. }
  dif H.
  { apply IH in H as [[H1 (q & H2 & H3)]|G].
    - change [firstn 4 w; [c_y]] with ([firstn 4 w] ++ [[c_y]]) in H2. rewrite app_assoc, last_opt_app in H2. injection H2 as <-. contradiction.
    - rewrite <- (firstn_skipn 5 w). apply bad_app. exact G. }
  dif H; [discriminate|]. dif H.
  { dif H; [discriminate|]. apply tarmi_eqb_eq in Heqb5. apply tarmi_CVC in Heqb5 as (a & b & c & E & Ha & Hb & Hc).
    destruct (DEC 3) as [D|D]; [|eapply step; [left; exact D|exact H]]. exfalso. pose proof (split _ _ E D) as Ew.
    rewrite Ew in Heqb2. cbn [app firstn length Nat.eqb] in Heqb2.
    assert (E4 : rafsi_tarmi [a; b; c; c_r] = CVCC) by (tarmi_compute; reflexivity). rewrite E4 in Heqb2. discriminate. }
  dif H; [|discriminate]. dif H; [discriminate|]. dif H; [discriminate|].
  apply tarmi_eqb_eq in Heqb6. apply tarmi_CCV in Heqb6 as (a & b & c & E & Ha & Hb & Hc).
  destruct (DEC 3) as [D|D]; [|eapply step; [left; exact D|exact H]]. exfalso. pose proof (split _ _ E D) as Ew.
  rewrite Ew in Heqb2. cbn [app firstn length Nat.eqb] in Heqb2.
  assert (E4 : rafsi_tarmi [a; b; c; c_r] = CCVC) by (tarmi_compute; reflexivity). rewrite E4 in Heqb2. discriminate.
Qed.
Lemma jvokaha_2_index : forall yh mz w, jvokaha_2 yh mz w = Err IndexError -> bad_end w.
Proof.
  intros yh mz w H. unfold jvokaha_2 in H. apply j2_index in H as [[_ (q & H & _)]|H]; [discriminate|exact H].
Qed.
Lemma ends_vowel_not_bad : forall w, ends_vowel w -> ~ bad_end w.
Proof.
  intros w (l & El & Hl) (u & a & b & -> & _). change [a; b; c_r] with ([a; b] ++ [c_r]) in El. rewrite app_assoc, last_opt_app in El. injection El as <-. discriminate.
Qed.
(** a word that has a cut does not end so *)
Lemma cut_last : forall rn hy mz ps p prev, cut rn hy mz prev (ps ++ [p]) -> exists prev', cut rn hy mz prev' [p].
Proof.
  induction ps as [|q ps IH]; intros p prev H; [exists prev; exact H|]. destruct H as [_ H]. eapply IH. exact H.
Qed.
Lemma piece_not_bad : forall rn hy mz prev p u, cut rn hy mz prev [p] -> ~ bad_end (u ++ p).
Proof.
  intros rn hy mz prev p u H (u' & a & b & E & B).
  destruct H as [[(sh & Hs & _)|(q & _ & _ & [->|[[_ ->]|(_ & _ & [[-> (t & Et)]|[-> (c & t & Et & _)]])]])] _].
  2:{ change [a; b; c_r] with ([a; b] ++ [c_r]) in E. rewrite app_assoc in E. apply app_inj_tail in E as [_ E]. discriminate. }
  2:{ change [a; b; c_r] with ([a; b] ++ [c_r]) in E. change (L "'y") with ([c_h] ++ [c_y]) in E. rewrite !app_assoc in E. apply app_inj_tail in E as [_ E]. discriminate. }
  2-3: discriminate.
  assert (V : forall x, consonant x -> is_consonant x = true) by (intros; apply is_consonant_spec; assumption).
  assert (W : forall x, vowel x -> is_vowel x = true) by (intros; apply is_vowel_spec; assumption).
  assert (E3 : exists v, p = v ++ [a; b; c_r]).
  { assert (L : 3 <= length p) by (destruct Hs; cbn; lia). clear -E L. rewrite <- (firstn_skipn (length p - 3) p) in E |- *.
    assert (L' : length (skipn (length p - 3) p) = 3) by (rewrite skipn_length; lia).
    destruct (skipn (length p - 3) p) as [|x [|y [|z [|]]]]; try discriminate. rewrite app_assoc in E.
    assert (X : forall (s t : str) x y z a b c, s ++ [x; y; z] = t ++ [a; b; c] -> x = a /\ y = b /\ z = c).
    { clear. intros s t x y z a b c E. change [x; y; z] with ([x; y] ++ [z]) in E. change [a; b; c] with ([a; b] ++ [c]) in E.
      rewrite !app_assoc in E. apply app_inj_tail in E as [E ->]. change [x; y] with ([x] ++ [y]) in E. change [a; b] with ([a] ++ [b]) in E.
      rewrite !app_assoc in E. apply app_inj_tail in E as [E ->]. apply app_inj_tail in E as [E ->]. auto. }
    apply X in E as (-> & -> & ->). eexists. reflexivity. }
  clear E. destruct E3 as [v E].
  destruct Hs; repeat (destruct v as [|? v]; try discriminate); cbn in E; injection E; intros; subst;
      try (match goal with K : vowel c_r |- _ => apply W in K; discriminate end).
  all: try (match goal with K : diphthong _ |- _ => cbn in K; intuition discriminate end).
  all: repeat match goal with
      | K : initial_pair _ _ |- _ => apply initial_c in K as [? ?]
      | K : permissible _ _ _ |- _ => apply permissible_c in K as [? ?]
      | K : consonant _ |- _ => apply V in K
      end.
  all: destruct B as [[B1 [B|B]]|[B B1]]; subst; try discriminate.
  all: repeat match goal with K : is_consonant _ = true |- _ => apply k_f0 in K end; congruence.
Qed.
Lemma cut_not_bad : forall rn hy mz ps u, cut rn hy mz None ps -> ps <> [] -> ~ bad_end (u ++ concat ps).
Proof.
  intros rn hy mz ps u H N. destruct (last_opt ps) as [p|] eqn:E; [|apply last_opt_none in E; contradiction].
  apply last_opt_some in E as [s ->]. apply cut_last in H as [prev H]. rewrite concat_app. cbn [concat]. rewrite app_nil_r, app_assoc.
  eapply piece_not_bad. exact H.
Qed.

(** ** jvokaha *)
Lemma jvk_no_index : forall yh cs gl mz w, w <> [] -> ~ bad_end w -> errs JV (jvk Bound yh cs gl mz w).
Proof.
  intros yh cs gl mz w Nw NB. rewrite jvk_eq.
  assert (J2 : forall x, ~ bad_end x -> errs JV (jvokaha_2 yh mz x)).
  { intros x N e E. pose proof (errs_jvokaha_2 yh mz x e E) as G. cbn in G. unfold JV, only.
    destruct (exn_eq_dec e IndexError) as [->|Ne]; [destruct (N (jvokaha_2_index _ _ _ E))|]. cbn. intuition congruence. }
  apply errs_bind; [apply J2; exact NB|].
  intros arr Ha. destruct (length (rafsi_of arr) =? 1) eqn:E1; [apply errs_err; left; reflexivity|]. apply Nat.eqb_neq in E1.
  destruct (jvokaha_2_sound _ _ _ _ Ha) as [Hc Hcut].
  assert (Hne : arr <> []) by (intros ->; cbn in Hc; congruence).
  destruct (cut_first _ _ _ _ Hcut Hne) as (p0 & rest & Earr & Hp0 & _).
  assert (H2 : 2 <= length (rafsi_of arr)).
  { subst arr. rewrite rafsi_of_first in E1 |- * by (apply cll_len in Hp0; lia). cbn in *. lia. }
  destruct (last_opt arr) as [piece|] eqn:Ep; [|apply last_opt_none in Ep; congruence]. unfold idx_last at 1. rewrite Ep. cbn [bind].
  assert (Np : piece <> []).
  { apply last_opt_some in Ep as [s Es]. apply cut_all_nonnil in Hcut. rewrite Es in Hcut. apply Forall_app in Hcut as [_ Hcut]. inversion Hcut; assumption. }
  destruct (last_opt piece) as [l|] eqn:El; [|apply last_opt_none in El; congruence]. unfold idx_last. rewrite El. cbn [bind].
  pose proof (cut_rafsi_cll _ _ _ _ _ Hcut) as F.
  unfold expected_word. pose proof (expected_total yh cs gl mz (is_consonant l) _ F H2) as T.
  destruct (expected_entry yh cs gl mz (is_consonant l) (rafsi_of arr)) as [[[w' sc] ix]|e] eqn:He; cbn [bind].
  2:{ destruct (T e eq_refl) as [<-|[]]. apply errs_err; left; reflexivity. }
  destruct (expected_cut _ _ _ _ _ _ _ _ _ F (cut_short _ _ _ _ _ Hcut) He) as (qs & Q1 & Q2 & Q3 & Q4).
  assert (R : errs JV (good <- (if yset_eqb yh FORCE_Y then Ok (str_eqb w' w) else corr <- jvokaha_2 yh mz w' ;; compare_lujvo_pieces corr arr) ;; if good then Ok arr else Err DecompositionError)).
  { apply errs_bind; [|intros b _; destruct b; [apply errs_ok|apply errs_err; left; reflexivity]].
    destruct (yset_eqb yh FORCE_Y) eqn:EF; [apply errs_ok|].
    assert (Nq : qs <> []) by (intros ->; cbn in Q3; rewrite <- Q3 in H2; cbn in H2; lia).
    apply errs_bind; [apply J2; rewrite <- Q2; apply (cut_not_bad _ _ _ _ [] Q1 Nq)|]. intros corr Hcorr.
    destruct (jvokaha_2_sound _ _ _ _ Hcorr) as [Hcc Hccut].
    assert (corr = qs) as -> by (eapply cut_unique_all; [eapply cut_hy; exact Hccut|exact Q1|congruence]).
    unfold compare_lujvo_pieces. destruct (compare_total qs arr 0 false Q4) as [b ->]; [|lia|apply errs_ok].
    cbn [skipn]. rewrite <- (cut_pieces _ _ _ _ _ Q1), <- (cut_pieces _ _ _ _ _ Hcut). exact Q3. }
  destruct (is_consonant l) eqn:Ec; cbn [bind]; [exact R|].
  destruct (slinkuhi_total yh mz w' (expected_end _ _ _ _ _ _ _ _ He)) as [b ->]. cbn [bind].
  destruct b; [apply errs_err; left; reflexivity|exact R].
Qed.
Lemma slinkuhi_no_index : forall yh mz w, w <> [] -> ~ bad_end (L "to" ++ w) -> exists b, slinkuhi Bound yh mz w = Ok b.
Proof.
  intros yh mz w N H. unfold slinkuhi, Core.is_slinkuhi. destruct w as [|c w]; [contradiction|]. cbn [idx nth_error bind].
  destruct (is_vowel c); [eauto|]. pose proof (jvk_no_index yh CLUSTER false mz (L "to" ++ c :: w) ltac:(discriminate) H) as G.
  pose proof (errs_jvk_to Bound yh CLUSTER false mz (c :: w)) as G'.
  destruct (jvk _ _ _ _ _ _) as [a|e]; [cbn; eauto|]. specialize (G e eq_refl). specialize (G' e eq_refl).
  destruct G as [<-|[<-|[<-|[]]]]; cbn; eauto. destruct G' as [G'|[G' _]]; [cbn in G'; intuition discriminate|discriminate].
Qed.

(** ** The parts between the y *)
Lemma split_on_y : forall c s, split_on c s = match s with [] => [[]] | x :: s' => if N.eqb c x then [] :: split_on c s' else match split_on c s' with [] => [[x]] | p :: ps => (x :: p) :: ps end end.
Proof. intros c [|x s]; reflexivity. Qed.
Lemma split_tl_nil : forall c s, In [] (tl (split_on c s)) -> (exists t, s = t ++ [c]) \/ exists u v, s = u ++ c :: c :: v.
Proof.
  induction s as [|x s IH]; intro H; [destruct H|]. cbn [split_on] in H. destruct (N.eqb c x) eqn:E.
  - apply N.eqb_eq in E. subst x. cbn [tl] in H. destruct (split_on c s) as [|p ps] eqn:Es; [destruct H|]. destruct H as [->|H].
    + destruct s as [|y s]; [left; exists []; reflexivity|]. rewrite split_on_y in Es. destruct (N.eqb c y) eqn:Ey.
      * apply N.eqb_eq in Ey. subst y. right. exists [], s. reflexivity.
      * destruct (split_on c s); discriminate.
    + cbn [tl] in IH. destruct (IH H) as [[t ->]|(u & v & ->)]; [left; exists (c :: t)|right; exists (c :: u), v]; reflexivity.
  - destruct (split_on c s) as [|p ps] eqn:Es; [destruct H|]. cbn [tl] in H, IH.
    destruct (IH H) as [[t ->]|(u & v & ->)]; [left; exists (x :: t)|right; exists (x :: u), v]; reflexivity.
Qed.
Lemma split_hd_prefix : forall c s p ps, split_on c s = p :: ps -> exists t, s = p ++ t /\ (t = [] \/ exists t', t = c :: t').
Proof.
  induction s as [|x s IH]; intros p ps H; cbn [split_on] in H.
  - injection H as <- <-. exists []. auto.
  - destruct (N.eqb c x) eqn:E.
    + injection H as <- <-. apply N.eqb_eq in E. subst x. exists (c :: s). split; [reflexivity|]. right. eauto.
    + destruct (split_on c s) as [|q qs] eqn:Es; [destruct (split_on_nonnil _ _ Es)|]. injection H as <- <-.
      destruct (IH _ _ eq_refl) as (t & -> & Ht). exists t. split; [reflexivity|exact Ht].
Qed.
Lemma split_nth : forall c s i p, nth_error (split_on c s) (S i) = Some p ->
  exists u t, s = u ++ c :: p ++ t /\ (t = [] \/ exists t', t = c :: t').
Proof.
  induction s as [|x s IH]; intros i p H; cbn [split_on] in H; [destruct i; discriminate|]. destruct (N.eqb c x) eqn:E.
  - apply N.eqb_eq in E. subst x. cbn [nth_error] in H. destruct i as [|i].
    + destruct (split_on c s) as [|q qs] eqn:Es; [discriminate|]. injection H as ->. destruct (split_hd_prefix _ _ _ _ Es) as (t & -> & Ht). exists [], t. auto.
    + destruct (IH _ _ H) as (u & t & -> & Ht). exists (c :: u), t. auto.
  - destruct (split_on c s) as [|q qs] eqn:Es; [destruct (split_on_nonnil _ _ Es)|]. cbn [nth_error] in H.
    destruct (IH i p H) as (u & t & -> & Ht). exists (x :: u), t. auto.
Qed.
Lemma split_last : forall c s p, last_opt (split_on c s) = Some p -> exists u, s = u ++ p.
Proof.
  intros c s p H. apply last_opt_some in H as [l H]. pose proof (join_split c s) as J. rewrite H in J. clear H. revert s J.
  induction l as [|q l IH]; intros s J; [exists []; symmetry; exact J|].
  destruct (IH (join_on c (l ++ [p])) eq_refl) as [u Hu].
  assert (E : join_on c ((q :: l) ++ [p]) = q ++ c :: join_on c (l ++ [p])) by (cbn [app join_on]; destruct (l ++ [p]) eqn:El; [destruct l; discriminate|reflexivity]).
  exists (q ++ c :: u). rewrite <- J, E, Hu, <- app_assoc. reflexivity.
Qed.

(** ** The loop over the parts *)
Definition NB : exn -> Prop := only [NotBrivlaError].
Ltac nb := apply errs_err; left; reflexivity.
Lemma head_total : forall i part nh,
  (forall rest, part = c_h :: rest -> take_while is_vowel rest <> [] -> exists syl, split_vowel_cluster (take_while is_vowel rest) = Ok syl) ->
  errs NB (part_head i part nh).
Proof.
  intros i part nh H. unfold part_head. destruct part as [|c rest]; [nb|]. destruct (N.eqb c c_h) eqn:E.
  - apply N.eqb_eq in E. subst c. destruct rest as [|r0 rest]; [nb|]. destruct (negb (is_vowel r0)) eqn:Ev; [nb|].
    apply negb_false_iff in Ev. specialize (H _ eq_refl). cbn [take_while] in *. rewrite Ev in *. destruct (H ltac:(discriminate)) as [syl Es]. rewrite Es. cbn [bind].
    apply split_vowel_cluster_spec in Es as [Ec _]. destruct syl as [|s0 syl]; [discriminate|]. unfold idxl. cbn [nth_error bind]. destruct (mems _ _); [nb|apply errs_ok].
  - destruct (_ && _); [nb|apply errs_ok].
Qed.
Lemma head_first : forall i part nh part' nh', part_head i part nh = Ok (part', nh') -> part' <> [] /\ forall t, part' <> c_h :: t.
Proof.
  intros i part nh part' nh' H. unfold part_head in H. destruct part as [|c rest]; [discriminate|]. destruct (N.eqb c c_h) eqn:E.
  - destruct rest as [|r0 rest]; [discriminate|]. destruct (negb (is_vowel r0)) eqn:Ev; [discriminate|]. inv_bind H. inv_bind H. destruct (mems _ _) in H; [discriminate|].
    injection H as <- <-. apply negb_false_iff in Ev. split; [discriminate|]. intros t E'. injection E' as -> _. discriminate.
  - destruct (_ && _) in H; [discriminate|]. injection H as <- <-. apply N.eqb_neq in E. split; [discriminate|]. congruence.
Qed.
Lemma tail_total : forall st cm (ys : list str) i (part : str) cl, part <> [] -> (forall t, part <> c_h :: t) ->
  (forall q, nth_error ys (i + 1) = Some q -> q <> []) -> errs NB (part_tail st cm ys i part cl).
Proof.
  intros st cm ys i part cl N H Hn. unfold part_tail. destruct (last_opt part) as [l|] eqn:El; [|apply last_opt_none in El; contradiction].
  unfold idx_last at 1. rewrite El. cbn [bind]. destruct (N.eqb l c_h) eqn:E; [|destruct (_ || _); apply errs_ok].
  apply N.eqb_eq in E. subst l. apply last_opt_some in El as [s ->]. rewrite dropl_app. apply errs_bind.
  - destruct (_ && _) eqn:Eb; [|apply errs_ok]. apply andb_t in Eb as [_ Eb]. apply Nat.ltb_lt in Eb.
    unfold idxl. match goal with |- context [nth_error ?l ?k] => destruct (nth_error l k) as [q|] eqn:Eq end; [|apply nth_error_None in Eq; clear -Eq Eb; unfold str in *; lia]. cbn [bind].
    specialize (Hn q eq_refl). destruct q; [contradiction|]. cbn. apply errs_ok.
  - intros req _. destruct s as [|x s] using rev_ind; [destruct (H [] eq_refl)|]. unfold idx_last. rewrite last_opt_app. cbn [bind]. destruct (negb _); [nb|apply errs_ok].
Qed.
Lemma tail_cases : forall st cm ys i part cl p, part_tail st cm ys i part cl = Ok p ->
  (p_adda p = true /\ p_copy p = part /\ p_part p = part ++ [c_a] /\ exists l, last_opt part = Some l /\ p_can p = negb (is_vowel l))
  \/ (p_adda p = false /\ p_part p = p_copy p /\ part = p_part p ++ [c_h] /\ ends_vowel (p_part p))
  \/ (p_adda p = false /\ p_part p = part /\ p_copy p = part /\ length ys - 1 <= i /\ cm = false).
Proof.
  intros st cm ys i part cl p H. unfold part_tail in H. inv_bind H. rename x into l. destruct (idx_last_ok _ _ _ E) as [s ->].
  destruct (N.eqb l c_h) eqn:El.
  - apply N.eqb_eq in El. subst l. inv_bind H. rewrite dropl_app in H. inv_bind H. destruct (negb _) eqn:Ev in H; [discriminate|]. injection H as <-. cbn.
    right. left. split; [reflexivity|]. split; [reflexivity|]. split; [reflexivity|]. apply negb_false_iff in Ev. unfold idx_last in E1.
    destruct (last_opt s) as [y|] eqn:Ey; [|discriminate]. assert (y = x0) by congruence. subst y. exists x0. auto.
  - destruct (_ || _) eqn:Eb in H; injection H as <-; cbn.
    + left. repeat split. exists l. rewrite last_opt_app. auto.
    + right. right. apply orb_false_iff in Eb as [Eb Ec]. apply Nat.ltb_ge in Eb. auto.
Qed.
Lemma kaha_total : forall st pa p num cl, pa <> [] -> low pa -> no_y pa ->
  errs NB (part_kaha (analyse_brivla Bound) st pa p num cl).
Proof.
  intros st pa p num cl N Hl Hy. unfold part_kaha. apply errs_bind.
  { destruct (_ && _); [|apply errs_ok]. 
    pose proof (analyse_total (mkSettings (y_hyphens st) false CLUSTER false (allow_mz st)) pa N (spelling_no_y _ Hl Hy)) as T.
    destruct (analyse_brivla _ _ _) as [[t l]|e]; [destruct (wtype_eqb _ _); [nb|apply errs_ok]|]. destruct (T e eq_refl) as [<-|[]]. apply errs_ok. }
  intros _ _. pose proof (errs_jvokaha_2 (y_hyphens st) (allow_mz st) (p_copy p)) as G.
  destruct (jvokaha_2 _ _ _) as [[|f0 fs]|e]; [apply errs_ok| |].
  - destruct (_ && _); [nb|]. destruct (count_found _ _ _). apply errs_ok.
  - specialize (G e eq_refl). cbn in G. destruct (count_found _ _ _) eqn:E. destruct G as [<-|[<-|[<-|[<-|[]]]]]; try apply errs_ok. nb.
Qed.
Lemma kaha_nonnil : forall ana st pa p num cl found num' cl', part_kaha ana st pa p num cl = Ok (true, found, num', cl') ->
  jvokaha_2 (y_hyphens st) (allow_mz st) (p_copy p) = Ok found /\ found <> [].
Proof.
  intros ana st pa p num cl found num' cl' H. pose proof (part_kaha_found _ _ _ _ _ _ _ _ _ _ H) as [K _]. split; [apply K; reflexivity|].
  intros ->. specialize (K eq_refl). unfold part_kaha in H. inv_bind H. rewrite K in H. discriminate.
Qed.
Lemma to_smabru_cases : forall part, 2 <= length part \/ (exists c, part = [c] /\ is_consonant c = false) ->
  to_smabru part = Ok ([], []) \/ exists t s, to_smabru part = Ok (t, s) /\ part = t ++ s /\ ends_vowel t.
Proof.
  intros part H. unfold to_smabru. destruct (tarmi_eqb (rafsi_tarmi (firstn 4 part)) CVhV) eqn:E1.
  { apply tarmi_eqb_eq, tarmi_CVhV in E1 as (a & b & c & E & _ & _ & Hc). right. eexists _, _. split; [reflexivity|]. split; [symmetry; apply firstn_skipn|].
    rewrite E. exists c. split; [reflexivity|exact Hc]. }
  destruct (tarmi_eqb (rafsi_tarmi (firstn 3 part)) CVV) eqn:E2.
  { apply tarmi_eqb_eq, tarmi_CVV in E2 as (a & b & c & E & _ & _ & Hc). right. eexists _, _. split; [reflexivity|]. split; [symmetry; apply firstn_skipn|].
    rewrite E. exists c. split; [reflexivity|exact Hc]. }
  clear E1 E2. destruct H as [H|(c & -> & Hc)]; [|cbn [idx nth_error bind]; rewrite Hc; left; reflexivity].
  destruct part as [|c0 [|c1 part]]; cbn in H; [lia|lia|]. cbn [idx nth_error bind]. destruct (is_consonant c0); [|left; reflexivity].
  destruct (is_vowel c1) eqn:Ev; [|left; reflexivity]. right. eexists _, _. split; [reflexivity|]. split; [reflexivity|]. cbn. exists c1. split; [reflexivity|exact Ev].
Qed.
Lemma ends_vowel_suffix : forall t s, s <> [] -> ends_vowel (t ++ s) -> ends_vowel s.
Proof. intros t s N (l & El & Hl). rewrite last_opt_app_ne in El by exact N. exists l. auto. Qed.
Lemma strip_ends : forall s, ends_vowel s -> ends_vowel (strip_hyphens s) /\ length (strip_hyphens s) <= length s.
Proof.
  intros s (l & El & Hl). apply last_opt_some in El as [u ->]. unfold strip_hyphens, strip_char.
  assert (D : exists u', drop_while is_hy (u ++ [l]) = u' ++ [l] /\ length u' <= length u).
  { induction u as [|x u IH]; [exists []; cbn [app drop_while]; rewrite (v_f9 _ Hl); auto|]. cbn [app drop_while]. destruct (is_hy x).
    - destruct IH as (u' & -> & L). exists u'. cbn [length]. auto with arith.
    - exists (x :: u). auto. }
  destruct D as (u' & -> & L). rewrite rev_app_distr. cbn [rev app drop_while]. rewrite (v_f9 _ Hl). cbn [rev]. rewrite rev_involutive. split.
  - exists l. split; [apply last_opt_app|exact Hl].
  - rewrite !app_length. cbn. lia.
Qed.
Lemma tos_total : forall st ys i part0 part p cl found,
  part_tail st false ys i part cl = Ok p \/ part_tail st true ys i part cl = Ok p ->
  i + 1 < length ys -> part <> [] -> length part <= length part0 -> p_can p = true ->
  jvokaha_2 (y_hyphens st) (allow_mz st) (p_copy p) = Ok found -> found <> [] ->
  errs NB (tosmabru_check (jvk Bound) st part0 (p_part p) (p_adda p)).
Proof.
  intros st ys i part0 part p cl found Ht Hi Np Hl Hcan Hf Nf.
  assert (C : (p_adda p = true /\ p_copy p = part /\ p_part p = part ++ [c_a] /\ exists l, last_opt part = Some l /\ p_can p = negb (is_vowel l))
    \/ (p_adda p = false /\ p_part p = p_copy p /\ part = p_part p ++ [c_h] /\ ends_vowel (p_part p))).
  { destruct Ht as [Ht|Ht]; apply tail_cases in Ht as [C|[C|(_ & _ & _ & C & C')]]; auto; exfalso; lia. }
  clear Ht. unfold tosmabru_check.
  assert (JE : forall s, s <> [] -> ~ bad_end s -> errs NB (match jvk Bound (y_hyphens st) CLUSTER false (allow_mz st) s with
        | Ok _ => Err NotBrivlaError
        | Err DecompositionError | Err InvalidClusterError => Ok tt
        | Err e => Err e
        end)).
  { intros s Ns B. pose proof (jvk_no_index (y_hyphens st) CLUSTER false (allow_mz st) s Ns B) as G.
    destruct (jvk _ _ _ _ _ _) as [a|e]; [nb|]. destruct (G e eq_refl) as [<-|[<-|[<-|[]]]]; try apply errs_ok. nb. }
  destruct C as [(Ea & Ec & Ep & l & El & Ecan)|(Ea & Ep & Epart & Ev)]; rewrite Ea.
  - rewrite Ep. rewrite Hcan in Ecan. symmetry in Ecan. apply negb_true_iff in Ecan.
    destruct (to_smabru_cases (part ++ [c_a])) as [E|(t & s & E & Es & Et)]; [left; rewrite app_length; cbn; destruct part; [contradiction|cbn; lia]| |]; rewrite E; cbn [bind]; [apply errs_ok|].
    destruct s as [|s0 s'] eqn:Ess; [apply errs_ok|]. rewrite <- Ess in *. cbv zeta.
    assert (Hs : exists s1, s = s1 ++ [c_a] /\ part = t ++ s1).
    { destruct s as [|x s1] using rev_ind; [discriminate|]. rewrite app_assoc in Es. apply app_inj_tail in Es as [-> <-]. eauto. }
    clear Ess s0 s'. destruct Hs as (s1 & -> & Hp). rewrite dropl_app.
    assert (N1 : s1 <> []).
    { intros ->. rewrite app_nil_r in Hp. subst t. destruct Et as (x & Ex & Hx). congruence. }
    assert (B1 : ~ bad_end s1).
    { intro B. apply jvokaha_2_sound in Hf as [Hc Hcut]. apply (cut_not_bad _ _ _ _ [] Hcut Nf). cbn. rewrite Hc, Ec, Hp. apply bad_app. exact B. }
    apply errs_bind; [|intros bad _; destruct bad; [nb|apply JE; assumption]].
    destruct (is_valid_rafsi s1 false); [|apply errs_ok]. destruct (tarmi_eqb (rafsi_tarmi s1) CCV) eqn:E3; [|apply errs_ok].
    exfalso. apply tarmi_eqb_eq, tarmi_CCV in E3 as (a & b & c & -> & _ & _ & Hc). rewrite Hp in El.
    change [a; b; c] with ([a; b] ++ [c]) in El. rewrite app_assoc, last_opt_app in El. congruence.
  - destruct (to_smabru_cases (p_part p)) as [E|(t & s & E & Es & Et)].
    { destruct Ev as (x & Ex & Hx). destruct (p_part p) as [|y [|z r]]; [discriminate| |left; cbn; lia]. right. exists y. injection Ex as ->. split; [reflexivity|apply v_f0; exact Hx]. }
    { rewrite E. apply errs_ok. }
    rewrite E. cbn [bind]. destruct s as [|s0 s'] eqn:Ess; [apply errs_ok|]. rewrite <- Ess in *. cbv zeta.
    assert (Ns : s <> []) by (rewrite Ess; discriminate). clear Ess s0 s'.
    rewrite Es in Ev. apply ends_vowel_suffix in Ev; [|exact Ns]. destruct (strip_ends _ Ev) as [Ev' Ls].
    apply errs_bind.
    + destruct (is_valid_rafsi _ false); [|apply errs_ok]. destruct (tarmi_eqb (rafsi_tarmi (strip_hyphens s)) CCV) eqn:E3; [|apply errs_ok].
      apply tarmi_eqb_eq, tarmi_CCV in E3 as (a & b & c & E3 & _). rewrite E3 in Ls. cbn in Ls.
      unfold idx. destruct (nth_error part0 (length t + 3)) eqn:E4; [cbn [bind]; apply errs_ok|]. exfalso. apply nth_error_None in E4.
      rewrite Epart, Es, !app_length in Hl. cbn in Hl. lia.
    + intros bad _. destruct bad; [nb|]. apply JE; [intros Z; rewrite Z in Ev'; destruct Ev' as (x & Ex & _); discriminate|apply ends_vowel_not_bad; exact Ev'].
Qed.
Lemma part_total : forall st cm (ys : list str) i (part0 : str) a,
  2 <= length ys -> i < length ys -> low part0 -> no_y part0 ->
  (forall rest, part0 = c_h :: rest -> take_while is_vowel rest <> [] -> exists syl, split_vowel_cluster (take_while is_vowel rest) = Ok syl) ->
  (forall q : str, nth_error ys (i + 1) = Some q -> q <> []) ->
  (i + 1 = length ys -> cm = false -> ends_vowel part0) ->
  errs NB (analyse_part (analyse_brivla Bound) (jvk Bound) st cm ys i part0 a).
Proof.
  intros st cm ys i part0 a H2 Hi Hl Hy Hsyl Hnext Hlast. unfold analyse_part. cbv zeta.
  apply errs_bind; [apply head_total; exact Hsyl|]. intros [part nh] Eh.
  destruct (head_first _ _ _ _ _ Eh) as [Np Nh]. destruct (part_head_eq _ _ _ _ _ Eh) as (_ & _ & Ell & (h & _ & Eph)).
  assert (Lp : low part) by (rewrite Eph in Hl; apply low_app in Hl; tauto).
  assert (Yp : no_y part) by (intro I; apply Hy; rewrite Eph; apply in_or_app; right; exact I).
  destruct (tarmi_eqb _ _); [apply errs_ok|].
  apply errs_bind; [destruct part; [contradiction|apply errs_ok]|]. intros q0 _.
  apply errs_bind; [apply tail_total; assumption|]. intros p Et.
  assert (Lpa : low (part ++ [c_a])) by (apply low_app; split; [assumption|repeat constructor]).
  assert (Ypa : no_y (part ++ [c_a])) by (intro I; apply in_app_or in I as [I|[I|[]]]; [exact (Yp I)|discriminate]).
  assert (K : low (p_part p) /\ no_y (p_part p) /\ ends_vowel (p_part p)).
  { destruct (tail_cases _ _ _ _ _ _ _ Et) as [(_ & _ & -> & _)|[(_ & _ & E & Ev)|(_ & -> & _ & Hi' & Hcm)]].
    - split; [exact Lpa|]. split; [exact Ypa|]. exists c_a. split; [apply last_opt_app|reflexivity].
    - rewrite E in Lp. apply low_app in Lp as [Lp _]. split; [exact Lp|]. split; [|exact Ev]. intro I. apply Yp. rewrite E. apply in_or_app. left. exact I.
    - split; [exact Lp|]. split; [exact Yp|]. destruct (Hlast ltac:(lia) Hcm) as (l & El & Hv). exists l. split; [congruence|exact Hv]. }
  destruct K as (K1 & K2 & K3).
  apply errs_bind; [destruct (p_can p); [apply kaha_total; [destruct part; discriminate|exact Lpa|exact Ypa]|apply errs_ok]|].
  intros [[[dk found] num] cl] Ek. destruct dk.
  - destruct (p_can p) eqn:Ecan; [|discriminate]. apply kaha_nonnil in Ek as [Ej Nf].
    apply errs_bind.
    { match goal with |- errs _ (if ?b then _ else _) => destruct b end; [|apply errs_ok].
      unfold idxl. match goal with |- context [nth_error ys 1] => destruct (nth_error ys 1) eqn:E1 end; [|apply nth_error_None in E1; lia]. cbn [bind].
      match goal with |- errs _ (if ?b then _ else _) => destruct b end; [nb|apply errs_ok]. }
    intros _ _. apply errs_bind; [|intros; apply errs_ok]. destruct (i =? 0) eqn:E0; [|apply errs_ok]. apply Nat.eqb_eq in E0.
    assert (Lpp : length part <= length part0) by (rewrite Eph, app_length; lia).
    assert (Hi1 : i + 1 < length ys) by lia.
    destruct cm; eapply tos_total; [right; exact Et|exact Hi1|exact Np|exact Lpp|exact Ecan|exact Ej|exact Nf|left; exact Et|exact Hi1|exact Np|exact Lpp|exact Ecan|exact Ej|exact Nf].
  - assert (G : errs (only [NotZihevlaError]) (check_zihevla_or_rafsi (analyse_brivla Bound) (jvk Bound) (p_req p || negb (exp_rafsi_shapes st)) (y_hyphens st)
        (exp_rafsi_shapes st) (allow_mz st) (p_part p))).
    { apply (check_total (length (p_part p))); try assumption; [|lia]. intros st' u N' L' Y' _. apply analyse_total; [exact N'|apply spelling_no_y; assumption]. }
    apply errs_bind.
    { destruct (check_zihevla_or_rafsi _ _ _ _ _ _ _) as [t|e]; [apply errs_ok|]. destruct (G e eq_refl) as [<-|[]]. nb. }
    intros t _. apply errs_bind.
    { match goal with |- errs _ (if ?b then _ else _) => destruct b end; [|apply errs_ok]. apply errs_bind; [|intros b _; destruct b; [nb|apply errs_ok]].
      destruct K3 as (l & El & Hv). pose proof (errs_j2_end (y_hyphens st) (allow_mz st) (p_part p) (vowel_not_r _ _ El Hv)) as J.
      destruct (jvokaha_2 _ _ _) as [x|e]; [apply errs_ok|]. destruct (J e eq_refl) as [<-|[<-|[<-|[]]]]; try apply errs_ok. nb. }
    intros _ _. destruct (p_part p) eqn:Epp; [destruct K3 as (l & El & _); discriminate|]. apply errs_ok.
Qed.
Lemma loop_total : forall st cm (ys parts : list str) i a, 2 <= length ys -> parts = skipn i ys ->
  (forall k p, nth_error ys k = Some p -> low p /\ no_y p /\ p <> []
    /\ (forall rest, p = c_h :: rest -> take_while is_vowel rest <> [] -> exists syl, split_vowel_cluster (take_while is_vowel rest) = Ok syl)
    /\ (k + 1 = length ys -> cm = false -> ends_vowel p)) ->
  errs NB (analyse_loop (analyse_brivla Bound) (jvk Bound) st cm ys i parts a).
Proof.
  intros st cm ys parts. induction parts as [|p parts IH]; intros i a H2 E H; [apply errs_ok|]. cbn [analyse_loop].
  assert (Ep : nth_error ys i = Some p /\ parts = skipn (S i) ys).
  { clear -E. revert i E. induction ys as [|y ys IH]; intros [|i] E; try discriminate; cbn in *; [injection E as -> ->; auto|apply IH; exact E]. }
  destruct Ep as [Ep E']. destruct (H _ _ Ep) as (A & B & C & D & F). apply errs_bind.
  - apply part_total; try assumption; [apply nth_error_Some; rewrite Ep; discriminate|]. intros q Eq. apply (H _ _ Eq).
  - intros a' _. apply IH; assumption.
Qed.

(** ** The analyser *)
Definition regular (s : str) : Prop :=
  (forall u v, s <> u ++ L "yy" ++ v)
  /\ (forall u r t, s = u ++ L "y'" ++ r ++ t -> r <> [] -> Forall vowel r -> (forall c t', t = c :: t' -> ~ vowel c) ->
        exists l, concat l = r /\ syllables l)
  /\ (forall u a b, s = u ++ [a; b] ++ L "r" -> ~ (vowel b /\ (vowel a \/ a = apostrophe)) /\ [a; b] <> L "'y").
Lemma take_while_split : forall (p : char -> bool) (s : str),
  exists t, s = take_while p s ++ t /\ (forall c t', t = c :: t' -> p c = false) /\ Forall (fun c => p c = true) (take_while p s).
Proof.
  induction s as [|x s IH]; [exists []; split; [reflexivity|]; split; [discriminate|constructor]|]. cbn [take_while]. destruct (p x) eqn:E.
  - destruct IH as (t & E1 & Ht & F). exists t. split; [cbn; f_equal; exact E1|split; [exact Ht|constructor; assumption]].
  - exists (x :: s). split; [reflexivity|]. split; [congruence|constructor].
Qed.
Theorem analyse_regular : forall st w, w <> [] -> regular (standard_spelling w) -> errs NB (analyse_brivla Bound st w).
Proof.
  intros st u Hne (Ryy & Rsyl & Rend). rewrite analyse_brivla_eq. unfold analyse_body.
  rewrite normalise_ok by exact Hne. cbn [bind].
  pose proof (spelling_low u) as Hl'. 
  assert (TY : no_y (standard_spelling u) -> errs NB (analyse_body (analyse_brivla Bound) (jvk Bound) st u)).
  { intro Y. rewrite <- analyse_brivla_eq. apply analyse_total; assumption. }
  unfold analyse_body in TY. rewrite normalise_ok in TY by exact Hne. cbn [bind] in TY.
  set (v := standard_spelling u) in *. clearbody v.
  destruct (in_dec N.eq_dec c_y v) as [Iy|Ny]; [|exact (TY Ny)]. clear TY.
  destruct (last_opt v) as [l|] eqn:El; [|nb]. cbv zeta.
  destruct (negb (is_consonant l) && negb (is_vowel l)) eqn:Ecv; [nb|].
  destruct (is_consonant l && is_gismu _ _); [nb|]. destruct (negb (is_consonant l) && is_gismu _ _); [apply errs_ok|].
  assert (G : errs NB (analyse_other (analyse_brivla Bound) (jvk Bound) st (is_consonant l) v)).
  { unfold analyse_other. destruct v as [|v0 v]; [discriminate|]. cbn [idx nth_error bind].
    destruct (negb (is_vowel v0 || is_consonant v0)) eqn:E0; [nb|]. apply negb_false_iff in E0. cbv zeta.
    assert (H0 : v0 <> c_y /\ v0 <> c_h) by (split; intros ->; discriminate).
    assert (Hly : l <> c_y) by (intros ->; discriminate).
    set (s := v0 :: v) in *. set (ys := split_on c_y s).
    assert (L2 : 2 <= length ys).
    { pose proof (split_on_nonnil c_y s). destruct ys as [|p [|q r]] eqn:Ey; [contradiction| |cbn; lia].
      exfalso. apply (split_on_single c_y s); [fold ys; rewrite Ey; reflexivity|exact Iy]. }
    destruct (length ys =? 1) eqn:E1; [apply Nat.eqb_eq in E1; lia|].
    unfold analyse_compound. apply errs_bind.
    - apply loop_total; [exact L2|reflexivity|]. intros k p Hk.
      assert (Ip : In p ys) by (eapply nth_error_In; exact Hk).
      assert (Np : p <> []).
      { intros ->. destruct ys as [|p0 ps] eqn:Ey; [destruct Ip|]. destruct k as [|k].
        - injection Hk as ->. unfold ys, s in Ey. rewrite split_on_y in Ey. destruct (N.eqb c_y v0) eqn:Ev; [apply N.eqb_eq in Ev; destruct H0; congruence|].
          destruct (split_on c_y v); discriminate.
        - cbn [nth_error] in Hk. apply nth_error_In in Hk. destruct (split_tl_nil c_y s) as [[t Et]|(x & y & Et)]; [fold ys; rewrite Ey; exact Hk| |].
          + rewrite Et, last_opt_app in El. congruence.
          + exact (Ryy _ _ Et). }
      split.
      { apply Forall_forall. intros c Hc. unfold low in Hl'. rewrite Forall_forall in Hl'. apply Hl'.
        clear -Hk Hc. fold s. destruct k as [|k].
        - destruct ys as [|q qs] eqn:Ey; [discriminate|]. injection Hk as ->. destruct (split_hd_prefix _ _ _ _ Ey) as (t & -> & _). apply in_or_app. left. exact Hc.
        - destruct (split_nth _ _ _ _ Hk) as (x & t & -> & _). apply in_or_app. right. right. apply in_or_app. left. exact Hc. }
      split; [exact (split_on_nosep _ _ _ Ip)|]. split; [exact Np|]. split.
      + intros rest -> Nr. destruct k as [|k].
        { exfalso. destruct ys as [|q qs] eqn:Ey; [discriminate|]. injection Hk as ->. destruct (split_hd_prefix _ _ _ _ Ey) as (t & Et & _). unfold s in Et. injection Et as Et _. destruct H0; congruence. }
        destruct (split_nth _ _ _ _ Hk) as (x & t & Et & Ht). destruct (take_while_split is_vowel rest) as (t2 & E2 & H2 & F2).
        destruct (Rsyl x (take_while is_vowel rest) (t2 ++ t)) as (l' & Hl1 & Hl2); [|exact Nr| | |exists l'; apply split_vowel_cluster_spec; auto].
        * rewrite Et. cbn [L list_ascii_of_string map app]. do 2 f_equal. rewrite E2 at 1. rewrite <- app_assoc. reflexivity.
        * eapply Forall_impl; [|exact F2]. intros c Hc. apply is_vowel_spec. exact Hc.
        * intros c t' Ec Hv. apply is_vowel_spec in Hv. destruct t2 as [|c2 t2]; cbn in Ec.
          -- destruct Ht as [->|(t'' & ->)]; [discriminate|]. injection Ec as <- _. discriminate.
          -- injection Ec as -> _. specialize (H2 _ _ eq_refl). congruence.
      + intros Hk1 Hcm. assert (Elast : last_opt ys = Some p).
        { clear -Hk Hk1. revert k Hk Hk1. induction ys as [|y ys IH]; intros [|k] Hk Hk1; try discriminate; cbn in Hk, Hk1.
          - injection Hk as ->. destruct ys; [reflexivity|cbn in Hk1; lia].
          - assert (N : ys <> []) by (intros ->; destruct k; discriminate). change (y :: ys) with ([y] ++ ys). rewrite last_opt_app_ne by exact N. apply (IH k Hk). lia. }
        destruct (split_last _ _ _ Elast) as [x Ex]. exists l. split; [rewrite Ex, last_opt_app_ne in El by exact Np; exact El|].
        rewrite Hcm in Ecv. destruct (is_vowel l); [reflexivity|discriminate].
    - intros a _. match goal with |- errs _ (if ?b then _ else _) => destruct b end; [nb|].
      assert (Nv : v <> []) by (intros ->; destruct Iy as [Iy|[]]; destruct H0; congruence).
      apply errs_bind; [destruct (is_vowel v0); [destruct v; [contradiction|apply errs_ok]|apply errs_ok]|].
      intros vc _. apply errs_bind; [|intros b _; destruct b; [nb|apply errs_ok]]. destruct vc; [apply errs_ok|].
      destruct (slinkuhi_no_index (y_hyphens st) (allow_mz st) s) as [b Hb]; [discriminate| |unfold slinkuhi in Hb; rewrite Hb; apply errs_ok].
      intros (x & a1 & b1 & Ex & B).
      assert (L3 : 3 <= length s).
      { destruct v as [|v1 [|v2 v]]; [contradiction| |cbn; lia]. exfalso. unfold s in El. injection El as ->. destruct Iy as [Iy|[Iy|[]]]; destruct H0; congruence. }
      destruct x as [|x0 [|x1 x]]; [exfalso; apply (f_equal (@length _)) in Ex; cbn in Ex; cbn in L3; lia|exfalso; apply (f_equal (@length _)) in Ex; cbn in Ex; cbn in L3; lia|].
      injection Ex as _ _ Ex. destruct (Rend x a1 b1) as [R1 R2]; [exact Ex|].
      destruct B as [[B1 B2]|[-> ->]]; [|apply R2; reflexivity]. apply R1. split; [apply is_vowel_spec; exact B1|]. destruct B2 as [B2|B2]; [left; apply is_vowel_spec; exact B2|right; exact B2]. }
  pose proof (errs_jvk Bound (y_hyphens st) (consonants st) (glides st) (allow_mz st) v) as J.
  destruct (jvk _ _ _ _ _ _) as [a|e]; [apply errs_ok|]. destruct (J e eq_refl) as [J'|[J' _]]; [|discriminate].
  cbn in J'. destruct J' as [<-|[<-|[<-|[<-|[]]]]]; try exact G. nb.
Qed.

(** ** The search, with every option *)
Definition sounds (x : str * nat) : Prop := exists v s, last_sound (fst x) = Ok v /\ first_sound (fst x) = Ok s.
Lemma sounds_ne : forall x, sounds x -> fst x <> [].
Proof. intros x (v & s & H & _) E. rewrite E in H. discriminate. Qed.
Lemma combine_answers : forall w r k rc sc ix tos gen n st, w <> [] -> ix <> [] -> (exists v, last_sound w = Ok v) ->
  sounds (r, rc) -> exists o, combine w r k rc sc ix tos gen n st = Ok o /\ forall c, o = Some c -> heard c.
Proof.
  intros w r k rc sc ix tos gen n st Hw Hi [v Hv] Hf.
  assert (G : exists o, combine w r k rc sc ix tos gen n st = Ok o).
  { pose proof (sounds_ne _ Hf) as Nr. destruct Hf as (v' & s' & F1 & F2). cbn [fst] in *. unfold combine. cbv zeta.
    destruct (last_opt w) as [ll|] eqn:El; [|apply last_opt_none in El; contradiction]. unfold idx_last at 1. rewrite El. cbn [bind].
    destruct r as [|r0 r']; [contradiction|]. cbn [idx nth_error bind].
    destruct (_ && _); [eauto|]. destruct (_ && _); [eauto|]. destruct (mems _ _); [eauto|]. destruct (_ && _); [eauto|].
    destruct (last_opt ix) as [li|] eqn:Eli; [|apply last_opt_none in Eli; contradiction]. unfold idx_last. rewrite Eli. cbn [bind].
    destruct (_ && _); [eauto|]. destruct (glue _ _ _ _ _ _ _ _); [|eauto]. destruct (next_tosmabru _ _ _ _ _); [|eauto].
    unfold next_consonants. rewrite Hv, F2. cbn [bind].
    destruct (_ || _); [cbn [bind]; eauto|]. destruct (cset_eqb _ _); [|cbn [bind]; eauto]. destruct (negb _); cbn [bind]; eauto. }
  destruct G as [o G]. exists o. split; [exact G|]. intros c ->. apply combine_word in G as (h & i & _ & Hr & Ew & _ & _ & _ & _ & Ei & _).
  split; [rewrite Ew; destruct w; [contradiction|discriminate]|]. split; [rewrite Ei; destruct ix; discriminate|].
  destruct Hf as (v' & s' & F1 & _). exists v'. rewrite Ew, app_assoc. apply last_sound_app. exact F1.
Qed.

Lemma table_answers : forall gen st l0 l1 rll, Forall (Forall sounds) (l0 :: l1 :: rll) ->
  exists t, lujvo_table gen st (l0 :: l1 :: rll) = Ok t.
Proof.
  intros gen st l0 l1 rll HF. inversion HF as [|? ? F0 HF']; subst. inversion HF' as [|? ? F1 FR]; subst. rewrite Forall_forall in F0, F1.
  unfold lujvo_table. cbn [idxl nth_error bind skipn].
  assert (G1 : exists t1, first_step gen st (length (l0 :: l1 :: rll)) l0 l1 = Ok t1 /\ all_heard t1).
  { unfold first_step. apply (fold_res_total _ _ all_heard); [|intros ? ? ? ? []].
    intros a [r0 n0] Hin Ha. apply (fold_res_total _ _ all_heard); [|exact Ha].
    intros a0 [r1 n1] Hin1 Ha0. specialize (F0 _ Hin). specialize (F1 _ Hin1). pose proof (sounds_ne _ F0) as N0. cbn [fst] in N0.
    assert (T : exists tos, first_tos r0 gen = Ok tos).
    { unfold first_tos. destruct (_ || _); [eauto|]. destruct (last_opt r0) as [l|] eqn:El; [|apply last_opt_none in El; contradiction].
      unfold idx_last. rewrite El. cbn [bind]. eauto. }
    destruct T as [tos ->]. cbn [bind].
    destruct (combine_answers r0 r1 n0 n1 (score r0) [(0, length (strip_hyphens r0))] tos gen (length (l0 :: l1 :: rll)) st) as (o & -> & Ho);
      [exact N0|discriminate| |exact F1|].
    { destruct F0 as (v & s & Q & _). exists v. exact Q. }
    cbn [bind]. apply update_total; assumption. }
  assert (G2 : forall ls t1, Forall (Forall sounds) ls -> all_heard t1 ->
    exists t, fold_res (next_step gen st) ls t1 = Ok t /\ all_heard t).
  { intros ls t1 Hls H1. apply (fold_res_total _ _ all_heard); [|exact H1].
    intros a rl Hin Ha. rewrite Forall_forall in Hls. specialize (Hls _ Hin). rewrite Forall_forall in Hls.
    unfold next_step. apply (fold_res_total _ _ all_heard); [|intros ? ? ? ? []].
    intros a0 [r rc] Hr Ha0. apply (fold_res_total _ _ all_heard); [|exact Ha0].
    intros a1 [[[tos k] lc] [[w sc] ix]] Hb Ha1. apply tbl_iter_In in Hb. destruct (Ha _ _ _ _ Hb) as (B1 & B2 & B3).
    destruct (combine_answers w r k rc sc ix tos gen 0 st) as (o & -> & Ho); [exact B1|exact B2|exact B3|apply Hls; exact Hr|].
    cbn [bind]. apply update_total; assumption. }
  destruct l0 as [|f0 l0].
  - cbn [bind]. destruct (G2 rll [] FR) as (t & E & _); [intros ? ? ? ? []|]. eauto.
  - destruct G1 as (t1 & E1 & H1). rewrite E1. cbn [bind]. destruct (G2 rll t1 FR H1) as (t & E & _). eauto.
Qed.

Lemma best_answers : forall gen st rll, Forall (Forall sounds) rll -> 2 <= length rll -> errs (only [NoLujvoFoundError]) (best_word gen st rll).
Proof.
  intros gen st rll F H. destruct rll as [|l0 [|l1 rll]]; cbn in H; try lia.
  destruct (table_answers gen st _ _ _ F) as [t Et]. unfold best_word. rewrite Et. cbn [bind].
  destruct (pick_best _ _ _ _); es.
Qed.
Lemma piece_sounds : forall st fi la x p, piece st fi la x p -> sounds x.
Proof.
  intros st fi la [f n] [[r t] suf] (U & Ef & Hs & Hn). cbn [fst snd] in *.
  destruct (u_last _ _ _ U) as (s & d & Er & Hd). destruct (u_first _ _ _ U) as (c0 & s0 & Er0 & Hc0).
  exists d. assert (LS : last_sound f = Ok d).
  { rewrite Ef. generalize (prefix_of fi r). intro u. rewrite Er, !app_assoc.
    apply last_sound_hy; [eapply suffixed_hy; exact Hs|apply vc_not_hy; exact Hd]. }
  assert (G : exists q, first_sound f = Ok q).
  { rewrite Ef. unfold first_sound.
    assert (Hh : N.eqb c_h c0 = false).
    { destruct (N.eqb c_h c0) eqn:E; [|reflexivity]. apply N.eqb_eq in E. subst c0. discriminate. }
    destruct (prefix_cases fi r) as [->|[-> _]]; cbn [app drop_while]; rewrite ?N.eqb_refl; rewrite Er0; cbn [app drop_while]; rewrite Hh; cbn; eauto. }
  destruct G as [q G]. exists q. split; [exact LS|exact G].
Qed.
Lemma list_sounds : forall lk st vs rll, get_rafsi_list_list (analyse_brivla lk) (jvk lk) st vs = Ok rll -> Forall (Forall sounds) rll.
Proof.
  intros lk st vs rll H. unfold get_rafsi_list_list in H. destruct (list_list_nth _ _ _ _ _ _ _ H) as [_ N1].
  apply Forall_forall. intros fs Hin. apply In_nth_error in Hin as [k Hk]. apply N1 in Hk as (v & _ & Hv). clear -Hv.
  apply Forall_forall. intros [f n] Hin. destruct (forms_source _ _ _ _ _ _ _ Hv Hin) as (r & t & fs' & Hs & Hf & Hi).
  pose proof (source_usable _ _ _ _ _ Hs) as U.
  destruct (forms_shape _ _ _ _ _ _ _ _ _ (usable_ne _ _ _ U) Hf Hi) as (suf & Ef & Hsuf & Hk).
  eapply (piece_sounds st _ _ _ (r, t, suf)). split; [exact U|]. eauto.
Qed.

(** ** The check of experimental rafsi *)
Lemma slinkuhi_answers : forall yh mz w, w <> [] -> ~ bad_end w -> exists b, slinkuhi Bound yh mz w = Ok b.
Proof.
  intros yh mz w N H. destruct w as [|c w]; [contradiction|]. destruct (is_vowel c) eqn:Ev.
  - unfold slinkuhi, Core.is_slinkuhi. cbn [idx nth_error bind]. rewrite Ev. eauto.
  - apply slinkuhi_no_index; [exact N|]. intros (u & a & b & E & B). destruct u as [|u0 [|u1 u]].
    + injection E as <- <- E1 E2. subst. destruct B as [[_ [B|B]]|[B _]]; discriminate.
    + injection E as _ <- -> ->. destruct B as [[B _]|[B _]]; [congruence|discriminate].
    + injection E as _ _ E. apply H. exists u, a, b. split; [exact E|exact B].
Qed.
Lemma check_answers : forall req yh exp mz v, low v -> no_y v -> v <> [] -> ~ bad_end v ->
  errs (only [NotZihevlaError]) (check_zihevla_or_rafsi (analyse_brivla Bound) (jvk Bound) req yh exp mz v).
Proof.
  intros req yh exp mz v Hl Hy Nv Nb. unfold check_zihevla_or_rafsi. assert (A : forall st u, u <> [] -> low u -> no_y u -> length u < S (length v) -> errs (only [NotBrivlaError]) (analyse_brivla Bound st u)).
  { intros st' u N' L' Y' _. apply analyse_total; [exact N'|apply spelling_no_y; assumption]. }
  assert (SS : exists b, slinkuhi Bound yh mz v = Ok b) by (apply slinkuhi_answers; assumption).
  destruct v as [|c0 v]; [contradiction|].
  destruct (req && _); [apply errs_err; left; reflexivity|]. apply errs_bind.
  { apply zloop_total; [lia|discriminate|reflexivity]. }
  intros z Hz. destruct (zloop_sound _ _ _ _ _ _ _ Hz (zinv_start _)) as (syl & _ & _ & I & _). pose proof (zi_cl _ _ _ _ I) as CL.
  assert (LP : forall p, z_cluster z = Some p -> p + 2 <= length (c0 :: v)).
  { intros p Ez. rewrite Ez in CL. destruct CL as (u & w & (E & (a & b & t & Ew & _) & _) & Lu & _). rewrite E, Ew, app_length. cbn [length]. lia. }
  clear CL. apply errs_bind.
  { destruct (_ && _); [apply errs_err; left; reflexivity|]. destruct (2 <? _); [|es]. destruct (z_cluster z) as [p|]; [|es].
    destruct (0 <? p) eqn:Ep; [|es]. apply Nat.ltb_lt in Ep.
    assert (Lp : p < length (c0 :: v)) by (specialize (LP p eq_refl); lia).
    destruct (suffix_total (length (c0 :: v)) (fun st' u N' L' Y' _ => analyse_total st' u N' (spelling_no_y u L' Y')) (dflt_y yh) (c0 :: v) p) as [b ->]; try assumption; try reflexivity. cbn [bind]. destruct b; [apply errs_err; left; reflexivity|].
    destruct (falls_total (length (c0 :: v)) (fun st' u N' L' Y' _ => analyse_total st' u N' (spelling_no_y u L' Y')) yh (c0 :: v) p (seq 1 (p - 1))) as [b' ->]; try assumption; try reflexivity.
    { apply Forall_forall. intros i Hi. apply in_seq in Hi. lia. }
    cbn [bind]. destruct b'; [apply errs_err; left; reflexivity|es]. }
  intros _ _. cbn [idx nth_error bind]. destruct (z_cluster z) as [p|].
  - apply errs_bind.
    { destruct (is_vowel c0); [|es]. specialize (LP p eq_refl). destruct v as [|c1 v']; [cbn in LP; lia|]. cbn [nth_error bind]. apply errs_ok. }
    intros vc _. destruct vc; [es|]. destruct SS as [b Hb]. unfold slinkuhi in Hb. rewrite Hb. cbn [bind].
    destruct b; [apply errs_err; left; reflexivity|es].
  - repeat match goal with |- errs _ (if ?b then _ else _) => destruct b end; try (apply errs_err; left; reflexivity). es.
Qed.
