(** The pieces of a compound word (several parts separated by y) *)
From Verif Require Import Str Data Tarmi Rafsi Core Api Lib Spec Shapes Decomp Basic Vowels Katna Dict Errs Builder Jvokaha Fuel Raises Inv Parts Clusters Forms Chain Score Alt Lujvo.

Lemma alternates_mono : forall ps, alternates false ps -> alternates true ps.
Proof. intros [|p ps] H; [reflexivity|]. cbn [alternates] in *. destruct (is_hyphen p); [|exact H]. destruct H; discriminate. Qed.
Lemma alternates_app : forall a f b, alternates f a -> alternates true b -> alternates f (a ++ b).
Proof.
  induction a as [|p a IH]; intros f b Ha Hb; cbn [alternates app] in *.
  - subst f. exact Hb.
  - destruct (is_hyphen p); [destruct Ha; split; [assumption|]|]; apply IH; assumption.
Qed.

(** the pieces of a text without y *)
Lemma cut_noy_alternates : forall rn hy mz ps prev f, cut rn hy mz prev ps -> ~ In c_y (concat ps) ->
  (f = false -> ps <> [] /\ (prev = None \/ exists q, prev = Some q /\ length q = 1)) -> alternates f ps.
Proof.
  intros rn hy mz ps. induction ps as [|p ps IH]; intros prev f C Hy Hf; cbn [alternates].
  - destruct f; [reflexivity|]. destruct (Hf eq_refl); congruence.
  - destruct C as [C1 C2].
    assert (Hy' : ~ In c_y (concat ps)) by (intro G; apply Hy; cbn [concat]; apply in_or_app; right; exact G).
    destruct C1 as [(s & Hs & _)|(q & E & L & D)].
    + rewrite (cll_not_hyphen mz) by (exists s; exact Hs). apply (IH (Some p)); [exact C2|exact Hy'|discriminate].
    + assert (f = true).
      { destruct f; [reflexivity|]. destruct (Hf eq_refl) as [_ [G|(q' & G & G')]]; congruence. }
      assert (G : length p = 1 /\ ps <> [] /\ is_hyphen p = true).
      { destruct D as [->|[[_ ->]|(_ & _ & [[-> (t & Et)]|[-> (c & t & Et & _)]])]].
        - exfalso. apply Hy. left. reflexivity.
        - exfalso. apply Hy. right. left. reflexivity.
        - split; [reflexivity|]. split; [intros ->; discriminate|]. reflexivity.
        - split; [reflexivity|]. split; [intros ->; discriminate|]. reflexivity. }
      destruct G as (G1 & G2 & G3). rewrite G3. split; [assumption|]. apply (IH (Some p)); [exact C2|exact Hy'|]. intros _. split; [exact G2|]. right. eauto.
Qed.

Lemma nh_hyphen : forall i a h, 0 < i -> a_hyphen a = [] \/ a_hyphen a = [c_h] -> h = [] \/ h = [c_h] ->
  start_hyphen i a ++ h <> [] /\ is_hyphen (start_hyphen i a ++ h) = true.
Proof.
  intros i a h Hi [Ha|Ha] [-> | ->]; unfold start_hyphen; destruct i; try lia; cbn [Nat.eqb]; rewrite Ha; split; try discriminate; reflexivity.
Qed.

(** one part: what is appended to the pieces, and what is pending *)
Lemma part_pieces : forall ana jvk st cm ys i p0 a a', part_case ana jvk st cm ys i p0 a a' ->
  ~ In c_y p0 -> (cm = false -> i = length ys - 1 -> exists s l, p0 = s ++ [l] /\ is_vowel l = true) -> i < length ys ->
  exists h new, (h = [] \/ h = [c_h]) /\ (hd 0%N p0 <> c_h -> h = [])
    /\ a_parts a' = with_hyphen a (start_hyphen i a ++ h) ++ new /\ new <> [] /\ alternates false new
    /\ (a_hyphen a' = [] \/ a_hyphen a' = [c_h]).
Proof.
  intros ana jvk st cm ys i p0 a a' H Hy Hlast Hi.
  assert (HH : forall h part, p0 = h ++ part -> part_head i p0 (start_hyphen i a) = Ok (part, start_hyphen i a ++ h) ->
    (h = [] \/ h = [c_h]) /\ (hd 0%N p0 <> c_h -> h = [])).
  { intros h part E1 E2. pose proof (part_head_h _ _ _ _ _ E2 E1) as G. split; [exact G|]. intro N. destruct G as [G|G]; [exact G|].
    subst h. rewrite E1 in N. cbn in N. congruence. }
  destruct H as [h part E1 E2 Ht|h part p found num cl E1 E2 Ht Hne Et Hc Ek Ej Hf Hv Hn Hto Hst|h part p num cl t E1 E2 Ht Hne Et Ek Ez];
    destruct (HH _ _ E1 E2) as [H1 H2]; exists h.
  - exists [part]. repeat split; try assumption; try discriminate; cbn [a_hyphen]; auto.
    apply tarmi_CVC in Ht as (x & y & z & -> & Hx & _). cbn [alternates]. rewrite is_hyphen_first; [reflexivity|exact Hx|discriminate].
  - exists found. repeat split; try assumption; cbn [a_hyphen].
    + apply jvokaha_2_spec in Ej as [Ec Ecut]. eapply cut_noy_alternates; [exact Ecut| |auto].
      rewrite Ec. destruct (part_tail_eq _ _ _ _ _ _ _ Et) as [Ep _]. intro G. apply Hy. rewrite E1, <- Ep. apply in_or_app. right. apply in_or_app. left. exact G.
    + eapply part_tail_hyphen. exact Et.
  - exists [p_copy p]. repeat split; try assumption; try discriminate; cbn [a_hyphen alternates].
    + destruct (is_hyphen (p_copy p)) eqn:Eh; [|reflexivity]. exfalso. apply is_hyphen_spec in Eh.
      destruct (part_tail_eq _ _ _ _ _ _ _ Et) as [Ep [_ Epp]].
      assert (Hny : ~ In c_y (p_copy p)) by (intro G; apply Hy; rewrite E1, <- Ep; apply in_or_app; right; apply in_or_app; left; exact G).
      assert (Hs : p_copy p = [c_n] \/ p_copy p = [c_r]).
      { unfold hyphen in Eh. cbn in Eh. decompose [or] Eh; try contradiction; try (exfalso; apply Hny; rewrite <- H; cbn; auto; fail);
          try (exfalso; apply Hny; rewrite <- H0; cbn; auto; fail); auto. }
      clear Eh Ek. unfold part_tail in Et. inv_bind Et. destruct (N.eqb x c_h) eqn:Ex.
      * inv_bind Et. inv_bind Et. destruct (is_vowel x1) eqn:Ev; [|discriminate]. injection Et as <-. cbn [p_copy] in Hs.
        apply idx_last_ok in E3 as [s' E3]. rewrite E3 in Hs. destruct Hs as [Hs|Hs]; destruct s' as [|? [|? ?]]; try discriminate; injection Hs as ->; discriminate.
      * dif Et.
        -- injection Et as <-. cbn [p_copy p_req p_part orb] in *. unfold check_zihevla_or_rafsi in Ez. cbn [andb] in Ez.
           destruct Hs as [Hs|Hs]; rewrite Hs in Ez; discriminate.
        -- injection Et as <-. cbn [p_copy p_hyphen] in *. apply orb_false_iff in Heqb as [B1 B2]. apply Nat.ltb_ge in B1.
           destruct (Hlast B2 ltac:(lia)) as (s & l & E9 & Hl).
           rewrite E1 in E9. destruct Hs as [Hs|Hs]; rewrite Hs in E9; apply app_inj_tail in E9 as [_ <-]; discriminate.
    + eapply part_tail_hyphen. exact Et.
Qed.

Lemma loop_alternates : forall ana jvk st cm ys parts i a a', analyse_loop ana jvk st cm ys i parts a = Ok a' ->
  parts = skipn i ys -> i <= length ys -> Forall (fun p => ~ In c_y p) ys -> hd 0%N (hd [] ys) <> c_h ->
  (cm = false -> exists s l, last ys [] = s ++ [l] /\ is_vowel l = true) ->
  (i = 0 -> a_parts a = [] /\ a_hyphen a = []) ->
  (0 < i -> alternates false (a_parts a) /\ (a_hyphen a = [] \/ a_hyphen a = [c_h])) ->
  ys <> [] -> alternates false (a_parts a').
Proof.
  intros ana jvk st cm ys. induction parts as [|p parts IH]; intros i a a' H Ep Hi Hy Hh Hl H0 H1 Hne; cbn [analyse_loop] in H.
  - injection H as <-. apply H1. destruct i; [|lia]. cbn in Ep. congruence.
  - inv_bind H. rename x into a1.
    assert (Hi' : i < length ys) by (apply (f_equal (@length str)) in Ep; rewrite skipn_length in Ep; cbn in Ep; lia).
    assert (Hnth : nth_error ys i = Some p).
    { rewrite <- (firstn_skipn i ys), <- Ep. rewrite nth_error_app2; rewrite firstn_length, Nat.min_l by lia; [|lia]. rewrite Nat.sub_diag. reflexivity. }
    apply analyse_part_inv in E. destruct (part_pieces _ _ _ _ _ _ _ _ _ E) as (h & new & P1 & P2 & P3 & P4 & P5 & P6).
    + rewrite Forall_forall in Hy. apply Hy. eapply nth_error_In. exact Hnth.
    + intros Hc Hii. destruct (Hl Hc) as (s & l & Els & Hv). exists s, l. split; [|exact Hv]. rewrite <- Els.
      destruct ys as [|y ys'] using rev_ind; [congruence|]. rewrite last_last. rewrite app_length in Hii. cbn in Hii.
      replace i with (length ys') in Hnth by lia. rewrite nth_error_app2, Nat.sub_diag in Hnth by lia. injection Hnth as ->. reflexivity.
    + exact Hi'.
    + apply (IH (S i) a1 a' H); try assumption; try lia.
      * rewrite <- (skipn_step _ _ _ _ (eq_sym Ep)). reflexivity.
      * intros _. split; [|exact P6]. rewrite P3. destruct i as [|i].
        -- destruct (H0 eq_refl) as [A1 A2]. assert (h = []).
           { apply P2. destruct ys; [congruence|]. cbn in Ep, Hh. injection Ep as -> _. exact Hh. }
           subst h. unfold start_hyphen. cbn [Nat.eqb]. rewrite A2. cbn [app with_hyphen]. rewrite A1. exact P5.
        -- destruct (H1 ltac:(lia)) as [A1 A2]. destruct (nh_hyphen (S i) a h ltac:(lia) A2 P1) as [N1 N2].
           unfold with_hyphen. destruct (start_hyphen (S i) a ++ h) as [|x xs] eqn:En; [congruence|].
           rewrite <- app_assoc. apply alternates_app; [exact A1|]. cbn [app alternates]. rewrite N2. split; [reflexivity|exact P5].
Qed.

Lemma split_first : forall c s a t, s = a :: t -> a <> c -> exists r ps, split_on c s = (a :: r) :: ps.
Proof.
  intros c s a t -> H. cbn [split_on]. destruct (N.eqb_spec c a) as [G|G]; [congruence|].
  destruct (split_on c t) as [|x xs] eqn:E; [exfalso; apply (split_on_nonnil c t); exact E|]. eauto.
Qed.

Theorem accepted_alternates : forall lk st w t ps, analyse_brivla lk st w = Ok (t, ps) -> alternates false ps.
Proof.
  intros lk st w t ps H. apply analyse_inv in H. set (v := standard_spelling w) in *. clearbody v.
  assert (One : forall s l, v = s ++ [l] -> is_vowel l = true -> alternates false [v]).
  { intros s l -> Hl. cbn [alternates]. destruct (is_hyphen (s ++ [l])) eqn:E; [|reflexivity]. exfalso. apply is_hyphen_spec in E.
    unfold hyphen in E. cbn in E.
    assert (G : In l [c_y; c_n; c_r; c_h]).
    { cbn [In]. decompose [or] E; try contradiction;
      match goal with X : _ = s ++ [l] |- _ => apply (f_equal (fun z => last z 0%N)) in X; rewrite last_last in X; cbn in X end; auto. }
    cbn [In] in G. decompose [or] G; subst; try contradiction; discriminate. }
  inversion H; subst.
  - apply gismu_len in H0 as (a & b & c & d & e & -> & He). apply (One [a; b; c; d] e); [reflexivity|exact He].
  - apply jvk_cll_lujvo in H4 as (gen & correct & X). exact (x_alt _ _ _ _ _ _ _ _ _ X).
  - apply last_opt_some in H0 as [s ->]. eapply One; [reflexivity|assumption].
  - match goal with X : analyse_compound _ _ _ _ _ _ _ = _ |- _ => rename X into HC end.
    match goal with X : idx v 0 = Ok _ |- _ => rename X into H6; apply idx0_ok in H6 as [s0 Ev] end.
    unfold analyse_compound in HC. inv_bind HC. dif HC; [discriminate|]. inv_bind HC. inv_bind HC. dif HC; [discriminate|]. injection HC as <-.
    assert (c <> c_y) by (intros ->; discriminate).
    destruct (split_first c_y v c s0 Ev H6) as (r & ps' & Esp).
    eapply (loop_alternates _ _ _ _ _ _ 0 _ _ E); cbn [a_parts a_hyphen]; auto; try lia.
    + apply Forall_forall. intros p Hp. eapply split_on_nosep. exact Hp.
    + rewrite Esp. cbn. intros ->. discriminate.
    + intro Hc. apply last_opt_some in H0 as [s Es]. rewrite Hc in *. cbn [orb] in *.
      assert (Hly : l <> c_y) by (intros ->; discriminate).
      destruct (split_on_last c_y s l Hly) as (pre & q & Eq). rewrite Es, Eq, last_last. eauto.
    + rewrite Esp. discriminate.
Qed.
