(** Properties C30 C31 C35: zi'evla and the pieces of a decomposition. *)
From Verif Require Import Str Data Tarmi Rafsi Core Api Lib Spec Shapes Decomp Basic Vowels Katna Dict Errs Builder Jvokaha Fuel Raises Inv Parts Clusters Zihevla Forms Chain Score Alt Lujvo Compound Whole Props5.

(** ** C31: what a zi'evla is *)
Lemma slinkuhi_api : forall lk yh mz s, is_slinkuhi lk yh mz s = Core.is_slinkuhi (jvk lk) yh mz s.
Proof. intros. unfold is_slinkuhi. apply slinkuhi_cong. apply jvokaha_agree. unfold word_fuel. lia. Qed.

Lemma zi_text_letters : forall m mz pre s syl, zi_text m mz pre s syl -> Forall (fun c => vowel c \/ consonant c \/ c = apostrophe) s.
Proof.
  induction 1 as [pre|pre r w syl (_ & F & _) _ _ _ T IH|pre r w l syl (_ & F & _) _ _ _ T IH|pre w syl _ _ T IH].
  - constructor.
  - apply Forall_app. split; [|exact IH]. eapply Forall_impl; [|exact F]. cbv beta. auto.
  - apply Forall_app. split; [|exact IH]. eapply Forall_impl; [|exact F]. cbv beta. auto.
  - constructor; auto.
Qed.
Lemma zi_no_y : forall m mz pre s syl, zi_text m mz pre s syl -> ~ In letter_y s.
Proof.
  intros m mz pre s syl T H. apply zi_text_letters in T. rewrite Forall_forall in T. destruct (T _ H) as [G|[G|G]]; [apply is_vowel_spec in G|apply is_consonant_spec in G|]; discriminate G.
Qed.

Theorem C31_zihevla_rules : forall lk st w ps, analyse_brivla lk st w = Ok (ZIhEVLA, ps) ->
  let v := standard_spelling w in
  ps = [v] /\ 4 <= length v /\ ~ In letter_y v /\ ends_in vowel v
  /\ (forall q, analyse_brivla lk st w <> Ok (GISMU, q)) /\ (forall q, analyse_brivla lk st w <> Ok (LUJVO, q))
  /\ exists syl, zihevla_letters zi_middle (allow_mz st) v syl /\ 2 <= length syl
     /\ (forall s, falls_apart_into v s -> is_brivla lk (mkSettings (y_hyphens st) false CLUSTER false false) s <> Ok true)
     /\ is_slinkuhi lk (y_hyphens st) (allow_mz st) v = Ok false.
Proof.
  intros lk st w ps H v. pose proof H as H'. apply analyse_inv in H. fold v in H.
  inversion H as [| |l c e t E1 E2 E3 J Hca Ei Ev Ny Ck|l c e t qs E1 E2 E3 E4 J Hca Ei Ev H2 AC Et]; subst.
  { destruct (is_consonant l); discriminate. }
  2:{ destruct (is_consonant l); discriminate. }
  destruct (check_types _ _ _ _ _ _ _ _ Ck) as [-> | ->]; [|apply check_rafsi_iff in Ck as (X & _); discriminate].
  apply check_zihevla_iff in Ck as (H4 & syl & [T HC] & H2 & HW & HS). specialize (H4 eq_refl). specialize (H2 (or_introl eq_refl)).
  assert (EV : ends_in vowel v). { apply last_opt_some in E1 as [q ->]. exists q, l. split; [reflexivity|apply is_vowel_spec; exact E2]. }
  split; [reflexivity|]. split; [exact H4|]. split; [exact Ny|]. split; [exact EV|]. split; [intros q X; congruence|]. split; [intros q X; congruence|].
  exists syl. split; [constructor; [apply zi_text_middle; exact T|exact HC]|]. split; [exact H2|]. split; [|rewrite slinkuhi_api; exact HS].
  intros s Hs. destruct (le_lt_dec (length syl) 2) as [L|L].
  - apply (two_syllables_whole _ _ _ _ _ _ _ T EV L Hs).
  - intro X. pose proof (HW L s Hs) as Y. unfold is_brivla, dflt_y in *. congruence.
Qed.

Example C31_example :
  analyse_brivla Bound default_settings (L "spageti") = Ok (ZIhEVLA, [L "spageti"])
  /\ analyse_brivla Unbound default_settings (L "iglu") = Ok (ZIhEVLA, [L "iglu"])
  /\ analyse_brivla Bound default_settings (L "gastrnomi'a") = Ok (ZIhEVLA, [L "gastrnomi'a"])
  (* no cluster; cluster too late; illegal start; slinku'i *)
  /\ analyse_brivla Bound default_settings (L "baguka") = Err NotBrivlaError
  /\ analyse_brivla Bound default_settings (L "bagukle") = Err NotBrivlaError
  /\ analyse_brivla Bound default_settings (L "kbageti") = Err NotBrivlaError
  /\ analyse_brivla Bound default_settings (L "slinku'i") = Err NotBrivlaError
  /\ analyse_brivla Bound default_settings (L "ba'aspageti") = Err NotBrivlaError.
Proof. vm_compute. repeat split. Qed.

Lemma cut_no_ccvhy : forall rn hy mz qs a b c t, cut rn hy mz None qs -> concat qs = a :: b :: c :: c_h :: c_y :: t ->
  is_consonant a = true -> is_consonant b = true -> False.
Proof.
  intros rn hy mz qs a b c t C E Ha Hb. destruct qs as [|p next]; [discriminate|]. destruct C as [[(s & Hs & Hp)|(q & X & _)] C2]; [|discriminate].
  assert (N : concat next = c_h :: c_y :: t -> exists n', next = L "'y" :: n').
  { intro En. destruct next as [|n0 n']; [discriminate|]. destruct C2 as [[(s' & Hs' & _)|(q & X & _ & Hh)] _].
    - exfalso. inversion Hs'; subst; bfacts; cbn [concat app] in En; injection En as -> _; discriminate.
    - destruct Hh as [-> |[[_ ->]|(_ & _ & [[-> _]|[-> _]])]]; try (cbn in En; discriminate En). exists n'. reflexivity. }
  inversion Hs; subst; bfacts; cbn [concat app] in E; injection E; intros; subst; use_facts; try congruence.
  all: try (match goal with X : is_consonant c_h = true |- _ => discriminate X | X : is_vowel ?k = true, Y : is_consonant ?k = true |- _ => apply v_f0 in X; congruence end).
  destruct N as (n' & ->); [assumption|]. exact (Hp eq_refl n' eq_refl).
Qed.
Lemma jvk_no_y : forall lk yh cs gl mz v e, jvk lk yh cs gl mz v = Err e -> ~ In c_y v -> caught e \/ lk = Unbound /\ e = NameError.
Proof.
  intros lk yh cs gl mz v e H Ny. revert e H. change (errs (fun e => caught e \/ lk = Unbound /\ e = NameError) (jvk lk yh cs gl mz v)).
  assert (J : forall u, ~ (exists a b c t, u = a :: b :: c :: c_h :: c_y :: t /\ is_consonant a = true /\ is_consonant b = true) ->
     errs (fun e => caught e \/ lk = Unbound /\ e = NameError) (jvokaha_2 yh mz u)).
  { intros u Hu e He. left. pose proof (errs_jvokaha_2 yh mz u e He) as K. unfold caught. cbn in K |- *. intuition (subst; auto).
    exfalso. apply Hu. unfold jvokaha_2 in He. exact (j2_notbrivla _ _ _ _ _ _ He). }
  apply errs_jvk_gen.
  - left. cbn. auto.
  - left. cbn. auto.
  - auto.
  - apply J. intros (a & b & c & t & -> & _). apply Ny. cbn. auto 10.
  - intros arr gen w' sc ix Ha He. destruct (jvokaha_2_sound _ _ _ _ Ha) as [_ Hcut]. split.
    + apply J. intros (a & b & c & t & Ew & Hka & Hkb).
      destruct (expected_cut _ _ _ _ _ _ _ _ _ (cut_rafsi_cll _ _ _ _ _ Hcut) (cut_short _ _ _ _ _ Hcut) He) as (qs & Q1 & Q2 & _).
      rewrite Ew in Q2. exact (cut_no_ccvhy _ _ _ _ _ _ _ _ Q1 Q2 Hka Hkb).
    + intros ->. eapply errs_weaken; [apply errs_slinkuhi|]. intros e [->|[X _]]; [left; cbn; auto|discriminate].
Qed.

(** The rules above are also sufficient.  [middle_ok] is the model's own test of
    clusters inside a word (tarmi.py:214-250), which implies [zi_middle]; with
    [Unbound], a NameError must be excluded. *)
Theorem C31_zihevla_characterised : forall lk st w ps,
  let v := standard_spelling w in
  analyse_brivla lk st w <> Err NameError ->
  analyse_brivla lk st w = Ok (ZIhEVLA, ps) <->
  ps = [v] /\ 4 <= length v /\ ends_in vowel v
  /\ (forall q, analyse_brivla lk st w <> Ok (GISMU, q)) /\ (forall q, analyse_brivla lk st w <> Ok (LUJVO, q))
  /\ exists syl, zihevla_letters middle_ok (allow_mz st) v syl /\ 2 <= length syl
     /\ (2 < length syl -> forall s, falls_apart_into v s -> is_brivla lk (mkSettings (y_hyphens st) false CLUSTER false false) s = Ok false)
     /\ is_slinkuhi lk (y_hyphens st) (allow_mz st) v = Ok false.
Proof.
  intros lk st w ps v NN. split.
  - intro H. destruct (C31_zihevla_rules lk st w ps H) as (E & H4 & _ & EV & G & LJ & _). fold v in E, H4, EV.
    split; [exact E|]. split; [exact H4|]. split; [exact EV|]. split; [exact G|]. split; [exact LJ|]. apply analyse_inv in H. fold v in H.
    inversion H as [| |l c e t E1 E2 E3 J Hca Ei Ev Ny Ck|l c e t qs E1 E2 E3 E4 J Hca Ei Ev H2 AC Et]; subst.
    { destruct (is_consonant l); discriminate. }
    2:{ destruct (is_consonant l); discriminate. }
    destruct (check_types _ _ _ _ _ _ _ _ Ck) as [-> | ->]; [|apply check_rafsi_iff in Ck as (X & _); discriminate].
    apply check_zihevla_iff in Ck as (_ & syl & HL & H2 & HW & HS). exists syl. split; [exact HL|]. split; [auto|].
    split; [exact HW|]. rewrite slinkuhi_api. exact HS.
  - intros (-> & H4 & (q & l & Eq & Hl) & HG & HJ & syl & HL & H2 & HW & HS). apply is_vowel_spec in Hl. rewrite slinkuhi_api in HS.
    rewrite analyse_brivla_eq in HG, HJ, NN |- *. unfold analyse_body in *.
    assert (Wn : w <> []) by (intros ->; cbn in H4; lia). rewrite (normalise_ok w Wn) in *. cbn [bind] in *. fold v in HG, HJ, NN |- *.
    assert (El : last_opt v = Some l) by (rewrite Eq; apply last_opt_app). rewrite El in *. cbv zeta in *. rewrite (v_f0 _ Hl), Hl in *. cbn [negb andb] in *.
    destruct (is_gismu v (allow_mz st)); [exfalso; eapply HG; reflexivity|].
    pose proof (zi_no_y _ _ _ _ _ (zl_text _ _ _ _ HL)) as Ny.
    assert (AO : analyse_other (analyse_brivla lk) (jvk lk) st false v = Ok (ZIhEVLA, [v])).
    { unfold analyse_other. destruct v as [|c0 v'] eqn:Ev; [cbn in H4; lia|]. rewrite <- Ev in *. assert (E0 : idx v 0 = Ok c0) by (rewrite Ev; reflexivity). rewrite E0. cbn [bind].
      assert (HC0 : is_vowel c0 || is_consonant c0 = true).
      { pose proof (zl_text _ _ _ _ HL) as T. apply zi_text_inv in T. rewrite Ev in T. destruct T as [(Hk & _)|[(Hk & _)|(_ & (u & z & X & _) & _)]].
        - apply is_consonant_spec in Hk. rewrite Hk. apply orb_true_r.
        - apply is_vowel_spec in Hk. rewrite Hk. reflexivity.
        - destruct u; discriminate. }
      rewrite HC0. cbn [negb]. cbv zeta. rewrite (split_on_none c_y v Ny). cbn [length Nat.eqb].
      assert (CK : check_zihevla_or_rafsi (analyse_brivla lk) (jvk lk) true (y_hyphens st) (exp_rafsi_shapes st) (allow_mz st) v = Ok ZIhEVLA).
      { apply check_zihevla_iff. split; [auto|]. exists syl. split; [exact HL|]. split; [auto|]. split; [exact HW|exact HS]. }
      rewrite CK. reflexivity. }
    destruct (jvk lk _ _ _ _ v) as [arr|e] eqn:J; [exfalso; eapply HJ; reflexivity|].
    apply jvk_no_y in J; [|exact Ny]. destruct J as [J|[-> ->]]; [|contradiction].
    cbn in J. destruct J as [<-|[<-|[<-|[]]]]; exact AO.
Qed.

Example C31_characterised_example :
  analyse_brivla Bound default_settings (L "spageti") <> Err NameError
  /\ analyse_brivla Unbound default_settings (L "spageti") <> Err NameError.
Proof. split; vm_compute; discriminate. Qed.

(** ** C35: what the pieces of a decomposition are *)
Definition nonempty_piece (exp mz : bool) (p : str) : Prop := p <> [] /\ lujvo_piece exp mz p.
Lemma cut_lp : forall exp mz rn hy ps prev, cut rn hy mz prev ps -> Forall (nonempty_piece exp mz) ps.
Proof.
  intros exp mz rn hy. induction ps as [|p ps IH]; intros prev H; [constructor|]. destruct H as [H G]. constructor; [|exact (IH _ G)].
  destruct H as [(s & Hs & _)|(q & _ & _ & H)].
  { split; [|eapply lp_rafsi; exact Hs]. inversion Hs; discriminate. }
  assert (X : hyphen p) by (unfold hyphen; cbn [map In]; destruct H as [->|[[_ ->]|(_ & _ & [[-> _]|[-> _]])]]; auto 10).
  split; [|apply lp_hyphen; exact X]. intros ->. unfold hyphen in X. cbn in X. intuition discriminate.
Qed.

Lemma part_tail_copy : forall st cm ys i part cl p, part_tail st cm ys i part cl = Ok p -> part <> [] -> p_copy p <> [].
Proof.
  intros st cm ys i part cl p H Hn. unfold part_tail in H. inv_bind H. dif H.
  - inv_bind H. inv_bind H. dif H; [discriminate|]. injection H as <-. cbn [p_copy]. intro X. rewrite X in E1. discriminate.
  - dif H; injection H as <-; exact Hn.
Qed.
Lemma part_lp : forall ana jvk st cm ys i p0 a a', part_case ana jvk st cm ys i p0 a a' ->
  exists h new, (h = [] \/ h = [c_h]) /\ (hd 0%N p0 <> c_h -> h = [])
    /\ a_parts a' = with_hyphen a (start_hyphen i a ++ h) ++ new /\ Forall (nonempty_piece (exp_rafsi_shapes st) (allow_mz st)) new
    /\ (a_hyphen a' = [] \/ a_hyphen a' = [c_h]).
Proof.
  intros ana jvk st cm ys i p0 a a' H.
  assert (HH : forall h part, p0 = h ++ part -> part_head i p0 (start_hyphen i a) = Ok (part, start_hyphen i a ++ h) ->
    (h = [] \/ h = [c_h]) /\ (hd 0%N p0 <> c_h -> h = [])).
  { intros h part E1 E2. pose proof (part_head_h _ _ _ _ _ E2 E1) as G. split; [exact G|]. intro N. destruct G as [G|G]; [exact G|].
    subst h. rewrite E1 in N. cbn in N. congruence. }
  destruct H as [h part E1 E2 Ht|h part p found num cl E1 E2 Ht Hne Et Hc Ek Ej Hf Hv Hn Hto Hst|h part p num cl t E1 E2 Ht Hne Et Ek Ez];
    destruct (HH _ _ E1 E2) as [H1 H2]; exists h.
  - exists [part]. repeat split; try assumption; cbn [a_hyphen]; auto. constructor; [|constructor].
    apply tarmi_CVC in Ht as (x & y & z & -> & Hx & Hy & Hz). split; [discriminate|]. apply (lp_rafsi _ _ _ "CVC"). constructor; [apply is_consonant_spec|apply is_vowel_spec|apply is_consonant_spec]; assumption.
  - exists found. repeat split; try assumption; cbn [a_hyphen]; [|eapply part_tail_hyphen; exact Et].
    apply jvokaha_2_spec in Ej as [_ Ecut]. eapply cut_lp. exact Ecut.
  - exists [p_copy p]. repeat split; try assumption; cbn [a_hyphen]; [|eapply part_tail_hyphen; exact Et]. constructor; [|constructor]. split; [eapply part_tail_copy; eassumption|].
    destruct (part_tail_eq _ _ _ _ _ _ _ Et) as (_ & _ & Ep).
    assert (Eq : p_part p = p_copy p \/ p_part p = p_copy p ++ L "a") by (rewrite Ep; destruct (p_adda p); auto).
    destruct (check_types _ _ _ _ _ _ _ _ Ez) as [-> | ->].
    + apply check_zihevla_iff in Ez as (H4 & syl & [T HC] & H5 & _). eapply (lp_zihevla _ _ _ (p_part p) syl Eq).
      * constructor; [apply zi_text_middle; exact T|exact HC].
      * intros Ex. rewrite Ex, orb_true_r in H4. split; [apply H4; reflexivity|apply H5; right; exact Ex].
    + apply check_rafsi_iff in Ez as (Hr & syl & HX & _). apply orb_false_iff in Hr as [_ Hr]. apply negb_false_iff in Hr.
      eapply (lp_experimental _ _ _ (p_part p) syl Hr Eq HX).
Qed.

Lemma with_hyphen_lp : forall exp mz i a h, Forall (nonempty_piece exp mz) (a_parts a) -> (i = 0 -> a_hyphen a = [] /\ h = []) ->
  a_hyphen a = [] \/ a_hyphen a = [c_h] -> h = [] \/ h = [c_h] -> Forall (nonempty_piece exp mz) (with_hyphen a (start_hyphen i a ++ h)).
Proof.
  intros exp mz i a h F H0 H1 H2. unfold with_hyphen. destruct (start_hyphen i a ++ h) as [|x xs] eqn:En; [exact F|].
  destruct i as [|i].
  - exfalso. destruct (H0 eq_refl) as [A ->]. unfold start_hyphen in En. cbn [Nat.eqb] in En. rewrite A in En. discriminate.
  - destruct (nh_hyphen (S i) a h ltac:(lia) H1 H2) as [_ N]. rewrite En in N. apply Forall_app. split; [exact F|]. constructor; [|constructor]. split; [discriminate|].
    apply lp_hyphen. apply is_hyphen_spec. exact N.
Qed.

Lemma loop_lp : forall ana jvk st cm ys parts i a a', analyse_loop ana jvk st cm ys i parts a = Ok a' ->
  (i = 0 -> hd 0%N (hd [] parts) <> c_h /\ a_hyphen a = []) -> a_hyphen a = [] \/ a_hyphen a = [c_h] ->
  Forall (nonempty_piece (exp_rafsi_shapes st) (allow_mz st)) (a_parts a) ->
  Forall (nonempty_piece (exp_rafsi_shapes st) (allow_mz st)) (a_parts a').
Proof.
  intros ana jvk st cm ys. induction parts as [|p parts IH]; intros i a a' H H0 H1 F; cbn [analyse_loop] in H.
  - injection H as <-. exact F.
  - inv_bind H. rename x into a1. apply analyse_part_inv in E. destruct (part_lp _ _ _ _ _ _ _ _ _ E) as (h & new & P1 & P2 & P3 & P4 & P5).
    apply (IH (S i) a1 a' H); [discriminate|exact P5|]. rewrite P3. apply Forall_app. split; [|exact P4].
    apply with_hyphen_lp; auto. intros Hi. destruct (H0 Hi) as [G1 G2]. split; [exact G2|apply P2; exact G1].
Qed.

Lemma accepted_pieces : forall lk st w t ps, analyse_brivla lk st w = Ok (t, ps) -> t <> GISMU -> t <> ZIhEVLA ->
  Forall (nonempty_piece (exp_rafsi_shapes st) (allow_mz st)) ps.
Proof.
  intros lk st w t ps H N1 N2. apply analyse_inv in H. set (v := standard_spelling w) in *. clearbody v.
  inversion H as [|l qs E1 E2 E3 E4 J| |l c e t' qs E1 E2 E3 E4 J Hca Ei Ev H2 HC Et]; subst; try contradiction.
  - apply jvk_cll_lujvo in J as (gen & correct & X). eapply cut_lp. exact (x_cut _ _ _ _ _ _ _ _ _ X).
  - apply idx0_ok in Ei as [s0 Es]. unfold analyse_compound in HC. inv_bind HC. dif HC; [discriminate|]. inv_bind HC. inv_bind HC. dif HC; [discriminate|]. injection HC as <-.
    assert (Hcy : c <> c_y) by (intros ->; discriminate).
    destruct (split_first c_y v c s0 Es Hcy) as (r & ps' & Esp).
    eapply (loop_lp _ _ _ _ _ _ 0 _ _ E); cbn [a_parts a_hyphen]; auto.
    intros _. split; [|reflexivity]. rewrite Esp. cbn. intros ->. discriminate.
Qed.

Theorem C35_pieces : forall lk st w t ps, analyse_brivla lk st w = Ok (t, ps) -> t <> GISMU -> t <> ZIhEVLA ->
  Forall (lujvo_piece (exp_rafsi_shapes st) (allow_mz st)) ps.
Proof.
  intros lk st w t ps H N1 N2. eapply Forall_impl; [|exact (accepted_pieces _ _ _ _ _ H N1 N2)]. intros p [_ X]. exact X.
Qed.

Theorem C35_lujvo_pieces : forall lk st w ps, analyse_brivla lk st w = Ok (LUJVO, ps) ->
  Forall (fun p => In p (map L ["y"; "n"; "r"; "'y"]%string) \/ exists shape, cll_rafsi (allow_mz st) shape p) ps
  /\ 2 <= length (rafsi_pieces ps).
Proof.
  intros lk st w ps H. apply C41_cll_lujvo_characterised in H as (_ & _ & _ & C & H2 & _). split; [|exact H2]. clear H2.
  revert C. generalize (@None str). induction ps as [|p ps IH]; intros prev H; [constructor|]. destruct H as [H G]. constructor; [|exact (IH _ G)].
  destruct H as [(s & Hs & _)|(q & _ & _ & H)]; [right; eauto|]. left. cbn [map In].
  destruct H as [->|[[_ ->]|(_ & _ & [[-> _]|[-> _]])]]; auto 10.
Qed.

Example C35_example :
  analyse_brivla Bound default_settings (L "spageti'ybacyzdani") = Ok (EXTENDED_LUJVO, map L ["spageti"; "'y"; "bac"; "y"; "zdani"]%string)
  /\ analyse_brivla Bound default_settings (L "brivlatengo'u") = Ok (LUJVO, map L ["bri"; "vla"; "ten"; "go'u"]%string).
Proof. vm_compute. repeat split. Qed.

Print Assumptions C31_zihevla_rules.
Print Assumptions C31_zihevla_characterised.
Print Assumptions C35_pieces.
Print Assumptions C35_lujvo_pieces.
