(** A word built from gismu, cmavo and rafsi is the word that is expected for
    the rafsi in it. *)
From Verif Require Import Str Data Tarmi Rafsi Core Api Lib Spec Shapes Decomp Basic Vowels Katna Dict Errs Builder Jvokaha Fuel Raises Inv Parts Clusters Forms Chain Score Alt Lujvo Optimal Props1 Props2 Props3 Total Onset Pinned Found Props4 Props5 Props8 Props9 Joint Swap Unique.

(** ** The forms of a CLL rafsi *)
Lemma cll_pre : forall mz (fi : bool) (r : str), cll mz r ->
  (if fi then Ok r else c <- idx r 0;; Ok (if is_vowel c && negb (is_glide r) then c_h :: r else r)) = Ok r.
Proof.
  intros mz fi r Hr. destruct fi; [reflexivity|]. destruct (cll_first _ _ Hr) as (a & b & c & t & -> & Ha & _). cbn [idx nth_error bind].
  replace (is_vowel a) with false; [reflexivity|]. symmetry. destruct (is_vowel a) eqn:E; [apply v_f0 in E; congruence|reflexivity].
Qed.
Lemma kind_suffixed : forall fi la r t suf, kind_of r t -> suffixed fi la t suf -> suffixed fi la (Tar (rafsi_tarmi r)) suf.
Proof.
  intros fi la r t suf [->|[[-> K]|[-> K]]] H; [exact H| |]; (destruct K as [K|K]); rewrite K; inversion H; subst;
    repeat match goal with X : _ \/ _ |- _ => destruct X end; try discriminate;
    first [solve [apply suf_short_y; auto]|solve [apply suf_short; auto]|solve [apply suf_long; auto]|solve [apply suf_long_hy; auto]].
Qed.
Lemma kind_suffixed' : forall fi la r t suf, kind_of r t -> suffixed fi la (Tar (rafsi_tarmi r)) suf -> suffixed fi la t suf.
Proof.
  intros fi la r t suf [->|[[-> K]|[-> K]]] H; [exact H| |]; (destruct K as [K|K]); rewrite K in H; inversion H; subst;
    repeat match goal with X : _ \/ _ |- _ => destruct X end; try discriminate;
    first [solve [apply suf_short_y; auto]|solve [apply suf_short; auto]|solve [apply suf_long; auto]|solve [apply suf_long_hy; auto]].
Qed.
Lemma kind_credit : forall cs gl r t f, kind_of r t -> t <> EXPERIMENTAL_RAFSI /\ credit cs gl t f = credit cs gl (Tar (rafsi_tarmi r)) [].
Proof. intros cs gl r t f [->|[[-> [K|K]]|[-> [K|K]]]]; split; try discriminate; try rewrite K; try reflexivity. Qed.
Lemma short_end : forall mz (r : str), cll mz r -> rafsi_tarmi r = CVCC \/ rafsi_tarmi r = CCVC -> exists l, last_opt r = Some l /\ is_vowel l = false.
Proof.
  intros mz r [s H] Ht. rewrite (cll_tarmi _ _ _ H) in Ht. inversion H; subst; bfacts; try (destruct Ht; discriminate);
    (eexists; split; [reflexivity|]); match goal with |- is_vowel ?x = false => destruct (is_vowel x) eqn:E; [clash|reflexivity] end.
Qed.

Lemma tform_in : forall st fi la r t fs x, cll (allow_mz st) r -> kind_of r t ->
  get_rafsi_for_rafsi r t fi la (consonants st) (glides st) = Ok fs -> tform st fi la r x -> In x fs.
Proof.
  intros st fi la r t fs x Hr K H (suf & S & ->). pose proof (kind_suffixed' _ _ _ _ _ K S) as S'. unfold cr.
  destruct (kind_credit (consonants st) (glides st) r t [] K) as [Nt <-].
  unfold get_rafsi_for_rafsi in H. rewrite (cll_pre _ _ _ Hr) in H. cbn [bind] in H.
  assert (Se : (t = SHORT_BRIVLA \/ t = Tar CCVC \/ t = Tar CVCC) -> exists l, last_opt r = Some l /\ is_vowel l = false).
  { intro Q. apply (short_end _ _ Hr). destruct K as [->|[[-> K]|[-> K]]]; [|exact K|destruct Q as [Q|[Q|Q]]; discriminate].
    destruct Q as [Q|[Q|Q]]; [discriminate|right|left]; congruence. }
  inversion S'; subst; try congruence.
  - destruct H1 as [->|[->| ->]]; cbn [negb] in H; injection H as <-; left; reflexivity.
  - destruct (Se H1) as (l & El & Hl). rewrite app_nil_r. destruct H1 as [->|[->| ->]]; cbn [negb] in H; unfold idx_last in H; rewrite El in H; cbn [bind] in H; rewrite Hl in H; injection H as <-; left; reflexivity.
  - rewrite app_nil_r. destruct H1 as [->|[->| ->]]; injection H as <-; left; reflexivity.
  - destruct H1 as [->|[->| ->]]; injection H as <-; left; reflexivity.
  - rewrite app_nil_r. destruct H0 as [->| ->]; injection H as <-; apply in_or_app; right; left; reflexivity.
  - destruct H1 as [->| ->]; injection H as <-; left; reflexivity.
  - destruct H2 as [->| ->]; injection H as <-; left; reflexivity.
  - rewrite app_nil_r. injection H as <-. left. reflexivity.
  - injection H as <-. right. left. reflexivity.
  - rewrite app_nil_r. injection H as <-. left. reflexivity.
  - injection H as <-. right. left. reflexivity.
Qed.
Lemma piece_tform : forall st fi la x p, piece st fi la x p -> cll (allow_mz st) (p_r p) -> kind_of (p_r p) (p_t p) -> tform st fi la (p_r p) x.
Proof.
  intros st fi la [f k] [[r t] suf] (_ & E1 & S & E2) Hr K. unfold p_r, p_t in *. cbn [fst snd] in *. rewrite (cll_prefix _ _ _ Hr) in E1. cbn [app] in E1.
  exists suf. split; [eapply kind_suffixed; eassumption|]. subst f k. unfold cr. f_equal. apply kind_credit. exact K.
Qed.
Lemma pieces_tforms : forall st n ch ps, pieces st n ch ps -> Forall (fun q => cll (allow_mz st) (p_r q) /\ kind_of (p_r q) (p_t q)) ps ->
  tforms st n 0 (map p_r ps) ch.
Proof.
  induction 1 as [x p H|l ps x p H IH Hp]; intros F.
  - apply Forall_inv in F as [F1 F2]. split; [|exact I]. eapply piece_tform; eassumption.
  - apply Forall_app in F as [F Fp]. apply Forall_inv in Fp as [F1 F2]. rewrite map_app. pose proof (pieces_length _ _ _ _ H) as L.
    apply tforms_app; [rewrite map_length; symmetry; exact L|]. split; [apply IH; exact F|]. rewrite map_length. cbn [map tforms Nat.add]. rewrite <- L. split; [|exact I].
    assert (E0 : (length l =? 0) = false) by (inversion H; subst; [reflexivity|rewrite app_length; apply Nat.eqb_neq; cbn; lia]). rewrite E0.
    apply piece_tform; assumption.
Qed.

(** ** A component offers every form of each of its rafsi *)
Lemma source_incl : forall st fi la v forms r t fs, rafsi_list_for (analyse_brivla Bound) (jvk Bound) st fi la v = Ok forms ->
  source Bound st v r t -> cll (allow_mz st) r -> kind_of r t ->
  get_rafsi_for_rafsi r t fi la (consonants st) (glides st) = Ok fs -> incl fs forms.
Proof.
  intros st fi la v forms r t fs H Hs Hr K Hf.
  assert (No : rafsi_tarmi r <> OTHER_RAFSI) by (apply cll_proper in Hr; intro E; rewrite E in Hr; discriminate).
  destruct Hs as [r t ps H1 H2 -> H3 H4 H5 H6|r ps H1 H2 -> H3 H4 H5 H6|r H1 H2 -> H3 H4 H5 H6|r H1 H2 -> H3|r rs H1 H2 H3 H4|r ps H1 H2 H3 ->|t ps H1 H2 H3 H4];
    unfold rafsi_list_for in H; cbv zeta in H; try congruence; inv_bind H; rename x into l; unfold idx_last in E; destruct (last_opt v) as [l'|] eqn:El; try discriminate E; injection E as ->.
  - injection H1 as ->. change (N.eqb c_dash c_dash) with true in H. cbv iota in H. inv_bind H. apply idx0_ok in E as [s E].
    destruct (negb (is_only_lojban_characters _)); [discriminate|]. inv_bind H. destruct (N.eqb x0 c_h); [discriminate|].
    assert (Q : N.eqb x c_dash = false) by (apply N.eqb_neq; intros ->; apply H2; rewrite E; reflexivity). rewrite Q in H. cbn [negb] in H.
    rewrite H5 in H. cbn [bind] in H. dif H; [discriminate|]. inv_bind H. rewrite Hf in H. injection H as <-. apply incl_refl.
  - injection H1 as ->. change (N.eqb c_dash c_dash) with true in H. cbv iota in H. inv_bind H. apply idx0_ok in E as [s E].
    destruct (negb (is_only_lojban_characters _)); [discriminate|]. inv_bind H. destruct (N.eqb x0 c_h); [discriminate|].
    assert (Q : N.eqb x c_dash = true) by (apply N.eqb_eq; rewrite <- H2, E; reflexivity). rewrite Q in H. cbn [negb] in H.
    destruct (tarmi_eqb _ OTHER_RAFSI) eqn:Eo in H; [apply tarmi_eqb_eq in Eo; contradiction|]. rewrite H3 in H. cbn [negb] in H. rewrite Hf in H. injection H as <-. apply incl_refl.
  - destruct (N.eqb l c_dash) eqn:Ed; [apply N.eqb_eq in Ed; subst; congruence|]. rewrite H2 in H. cbn [negb] in H.
    inv_bind H. inv_bind H. inv_bind H. inv_bind H. injection H as <-. apply incl_appl. destruct (dict_ok _ _ _ H3 H4) as (Hd & _). rewrite Hd in E.
    eapply short_forms_incl; eassumption.
  - destruct (N.eqb l c_dash) eqn:Ed; [apply N.eqb_eq in Ed; subst; congruence|]. rewrite H2 in H. cbn [negb] in H.
    inv_bind H. rewrite H3 in H. cbn [bind] in H. rewrite Hf in H. cbn [bind] in H. inv_bind H. injection H as <-. apply incl_appr, incl_appl, incl_refl.
  - destruct (N.eqb l c_dash) eqn:Ed; [apply N.eqb_eq in Ed; subst; congruence|]. rewrite H2 in H. cbn [negb] in H.
    inv_bind H. rewrite H3 in H. cbn [bind] in H. inv_bind H. destruct H4 as [-> | ->]; rewrite Hf in H; cbn [bind] in H; injection H as <-; apply incl_appr, incl_appr, incl_refl.
Qed.

Definition homely_at (st : settings) (v r : str) (t : rtype) : Prop :=
  cll (allow_mz st) r /\ kind_of r t /\ (long_shape r = true -> r = v /\ is_gismu v (allow_mz st) = true).
Definition homely (st : settings) (v : str) : Prop := forall r t, source Bound st v r t -> homely_at st v r t.
Definition homely_all (st : settings) (vs : list str) (ps : list (str * rtype * str)) : Prop :=
  Forall2 (fun v p => homely_at st v (fst (fst p)) (snd (fst p))) vs ps.
Definition offers (st : settings) (v r : str) : Prop := forall fi la forms x,
  rafsi_list_for (analyse_brivla Bound) (jvk Bound) st fi la v = Ok forms -> tform st fi la r x -> In x forms.

Lemma cll_forms_ok : forall mz r t fi la cs gl, cll mz r -> kind_of r t -> exists fs, get_rafsi_for_rafsi r t fi la cs gl = Ok fs.
Proof.
  intros mz r t fi la cs gl Hr K. pose proof (cll_proper _ _ Hr) as P. apply forms_ok; [intros ->; apply cll_len in Hr; cbn in Hr; lia| |];
    destruct K as [->|[[-> _]|[-> _]]]; try discriminate; intro X; injection X as X; rewrite X in P; discriminate.
Qed.
Lemma source_offers : forall st v r t, source Bound st v r t -> cll (allow_mz st) r -> kind_of r t -> offers st v r.
Proof.
  intros st v r t Hs Hr K fi la forms x H Hx. destruct (cll_forms_ok _ r t fi la (consonants st) (glides st) Hr K) as [fs E].
  apply (source_incl _ _ _ _ _ _ _ _ H Hs Hr K E). eapply tform_in; eassumption.
Qed.
Lemma dashed_offers : forall st r, cll (allow_mz st) r -> offers st (dashed r) r.
Proof.
  intros st r Hr fi la forms x H Hx. rewrite rafsi_list_for_dashed in H by exact Hr. eapply tform_in; [exact Hr|left; reflexivity|exact H|exact Hx].
Qed.
Lemma offered : forall st n vs rs i rll ch, Forall2 (offers st) vs rs ->
  rafsi_list_list_loop (analyse_brivla Bound) (jvk Bound) st n i vs = Ok rll -> tforms st n i rs ch -> Forall2 (@In (str * nat)) ch rll.
Proof.
  intros st n vs rs i rll ch H. revert i rll ch. induction H as [|v r vs rs Ho H IH]; intros i rll ch Hl Ht; cbn [rafsi_list_list_loop] in Hl.
  - injection Hl as <-. destruct ch; [constructor|contradiction].
  - inv_bind Hl. inv_bind Hl. injection Hl as <-. destruct ch as [|y ch]; [contradiction|]. destruct Ht as [T1 T2]. constructor; [eapply Ho; eassumption|eapply IH; eassumption].
Qed.

Lemma best_init : forall gen st rll w sc ix, best_word gen st rll = Ok (w, sc, ix) -> (sc < BEST_INIT)%Z.
Proof.
  intros gen st rll w sc ix H. unfold best_word in H. inv_bind H.
  pose proof (pick_best_le gen (tbl_bucket x 0 2) None BEST_INIT) as P. destruct (pick_best _ _ _ _) as [[[w' s'] ix']|]; [|discriminate].
  injection H as -> -> ->. destruct P as [[P|P] _]; [discriminate|exact P].
Qed.

Lemma best_cheapest : forall gen st n rll w sc ix ch c (P : list (str * nat) -> Prop), Forall (Forall (fine (consonants st))) rll -> best_word gen st rll = Ok (w, sc, ix) ->
  length rll = n -> chain gen st n ch c -> c_word c = w -> c_score c = sc -> c_tos c = 0 -> c_cons c = 2 -> (exists s l, w = s ++ [l] /\ (if gen then is_consonant l = true else is_vowel l = true)) ->
  P ch -> (forall ch', P ch' -> Forall2 (@In (str * nat)) ch' rll) -> cheapest gen st n P ch c.
Proof.
  intros gen st n rll w sc ix ch c P F H L C W S T K (s & l & E & Hl) Hp Hi. constructor; [exact Hp| |].
  - split; [exact C|]. split; [exact T|]. split; [exact K|]. exists l. rewrite W, E, last_opt_app. auto.
  - intros ch' c' P' (C' & T' & K' & l' & E' & V'). subst n.
    destruct (best_word_optimal gen st rll ch' c' l' F (Hi _ P') C' T' K' E' V') as [(w' & sc' & ix' & E2 & Q)|[E2 _]]; rewrite H in E2; [|discriminate].
    injection E2 as <- <- <-. rewrite S. exact Q.
Qed.

Lemma short_from : forall rs, (forall A r q B, rs = A ++ r :: q :: B -> long_shape r = false) -> short_before_last rs.
Proof.
  induction rs as [|r rs IH]; intro H; [exact I|]. cbn [short_before_last]. destruct rs as [|q rs]; [exact I|]. split; [apply (H [] r q rs eq_refl)|].
  apply IH. intros A r' q' B E. apply (H (r :: A) r' q' B). cbn. rewrite E. reflexivity.
Qed.
Lemma replace_in : forall (a b : list (str * nat)) x x' rll forms, Forall2 (@In (str * nat)) (a ++ x :: b) rll -> nth_error rll (length a) = Some forms -> In x' forms ->
  Forall2 (@In (str * nat)) (a ++ x' :: b) rll.
Proof.
  induction a as [|y a IH]; intros b x x' rll forms F E Hin; inversion F; subst; cbn [length nth_error] in E.
  - injection E as <-. constructor; assumption.
  - cbn [app]. constructor; [assumption|]. eapply IH; eassumption.
Qed.
Lemma nth_map_inv : forall A B (f : A -> B) l k y, nth_error (map f l) k = Some y -> exists x, nth_error l k = Some x /\ f x = y.
Proof. induction l as [|a l IH]; intros [|k] y H; try discriminate; cbn in *; [injection H as <-; eauto|apply IH; exact H]. Qed.

(** in the best word no gismu is written in full before the last component *)
Theorem best_short : forall gen st vs rll w sc ix ch c ps, exp_rafsi_shapes st = false -> homely_all st vs ps ->
  get_rafsi_list_list (analyse_brivla Bound) (jvk Bound) st vs = Ok rll -> best_word gen st rll = Ok (w, sc, ix) ->
  construction Bound gen st vs w sc ix ch c ps -> Forall2 (@In (str * nat)) ch rll ->
  Forall (fun q => cll (allow_mz st) (p_r q) /\ kind_of (p_r q) (p_t q)) ps -> short_before_last (map p_r ps).
Proof.
  intros gen st vs rll w sc ix ch c ps Hex Hh Hr Hb K Hin F. apply short_from. intros A r g B E. apply not_true_is_false. intro Hl.
  pose proof (pieces_tforms _ _ _ _ (k_pieces _ _ _ _ _ _ _ _ _ _ K) F) as T. unfold pc in *. rewrite E in T.
  pose proof (list_fine _ _ _ _ Hex Hr) as Hf. unfold get_rafsi_list_list in Hr. destruct (list_list_nth _ _ _ _ _ _ _ Hr) as [L1 N1].
  pose proof (tforms_length _ _ _ _ _ T) as LT. rewrite app_length in LT. cbn [length] in LT.
  assert (Ec : ch = firstn (length A) ch ++ skipn (length A) ch) by (symmetry; apply firstn_skipn). set (a := firstn (length A) ch) in *. set (b := skipn (length A) ch) in *.
  assert (La : length A = length a) by (unfold a; rewrite firstn_length; lia). clearbody a b. rewrite Ec in T. apply tforms_app in T as [Ta Tb]; [|exact La].
  cbn [Nat.add] in Tb. destruct b as [|x [|y b']]; [contradiction|destruct Tb as [_ []]|]. destruct Tb as [(suf & Sx & ->) [(sg & Sg & ->) _]].
  assert (Fc : Forall (fine (consonants st)) ch) by (eapply Forall2_In_fine; eassumption).
  assert (Nx : nth_error ch (length A) = Some (r ++ suf, cr st r)) by (rewrite Ec, nth_error_app2 by lia; rewrite La, Nat.sub_diag; reflexivity).
  destruct (Forall2_nth _ _ _ _ _ Hin _ _ Nx) as (forms & Nf & _). destruct (N1 _ _ Nf) as (v & Nv & Hv). cbn [Nat.add] in Hv.
  destruct (Forall2_nth _ _ _ _ _ (k_source _ _ _ _ _ _ _ _ _ _ K) _ _ Nv) as (p & Np & Hp).
  assert (Er : nth_error (map p_r ps) (length A) = Some r) by (unfold pc in *; rewrite E, nth_error_app2 by lia; rewrite Nat.sub_diag; reflexivity).
  assert (p_r p = r) as Ep by (rewrite (map_nth_error p_r _ _ Np) in Er; injection Er as Er; exact Er).
  destruct (Forall2_nth _ _ _ _ _ Hh _ _ Nv) as (p' & Np' & (_ & _ & G)). assert (p' = p) as -> by congruence. change (fst (fst p)) with (p_r p) in G. rewrite Ep in G. destruct (G Hl) as [-> Gv]. clear G.
  assert (Ln : length ch = length vs) by exact (k_len _ _ _ _ _ _ _ _ _ _ K).
  assert (El : (length A =? length vs - 1) = false) by (apply Nat.eqb_neq; clear -LT Ln; lia). rewrite El in *.
  destruct (gismu_forms _ _ _ _ _ Gv Hv) as [Gf _]. specialize (Gf eq_refl).
  destruct (gismu_cll _ _ Gv) as (V1 & V2 & _ & V4 & _).
  assert (Hsuf : suf = [c_h; c_y]).
  { destruct V4 as [V4|V4]; rewrite V4 in Sx; inversion Sx; subst; repeat match goal with X : _ \/ _ |- _ => destruct X end; try discriminate; reflexivity. }
  assert (Hcr : cr st v = 2) by (unfold cr; destruct V4 as [-> | ->]; reflexivity). rewrite Hsuf, Hcr in *.
  assert (Fr : Forall (cll (allow_mz st)) (map p_r ps)) by (apply Forall_map; eapply Forall_impl; [|exact F]; intros q [Q _]; exact Q). unfold pc in *. rewrite E in Fr.
  apply Forall_app in Fr as [_ Fr]. pose proof (Forall_inv (Forall_inv_tail Fr)) as Hg.
  assert (Hsg : forallb is_hy sg = true) by (eapply suffixed_hy; exact Sg).
  pose proof (k_chain _ _ _ _ _ _ _ _ _ _ K) as C. rewrite Ec in C, Fc, Hin.
  assert (exists d', chain gen st (length vs) (a ++ (dropl 1 v ++ [c_y], 2) :: (g ++ sg, cr st g) :: b') d' /\ matched c d' /\ (c_score d' < c_score c)%Z) as (d' & D1 & (M1 & M2 & M3) & D3).
  { destruct a as [|a0 a]; [eapply swap_first; eassumption|]. eapply swap_chain; [discriminate|apply (long_facts st v g sg Gv Hg Hsg)|exact Fc|exact C]. }
  rewrite La in Nf. pose proof (replace_in _ _ _ _ _ _ Hin Nf Gf) as Hin'.
  destruct (k_end _ _ _ _ _ _ _ _ _ _ K) as (s & l & Ew & Hvl). pose proof (k_word _ _ _ _ _ _ _ _ _ _ K) as Kw.
  rewrite L1 in D1.
  destruct (best_word_optimal gen st rll _ d' l Hf Hin' D1) as [(w' & sc' & ix' & E2 & Q)|[E2 _]].
  - rewrite M1. apply (k_tos _ _ _ _ _ _ _ _ _ _ K).
  - rewrite M2. apply (k_cons _ _ _ _ _ _ _ _ _ _ K).
  - rewrite M3, Kw, Ew, last_opt_app. reflexivity.
  - exact Hvl.
  - rewrite Hb in E2. injection E2 as <- <- <-. rewrite (k_score _ _ _ _ _ _ _ _ _ _ K) in D3. clear -D3 Q. lia.
  - congruence.
Qed.

Lemma homely_pieces : forall st vs ps, homely_all st vs ps ->
  Forall2 (fun v p => source Bound st v (fst (fst p)) (snd (fst p))) vs ps ->
  Forall (fun q => cll (allow_mz st) (p_r q) /\ kind_of (p_r q) (p_t q)) ps /\ Forall2 (offers st) vs (map p_r ps).
Proof.
  intros st vs ps F H. revert F. induction H as [|v p vs ps Hp H IH]; intro F; [split; constructor|]. inversion F as [|? ? ? ? Hv F']; subst.
  destruct (IH F') as [I1 I2]. destruct Hv as (G1 & G2 & _). split; [constructor; [split; assumption|exact I1]|].
  cbn [map]. constructor; [|exact I2]. eapply source_offers; eassumption.
Qed.
Lemma homely_sources : forall st vs ps, Forall (homely st) vs ->
  Forall2 (fun v p => source Bound st v (fst (fst p)) (snd (fst p))) vs ps -> homely_all st vs ps.
Proof.
  intros st vs ps F H. revert F. induction H as [|v p vs ps Hp H IH]; intro F; [constructor|]. inversion F as [|? ? Hv F']; subst.
  constructor; [apply Hv; exact Hp|apply IH; exact F'].
Qed.
Lemma exact_settings : forall st, exp_rafsi_shapes st = false -> mkSettings (y_hyphens st) false (consonants st) (glides st) (allow_mz st) = st.
Proof. intros [yh ex cs gl mz] H. cbn in *. subst ex. reflexivity. Qed.

(** the best word for such components is the word expected for its rafsi *)
Theorem built_expected : forall gen st vs rll w sc ix ch c ps, exp_rafsi_shapes st = false ->
  get_rafsi_list_list (analyse_brivla Bound) (jvk Bound) st vs = Ok rll -> best_word gen st rll = Ok (w, sc, ix) ->
  construction Bound gen st vs w sc ix ch c ps -> homely_all st vs ps ->
    Forall (fun q => cll (allow_mz st) (p_r q) /\ kind_of (p_r q) (p_t q)) ps
    /\ short_before_last (map p_r ps)
    /\ (exists x, ch = x :: canon st (tl (map p_r ps)))
    /\ expected_entry (y_hyphens st) (consonants st) (glides st) (allow_mz st) gen (map p_r ps) = Ok (w, sc, ix).
Proof.
  intros gen st vs rll w sc ix ch c ps Hex Hr Hb K Hh.
  destruct (homely_pieces _ _ _ Hh (k_source _ _ _ _ _ _ _ _ _ _ K)) as [F O].
  pose proof (pieces_tforms _ _ _ _ (k_pieces _ _ _ _ _ _ _ _ _ _ K) F) as T.
  pose proof (offered _ _ _ _ _ _ _ O Hr T) as Hin. split; [exact F|].
  split; [eapply best_short; eassumption|].
  pose proof (list_fine _ _ _ _ Hex Hr) as Hf.
  assert (L1 : length rll = length vs) by (unfold get_rafsi_list_list in Hr; destruct (list_list_nth _ _ _ _ _ _ _ Hr) as [L1 _]; symmetry; exact L1).
  assert (Lr : length (map p_r ps) = length vs) by (rewrite <- (Forall2_length _ _ _ _ _ O); reflexivity).
  assert (Fr : Forall (cll (allow_mz st)) (map p_r ps)) by (apply Forall_map; eapply Forall_impl; [|exact F]; intros q [Q _]; exact Q).
  set (rs := map p_r ps) in *. clearbody rs.
  assert (L2 : 2 <= length rs).
  { rewrite Lr, <- (k_len _ _ _ _ _ _ _ _ _ _ K). eapply chain_length. exact (k_chain _ _ _ _ _ _ _ _ _ _ K). }
  assert (H1 : cheapest gen st (length rs) (tforms st (length rs) 0 rs) ch c).
  { rewrite Lr. eapply (best_cheapest gen st (length vs) rll w sc ix); try exact Hf; try exact Hb; try exact L1; try exact T;
      try apply (k_chain _ _ _ _ _ _ _ _ _ _ K); try apply (k_word _ _ _ _ _ _ _ _ _ _ K); try apply (k_score _ _ _ _ _ _ _ _ _ _ K);
      try apply (k_tos _ _ _ _ _ _ _ _ _ _ K); try apply (k_cons _ _ _ _ _ _ _ _ _ _ K); try apply (k_end _ _ _ _ _ _ _ _ _ _ K).
    intros ch' T'. eapply offered; [exact O|exact Hr|exact T']. }
  split.
  { destruct rs as [|r rs]; [cbn in L2; lia|]. destruct ch as [|x T']; [contradiction|]. exists x. f_equal.
    apply (tail_canon gen st (length (r :: rs)) rs [r] [x] T' c); [exact Fr|reflexivity|discriminate|reflexivity|exact H1]. }
  destruct (piece_forms_ok (consonants st) (glides st) (allow_mz st) rs Fr) as [ru Eu].
  unfold expected_entry. rewrite Eu. cbn [bind]. rewrite (exact_settings _ Hex).
  rewrite <- (rafsi_list_list_dashed (analyse_brivla Bound) (jvk Bound) st rs Fr) in Eu.
  assert (Od : Forall2 (offers st) (map dashed rs) rs).
  { clear -Fr. induction Fr as [|r rs Hr F IH]; cbn [map]; constructor; [apply dashed_offers; exact Hr|exact IH]. }
  assert (Ld : length (map dashed rs) = length rs) by apply map_length.
  assert (Hoff : forall ch', tforms st (length rs) 0 rs ch' -> Forall2 (@In (str * nat)) ch' ru).
  { intros ch' T'. unfold get_rafsi_list_list in Eu. rewrite Ld in Eu. eapply offered; [exact Od|exact Eu|exact T']. }
  assert (Lu : length ru = length rs) by (unfold get_rafsi_list_list in Eu; destruct (list_list_nth _ _ _ _ _ _ _ Eu) as [Q _]; congruence).
  pose proof (list_fine _ _ _ _ Hex Eu) as Hfu.
  destruct (h_whole _ _ _ _ _ H1) as (C & Ct & Cc & l & El & Vl).
  rewrite <- Lu in C.
  destruct (best_word_optimal gen st ru ch c l Hfu (Hoff _ (h_in _ _ _ _ _ H1)) C Ct Cc El Vl) as [(w2 & sc2 & ix2 & E2 & Q)|[_ Q]];
    [|apply best_init in Hb; rewrite (k_score _ _ _ _ _ _ _ _ _ _ K) in Q; clear -Q Hb; lia].
  rewrite E2. destruct (best_word_construction _ _ _ _ _ _ _ _ Eu E2) as (ch2 & c2 & ps2 & K2).
  assert (G : Forall2 (fun r p => p_r p = r /\ p_t p = Tar (rafsi_tarmi r)) rs ps2).
  { pose proof (k_source _ _ _ _ _ _ _ _ _ _ K2) as Hs. clear -Hs Fr. revert ps2 Hs.
    induction Fr as [|r rs Hr F IH]; intros ps Hs; inversion Hs; subst; constructor; [|apply IH; assumption].
    apply source_dashed in H1; [|exact Hr]. exact H1. }
  assert (Em : map p_r ps2 = rs) by (clear -G; induction G as [|? ? ? ? [? _] G IH]; cbn [map]; congruence).
  assert (F2 : Forall (fun q => cll (allow_mz st) (p_r q) /\ kind_of (p_r q) (p_t q)) ps2).
  { clear -G Fr. revert Fr. induction G as [|r p rs ps [<- Ht] G IH]; intro F; constructor; inversion F; subst; auto. split; [assumption|]. left. exact Ht. }
  pose proof (pieces_tforms _ _ _ _ (k_pieces _ _ _ _ _ _ _ _ _ _ K2) F2) as T2. unfold pc in *. rewrite Em, Ld in T2.
  assert (H2 : cheapest gen st (length rs) (tforms st (length rs) 0 rs) ch2 c2).
  { eapply (best_cheapest gen st (length rs) ru w2 sc2 ix2); try exact Hfu; try exact E2; try exact Lu; try exact T2; try exact Hoff;
      try apply (k_word _ _ _ _ _ _ _ _ _ _ K2); try apply (k_score _ _ _ _ _ _ _ _ _ _ K2);
      try apply (k_tos _ _ _ _ _ _ _ _ _ _ K2); try apply (k_cons _ _ _ _ _ _ _ _ _ _ K2); try apply (k_end _ _ _ _ _ _ _ _ _ _ K2).
    rewrite <- Ld. apply (k_chain _ _ _ _ _ _ _ _ _ _ K2). }
  destruct (unique _ _ _ _ _ _ _ Fr L2 H1 H2) as [U1 U2].
  pose proof (h_min _ _ _ _ _ H1 _ _ (h_in _ _ _ _ _ H2) (h_whole _ _ _ _ _ H2)) as A1.
  pose proof (h_min _ _ _ _ _ H2 _ _ (h_in _ _ _ _ _ H1) (h_whole _ _ _ _ _ H1)) as A2.
  assert (A3 : c_score c = c_score c2) by (clear -A1 A2; lia).
  rewrite (k_word _ _ _ _ _ _ _ _ _ _ K), (k_word _ _ _ _ _ _ _ _ _ _ K2) in U1. rewrite (k_idx _ _ _ _ _ _ _ _ _ _ K), (k_idx _ _ _ _ _ _ _ _ _ _ K2) in U2.
  rewrite (k_score _ _ _ _ _ _ _ _ _ _ K), (k_score _ _ _ _ _ _ _ _ _ _ K2) in A3. congruence.
Qed.

(** ** The pieces the word was built from *)
Fixpoint no_hy (p : pc) (rest : list (str * pc)) : Prop :=
  match rest with [] => True | (g, q) :: r => gap_of p g q <> [c_h; c_y] /\ no_hy q r end.
Definition spelt (x : str * nat) (q : pc) : Prop := fst x = p_r q ++ p_suf q.

Lemma can_short : forall mz r g, long_shape r = false -> rafsi_tarmi r <> OTHER_RAFSI -> rafsi_tarmi r <> HYPHEN -> can mz r g = [] \/ can mz r g = [c_y].
Proof. intros mz r g H1 H2 H3. unfold can, long_shape in *. destruct (rafsi_tarmi r); try discriminate; try congruence; auto. destruct (joins _ _ _); auto. Qed.
Lemma cll_tarmi_ne : forall mz r, cll mz r -> rafsi_tarmi r <> OTHER_RAFSI /\ rafsi_tarmi r <> HYPHEN.
Proof. intros mz r H. apply cll_proper in H. split; intro E; rewrite E in H; discriminate. Qed.

Lemma tail_no_hy : forall gen st n rest p, linked gen st n false p rest -> cll_list (allow_mz st) p rest ->
  Forall2 spelt (canon st (map p_r (p :: map snd rest))) (p :: map snd rest) -> no_hy p rest.
Proof.
  intros gen st n. induction rest as [|[g q] r IH]; intros p Hl Hc F; [exact I|]. destruct Hl as [L Hl]. destruct Hc as (Hp & Kp & Sp & Hc).
  cbn [map snd] in F. cbn [canon] in F. inversion F as [|? ? ? ? E F']; subst. unfold spelt in E. cbn [fst] in E. apply app_inv_head in E.
  split; [|apply IH; [exact Hl|exact Hc|exact F']].
  destruct (cll_tarmi_ne _ _ Hp) as [T1 T2]. pose proof (cll_list_first _ _ _ Hc) as Hq. unfold gap_of. rewrite (cll_prefix _ _ _ Hq), app_nil_r, <- E.
  pose proof (l_glued _ _ _ _ _ _ _ L) as G. cbn [andb] in G. rewrite <- E in G.
  destruct (can_short (allow_mz st) _ (p_r q) Sp T1 T2) as [X|X]; rewrite X in *; inversion G; subst; try discriminate.
Qed.
Lemma first_no_hy : forall gen st n rest p, y_hyphens st = STANDARD -> linked gen st n true p rest -> cll_list (allow_mz st) p rest ->
  match rest with [] => True | (g, q) :: r => gap_of p g q <> [c_h; c_y] end.
Proof.
  intros gen st n [|[g q] r] p Hy Hl Hc; [exact I|]. destruct Hl as [L Hl]. destruct Hc as (Hp & Kp & Sp & Hc). pose proof (cll_list_first _ _ _ Hc) as Hq.
  unfold gap_of. rewrite (cll_prefix _ _ _ Hq), app_nil_r. pose proof (l_glued _ _ _ _ _ _ _ L) as G.
  pose proof (kind_suffixed _ _ _ _ _ Kp (l_suf _ _ _ _ _ _ _ L)) as S. apply first_options in S.
  inversion G as [N1 N2 _|N1 N2|N1 _ _ N2|N1 _ _ _ _ N2|N1 _ _ _ _ N2]; subst g; try (rewrite N1); try congruence; try discriminate.
  - rewrite app_nil_r. unfold long_shape in Sp. pose proof (l_ccv _ _ _ _ _ _ _ L eq_refl) as Q. destruct (cll_tarmi_ne _ _ Hp) as [T1 T2].
    destruct (rafsi_tarmi (p_r p)); try discriminate Sp; try (exfalso; congruence); try (rewrite S; discriminate);
      destruct S as [S|S]; rewrite S in *; try discriminate. exfalso. apply Q; reflexivity.
  - destruct (l_std _ _ _ _ _ _ _ L N1) as [X|X]; [|congruence]. rewrite (cll_prefix _ _ _ Hq) in X. discriminate.
Qed.
Lemma alt_no_hy : forall mz rest p, cll_list mz p rest -> no_hy p rest -> ~ In (L "'y") (alt p rest).
Proof.
  assert (G : forall mz r, cll mz r -> r <> L "'y") by (intros mz r H ->; apply cll_len in H; cbn in H; lia).
  intros mz. induction rest as [|[g q] r IH]; intros p Hc Hn Hin; cbn [alt] in Hin.
  - destruct Hin as [E|[]]. apply (G mz (p_r p)); [apply Hc|exact E].
  - destruct Hc as (Hp & _ & _ & Hc). destruct Hn as [N1 N2]. destruct Hin as [E|Hin]; [exact (G mz (p_r p) Hp E)|]. apply in_app_or in Hin as [Hin|Hin]; [|exact (IH q Hc N2 Hin)].
    unfold gp in Hin. destruct (gap_of p g q) eqn:E; [contradiction|]. destruct Hin as [Hin|[]]. apply N1. exact Hin.
Qed.
Lemma cut_no_hy : forall rn hy mz ps prev, cut rn true mz prev ps -> ~ In (L "'y") ps -> cut rn hy mz prev ps.
Proof.
  intros rn hy mz. induction ps as [|p ps IH]; intros prev H Hn; [exact I|]. destruct H as [H1 H2]. split; [|apply IH; [exact H2|intro X; apply Hn; right; exact X]].
  destruct H1 as [H1|(q & -> & L1 & H1)]; [left; exact H1|right]. exists q. split; [reflexivity|]. split; [exact L1|].
  destruct H1 as [->|[[_ ->]|H1]]; [left; reflexivity|exfalso; apply Hn; left; reflexivity|right; right; exact H1].
Qed.
Lemma alt_indices : forall gen st n rest fi p off, linked gen st n fi p rest -> cll_list (allow_mz st) p rest ->
  rafsi_indices_loop off (alt p rest) = spots off p rest.
Proof.
  intros gen st n. induction rest as [|[g q] r IH]; intros fi p off Hl Hc; cbn [alt].
  - destruct Hc as (Hp & _). cbn [rafsi_indices_loop spots app]. fold (is_hyphen (p_r p)). rewrite hyphens_spec, (cll_not_hyphen _ _ Hp). reflexivity.
  - destruct Hl as [L Hl]. destruct Hc as (Hp & _ & _ & Hc). cbn [rafsi_indices_loop spots]. rewrite hyphens_spec, (cll_not_hyphen _ _ Hp). cbn [app]. f_equal.
    pose proof (link_gap _ _ _ _ _ _ _ L (cll_list_first _ _ _ Hc)) as G.
    assert (Gh : gap_of p g q = [] \/ is_hyphen (gap_of p g q) = true).
    { destruct G as [E|[E|[E|(E & _ & _ & _ & [[E2 _]|[E2 _]])]]]; [left; exact E|right; rewrite E; reflexivity..|right; rewrite <- E, E2; reflexivity|right; rewrite <- E, E2; reflexivity]. }
    unfold gp. destruct (gap_of p g q) as [|c s] eqn:E.
    + cbn [app length]. rewrite Nat.add_0_r. eapply IH; eassumption.
    + destruct Gh as [X|X]; [discriminate|]. cbn [app rafsi_indices_loop]. rewrite hyphens_spec, X. cbn [app]. eapply IH; eassumption.
Qed.
Lemma drops_refl : forall ps u, drops u ps ps.
Proof. induction ps as [|p ps IH]; intro u; constructor. apply IH. Qed.
Lemma pieces_spelt : forall st n ch ps, pieces st n ch ps -> Forall (fun q => cll (allow_mz st) (p_r q) /\ kind_of (p_r q) (p_t q)) ps -> Forall2 spelt ch ps.
Proof.
  assert (G : forall st fi la x p, piece st fi la x p -> cll (allow_mz st) (p_r p) -> spelt x p).
  { intros st fi la x [[r t] suf] (_ & E & _) H. unfold spelt, p_r, p_suf in *. cbn [fst snd] in *. rewrite (cll_prefix _ _ _ H) in E. exact E. }
  induction 1 as [x p H|l ps x p H IH Hp]; intros F.
  - apply Forall_inv in F as [F1 F2]. constructor; [eapply G; eassumption|constructor].
  - apply Forall_app in F as [F Fp]. apply Forall_inv in Fp as [F1 F2]. apply Forall2_app; [apply IH; exact F|]. constructor; [eapply G; eassumption|constructor].
Qed.

Definition word_letter (c : char) : bool := is_lojban_letter c || N.eqb c c_y.
Lemma word_spelling : forall s, Forall (fun c => word_letter c = true) s -> standard_spelling s = s.
Proof.
  assert (G : forall c, word_letter c = true -> N.eqb c 46%N = false /\ N.eqb c 104%N = false /\ N.eqb c 44%N = false /\ lower_char c = [c]).
  { intros c H. unfold word_letter in H. apply orb_true_iff in H as [H|H]; [apply lojban_letter_facts in H; tauto|]. apply N.eqb_eq in H. subst c. repeat split. }
  intros s H. unfold standard_spelling.
  assert (E : match s with c :: r => if N.eqb c 46%N then r else s | [] => [] end = s).
  { destruct H as [|c s Hc Hs]; [reflexivity|]. apply G in Hc. destruct Hc as (-> & _). reflexivity. }
  rewrite E. clear E. induction H as [|c s Hc Hs IH]; [reflexivity|].
  apply G in Hc as (H2 & H3 & H4 & H5). unfold lower in *. cbn [flat_map].
  rewrite H5. cbn [app map]. rewrite H3. cbn [filter]. rewrite H4. cbn [negb]. f_equal. exact IH.
Qed.

Theorem construction_analysed : forall st vs rll w sc ix ch c ps, exp_rafsi_shapes st = false ->
  get_rafsi_list_list (analyse_brivla Bound) (jvk Bound) st vs = Ok rll -> best_word false st rll = Ok (w, sc, ix) ->
  construction Bound false st vs w sc ix ch c ps -> homely_all st vs ps ->
  slinkuhi Bound (y_hyphens st) (allow_mz st) w = Ok false ->
  exists arr p rest, (ps = p :: map snd rest /\ linked false st (length vs) true p rest /\ arr = alt p rest)
    /\ rafsi_of arr = map p_r ps /\ concat arr = w /\ analyse_brivla Bound st w = Ok (LUJVO, arr) /\ get_rafsi_indices arr = ix.
Proof.
  intros st vs rll w sc ix ch c ps Hex Hr Hb K Hh Hs. destruct (built_expected _ _ _ _ _ _ _ _ _ _ Hex Hr Hb K Hh) as (F & S & (x & Ech) & He).
  destruct (chain_linked_spots _ _ _ _ _ (k_chain _ _ _ _ _ _ _ _ _ _ K) (Nat.eq_le_incl _ _ (k_len _ _ _ _ _ _ _ _ _ _ K)) ps (k_pieces _ _ _ _ _ _ _ _ _ _ K))
    as (p & rest & Eps & Hrest & Hl & Ew & Ei).
  exists (alt p rest), p, rest. split; [auto|].
  assert (Hc : cll_list (allow_mz st) p rest) by (rewrite Eps in F, S; exact (cll_list_of _ _ _ F S)).
  assert (Er : rafsi_of (alt p rest) = map p_r ps) by (rewrite Eps; eapply alt_rafsi; eassumption).
  split; [exact Er|].
  assert (Ecat : concat (alt p rest) = w).
  { rewrite <- (k_word _ _ _ _ _ _ _ _ _ _ K), Ew. apply alt_concat.
    destruct (k_built _ _ _ _ _ _ _ _ _ _ K) as (w0 & r & t & B). destruct (b_last _ _ _ _ _ _ _ _ B) as (ps' & E & _).
    assert (last (map snd rest) p = (r, t, [])) as X.
    { transitivity (last (p :: map snd rest) p); [destruct rest; [congruence|reflexivity]|]. unfold pc in *. rewrite <- Eps, E. apply last_last. }
    unfold pc in *. rewrite X. reflexivity. }
  assert (Hcut : cut (rn_ok (y_hyphens st)) (hy_ok (y_hyphens st)) (allow_mz st) None (alt p rest)).
  { pose proof (alt_cut _ _ _ _ _ _ None Hl Hc eq_refl) as C. unfold hy_ok. destruct (yset_eqb (y_hyphens st) STANDARD) eqn:Ey; [|exact C].
    assert (Hy : y_hyphens st = STANDARD) by (destruct (y_hyphens st); try discriminate; reflexivity).
    apply cut_no_hy; [exact C|]. eapply alt_no_hy; [exact Hc|]. destruct rest as [|[g q] r]; [congruence|].
    split; [exact (first_no_hy _ _ _ _ _ Hy Hl Hc)|]. destruct Hl as [_ Hl]. destruct Hc as (_ & _ & _ & Hc). eapply tail_no_hy; [exact Hl|exact Hc|].
    pose proof (pieces_spelt _ _ _ _ (k_pieces _ _ _ _ _ _ _ _ _ _ K) F) as Sp. rewrite Ech, Eps in Sp. cbn [map snd tl] in Sp. inversion Sp; subst. assumption. }
  split; [exact Ecat|]. split; [|unfold get_rafsi_indices; rewrite (alt_indices _ _ _ _ _ _ _ Hl Hc), <- Ei; exact (k_idx _ _ _ _ _ _ _ _ _ _ K)].
  assert (Fr : Forall (cll (allow_mz st)) (map p_r ps)) by (apply Forall_map; eapply Forall_impl; [|exact F]; intros q [Q _]; exact Q).
  assert (Esp : standard_spelling w = w).
  { apply word_spelling. rewrite <- Ecat. clear -Hcut.
    assert (G : forall ps prev, cut (rn_ok (y_hyphens st)) (hy_ok (y_hyphens st)) (allow_mz st) prev ps -> Forall (fun c => word_letter c = true) (concat ps)).
    { induction ps as [|q ps IH]; intros prev H; [constructor|]. destruct H as [H1 H2]. cbn [concat]. apply Forall_app. split; [|eapply IH; exact H2].
      destruct H1 as [(s & Hs & _)|(q' & _ & _ & Hq)]; [eapply Forall_impl; [|eapply cll_lojban; exists s; exact Hs]; intros a Ha; unfold word_letter; rewrite Ha; reflexivity|].
      destruct Hq as [->|[[_ ->]|[_ [_ [[-> _]|[-> _]]]]]]; apply Forall_forall; apply forallb_forall; reflexivity. }
    eapply G. exact Hcut. }
  destruct (k_end _ _ _ _ _ _ _ _ _ _ K) as (s & l & Es & Hv).
  assert (Hgen : expected_word Bound (y_hyphens st) (consonants st) (glides st) (allow_mz st) false (rafsi_of (alt p rest)) = Ok w).
  { unfold expected_word. rewrite Er, He. cbn [bind]. rewrite Hs. reflexivity. }
  assert (L6 : 6 <= length w).
  { rewrite <- (k_word _ _ _ _ _ _ _ _ _ _ K). eapply r_len, chain_ripe; [exact (k_chain _ _ _ _ _ _ _ _ _ _ K)|].
    eapply tforms_fine; [exact Fr|]. eapply pieces_tforms; [exact (k_pieces _ _ _ _ _ _ _ _ _ _ K)|exact F]. }
  apply C41_cll_lujvo_characterised. rewrite Esp. rewrite <- (cut_pieces _ _ _ _ _ Hcut).
  split; [exists s, l; split; [exact Es|apply is_vowel_spec; exact Hv]|]. split.
  { intros q Hq. pose proof (proj2 (C05_gismu_shape Bound st w) (ex_intro _ q Hq)) as X. apply is_gismu_spec in X. rewrite Esp in X.
    apply gismu_len in X as (? & ? & ? & ? & ? & -> & _). cbn in L6. lia. }
  assert (Hcut' : cut (match y_hyphens st with FORCE_Y => false | _ => true end) (match y_hyphens st with STANDARD => false | _ => true end) (allow_mz st) None (alt p rest)).
  { unfold rn_ok, hy_ok in Hcut. destruct (y_hyphens st); exact Hcut. }
  split; [exact Ecat|]. split; [exact Hcut'|]. split.
  { rewrite Er, Eps. destruct rest; [congruence|]. cbn. lia. }
  exists w. rewrite get_lujvo_literally by (rewrite Er; exact Fr). split; [exact Hgen|]. split; [reflexivity|].
  intros _. exists (alt p rest). split; [exact Ecat|]. split; [exact Hcut'|apply drops_refl].
Qed.

Theorem built_analysed : forall st vs rll w sc ix, exp_rafsi_shapes st = false -> Forall (homely st) vs ->
  get_rafsi_list_list (analyse_brivla Bound) (jvk Bound) st vs = Ok rll -> best_word false st rll = Ok (w, sc, ix) ->
  slinkuhi Bound (y_hyphens st) (allow_mz st) w = Ok false ->
  exists ps arr, Forall2 (fun v p => source Bound st v (fst (fst p)) (snd (fst p))) vs ps
    /\ rafsi_of arr = map p_r ps /\ concat arr = w /\ analyse_brivla Bound st w = Ok (LUJVO, arr) /\ get_rafsi_indices arr = ix.
Proof.
  intros st vs rll w sc ix Hex Hh Hr Hb Hs. destruct (best_word_construction _ _ _ _ _ _ _ _ Hr Hb) as (ch & c & ps & K).
  pose proof (k_source _ _ _ _ _ _ _ _ _ _ K) as Hk. pose proof (homely_sources _ _ _ Hh Hk) as Ha.
  destruct (construction_analysed _ _ _ _ _ _ _ _ _ Hex Hr Hb K Ha Hs) as (arr & _ & _ & _ & A). exists ps, arr. split; [exact Hk|exact A].
Qed.
