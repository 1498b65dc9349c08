(** Accepted CLL lujvo and the builder's chain; what is left of a lujvo when a
    leading cmavo is removed (C32). *)
From Verif Require Import Str Data Tarmi Rafsi Core Api Lib Spec Shapes Decomp Basic Vowels Katna Dict Errs Builder Jvokaha Fuel Raises Inv Parts Clusters Zihevla Forms Chain Score Alt Lujvo Slinku Compound Whole Total Onset.

Lemma lujvo_linked : forall yh cs gl mz w arr correct, cll_lujvo Bound yh cs gl mz w arr false correct ->
  exists p rest, linked false (mkSettings yh false cs gl mz) (length (rafsi_of arr)) true p rest /\ rest <> []
    /\ cll_list mz p rest /\ concat (alt p rest) = correct /\ cut (rn_ok yh) true mz None (alt p rest)
    /\ map p_r (p :: map snd rest) = rafsi_of arr
    /\ Forall (fun q => cll mz (p_r q) /\ kind_of (p_r q) (p_t q)) (p :: map snd rest)
    /\ p_suf (last (map snd rest) p) = [] /\ ends_vowel correct.
Proof.
  intros yh cs gl mz w ps correct Y.
  pose proof (x_cut _ _ _ _ _ _ _ _ _ Y) as Cp.
  pose proof (x_word _ _ _ _ _ _ _ _ _ Y) as Hw. unfold expected_word in Hw. inv_bind Hw. destruct x as [[w' sc] ix]. rename E into He.
  assert (w' = correct). { inv_bind Hw. destruct x; congruence. } subst w'.
  pose proof (cut_rafsi_cll _ _ _ _ _ Cp) as F. pose proof (cut_short _ _ _ _ _ Cp) as S.
  unfold expected_entry in He. inv_bind He. rename x into rll. set (st := mkSettings yh false cs gl mz) in *.
  change (piece_forms (consonants st) (glides st) (rafsi_of ps) = Ok rll) in E.
  rewrite <- (rafsi_list_list_dashed (analyse_brivla Bound) (jvk Bound) st (rafsi_of ps) F) in E.
  destruct (best_word_construction _ _ _ _ _ _ _ _ E He) as (choice & cd & qs & K).
  assert (G : Forall2 (fun r p => p_r p = r /\ p_t p = Tar (rafsi_tarmi r)) (rafsi_of ps) qs).
  { pose proof (k_source _ _ _ _ _ _ _ _ _ _ K) as Hs. clear -Hs F. revert qs Hs.
    induction F as [|r rs Hr F IH]; intros qs Hs; inversion Hs; subst; constructor; [|apply IH; assumption].
    apply source_dashed in H1; [|exact Hr]. exact H1. }
  assert (Em : map p_r qs = rafsi_of ps) by (clear -G; induction G as [|? ? ? ? [? _] G IH]; cbn [map]; congruence).
  assert (F' : Forall (fun q => cll (allow_mz st) (p_r q) /\ kind_of (p_r q) (p_t q)) qs).
  { clear -G F. change mz with (allow_mz st) in F. revert F. induction G as [|r p rs ps' [<- Ht] G IH]; intro F; constructor; inversion F; subst; auto. split; [assumption|]. left. exact Ht. }
  destruct (chain_linked _ _ _ _ _ (k_chain _ _ _ _ _ _ _ _ _ _ K) (Nat.eq_le_incl _ _ (k_len _ _ _ _ _ _ _ _ _ _ K)) qs (k_pieces _ _ _ _ _ _ _ _ _ _ K))
    as (p & rest & -> & Hr & Hl & Esp).
  rewrite map_length in Hl.
  assert (Hcl : cll_list (allow_mz st) p rest) by (apply cll_list_of; [exact F'|unfold pc in *; rewrite Em; exact S]).
  assert (Z : p_suf (last (map snd rest) p) = []).
  { destruct (k_built _ _ _ _ _ _ _ _ _ _ K) as (w0 & r & t & B). destruct (b_last _ _ _ _ _ _ _ _ B) as (ps' & X & _).
    assert (last (map snd rest) p = (r, t, [])) as Z.
    { transitivity (last (p :: map snd rest) p); [destruct rest; [congruence|reflexivity]|]. unfold pc in *. rewrite X. apply last_last. }
    unfold pc in *. rewrite Z. reflexivity. }
  exists p, rest. split; [exact Hl|]. split; [exact Hr|]. split; [exact Hcl|]. split; [|split; [|split; [exact Em|split; [exact F'|split; [exact Z|]]]]].
  - rewrite alt_concat by exact Z. rewrite <- Esp. apply (k_word _ _ _ _ _ _ _ _ _ _ K).
  - refine (alt_cut _ _ _ _ _ _ _ Hl Hcl _). reflexivity.
  - destruct (k_end _ _ _ _ _ _ _ _ _ _ K) as (s & l & -> & Hv). exists l. split; [apply last_opt_app|exact Hv].
Qed.

Lemma ends_concat : forall (p : str) next, next <> [] -> concat next <> [] -> ends_vowel (concat (p :: next)) -> ends_vowel (concat next).
Proof. intros p next _ H Hv. cbn [concat] in Hv. eapply ends_tail; eassumption. Qed.

Lemma norn_long : forall a b t, norn (a :: b :: t) = true.
Proof. intros a b t. unfold norn. cbn [str_eqb]. rewrite !andb_false_r. reflexivity. Qed.

Lemma onset_rn : forall rn hy mz arr prev c t, cut rn hy mz prev arr -> plain_before prev -> concat arr = c :: t -> is_consonant c = true ->
  ends_vowel (concat arr) -> onset (concat (filter norn arr)) -> onset (concat arr).
Proof.
  induction arr as [|p next IH]; intros prev c t C Pb E Hc Hv Ho; [discriminate|].
  destruct (cut_consonant' _ _ _ _ _ _ _ _ C Pb E Hc) as (s & Hs & He). pose proof C as [_ C'].
  inversion Hs; subst; bfacts; cbn [concat app] in *; try (constructor; assumption).
  - (* CCV *) rename c1 into x1, c2 into x2, v into v1.
    cbn [filter] in Ho. rewrite norn_long in Ho. cbn [concat app] in Ho.
    destruct next as [|q next']; [constructor; assumption|].
    pose proof C' as C2. destruct C2 as [[(s' & Hs' & _)|(q0 & Q & _ & [->|[(_ & ->)|(_ & W & _)]])] _].
    + assert (Hq : cll mz q) by (exists s'; exact Hs'). destruct (cll_first _ _ Hq) as (a & b & d & u & -> & Ha & Hb).
      cbn [filter] in Ho. rewrite norn_long in Ho. cbn [concat app] in *.
      assert (K : onset (a :: b :: d :: u ++ concat (filter norn next'))).
      { inversion Ho; subst; try assumption; try clash.
        - destruct Hb as [Hb|[Hb _]]; clash.
        - apply on_cv; assumption. }
      apply on_ccv; [assumption..|]. eapply IH; [exact C'| |reflexivity|exact Ha| |].
      * intros z Z. injection Z as <-. eapply not_cvv; [exact Hs|discriminate..].
      * apply (ends_tail [x1; x2; v1]) in Hv; [exact Hv|discriminate].
      * cbn [filter]. rewrite norn_long. exact K.
    + change (filter norn (L "y" :: next')) with (L "y" :: filter norn next') in Ho. cbn [concat app L] in Ho.
      inversion Ho; subst; try clash.
      match goal with X : onset _ |- _ => destruct (onset_first _ X) as (? & ? & ? & X1 & X2 & _); injection X1 as <- _; discriminate end.
    + apply on_ccv_hy; assumption.
    + injection Q as <-. exfalso. refine (not_cvv _ _ _ Hs _ _ W); discriminate.
  - (* CCVC *) destruct He as [->|(t' & ->)]; [|cbn [concat app L]; apply on_ccvc; assumption].
    destruct Hv as (l & El & Hl). cbn in El. injection El as <-. clash.
Qed.

(** An accepted lujvo that starts with a consonant, whatever the options. *)
Theorem lujvo_onset : forall yh cs gl mz w arr correct, cll_lujvo Bound yh cs gl mz w arr false correct -> ends_vowel w -> onset w.
Proof.
  intros yh cs gl mz w arr correct Y Hv. pose proof (x_concat _ _ _ _ _ _ _ _ _ Y) as Ec. pose proof (x_cut _ _ _ _ _ _ _ _ _ Y) as C.
  destruct (lujvo_linked _ _ _ _ _ _ _ Y) as (p & rest & Hl & Hr & Hcl & Eu & Ca & Em & F & Z & Hu).
  pose proof (cll_list_first _ _ _ Hcl) as Hp. destruct (cll_first _ _ Hp) as (a & b & d & u & Ep & Ha & Hb).
  assert (Ew : exists arr', arr = p_r p :: arr').
  { cbn [map] in Em. destruct arr as [|q arr']; [discriminate|]. destruct C as [[(s & Hs & _)|(q0 & Q & _)] _]; [|discriminate].
    unfold rafsi_of in Em. cbn [filter] in Em. assert (3 <= length q) by (eapply cll_len; exists s; exact Hs). destruct (Nat.ltb_spec 2 (length q)); [|lia]. injection Em as Em _. exists arr'. congruence. }
  destruct Ew as (arr' & Ea).
  destruct Hb as [Hb|(Hb & Hi & Hd)].
  - rewrite <- Ec, Ea, Ep. cbn [concat app]. apply on_cv; assumption.
  - rewrite <- Ec. eapply onset_rn; [exact C|intros q Q; discriminate|rewrite Ea, Ep; reflexivity|exact Ha|rewrite Ec; exact Hv|].
    destruct (lujvo_without_rn _ _ _ _ _ _ _ _ _ Y) as (_ & _ & Eu' & _).
    { rewrite <- Em. cbn [map hd]. rewrite Ep. destruct (cvv_like _) eqn:X; [|reflexivity]. apply cvv_like_spec in X as (x & y & z & [X|X] & _ & Hy & _); injection X; intros; subst; clash. }
    rewrite <- Eu', <- Eu, alt_concat by exact Z.
    eapply spell_onset; [exact Hl| |exact Z|].
    + eapply Forall_impl; [|exact F]. intros q Hq. left. exact Hq.
    + rewrite <- alt_concat by exact Z. rewrite Eu. exact Hu.
Qed.

Definition vh (c : char) : bool := is_vowel c || N.eqb c c_h.
Lemma tail_clean : forall rn hy mz q arr x b c t, cut rn hy mz (Some q) arr -> concat arr = x ++ b -> forallb vh x = true ->
  b = c :: t -> is_consonant c = true -> x = [].
Proof.
  intros rn hy mz q arr x b c t C E Hx -> Hc. destruct x as [|f x]; [reflexivity|exfalso]. destruct arr as [|p next]; [discriminate|].
  cbn [forallb] in Hx. apply andb_true_iff in Hx as [Hf Hx]. unfold vh in Hf. apply orb_true_iff in Hf as [Hf|Hf].
  - eapply cut_vowel; [exact C|exact E|exact Hf].
  - apply N.eqb_eq in Hf. subst f. destruct C as [[(s & Hs & _)|(q0 & _ & _ & [->|[(_ & ->)|(_ & _ & [[-> _]|[-> _]])]])] _]; try discriminate.
    + destruct (cll_first mz p) as (a & b & d & u & -> & Ha & _); [exists s; exact Hs|]. cbn [concat app] in E. injection E as -> _. discriminate.
    + cbn [concat app L] in E. injection E as E. destruct x as [|g x]; cbn [app] in E; injection E as E _; subst; [discriminate|].
      cbn [forallb] in Hx. discriminate.
Qed.
Lemma no_initial_rn : forall c d, c = c_r \/ c = c_n -> mems [c; d] INITIAL = false.
Proof.
  intros c d H. destruct (mems [c; d] INITIAL) eqn:E; [|reflexivity]. apply mems_In in E. vm_compute in E.
  destruct H as [-> | ->]; repeat (destruct E as [E|E]; [discriminate|]); destruct E.
Qed.

Theorem lujvo_no_tosmabru : forall yh cs gl mz a b arr correct, cll_lujvo Bound yh cs gl mz (a ++ b) arr false correct -> ends_vowel b ->
  forall c v x, a = c :: v :: x -> is_consonant c = true -> is_vowel v = true -> forallb vh x = true -> onset b -> 4 <= length b -> False.
Proof.
  intros yh cs gl mz a b arr correct Y Hv c v x -> Hc Hvv Hx Ho H4.
  destruct (onset_first _ Ho) as (b1 & b2 & t & Eb & Hb1 & Hb2).
  destruct x as [|e x].
  - cbn [app] in Y. apply cll_lujvo_jvk in Y. exact (onset_not_lujvo_cv _ _ _ _ _ _ _ _ Hc Hvv Ho Hv Y).
  - pose proof (x_concat _ _ _ _ _ _ _ _ _ Y) as Ec. pose proof (x_cut _ _ _ _ _ _ _ _ _ Y) as C.
    destruct arr as [|p next]; [discriminate|]. pose proof C as [[(s & Hs & _)|(q0 & Q & _)] C']; [|discriminate].
    cbn [forallb] in Hx. apply andb_true_iff in Hx as [He Hx].
    assert (K : (s = "CVV"%string \/ s = "CV'V"%string) /\ concat next = b).
    { cbn [app concat] in Ec. inversion Hs; subst; bfacts; cbn [app] in Ec; injection Ec; intros; subst; try clash.
      all: try (unfold vh in He; apply orb_true_iff in He as [He|He]; [clash|apply N.eqb_eq in He; subst; clash]).
      - split; [left; reflexivity|]. match goal with X : concat next = _ |- _ => rewrite (tail_clean _ _ _ _ _ _ _ _ _ C' X Hx eq_refl Hb1) in X; exact X end.
      - split; [right; reflexivity|]. match goal with X : _ :: concat next = _ |- _ => rename X into X0 end.
        destruct x as [|f x]; cbn [app] in X0; [injection X0 as X0 _; subst; clash|]. injection X0 as _ X. cbn [forallb] in Hx. apply andb_true_iff in Hx as [_ Hx].
        rewrite (tail_clean _ _ _ _ _ _ _ _ _ C' X Hx eq_refl Hb1) in X; exact X. }
    destruct K as [Ks Eb']. rewrite Eb in *. clear Ec.
    destruct next as [|p2 next]; [discriminate|].
    pose proof C' as [[(s2 & Hs2 & _)|(q0 & Q & _ & Hh)] C2].
    + (* directly followed by a rafsi *)
      assert (Hp : cll mz p) by (exists s; exact Hs). assert (Hp2 : cll mz p2) by (exists s2; exact Hs2).
      destruct (lujvo_linked _ _ _ _ _ _ _ Y) as (q & rest & Hl & Hr & Hcl & Eu & Ca & Em & F & Z & Hu).
      assert (Ea : exists z, alt q rest = p :: p2 :: z).
      { assert (D : drops [] (alt q rest) (p :: p2 :: next)).
        { pose proof (x_concat _ _ _ _ _ _ _ _ _ Y) as Ec. destruct (yset_eqb yh FORCE_Y) eqn:EF.
          - assert (yh = FORCE_Y) as EF' by (destruct yh; try discriminate; reflexivity).
            replace (alt q rest) with (p :: p2 :: next); [apply drops_refl|]. apply (cut_unique_all (rn_ok yh) true mz); [eapply cut_hy; exact C|exact Ca|].
            rewrite Eu, Ec. symmetry. apply (x_force _ _ _ _ _ _ _ _ _ Y EF').
          - destruct (x_drops _ _ _ _ _ _ _ _ _ Y) as (corr & J & D); [intros ->; discriminate|]. apply jvokaha_2_spec in J as [J1 J2].
            replace (alt q rest) with corr; [exact D|]. apply (cut_unique_all (rn_ok yh) true mz); [eapply cut_hy; exact J2|exact Ca|]. congruence. }
        inversion D as [|u0 p0 co ot D1|u0 q0 o p0 co ot O1 O2 O3 D1 U]; subst; [|destruct u0; discriminate].
        cbn [app] in D1. inversion D1 as [|u0 p0 co' ot D2|u0 q0 o p0 co' ot O1 O2 O3 D2 U]; subst; [eexists; reflexivity|].
        apply cll_len in Hp2. destruct O1 as [-> | ->]; cbn in Hp2; lia. }
      destruct Ea as (z & Ea). destruct rest as [|[g q2] rest]; [congruence|]. destruct Hl as [Hl _].
      assert (Eq : p_r q = p) by (cbn [alt] in Ea; congruence).
      pose proof Ea as Ea'. rewrite <- Eq in Ea'. destruct (alt_step _ _ _ _ _ _ _ _ _ _ _ Hl Hp2 Ea') as (S1 & S2 & _).
      assert (Hg : g = []).
      { cbn [alt] in Ea. injection Ea as _ Ea. unfold gap_of in Ea. rewrite S1, S2, (cll_prefix _ _ _ Hp2), app_nil_r in Ea. cbn [app] in Ea.
        destruct g as [|g0 g]; [reflexivity|exfalso]. cbn [gp app] in Ea. injection Ea as Ea _.
        destruct (l_glued _ _ _ _ _ _ _ Hl) as [? G|? G|? ? ? ? G|? ? ? ? ? G|? ? ? ? ? G]; try discriminate; apply cll_len in Hp2; rewrite <- Ea, G in Hp2; cbn in Hp2; lia. }
      assert (Hcv : true && cvv_like (p_r q) = true).
      { rewrite Eq. cbn [andb]. unfold cvv_like. rewrite (cll_tarmi _ _ _ Hs). destruct Ks as [-> | ->]; reflexivity. }
      destruct (l_glued _ _ _ _ _ _ _ Hl) as [_ _ G|G|? ? ? ? G|? ? ? ? ? G|? ? ? ? ? G]; [|rewrite S1 in G; discriminate|rewrite Hg in G; discriminate..].
      destruct (G S1 Hcv eq_refl) as [N2 T2]. rewrite S2 in T2.
      assert (next = []) as ->.
      { pose proof (x_alt _ _ _ _ _ _ _ _ _ Y) as A. cbn [alternates] in A. rewrite (cll_not_hyphen _ _ Hp), (cll_not_hyphen _ _ Hp2) in A.
        unfold rafsi_of in N2. cbn [filter] in N2. pose proof (cll_len _ _ Hp). pose proof (cll_len _ _ Hp2).
        destruct (Nat.ltb_spec 2 (length p)); [|lia]. destruct (Nat.ltb_spec 2 (length p2)); [|lia]. cbn [length] in N2.
        destruct next as [|h1 next]; [reflexivity|exfalso].
        assert (SH : forall prev l, cut (rn_ok yh) (hy_ok yh) mz prev l -> length (filter (fun x => 2 <? length x) l) = 0 -> alternates false l -> False).
        { intros prev l Cl Fl Al. destruct l as [|h l]; [discriminate|]. destruct Cl as [[(s' & Hs' & _)|(q0 & _ & _ & Hh)] _].
          - assert (cll mz h) as Hh by (exists s'; exact Hs'). apply cll_len in Hh. cbn [filter] in Fl. destruct (Nat.ltb_spec 2 (length h)); [discriminate|lia].
          - cbn [alternates] in Al. assert (is_hyphen h = true) as Hy by (destruct Hh as [->|[(_ & ->)|(_ & _ & [[-> _]|[-> _]])]]; reflexivity). rewrite Hy in Al. destruct Al; discriminate. }
        destruct C2 as [[(s' & Hs' & _)|(q0 & _ & _ & Hh)] C3].
        - assert (cll mz h1) as Hh by (exists s'; exact Hs'). apply cll_len in Hh. cbn [filter] in N2. destruct (Nat.ltb_spec 2 (length h1)); [discriminate|lia].
        - cbn [alternates] in A. assert (is_hyphen h1 = true) as Hy by (destruct Hh as [->|[(_ & ->)|(_ & _ & [[-> _]|[-> _]])]]; reflexivity). rewrite Hy in A. destruct A as [_ A].
          cbn [filter] in N2. destruct (2 <? length h1); [discriminate|]. eapply SH; [exact C3|injection N2 as N2; exact N2|exact A]. }
      cbn [concat] in Eb'. rewrite app_nil_r in Eb'. rewrite <- Eb' in H4. apply tarmi_CCV in T2 as (? & ? & ? & -> & _). clear -H4. cbn in H4. lia.
    + injection Q as <-. cbn [concat] in Eb'. destruct Hh as [->|[(_ & ->)|(_ & _ & [(-> & t' & En)|(-> & d & t' & En & Hd & _)])]]; cbn [app L] in Eb'.
      * injection Eb' as <- _. discriminate.
      * injection Eb' as <- _. discriminate.
      * rewrite En in Eb'. injection Eb' as <- <- _. destruct Hb2 as [Hb2|[Hb2 _]]; [discriminate|]. rewrite no_initial_rn in Hb2 by auto. discriminate.
      * rewrite En in Eb'. injection Eb' as <- <- _. destruct Hb2 as [Hb2|[Hb2 _]]; [apply is_consonant_spec in Hd; clash|]. rewrite no_initial_rn in Hb2 by auto. discriminate.
Qed.
