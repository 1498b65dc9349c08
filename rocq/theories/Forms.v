(** Where the forms of a tanru component come from, and what they look like. *)
From Verif Require Import Str Data Tarmi Rafsi Core Api Lib Spec Shapes Decomp Basic Vowels Katna Dict Errs Builder Jvokaha Fuel Raises Inv Parts Clusters.

(** ** Sources: the rafsi [r], of kind [t], is a rafsi of the component [v] *)
Inductive source (lk : binding) (st : settings) (v : str) : str -> rtype -> Prop :=
| src_short r t ps : last_opt v = Some c_dash -> hd 0%N v <> c_dash -> r = strip_char (N.eqb c_dash) v ->
    is_only_lojban_characters r = true -> last_opt r <> Some c_h ->
    analyse_brivla lk (ana_settings st) (r ++ [c_a]) = Ok (t, ps) -> t = ZIhEVLA \/ t = GISMU ->
    source lk st v r SHORT_BRIVLA
| src_lit_zihevla r ps : last_opt v = Some c_dash -> hd 0%N v = c_dash -> r = strip_char (N.eqb c_dash) v ->
    is_only_lojban_characters r = true -> last_opt r <> Some c_h ->
    rafsi_tarmi r = OTHER_RAFSI ->
    analyse_brivla lk (ana_settings st) r = Ok (ZIhEVLA, ps) ->
    source lk st v r LONG_BRIVLA
| src_lit_exp r : last_opt v = Some c_dash -> hd 0%N v = c_dash -> r = strip_char (N.eqb c_dash) v ->
    is_only_lojban_characters r = true -> last_opt r <> Some c_h ->
    rafsi_tarmi r = OTHER_RAFSI -> exp_rafsi_shapes st = true ->
    check_zihevla_or_rafsi (analyse_brivla lk) (jvk lk) false (y_hyphens st) true (allow_mz st) r = Ok RAFSI ->
    source lk st v r EXPERIMENTAL_RAFSI
| src_lit_rafsi r : last_opt v = Some c_dash -> hd 0%N v = c_dash -> r = strip_char (N.eqb c_dash) v ->
    is_valid_rafsi r (allow_mz st) = true ->
    source lk st v r (Tar (rafsi_tarmi r))
| src_dict r rs : last_opt v <> Some c_dash -> is_only_lojban_characters v = true ->
    In (v, rs) RAFSI_LIST -> In r rs ->
    source lk st v r (Tar (rafsi_tarmi r))
| src_gismu r ps : last_opt v <> Some c_dash -> is_only_lojban_characters v = true ->
    analyse_brivla lk (ana_settings st) v = Ok (GISMU, ps) -> r = dropl 1 v ->
    source lk st v r SHORT_BRIVLA
| src_long t ps : last_opt v <> Some c_dash -> is_only_lojban_characters v = true ->
    analyse_brivla lk (ana_settings st) v = Ok (t, ps) -> t = ZIhEVLA \/ t = GISMU ->
    source lk st v v LONG_BRIVLA.

Lemma short_forms_inv : forall rs exp fi la cs gl forms x, short_rafsi_forms rs exp fi la cs gl = Ok forms ->
  In x forms -> exists r fs, In r rs /\ get_rafsi_for_rafsi r (Tar (rafsi_tarmi r)) fi la cs gl = Ok fs /\ In x fs.
Proof.
  induction rs as [|r rs IH]; intros exp fi la cs gl forms x H Hx; cbn [short_rafsi_forms] in H.
  - injection H as <-. contradiction.
  - cbv zeta in H. inv_bind H. inv_bind H. injection H as <-. apply in_app_or in Hx as [Hx|Hx].
    + destruct (_ && _) in E; [injection E as <-; contradiction|]. exists r, x0. cbn [In]. auto.
    + destruct (IH _ _ _ _ _ _ _ E0 Hx) as (r' & fs & H1 & H2 & H3). exists r', fs. cbn [In]. auto.
Qed.

Lemma forms_source : forall lk st fi la v forms x,
  rafsi_list_for (analyse_brivla lk) (jvk lk) st fi la v = Ok forms -> In x forms ->
  exists r t fs, source lk st v r t /\ get_rafsi_for_rafsi r t fi la (consonants st) (glides st) = Ok fs /\ In x fs.
Proof.
  intros lk st fi la v forms x H Hx. unfold rafsi_list_for in H. cbv zeta in H.
  inv_bind H. rename x0 into lc. unfold idx_last in E. destruct (last_opt v) as [lc'|] eqn:El; [|discriminate]. injection E as ->.
  destruct (N.eqb lc c_dash) eqn:Ed.
  - apply N.eqb_eq in Ed. subst lc. inv_bind H. rename x0 into v0.
    apply idx0_ok in E as [vr Ev]. assert (Hv0 : hd 0%N v = v0) by (rewrite Ev; reflexivity). clear Ev.
    set (r := strip_char (N.eqb c_dash) v) in *.
    destruct (is_only_lojban_characters r) eqn:Eo; [|discriminate]. cbn [negb] in H.
    inv_bind H. rename x0 into l. unfold idx_last in E. destruct (last_opt r) as [l'|] eqn:Elr; [|discriminate]. injection E as ->.
    destruct (N.eqb l c_h) eqn:Elh; [discriminate|]. apply N.eqb_neq in Elh.
    assert (Hlr : last_opt r <> Some c_h) by congruence.
    destruct (N.eqb v0 c_dash) eqn:Ev0; cbn [negb] in H.
    + apply N.eqb_eq in Ev0. rewrite Ev0 in Hv0. clear Ev0.
      destruct (tarmi_eqb (rafsi_tarmi r) OTHER_RAFSI) eqn:Et.
      * apply tarmi_eqb_eq in Et. inv_bind H. rename x0 into zr.
        destruct zr as [t|]; [|discriminate].
        destruct (analyse_brivla lk (ana_settings st) r) as [[t' ps]|e] eqn:Ea.
        -- injection E as E. destruct (wtype_eqb t' ZIhEVLA) eqn:Ez; [|discriminate]. injection E as <-.
           assert (t' = ZIhEVLA) by (destruct t'; try discriminate; reflexivity). subst t'.
           exists r, LONG_BRIVLA, forms. split; [|split; [exact H|exact Hx]]. eapply src_lit_zihevla; eauto.
        -- destruct e; try discriminate. destruct (exp_rafsi_shapes st) eqn:Ex; [|discriminate].
           destruct (check_zihevla_or_rafsi _ _ _ _ _ _ _) as [t'|e'] eqn:Ec; [|destruct e'; discriminate].
           injection E as E. destruct (wtype_eqb t' RAFSI) eqn:Ez; [|discriminate]. injection E as <-.
           assert (t' = RAFSI) by (destruct t'; try discriminate; reflexivity). subst t'.
           exists r, EXPERIMENTAL_RAFSI, forms. split; [|split; [exact H|exact Hx]]. eapply src_lit_exp; eauto.
      * destruct (is_valid_rafsi r (allow_mz st)) eqn:Ev; [|discriminate]. cbn [negb] in H.
        exists r, (Tar (rafsi_tarmi r)), forms. split; [|split; [exact H|exact Hx]]. apply src_lit_rafsi; auto.
    + apply N.eqb_neq in Ev0. inv_bind H. rename x0 into bt.
      destruct (negb _) eqn:Eb in H; [discriminate|]. inv_bind H.
      destruct (analyse_brivla _ _ _) as [[t ps]|e] eqn:Ea; [|destruct e; discriminate]. injection E as <-.
      exists r, SHORT_BRIVLA, forms. split; [|split; [exact H|exact Hx]].
      eapply src_short; eauto. { congruence. }
      destruct t; try discriminate; auto.
  - destruct (is_only_lojban_characters v) eqn:Eo; [|discriminate]. cbn [negb] in H.
    assert (Hld : last_opt v <> Some c_dash) by (rewrite El; intro G; injection G as ->; discriminate).
    inv_bind H. rename x0 into short. inv_bind H. rename x0 into bt. inv_bind H. rename x0 into s. inv_bind H. rename x0 into g.
    injection H as <-.
    apply in_app_or in Hx as [Hx|Hx]; [|apply in_app_or in Hx as [Hx|Hx]].
    + destruct (dict_get v) as [rs|] eqn:Edg; [|injection E as <-; contradiction].
      apply dict_get_spec in Edg.
      destruct (short_forms_inv _ _ _ _ _ _ _ _ E Hx) as (r & fs & H1 & H2 & H3).
      exists r, (Tar (rafsi_tarmi r)), fs. split; [|auto]. eapply src_dict; eauto.
    + destruct (analyse_brivla lk (ana_settings st) v) as [[t ps]|e] eqn:Ea.
      * injection E0 as <-. destruct t; try (injection E1 as <-; contradiction).
        exists (dropl 1 v), SHORT_BRIVLA, s. split; [|auto]. eapply src_gismu; eauto.
      * destruct e; try discriminate. injection E0 as <-. injection E1 as <-. contradiction.
    + destruct (analyse_brivla lk (ana_settings st) v) as [[t ps]|e] eqn:Ea.
      * injection E0 as <-.
        assert (Ht : t = ZIhEVLA \/ t = GISMU) by (destruct t; try (injection E2 as <-; contradiction); auto).
        exists v, LONG_BRIVLA, g. split; [eapply src_long; eauto|]. split; [destruct Ht as [-> | ->]; exact E2|exact Hx].
      * destruct e; try discriminate. injection E0 as <-. injection E2 as <-. contradiction.
Qed.

(** ** The forms of a rafsi *)
(** [suffixed fi la t suf]: the letters that may be added after a rafsi of kind
    [t]; [fi], [la]: it is the first, the last of the tanru. *)
Inductive suffixed (fi la : bool) : rtype -> str -> Prop :=
| suf_short_y t : la = false -> t = SHORT_BRIVLA \/ t = Tar CCVC \/ t = Tar CVCC -> suffixed fi la t [c_y]
| suf_short t : la = true -> t = SHORT_BRIVLA \/ t = Tar CCVC \/ t = Tar CVCC -> suffixed fi la t []
| suf_long t : la = true -> t = LONG_BRIVLA \/ t = Tar CCVCV \/ t = Tar CVCCV -> suffixed fi la t []
| suf_long_hy t : la = false -> t = LONG_BRIVLA \/ t = Tar CCVCV \/ t = Tar CVCCV -> suffixed fi la t [c_h; c_y]
| suf_exp : la = true -> suffixed fi la EXPERIMENTAL_RAFSI []
| suf_exp_hy : la = false -> fi = false -> suffixed fi la EXPERIMENTAL_RAFSI [c_h; c_y]
| suf_exp_h : la = false -> fi = true -> suffixed fi la EXPERIMENTAL_RAFSI [c_h]
| suf_cvv t : t = Tar CVV \/ t = Tar CVhV -> suffixed fi la t []
| suf_cvv_h t : fi = true -> t = Tar CVV \/ t = Tar CVhV -> suffixed fi la t [c_h]
| suf_cvv_hy t : fi = false -> la = false -> t = Tar CVV \/ t = Tar CVhV -> suffixed fi la t [c_h; c_y]
| suf_ccv : suffixed fi la (Tar CCV) []
| suf_ccv_hy : suffixed fi la (Tar CCV) [c_h; c_y]
| suf_cvc : suffixed fi la (Tar CVC) []
| suf_cvc_y : la = false -> suffixed fi la (Tar CVC) [c_y].

(** an apostrophe is put before a rafsi that is not first and starts with a vowel *)
Definition prefix_of (fi : bool) (r : str) : str :=
  if fi then [] else if is_vowel (hd 0%N r) && negb (is_glide r) then [c_h] else [].

(** the number of consonants the builder credits to a form *)
Definition credit (cs : cset) (gl : bool) (t : rtype) (f : str) : nat :=
  match t with
  | EXPERIMENTAL_RAFSI =>
      if cset_eqb cs CLUSTER then 0 else if is_consonant (hd 0%N f) || (gl && is_glide f) then 1 else 0
  | Tar CVV | Tar CVhV => if cset_eqb cs CLUSTER then 0 else 1
  | _ => 2
  end.

Lemma is_glide_suf : forall r suf, (forall c s, suf = c :: s -> is_vowel c = false) -> is_glide (r ++ suf) = is_glide r.
Proof.
  intros [|a [|b r]] suf H; [|destruct suf as [|c s]; [reflexivity|]|reflexivity].
  - destruct suf as [|c [|d s]]; [reflexivity|reflexivity|]. cbn.
    pose proof (H c (d :: s) eq_refl) as Hc. 
    destruct (N.eqb c c_i) eqn:E1; [apply N.eqb_eq in E1; subst; discriminate|].
    destruct (N.eqb c c_u) eqn:E2; [apply N.eqb_eq in E2; subst; discriminate|]. reflexivity.
  - cbn [app is_glide]. rewrite (H c s eq_refl). apply andb_false_r.
Qed.

Ltac pickf Hin := cbn [In app] in Hin; repeat (destruct Hin as [Hin|Hin]); try contradiction; injection Hin as <- <-.

Lemma forms_shape : forall r t fi la cs gl fs f n, r <> [] ->
  get_rafsi_for_rafsi r t fi la cs gl = Ok fs -> In (f, n) fs ->
  exists suf, f = prefix_of fi r ++ r ++ suf /\ suffixed fi la t suf /\ n = credit cs gl t f.
Proof.
  intros r t fi la cs gl fs f n Hr H Hin. unfold get_rafsi_for_rafsi in H. inv_bind H. rename x into r'.
  assert (Er : r' = prefix_of fi r ++ r).
  { unfold prefix_of. destruct fi; [injection E as <-; reflexivity|]. inv_bind E. apply idx0_ok in E0 as [s ->]. cbn [hd].
    destruct (is_vowel x && negb (is_glide (x :: s))); injection E as <-; reflexivity. }
  assert (Er' : hd 0%N r' = hd 0%N (prefix_of fi r ++ r) /\ r' <> []).
  { split; [congruence|]. rewrite Er. destruct (prefix_of fi r), r; cbn; congruence. }
  destruct Er' as [_ Hne].
  assert (K : forall suf, f = r' ++ suf -> suffixed fi la t suf -> n = credit cs gl t f ->
     exists suf, f = prefix_of fi r ++ r ++ suf /\ suffixed fi la t suf /\ n = credit cs gl t f).
  { intros suf -> Hs Hn. exists suf. rewrite Er, <- app_assoc in *. auto. }
  assert (Knil : forall suf, f = r' -> suf = [] -> suffixed fi la t suf -> n = credit cs gl t f ->
     exists suf, f = prefix_of fi r ++ r ++ suf /\ suffixed fi la t suf /\ n = credit cs gl t f).
  { intros suf -> -> Hs Hn. apply (K []); [symmetry; apply app_nil_r|exact Hs|exact Hn]. }
  clear Er. destruct t as [| | |[]]; try discriminate.
  all: try (destruct la; cbn [negb] in H;
       [inv_bind H; destruct (negb _) in H; injection H as <-|injection H as <-];
       pickf Hin;
       [eapply Knil; [reflexivity|reflexivity|apply suf_short; auto|reflexivity]
       |eapply K; [reflexivity|apply suf_short_y; auto|reflexivity]]; fail).
  all: try (destruct la; injection H as <-; pickf Hin;
       [eapply Knil; [reflexivity|reflexivity|apply suf_long; auto|reflexivity]
       |eapply K; [reflexivity|apply suf_long_hy; auto|reflexivity]]; fail).
  - inv_bind H. rename x into num.
    assert (Hnum : forall suf, (forall c s, suf = c :: s -> is_vowel c = false) -> num = credit cs gl EXPERIMENTAL_RAFSI (r' ++ suf)).
    { intros suf Hs. cbn [credit]. destruct (cset_eqb cs CLUSTER); [congruence|]. inv_bind E0. apply idx0_ok in E1 as [s Es].
      injection E0 as <-. rewrite is_glide_suf by exact Hs. rewrite Es. reflexivity. }
    destruct la; cbn [negb] in H; [|destruct fi; cbn [negb] in H]; injection H as <-; pickf Hin.
    + eapply Knil; [reflexivity|reflexivity|apply suf_exp; auto|]. rewrite <- (app_nil_r r'). apply Hnum. intros; discriminate.
    + eapply K; [reflexivity|apply suf_exp_h; auto|]. apply Hnum. intros c s G. injection G as <- _. reflexivity.
    + eapply K; [reflexivity|apply suf_exp_hy; auto|]. apply Hnum. intros c s G. injection G as <- _. reflexivity.
  - destruct la; cbn [negb] in H; injection H as <-; pickf Hin.
    + eapply Knil; [reflexivity|reflexivity|apply suf_cvc; auto|reflexivity].
    + eapply Knil; [reflexivity|reflexivity|apply suf_cvc; auto|reflexivity].
    + eapply K; [reflexivity|apply suf_cvc_y; auto|reflexivity].
  - destruct fi; cbn [negb] in H; [|destruct la; cbn [negb] in H]; injection H as <-; pickf Hin;
      first [eapply Knil; [reflexivity|reflexivity|apply suf_cvv; auto|reflexivity]
            |eapply K; [reflexivity|apply suf_cvv_h; auto|reflexivity]
            |eapply K; [reflexivity|apply suf_cvv_hy; auto|reflexivity]].
  - injection H as <-; pickf Hin.
    + eapply Knil; [reflexivity|reflexivity|apply suf_ccv; auto|reflexivity].
    + eapply K; [reflexivity|apply suf_ccv_hy; auto|reflexivity].
  - destruct fi; cbn [negb] in H; [|destruct la; cbn [negb] in H]; injection H as <-; pickf Hin;
      first [eapply Knil; [reflexivity|reflexivity|apply suf_cvv; auto|reflexivity]
            |eapply K; [reflexivity|apply suf_cvv_h; auto|reflexivity]
            |eapply K; [reflexivity|apply suf_cvv_hy; auto|reflexivity]].
Qed.

(** ** Sources are well formed *)
Lemma lojban_letter_facts : forall c, is_lojban_letter c = true ->
  N.eqb c c_y = false /\ N.eqb c 46%N = false /\ N.eqb c 104%N = false /\ N.eqb c 44%N = false /\ lower_char c = [c]
  /\ N.eqb c c_dash = false.
Proof.
  intros c H. unfold is_lojban_letter in H. apply orb_true_iff in H as [H|H]; [apply orb_true_iff in H as [H|H]|].
  1,2: apply memc_In in H; cbn in H; decompose [or] H; subst; try contradiction; repeat split; reflexivity.
  apply N.eqb_eq in H. subst. repeat split; reflexivity.
Qed.

Lemma lojban_spelling : forall s, Forall (fun c => is_lojban_letter c = true) s -> standard_spelling s = s.
Proof.
  intros s H. unfold standard_spelling.
  assert (E : match s with c :: r => if N.eqb c 46%N then r else s | [] => [] end = s).
  { destruct H as [|c s Hc Hs]; [reflexivity|]. apply lojban_letter_facts in Hc. destruct Hc as (_ & -> & _). reflexivity. }
  rewrite E. clear E. induction H as [|c s Hc Hs IH]; [reflexivity|].
  apply lojban_letter_facts in Hc as (H1 & H2 & H3 & H4 & H5 & _). unfold lower in *. cbn [flat_map].
  rewrite H5. cbn [app map]. rewrite H3. cbn [filter]. rewrite H4. cbn [negb]. f_equal. exact IH.
Qed.

Lemma only_Forall : forall s, is_only_lojban_characters s = true -> s <> [] /\ Forall (fun c => is_lojban_letter c = true) s.
Proof.
  intros s H. unfold is_only_lojban_characters in H. destruct s as [|c s]; [discriminate|]. split; [discriminate|].
  apply Forall_forall. intros x Hx. rewrite forallb_forall in H. auto.
Qed.

Lemma accepted_first : forall lk st w t ps, analyse_brivla lk st w = Ok (t, ps) ->
  exists c s, standard_spelling w = c :: s /\ is_vowel c || is_consonant c = true.
Proof.
  intros lk st w t ps H. apply analyse_inv in H. set (v := standard_spelling w) in *. clearbody v.
  destruct H.
  - apply is_gismu_spec in H as [(a & b & c & d & e & -> & H1 & H2 & H3 & H4)|(a & b & c & d & e & -> & H1 & H2 & H3 & H4)]; bfacts; do 2 eexists; split; try reflexivity;
      apply orb_true_iff; right; assumption.
  - assert (E : jvokaha_2 (y_hyphens st) (allow_mz st) v = Ok ps) by (eapply jvokaha_pieces; exact H3).
    apply jvokaha_2_sound in E as [<- E].
    assert (Hne : ps <> []) by (intros ->; discriminate).
    destruct (cut_first _ _ _ _ E Hne) as (p & rest & -> & _ & a & b & c & t & -> & Ha).
    exists a, ((b :: c :: t) ++ concat rest). split; [reflexivity|]. rewrite Ha. apply orb_true_r.
  - match goal with G : idx v 0 = Ok c |- _ => apply idx0_ok in G as [r ->] end. exists c, r. auto.
  - match goal with G : idx v 0 = Ok c |- _ => apply idx0_ok in G as [r ->] end. exists c, r. auto.
Qed.
Lemma accepted_last : forall lk st w t ps, analyse_brivla lk st w = Ok (t, ps) ->
  exists s c, standard_spelling w = s ++ [c] /\ is_vowel c || is_consonant c = true.
Proof.
  intros lk st w t ps H. apply analyse_type in H as [[_ (u & c & E & Hc)]|[_ (u & c & E & Hc)]].
  - exists u, c. split; [exact E|]. apply is_consonant_spec in Hc. rewrite Hc. apply orb_true_r.
  - exists u, c. split; [exact E|]. apply is_vowel_spec in Hc. rewrite Hc. reflexivity.
Qed.

(** two consonants in a row *)
Definition cluster (s : str) : Prop := exists a b, contains s [a; b] /\ is_consonant a = true /\ is_consonant b = true.

Lemma cluster_app_r : forall a s, cluster s -> cluster (a ++ s).
Proof. intros a s (x & y & (u & v & ->) & H1 & H2). exists x, y. split; [exists (a ++ u), v; rewrite <- !app_assoc; reflexivity|auto]. Qed.
Lemma cluster_snoc : forall s c, is_consonant c = false -> cluster (s ++ [c]) -> cluster s.
Proof.
  intros s c Hc (x & y & H & H1 & H2). apply contains_app2 in H as [H|[H|(a' & b' & _ & E)]].
  - exists x, y. auto.
  - destruct H as (u & v & H). destruct u as [|? u]; [discriminate|]. injection H as _ H. destruct u; discriminate.
  - injection E as -> _. congruence.
Qed.

Lemma zloop_cluster : forall mz fuel copy s z z' p, zloop fuel mz copy s z = Ok z' -> z_cluster z = None ->
  z_cluster z' = Some p -> cluster s.
Proof.
  induction fuel as [|f IH]; intros copy s z z' p H Hn Hs.
  { destruct s; [injection H as <-; congruence|discriminate]. }
  destruct s as [|v0 vr]; [injection H as <-; congruence|]. cbn [zloop] in H. set (s := v0 :: vr) in *.
  destruct (is_consonant v0) eqn:Ec.
  - cbv zeta in H. dif H; [discriminate|]. dif H; [discriminate|]. dif H; [discriminate|]. dif H; [discriminate|].
    dif H; [discriminate|]. rewrite Hn, andb_true_r in H.
    destruct (2 <=? length (take_while is_consonant s)) eqn:E2.
    + apply Nat.leb_le in E2. unfold s in E2. cbn [take_while] in E2. rewrite Ec in E2.
      destruct vr as [|v1 vr]; [cbn in E2; lia|]. cbn [take_while] in E2. destruct (is_consonant v1) eqn:E1; [|cbn in E2; lia].
      exists v0, v1. split; [exists [], vr; reflexivity|auto].
    + rewrite <- (take_drop_while is_consonant s). apply cluster_app_r. eapply IH; [exact H|reflexivity|exact Hs].
  - destruct (is_vowel v0) eqn:Ev.
    + cbv zeta in H. destruct (split_vowel_cluster _) as [syl|e]; [|destruct e; discriminate].
      inv_bind H. dif H; [discriminate|]. dif H; [discriminate|].
      rewrite <- (take_drop_while is_vowel s). apply cluster_app_r. eapply IH; [exact H|exact Hn|exact Hs].
    + destruct (N.eqb v0 c_h) eqn:Eh; [|discriminate].
      dif H; [discriminate|]. dif H; [discriminate|]. apply (cluster_app_r [v0]). eapply IH; [exact H|exact Hn|exact Hs].
Qed.

Lemma zihevla_cluster : forall ana jvk req yh ex mz v t, check_zihevla_or_rafsi ana jvk req yh ex mz v = Ok t ->
  req = true \/ t = ZIhEVLA -> cluster v.
Proof.
  intros ana jvk req yh ex mz v t H Hr. unfold check_zihevla_or_rafsi in H. dif H; [discriminate|]. inv_bind H. inv_bind H.
  destruct (z_cluster x) as [p|] eqn:Ez; [eapply zloop_cluster; [exact E|reflexivity|exact Ez]|].
  destruct req; [discriminate|]. inv_bind H. destruct Hr as [Hr|Hr]; [discriminate|]. subst t.
  dif H; [discriminate|]. dif H; [discriminate|]. dif H; discriminate.
Qed.

Lemma accepted_cluster : forall lk st w t ps, analyse_brivla lk st w = Ok (t, ps) -> t = ZIhEVLA \/ t = GISMU ->
  cluster (standard_spelling w).
Proof.
  intros lk st w t ps H Ht. apply analyse_inv in H. set (v := standard_spelling w) in *. clearbody v.
  destruct H.
  - apply is_gismu_spec in H as [(a & b & c & d & e & -> & H1 & H2 & H3 & H4)|(a & b & c & d & e & -> & H1 & H2 & H3 & H4)]; bfacts.
    + exists c, d. split; [exists [a; b], [e]; reflexivity|auto].
    + exists a, b. split; [exists [], [c; d; e]; reflexivity|auto].
  - destruct (is_consonant l); destruct Ht; discriminate.
  - eapply zihevla_cluster; [eassumption|auto].
  - subst t. destruct (is_consonant l); destruct Ht; discriminate.
Qed.

Lemma dict_valid : forall mz w rs r, In (w, rs) RAFSI_LIST -> In r rs -> is_valid_rafsi r mz = true.
Proof.
  assert (G : forallb (fun wr : str * list str => forallb (fun r => is_valid_rafsi r true && is_valid_rafsi r false) (snd wr)) RAFSI_LIST = true)
    by (vm_compute; reflexivity).
  intros mz w rs r H Hr. rewrite forallb_forall in G. apply G in H. cbn [snd] in H. rewrite forallb_forall in H.
  apply H in Hr. apply andb_t in Hr as [H1 H2]. destruct mz; assumption.
Qed.

(** A rafsi that can be used to build: *)
Record usable (mz : bool) (r : str) (t : rtype) : Prop := {
  u_first : exists c s, r = c :: s /\ is_vowel c || is_consonant c = true;
  u_last : exists s c, r = s ++ [c] /\ is_vowel c || is_consonant c = true;
  u_noy : ~ In c_y r;
  u_good : good mz r;
  u_starts : starts_ok r;
  u_cluster : t = SHORT_BRIVLA \/ t = LONG_BRIVLA -> cluster r;
  u_tarmi : forall x, t = Tar x -> rafsi_tarmi r = x /\ is_valid_rafsi r mz = true;
  u_exp : t = EXPERIMENTAL_RAFSI -> rafsi_tarmi r = OTHER_RAFSI
}.

Lemma lojban_noy : forall s, Forall (fun c => is_lojban_letter c = true) s -> ~ In c_y s.
Proof. intros s H G. rewrite Forall_forall in H. apply H in G. discriminate. Qed.

Lemma valid_usable : forall mz r, is_valid_rafsi r mz = true -> usable mz r (Tar (rafsi_tarmi r)).
Proof.
  intros mz r H. assert (Hp := valid_proper _ _ H).
  assert (D : rafsi_tarmi r = CVV \/ cll mz r).
  { destruct (rafsi_tarmi r) eqn:E; [..]; try (right; apply valid_cll; [exact H|rewrite E; discriminate]). left; reflexivity. }
  assert (NC : forall a b, is_vowel a = true -> is_consonant b = true -> a = b -> False)
    by (intros a b Ha Hb ->; rewrite (v_f0 _ Ha) in Hb; discriminate).
  destruct D as [D|[s D]].
  - apply tarmi_CVV in D as Hd. destruct Hd as (a & b & c & -> & Ha & Hb & Hc). split.
    + exists a, [b; c]. rewrite Ha. split; [reflexivity|apply orb_true_r].
    + exists [a; b], c. rewrite Hc. auto.
    + cbn. intros [->|[->|[->|[]]]]; discriminate.
    + split; [repeat (apply Forall_cons; [first [apply letter_c, is_consonant_spec; assumption|apply letter_v, is_vowel_spec; assumption]|]); apply Forall_nil|].
      apply (clusters_app_nc mz [a] [b; c]).
      * apply clusters_one.
      * apply clusters_cons_nc; [apply v_f0, Hb|apply clusters_one].
      * intros x y E. injection E as <- _. apply v_f0, Hb.
    + intros x y u E _ Hy. injection E as _ <- _. apply is_consonant_spec in Hy. rewrite (v_f0 _ Hb) in Hy. discriminate.
    + intros [G|G]; discriminate.
    + intros x E. injection E as <-. auto.
    + discriminate.
  - split.
    + inversion D; subst; bfacts; do 2 eexists; (split; [reflexivity|]); use_facts; first [reflexivity|apply orb_true_r].
    + inversion D; subst; bfacts.
      * exists [c1; v], c2; use_facts; auto.
      * exists [c; v1], v2; use_facts; auto.
      * exists [c; v1; apostrophe], v2; use_facts; auto.
      * exists [c1; c2], v; use_facts; auto.
      * exists [c1; v; c2], c3; use_facts; auto.
      * exists [c1; c2; v], c3; use_facts; auto.
      * exists [c1; v; c2; c3], v'; use_facts; auto.
      * exists [c1; c2; v; c3], v'; use_facts; auto.
    + apply cll_valid in D as V.
      assert (Q : Forall (fun c => N.eqb c c_y = false) r).
      { inversion D; subst; bfacts; repeat (apply Forall_cons; [use_facts; reflexivity|]); apply Forall_nil. }
      intro G. rewrite Forall_forall in Q. apply Q in G. discriminate.
    + eapply good_rafsi. exact D.
    + assert (C : cut true true mz None [r] -> starts_ok r) by (intro C; apply cut_starts in C; cbn in C; rewrite app_nil_r in C; exact C).
      apply C. split; [|exact I]. left. exists s. split; [exact D|].
      inversion D; subst; try exact I; try reflexivity; try (left; reflexivity).
      * intros ? ? ? _. split; intros; discriminate.
      * intros _ t E. discriminate.
    + intros [G|G]; discriminate.
    + intros x E. injection E as <-. auto.
    + discriminate.
Qed.

Lemma source_usable : forall lk st v r t, source lk st v r t -> usable (allow_mz st) r t.
Proof.
  intros lk st v r t H.
  assert (ex_last : forall r, r <> [] -> Forall (fun c => is_lojban_letter c = true) r -> last_opt r <> Some c_h ->
            exists s c, r = s ++ [c] /\ is_vowel c || is_consonant c = true).
  { intros r0 Hn Hf Hl. destruct (last_opt r0) as [c|] eqn:El; [|apply last_opt_none in El; contradiction].
    apply last_opt_some in El as [s ->]. exists s, c. split; [reflexivity|]. apply Forall_app in Hf as [_ Hf].
    inversion Hf as [|? ? Hc _]; subst. unfold is_lojban_letter in Hc. apply orb_true_iff in Hc as [Hc|Hc]; [exact Hc|].
    apply N.eqb_eq in Hc. congruence. }
  destruct H as [r t ps Hl Hf Er Ho Hr Ha Ht|r ps Hl Hf Er Ho Hr Hta Ha|r Hl Hf Er Ho Hr Hta Hex Hz|r Hl Hf Er Hv|r rs Hl Ho Hd Hr|r ps Hl Ho Ha Er|t ps Hl Ho Ha Ht].
  - clear Er. destruct (only_Forall _ Ho) as [Hn HF].
    assert (Es : standard_spelling (r ++ [c_a]) = r ++ [c_a]) by (apply lojban_spelling, Forall_app; split; [exact HF|constructor; [reflexivity|constructor]]).
    pose proof (accepted_good _ _ _ _ _ Ha) as [G1 G2]. pose proof (accepted_cluster _ _ _ _ _ Ha Ht) as G3.
    pose proof (accepted_first _ _ _ _ _ Ha) as (c & s & G4 & G5). rewrite Es in *. cbn [allow_mz ana_settings] in G1.
    split.
    + destruct r as [|c' r']; [congruence|]. cbn in G4. injection G4 as -> _. exists c, r'. auto.
    + apply ex_last; assumption.
    + apply lojban_noy; assumption.
    + eapply good_app_l; exact G1.
    + eapply starts_app_l; exact G2.
    + intros _. eapply cluster_snoc; [|exact G3]. reflexivity.
    + intros x E; discriminate.
    + discriminate.
  - clear Er. destruct (only_Forall _ Ho) as [Hn HF]. assert (Es := lojban_spelling _ HF).
    pose proof (accepted_good _ _ _ _ _ Ha) as [G1 G2]. pose proof (accepted_cluster _ _ _ _ _ Ha (or_introl eq_refl)) as G3.
    pose proof (accepted_first _ _ _ _ _ Ha) as G4. pose proof (accepted_last _ _ _ _ _ Ha) as G5. rewrite Es in *. cbn [allow_mz ana_settings] in G1.
    split; auto; try discriminate.
    apply lojban_noy; assumption.
  - clear Er. destruct (only_Forall _ Ho) as [Hn HF]. destruct (zihevla_good _ _ _ _ _ _ _ _ Hz) as [Z1 Z2].
    split; auto; try discriminate.
    + unfold check_zihevla_or_rafsi in Hz. cbn [andb] in Hz. inv_bind Hz. destruct r as [|c r]; [congruence|]. exists c, r.
      split; [reflexivity|]. cbn [length zloop] in E.
      destruct (is_consonant c); [apply orb_true_r|]. destruct (is_vowel c); [reflexivity|].
      destruct (N.eqb c c_h); [|discriminate]. cbn in E. discriminate.
    + apply lojban_noy; assumption.
    + intros [G|G]; discriminate.
  - apply valid_usable. exact Hv.
  - apply valid_usable. eapply dict_valid; eassumption.
  - destruct (only_Forall _ Ho) as [Hn HF]. assert (Es := lojban_spelling _ HF).
    pose proof (accepted_good _ _ _ _ _ Ha) as [G1 G2]. pose proof (accepted_cluster _ _ _ _ _ Ha (or_intror eq_refl)) as G3.
    pose proof (analyse_inv _ _ _ _ _ Ha) as Hi. rewrite Es in *. cbn [allow_mz ana_settings] in G1.
    assert (Hg : is_gismu v (allow_mz st) = true).
    { inversion Hi; subst; try assumption; match goal with G : _ = GISMU |- _ => destruct (is_consonant _); discriminate G
                  | G : GISMU = _ |- _ => destruct (is_consonant _); discriminate G end. }
    destruct (gismu_len _ _ Hg) as (a & b & c & d & e & -> & He). cbn in Er. subst r.
    change [a; b; c; d; e] with ([a; b; c; d] ++ [e]) in G1, G2, G3.
    assert (Hd : is_consonant d = true /\ is_consonant a = true).
    { apply is_gismu_spec in Hg as [(a' & b' & c' & d' & e' & Q & H1 & H2 & H3 & H4)|(a' & b' & c' & d' & e' & Q & H1 & H2 & H3 & H4)];
        injection Q as -> -> -> -> ->; bfacts; auto. }
    destruct Hd as [Hd Hc]. split; try discriminate.
    + exists a, [b; c; d]. rewrite Hc. split; [reflexivity|apply orb_true_r].
    + exists [a; b; c], d. rewrite Hd. split; [reflexivity|apply orb_true_r].
    + apply lojban_noy. change [a; b; c; d; e] with ([a; b; c; d] ++ [e]) in HF. apply Forall_app in HF. apply HF.
    + eapply good_app_l; exact G1.
    + eapply starts_app_l; exact G2.
    + intros _. eapply cluster_snoc; [|exact G3]. apply v_f0, He.
  - destruct (only_Forall _ Ho) as [Hn HF]. assert (Es := lojban_spelling _ HF).
    pose proof (accepted_good _ _ _ _ _ Ha) as [G1 G2]. pose proof (accepted_cluster _ _ _ _ _ Ha Ht) as G3.
    pose proof (accepted_first _ _ _ _ _ Ha) as G4. pose proof (accepted_last _ _ _ _ _ Ha) as G5. rewrite Es in *. cbn [allow_mz ana_settings] in G1.
    split; auto; try discriminate.
    apply lojban_noy; assumption.
Qed.
