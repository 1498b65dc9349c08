(** Words built with zi'evla components: each part is read as the builder
    meant it. *)
From Verif Require Tosm Props10.
From Verif Require Import Str Data Tarmi Rafsi Core Api Lib Spec Shapes Decomp Basic Vowels Katna Dict Errs Builder Jvokaha Fuel Raises Inv Parts Clusters Zihevla Forms Chain Score Alt Lujvo Slinku Optimal Props1 Props2 Props3 Total Onset Pinned Found Props4 Props5 Props8 Props9 Joint Swap Unique Round Ext Ext2.

(** ** The test made on a part with an a after it *)
Lemma cut_last : forall rn hy mz ps prev s l, cut rn hy mz prev ps -> concat ps = s ++ [l] -> is_vowel l = true ->
  exists a p, ps = a ++ [p] /\ cll mz p.
Proof.
  induction ps as [|p ps IH]; intros prev s l C E Hl; [destruct s; discriminate|]. destruct C as [C C'].
  destruct ps as [|q ps].
  - exists [], p. split; [reflexivity|]. destruct C as [(sh & Hs & _)|(q & _ & _ & D)]; [exists sh; exact Hs|]. exfalso. cbn [concat] in E. rewrite app_nil_r in E.
    destruct D as [->|[[_ ->]|(_ & _ & [[-> _]|[-> _]])]]; [destruct s as [|x [|]]|destruct s as [|x [|y [|]]]|destruct s as [|x [|]]|destruct s as [|x [|]]]; try discriminate; injection E as; subst; discriminate.
  - cbn [concat] in E. assert (Ne : concat (q :: ps) <> []).
    { destruct C' as [[(sh & Hs & _)|(q' & _ & _ & D)] _]; intro X; cbn [concat] in X; apply app_eq_nil in X as [X _]; [|destruct D as [D|[[_ D]|(_ & _ & [[D _]|[D _]])]]; rewrite D in X; discriminate].
      destruct (cll_first mz q) as (a & b & c & t & Eq & _); [exists sh; exact Hs|]. rewrite Eq in X. discriminate. }
    destruct (exists_last Ne) as (x & y & Exy). pose proof E as E2. cbn [concat] in Exy. rewrite Exy, app_assoc in E2. apply app_inj_tail in E2 as [_ ->].
    destruct (IH (Some p) x l C' Exy Hl) as (a & r & -> & Hr). exists (p :: a), r. split; [reflexivity|exact Hr].
Qed.
Lemma lastn_snoc : forall (x y : str) n, length y = n -> lastn n (x ++ y) = y.
Proof. intros x y n <-. apply lastn_app. reflexivity. Qed.
Lemma cll_gismu : forall mz r, cll mz r -> rafsi_tarmi r = CVCCV \/ rafsi_tarmi r = CCVCV -> is_gismu r mz = true.
Proof.
  intros mz r (s & H) T. rewrite (cll_tarmi _ _ _ H) in T. apply is_gismu_spec. inversion H; subst; destruct T as [T|T]; try discriminate.
  - left. do 5 eexists. split; [reflexivity|auto].
  - right. do 5 eexists. split; [reflexivity|auto].
Qed.
Lemma diphthong_a : forall v1 v2, diphthong [v1; v2] -> v2 <> c_a.
Proof. intros v1 v2 H ->. unfold diphthong in H. cbn in H. repeat (destruct H as [H|H]; [discriminate|]). exact H. Qed.
Lemma lujvo_tail : forall lk st w ps u x y, analyse_brivla lk st w = Ok (LUJVO, ps) -> Forall (fun c => is_lojban_letter c = true) w ->
  w = u ++ [x; y] -> is_vowel y = true ->
  is_gismu (lastn 5 w) (allow_mz st) = true \/ (is_vowel x = true /\ y <> c_a) \/ x = c_h
  \/ (is_consonant x = true /\ exists u' z, u = u' ++ [z] /\ is_consonant z = true).
Proof.
  intros lk st w ps u x y H F E Hy. apply Props10.lujvo_inv in H as (correct & X & _). rewrite (lojban_spelling _ F) in X.
  pose proof (x_concat _ _ _ _ _ _ _ _ _ X) as Ec. pose proof (x_cut _ _ _ _ _ _ _ _ _ X) as C.
  assert (E' : concat ps = (u ++ [x]) ++ [y]) by (rewrite Ec, E, <- app_assoc; reflexivity).
  destruct (cut_last _ _ _ _ _ _ _ C E' Hy) as (a & p & -> & (s & Hs)). rewrite concat_app in Ec. cbn [concat] in Ec. rewrite app_nil_r in Ec.
  assert (K : forall pre x' y', p = pre ++ [x'; y'] -> u = concat a ++ pre /\ x = x' /\ y = y').
  { intros pre x' y' Ep. rewrite E, Ep in Ec. change [x'; y'] with ([x'] ++ [y']) in Ec. change [x; y] with ([x] ++ [y]) in Ec. rewrite !app_assoc in Ec.
    apply app_inj_tail in Ec as [Ec ->]. apply app_inj_tail in Ec as [Ec ->]. auto. }
  assert (G : rafsi_tarmi p = CVCCV \/ rafsi_tarmi p = CCVCV -> is_gismu (lastn 5 w) (allow_mz st) = true).
  { intros T. rewrite <- Ec, lastn_snoc; [apply cll_gismu; [exists s; exact Hs|exact T]|].
    destruct T as [T|T]; apply rafsi_tarmi_shaped in T; try discriminate; cbn [shape_pat] in T; inv_shaped T; reflexivity. }
  pose proof (cll_tarmi _ _ _ Hs) as T. inversion Hs; subst s p; try (match goal with D : diphthong _ |- _ => pose proof (diphthong_a _ _ D) end); bfacts.
  - destruct (K [c1] v c2 eq_refl) as (_ & -> & ->). Shapes.clash.
  - destruct (K [c] v1 v2 eq_refl) as (_ & -> & ->). right. left. split; assumption.
  - destruct (K [c; v1] apostrophe v2 eq_refl) as (_ & -> & ->). right. right. left. reflexivity.
  - destruct (K [c1] c2 v eq_refl) as (-> & -> & ->). right. right. right. split; [assumption|]. exists (concat a), c1. auto.
  - destruct (K [c1; v] c2 c3 eq_refl) as (_ & -> & ->). Shapes.clash.
  - destruct (K [c1; c2] v c3 eq_refl) as (_ & -> & ->). Shapes.clash.
  - left. apply G. left. exact T.
  - left. apply G. right. exact T.
Qed.
Definition kaha_test (st : settings) (w : str) : res unit :=
  if negb (ends_with w [c_h; c_a]) && negb (is_gismu (lastn 5 w) (allow_mz st)) then
    match analyse_brivla Bound (mkSettings (y_hyphens st) false CLUSTER false (allow_mz st)) w with
    | Ok (t, _) => if wtype_eqb t LUJVO then Err NotBrivlaError else Ok tt
    | Err NotBrivlaError => Ok tt
    | Err e => Err e
    end
  else Ok tt.
Lemma ends_with_app : forall (s t : str), ends_with (s ++ t) t = true.
Proof. intros s t. unfold ends_with. rewrite lastn_app by reflexivity. rewrite str_eqb_refl, app_length. cbn [andb]. apply Nat.leb_le. lia. Qed.
Lemma total_notbrivla : forall st w e, Forall (fun c => is_lojban_letter c = true) w -> w <> [] -> analyse_brivla Bound st w = Err e -> e = NotBrivlaError.
Proof.
  intros st w e F Hn A. assert (Hy : no_y (standard_spelling w)) by (rewrite (lojban_spelling _ F); apply lojban_noy, F).
  pose proof (analyse_total st w Hn Hy e A) as K. destruct K as [K|[]]. symmetry. exact K.
Qed.
Lemma kaha_test_ok : forall st w, Forall (fun c => is_lojban_letter c = true) w ->
  (exists s, w = s ++ [c_h; c_a]) \/ (exists s l, w = s ++ [l; c_a] /\ is_vowel l = true)
  \/ (exists s v c, w = s ++ [v; c; c_a] /\ is_vowel v = true /\ is_consonant c = true) \/ is_gismu (lastn 5 w) (allow_mz st) = true ->
  kaha_test st w = Ok tt.
Proof.
  intros st w F D. unfold kaha_test. destruct (is_gismu (lastn 5 w) (allow_mz st)) eqn:G; [cbn [negb]; rewrite andb_false_r; reflexivity|].
  destruct D as [(s & ->)|D]; [rewrite ends_with_app; reflexivity|]. destruct (ends_with w [c_h; c_a]); [reflexivity|]. cbn [negb andb].
  destruct D as [D|[D|D]]; [| |congruence].
  - destruct D as (s & l & E & Hl). destruct (analyse_brivla _ _ w) as [[t ps]|e] eqn:A.
    + destruct (wtype_eqb t LUJVO) eqn:T; [|reflexivity]. exfalso. assert (t = LUJVO) as -> by (destruct t; (reflexivity || discriminate)).
      destruct (lujvo_tail _ _ _ _ _ _ _ A F E eq_refl) as [K|[[_ K]|[K|[K _]]]]; [cbn [allow_mz] in K; congruence|congruence|subst l; discriminate|rewrite (v_f0 _ Hl) in K; discriminate].
    + rewrite (total_notbrivla _ _ _ F ltac:(rewrite E; destruct s; discriminate) A). reflexivity.
  - destruct D as (s & v & c & E & Hv & Hc). assert (E' : w = (s ++ [v]) ++ [c; c_a]) by (rewrite E, <- app_assoc; reflexivity). destruct (analyse_brivla _ _ w) as [[t ps]|e] eqn:A.
    + destruct (wtype_eqb t LUJVO) eqn:T; [|reflexivity]. exfalso. assert (t = LUJVO) as -> by (destruct t; (reflexivity || discriminate)).
      destruct (lujvo_tail _ _ _ _ _ _ _ A F E' eq_refl) as [K|[[K _]|[K|[_ (u' & z & Ez & Hz)]]]]; [cbn [allow_mz] in K; congruence|rewrite (v_f0 _ K) in Hc; discriminate|subst c; discriminate|].
      apply app_inj_tail in Ez as [_ ->]. rewrite (v_f0 _ Hv) in Hz. discriminate.
    + rewrite (total_notbrivla _ _ _ F ltac:(rewrite E; destruct s; discriminate) A). reflexivity.
Qed.

(** ** Steps of the reading of a part *)
Lemma cll_low : forall mz r, cll mz r -> Forall (fun c => is_lojban_letter c = true) r.
Proof.
  intros mz r (s & H). assert (V : forall v, is_vowel v = true -> is_lojban_letter v = true) by (intros v X; unfold is_lojban_letter; rewrite X; reflexivity).
  assert (K : forall v, is_consonant v = true -> is_lojban_letter v = true) by (intros v X; unfold is_lojban_letter; rewrite X, ?orb_true_r; reflexivity).
  inversion H; subst; bfacts; repeat constructor; try (apply V; assumption); try (apply K; assumption).
Qed.
Lemma crun_letters : forall st fi ps, crun st fi ps -> Forall (fun c => is_lojban_letter c = true) (concat ps).
Proof.
  assert (G : forall mz P, Forall (cll mz) P -> Forall (fun c => is_lojban_letter c = true) (concat P)).
  { induction 1 as [|r P H HP IH]; [constructor|]. cbn [concat]. apply Forall_app. split; [eapply cll_lojban; exact H|exact IH]. }
  intros st fi ps [R|(_ & _ & p0 & h & P & -> & C & _ & R & Hr)]; [eapply G, run_cll, R|]. cbn [concat]. apply Forall_app. split; [eapply cll_lojban; exact C|].
  cbn [app]. constructor; [|eapply G, run_cll, R]. destruct Hr as [[-> _]|[-> _]]; reflexivity.
Qed.
Lemma crun_cut : forall st fi ps, crun st fi ps -> cut (rn_ok (y_hyphens st)) (hy_ok (y_hyphens st)) (allow_mz st) None ps.
Proof.
  intros st fi ps [R|(_ & Hy & p0 & h & P & -> & C & Hc & R & Hr)]; [apply run_cut; exact R|]. destruct C as (s & Hs). split.
  - left. exists s. split; [exact Hs|]. destruct (cvv_tarmi _ _ _ Hs Hc) as [-> | ->]; exact I.
  - split; [|apply run_cut; exact R]. right. exists p0. split; [reflexivity|]. split.
    + pose proof (cll_len (allow_mz st) p0 (ex_intro _ s Hs)). lia.
    + right. right. split; [unfold rn_ok; destruct (y_hyphens st); [reflexivity|reflexivity|congruence]|]. split; [apply cvv_shaped, Hc|].
      destruct (concat P) as [|c t] eqn:E.
      * exfalso. destruct (concat_first _ _ (run_cll _ _ R) (run_ne _ _ R)) as (a & b & x & Ea & _). congruence.
      * cbn [hd] in Hr. destruct Hr as [[-> ->]|(-> & H1 & H2)]; [left; split; [reflexivity|exists t; reflexivity]|right].
        split; [reflexivity|]. exists c, t. split; [reflexivity|]. split; [apply is_consonant_spec, H1|]. intro X. injection X as X. contradiction.
Qed.
Lemma crun_ne : forall st fi ps, crun st fi ps -> ps <> [].
Proof. intros st fi ps [R|(_ & _ & p0 & h & P & -> & _)]; [eapply run_ne, R|discriminate]. Qed.
Lemma crun_valid : forall st fi ps f0 r, crun st fi ps -> ps = f0 :: r -> is_valid_rafsi f0 (allow_mz st) = true /\ exists c d x, concat ps = c :: d :: x /\ is_consonant c = true.
Proof.
  intros st fi ps f0 r C ->. assert (K : cll (allow_mz st) f0) by (destruct C as [[C _]|(_ & _ & p0 & h & P & E & C & _)]; [exact C|injection E as -> _; exact C]).
  split; [destruct K as (s & K); eapply cll_valid; exact K|]. destruct (cll_first _ _ K) as (a & b & c & t & -> & Ha & _). do 3 eexists. split; [reflexivity|exact Ha].
Qed.
Lemma run_end : forall mz P, run mz P -> exists s r, concat P = s ++ r /\ cll mz r.
Proof.
  induction P as [|r P IH]; intros H; [destruct H|]. destruct H as [H H']. destruct P as [|q P]; [exists [], r; split; [cbn; rewrite app_nil_r; reflexivity|exact H]|].
  destruct (IH (proj2 (proj2 H'))) as (s & x & E & C). exists (r ++ s), x. split; [change (concat (r :: q :: P)) with (r ++ concat (q :: P)); rewrite E, app_assoc; reflexivity|exact C].
Qed.
Lemma crun_end : forall st fi ps, crun st fi ps -> exists s r, concat ps = s ++ r /\ cll (allow_mz st) r.
Proof.
  intros st fi ps [R|(_ & _ & p0 & h & P & -> & _ & _ & R & _)]; [apply run_end, R|]. destruct (run_end _ _ R) as (s & r & E & C).
  exists (p0 ++ [h] ++ s), r. split; [|exact C]. cbn [concat]. rewrite E, <- !app_assoc. reflexivity.
Qed.
Lemma count_mono : forall found num cl num' cl', count_found found num cl = (num', cl') ->
  (cl = true -> cl' = true) /\ (cl' = false -> Forall (fun p => tarmi_in (rafsi_tarmi p) [CVV; CVhV] = true \/ rafsi_tarmi p = OTHER_RAFSI) found).
Proof.
  induction found as [|p found IH]; intros num cl num' cl' H; cbn [count_found] in H; [injection H as <- <-; auto|]. cbv zeta in H.
  destruct (tarmi_in (rafsi_tarmi p) [CVV; CVhV]) eqn:T; [apply IH in H as [H1 H2]; auto|].
  destruct (tarmi_eqb (rafsi_tarmi p) OTHER_RAFSI) eqn:T2; cbn [negb] in H.
  - apply tarmi_eqb_eq in T2. apply IH in H as [H1 H2]; auto.
  - apply IH in H as [H1 H2]. split; [auto|]. intros ->. specialize (H1 eq_refl). discriminate.
Qed.
Lemma kaha_fwd : forall st pa p num cl found, kaha_test st pa = Ok tt -> jvokaha_2 (y_hyphens st) (allow_mz st) (p_copy p) = Ok found -> found <> [] ->
  is_valid_rafsi (hd [] found) (allow_mz st) = true ->
  part_kaha (analyse_brivla Bound) st pa p num cl = Ok (true, found, fst (count_found found num cl), snd (count_found found num cl)).
Proof.
  intros st pa p num cl found K J Hn V. unfold part_kaha. fold (kaha_test st pa). rewrite K. cbn [bind]. rewrite J. destruct found as [|f0 found]; [congruence|].
  cbn [hd] in V. rewrite V. cbn [negb]. rewrite andb_false_r. destruct (count_found (f0 :: found) num cl) as [a b]. reflexivity.
Qed.
Lemma tail_fwd : forall st (ys : list str) i (s t : str) (adda : bool) cl c0 s0, part_end s t adda -> nth_error ys (S i) = Some (c0 :: s0) ->
  exists req, part_tail st false ys i (s ++ t) cl = Ok (mkP (with_a s adda) s t true req adda)
    /\ (adda = false -> req = true -> y_hyphens st = STANDARD /\ cl = false /\ c0 <> c_h).
Proof.
  intros st ys i s t adda cl c0 s0 H E. assert (Hi : (i <? length ys - 1) = true) by (apply Nat.ltb_lt; assert (S i < length ys) by (apply nth_error_Some; congruence); lia).
  inversion H as [s' l Hl E1 E2|s' l Hl E1 E2]; subst; unfold part_tail.
  - unfold idx_last at 1. rewrite last_opt_app. cbn [bind]. rewrite N.eqb_refl, Hi, andb_true_r, dropl_snoc.
    destruct (yset_eqb (y_hyphens st) STANDARD && negb cl) eqn:D.
    + unfold idxl. rewrite Nat.add_1_r, E. cbn [bind]. unfold idx. cbn [nth_error bind]. unfold idx_last. rewrite last_opt_app. cbn [bind]. rewrite Hl. cbn [negb].
      eexists. split; [reflexivity|]. intros _ R. apply andb_t in D as [D1 D2]. split; [destruct (y_hyphens st); (reflexivity || discriminate)|]. split; [destruct cl; (reflexivity || discriminate)|].
      intros ->. rewrite N.eqb_refl in R. discriminate.
    + cbn [bind]. unfold idx_last. rewrite last_opt_app. cbn [bind]. rewrite Hl. cbn [negb]. eexists. split; [reflexivity|]. discriminate.
  - rewrite app_nil_r. unfold idx_last. rewrite last_opt_app. cbn [bind]. destruct (N.eqb l c_h) eqn:El; [apply N.eqb_eq in El; subst l; discriminate|].
    rewrite Hi. cbn [orb]. replace (is_vowel l) with false by (symmetry; destruct (is_vowel l) eqn:X; [rewrite (v_f0 _ X) in Hl; discriminate|reflexivity]).
    eexists. split; [reflexivity|]. discriminate.
Qed.
Lemma tail_last : forall st (ys : list str) i (s : str) l cl, is_vowel l = true -> S i = length ys ->
  part_tail st false ys i (s ++ [l]) cl = Ok (mkP (s ++ [l]) (s ++ [l]) [] true false false).
Proof.
  intros st ys i s l cl Hl E. unfold part_tail, idx_last. rewrite last_opt_app. cbn [bind]. destruct (N.eqb l c_h) eqn:El; [apply N.eqb_eq in El; subst l; discriminate|].
  rewrite <- E. replace (S i - 1) with i by lia. rewrite Nat.ltb_irrefl. reflexivity.
Qed.
Definition nh_of (i : nat) (a : astate) : str := if i =? 0 then a_hyphen a else a_hyphen a ++ [c_y].
Definition broken (st : settings) (a : astate) : bool := if a_break a then true else a_cluster a.
Lemma part_core : forall st ys i a ps t (adda req : bool), crun st (i =? 0) ps -> rafsi_tarmi (concat ps ++ t) <> CVC ->
  part_tail st false ys i (concat ps ++ t) (broken st a) = Ok (mkP (with_a (concat ps) adda) (concat ps) t true req adda) ->
  kaha_test st ((concat ps ++ t) ++ [c_a]) = Ok tt ->
  (i = 0 -> tosmabru_check (jvk Bound) st (concat ps ++ t) (with_a (concat ps) adda) adda = Ok tt) ->
  (tarmi_in (rafsi_tarmi (with_a (concat ps) adda)) [CVV; CVhV] = true -> req = true -> snd (count_found ps (a_cons a) (broken st a)) = true) ->
  exists a', analyse_part (analyse_brivla Bound) (jvk Bound) st false ys i (concat ps ++ t) a = Ok a'
    /\ a_parts a' = add_hyphen (a_parts a) (nh_of i a) ++ ps /\ a_hyphen a' = t
    /\ a_cluster a' = snd (count_found ps (a_cons a) (broken st a)).
Proof.
  intros st ys i a ps t adda req C Hn Ht Hk Hs Hr.
  destruct ps as [|f0 r] eqn:Eps; [exfalso; exact (crun_ne _ _ _ C eq_refl)|]. rewrite <- Eps in *.
  destruct (crun_valid _ _ _ _ _ C Eps) as (V & c & d & x & Ec & Hc).
  assert (Eh : part_head i (concat ps ++ t) (nh_of i a) = Ok (concat ps ++ t, nh_of i a)).
  { rewrite Ec. cbn [app part_head]. destruct (N.eqb c c_h) eqn:X; [apply N.eqb_eq in X; subst c; discriminate|].
    replace (is_vowel c) with false by (symmetry; destruct (is_vowel c) eqn:Y; [rewrite (v_f0 _ Y) in Hc; discriminate|reflexivity]). rewrite andb_false_r. reflexivity. }
  assert (Ej : jvokaha_2 (y_hyphens st) (allow_mz st) (concat ps) = Ok ps) by (apply jvokaha_2_spec; split; [reflexivity|exact (crun_cut _ _ _ C)]).
  pose proof (kaha_fwd st ((concat ps ++ t) ++ [c_a]) (mkP (with_a (concat ps) adda) (concat ps) t true req adda) (a_cons a) (broken st a) ps Hk Ej (crun_ne _ _ _ C)) as Hf.
  rewrite Eps in Hf at 1. cbn [hd] in Hf. specialize (Hf V).
  unfold analyse_part. fold (nh_of i a). rewrite Eh. cbn [bind]. fold (add_hyphen (a_parts a) (nh_of i a)).
  destruct (tarmi_eqb (rafsi_tarmi (concat ps ++ t)) CVC) eqn:T; [apply tarmi_eqb_eq in T; contradiction|].
  assert (Ei : idx (concat ps ++ t) 0 = Ok c) by (rewrite Ec; reflexivity). rewrite Ei. cbn [bind]. rewrite Hc. cbn [orb]. rewrite andb_true_r.
  change (if a_break a then true else a_cluster a) with (broken st a). rewrite Ht. cbn [bind p_can]. rewrite Hf. cbn [bind p_part p_req p_hyphen p_adda negb].
  rewrite andb_true_r.
  assert (E1 : (tarmi_in (rafsi_tarmi (with_a (concat ps) adda)) [CVV; CVhV] && req && negb (snd (count_found ps (a_cons a) (broken st a)))) = false).
  { destruct (tarmi_in _ _) eqn:X1; [|reflexivity]. destruct req eqn:X2; [|reflexivity]. rewrite (Hr eq_refl eq_refl). reflexivity. }
  rewrite E1. cbn [bind]. destruct (i =? 0) eqn:Ez.
  - apply Nat.eqb_eq in Ez. rewrite (Hs Ez). cbn [bind]. eexists. split; [reflexivity|]. cbn [a_parts a_hyphen a_cluster]. auto.
  - cbn [bind]. eexists. split; [reflexivity|]. cbn [a_parts a_hyphen a_cluster]. auto.
Qed.
Lemma part_cvc : forall st ys i a r, rafsi_tarmi r = CVC ->
  exists a', analyse_part (analyse_brivla Bound) (jvk Bound) st false ys i r a = Ok a'
    /\ a_parts a' = add_hyphen (a_parts a) (nh_of i a) ++ [r] /\ a_hyphen a' = [] /\ a_cluster a' = a_cluster a /\ a_break a' = true.
Proof.
  intros st ys i a r H. assert (Eh : part_head i r (nh_of i a) = Ok (r, nh_of i a)).
  { apply tarmi_CVC in H as (c & v & d & -> & Hc & _). cbn [part_head]. destruct (N.eqb c c_h) eqn:X; [apply N.eqb_eq in X; subst c; discriminate|].
    replace (is_vowel c) with false by (symmetry; destruct (is_vowel c) eqn:Y; [rewrite (v_f0 _ Y) in Hc; discriminate|reflexivity]). rewrite andb_false_r. reflexivity. }
  unfold analyse_part. fold (nh_of i a). rewrite Eh. cbn [bind]. fold (add_hyphen (a_parts a) (nh_of i a)). rewrite H. change (tarmi_eqb CVC CVC) with true.
  eexists. split; [reflexivity|]. cbn. auto.
Qed.
Lemma snoc_inj : forall (a b : str) x y, a ++ [x] = b ++ [y] -> a = b /\ x = y.
Proof. intros a b x y H. apply app_inj_tail in H. exact H. Qed.
Lemma tail3 : forall (s u : str) a b c l, s ++ [a; b; c] = u ++ [l] -> l = c.
Proof. intros s u a b c l H. change (s ++ [a; b; c]) with (s ++ ([a; b] ++ [c])) in H. rewrite app_assoc in H. apply snoc_inj in H as [_ H]. congruence. Qed.
Lemma tail4 : forall (s u : str) a b c d l, s ++ [a; b; c; d] = u ++ [l] -> l = d.
Proof. intros s u a b c d l H. change (s ++ [a; b; c; d]) with (s ++ ([a; b; c] ++ [d])) in H. rewrite app_assoc in H. apply snoc_inj in H as [_ H]. congruence. Qed.
Lemma tail5 : forall (s u : str) a b c d e l, s ++ [a; b; c; d; e] = u ++ [l] -> l = e.
Proof. intros s u a b c d e l H. change (s ++ [a; b; c; d; e]) with (s ++ ([a; b; c; d] ++ [e])) in H. rewrite app_assoc in H. apply snoc_inj in H as [_ H]. congruence. Qed.
Lemma vowel_not_consonant : forall l, is_vowel l = true -> is_consonant l = true -> False.
Proof. intros l H K. rewrite (v_f0 _ H) in K. discriminate. Qed.
Lemma crun_kaha : forall st fi ps s l, crun st fi ps -> concat ps = s ++ [l] -> is_consonant l = true -> kaha_test st (concat ps ++ [c_a]) = Ok tt.
Proof.
  intros st fi ps s l C E Hl. apply kaha_test_ok; [apply Forall_app; split; [eapply crun_letters, C|constructor; [reflexivity|constructor]]|].
  destruct (crun_end _ _ _ C) as (u & r & E' & sh & K). rewrite E' in E |- *. right. right.
  assert (Va : vowel c_a) by (apply is_vowel_spec; reflexivity).
  inversion K; subst.
  - bfacts. left. exists (u ++ [c1]), v, c2. split; [rewrite <- !app_assoc; reflexivity|auto].
  - exfalso. bfacts. apply tail3 in E. subst l. eapply vowel_not_consonant; eassumption.
  - exfalso. bfacts. apply tail4 in E. subst l. eapply vowel_not_consonant; eassumption.
  - exfalso. bfacts. apply tail3 in E. subst l. eapply vowel_not_consonant; eassumption.
  - right. rewrite <- app_assoc. rewrite lastn_snoc by reflexivity. pose proof (r_cvccv (allow_mz st) c1 v c2 c3 c_a ltac:(assumption) ltac:(assumption) ltac:(assumption) Va) as G.
    apply cll_gismu; [eexists; exact G|left; exact (cll_tarmi _ _ _ G)].
  - right. rewrite <- app_assoc. rewrite lastn_snoc by reflexivity. pose proof (r_ccvcv (allow_mz st) c1 c2 v c3 c_a ltac:(assumption) ltac:(assumption) ltac:(assumption) Va) as G.
    apply cll_gismu; [eexists; exact G|right; exact (cll_tarmi _ _ _ G)].
  - exfalso. bfacts. apply tail5 in E. subst l. eapply vowel_not_consonant; eassumption.
  - exfalso. bfacts. apply tail5 in E. subst l. eapply vowel_not_consonant; eassumption.
Qed.
Lemma light_cll : forall mz r, cll mz r -> tarmi_in (rafsi_tarmi r) [CVV; CVhV] = true \/ rafsi_tarmi r = OTHER_RAFSI -> cvv_like r = true.
Proof. intros mz r (s & H) T. unfold cvv_like. pose proof (cll_tarmi _ _ _ H) as Tm. rewrite Tm in *. inversion H; subst; destruct T as [T|T]; try discriminate; reflexivity. Qed.
Lemma light_opening : forall st ps p0 P num cl, opening st ps p0 P -> snd (count_found ps num cl) = false -> ps = [p0] /\ cvv_like p0 = true.
Proof.
  intros st ps p0 P num cl O H. destruct (count_found ps num cl) as [n' c'] eqn:E. cbn in H. subst c'. apply count_mono in E as [_ E]. specialize (E eq_refl).
  destruct (o_heads _ _ _ _ O) as [->|(h & c & t & -> & _ & Hr & _)].
  - pose proof (light_cll _ _ (Forall_inv (o_cll _ _ _ _ O)) (Forall_inv E)) as L. split; [|exact L]. rewrite (o_cvv _ _ _ _ O L eq_refl). reflexivity.
  - exfalso. apply Forall_inv_tail, Forall_inv in E. destruct Hr as [[-> _]|[-> _]]; destruct E as [E|E]; vm_compute in E; discriminate.
Qed.
Lemma count_keeps : forall ps num cl, cl = true -> snd (count_found ps num cl) = true.
Proof. intros ps num cl H. destruct (count_found ps num cl) as [n' c'] eqn:E. apply count_mono in E as [E _]. apply E, H. Qed.
Lemma tarmi_end_h : forall s, rafsi_tarmi (s ++ [c_h]) <> CVC.
Proof. intros s H. apply tarmi_CVC in H as (a & b & c & E & _ & _ & Hc). change [a; b; c] with ([a; b] ++ [c]) in E. apply snoc_inj in E as [_ <-]. discriminate. Qed.
Lemma tarmi_end_v : forall s l, is_vowel l = true -> rafsi_tarmi (s ++ [l]) <> CVC.
Proof. intros s l Hl H. apply tarmi_CVC in H as (a & b & c & E & _ & _ & Hc). change [a; b; c] with ([a; b] ++ [c]) in E. apply snoc_inj in E as [_ <-]. eapply vowel_not_consonant; eassumption. Qed.
Lemma crun_cvc : forall st fi ps, crun st fi ps -> rafsi_tarmi (concat ps) = CVC -> exists r, ps = [r] /\ concat ps = r.
Proof.
  intros st fi ps C T. apply tarmi_CVC in T as (a & b & c & E & _ & Hb & Hc).
  assert (L : length (concat ps) = 3) by (rewrite E; reflexivity).
  destruct C as [R|(_ & _ & p0 & h & P & -> & K & Kc & R & _)].
  - destruct ps as [|r [|q ps]]; [destruct R| |].
    + exists r. split; [reflexivity|]. cbn. apply app_nil_r.
    + exfalso. pose proof (run_cll _ _ R) as F. pose proof (cll_len _ _ (Forall_inv F)). pose proof (cll_len _ _ (Forall_inv (Forall_inv_tail F))).
      cbn [concat] in L. rewrite !app_length in L. lia.
  - exfalso. pose proof (cll_len _ _ K). cbn [concat] in L. rewrite !app_length in L. cbn in L. lia.
Qed.
Lemma cll_part : forall st (ys : list str) i a ps t adda (la : bool) (c0 : char) s0, crun st (i =? 0) ps ->
  (la = true -> t = [] /\ S i = length ys /\ exists s l, concat ps = s ++ [l] /\ is_vowel l = true) ->
  (la = false -> part_end (concat ps) t adda /\ nth_error ys (S i) = Some (c0 :: s0)) ->
  (i = 0 -> la = false /\ exists p0 P, opening st ps p0 P) ->
  (y_hyphens st = STANDARD -> i <> 0 -> a_cluster a = true \/ a_break a = true) ->
  (y_hyphens st = STANDARD -> i = 0 -> forall p0, ps = [p0] -> cvv_like p0 = true -> c0 = c_h) ->
  exists a', analyse_part (analyse_brivla Bound) (jvk Bound) st false ys i (concat ps ++ t) a = Ok a'
    /\ a_parts a' = add_hyphen (a_parts a) (nh_of i a) ++ ps /\ a_hyphen a' = t
    /\ (a_cluster a = true -> a_cluster a' = true)
    /\ (y_hyphens st = STANDARD -> la = false -> a_cluster a' = true \/ a_break a' = true \/ c0 = c_h).
Proof.
  intros st ys i a ps t adda la c0 s0 C Hla Hmid Hop Hpre Hstd.
  assert (Hb : a_cluster a = true -> broken st a = true) by (intro X; unfold broken; destruct (a_break a); [reflexivity|exact X]).
  assert (Light : y_hyphens st = STANDARD -> snd (count_found ps (a_cons a) (broken st a)) = true \/ c0 = c_h).
  { intro Y. destruct (snd (count_found ps (a_cons a) (broken st a))) eqn:E; [left; reflexivity|right].
    destruct (Nat.eq_dec i 0) as [Hi|Hi].
    - destruct (Hop Hi) as (_ & p0 & P & O). destruct (light_opening _ _ _ _ _ _ O E) as [E1 E2]. exact (Hstd Y Hi _ E1 E2).
    - exfalso. assert (B : broken st a = true) by (unfold broken; destruct (Hpre Y Hi) as [X|X]; rewrite X; [destruct (a_break a)|]; reflexivity).
      rewrite (count_keeps _ _ _ B) in E. discriminate. }
  assert (Fin : forall b req, rafsi_tarmi (concat ps ++ t) <> CVC -> part_tail st false ys i (concat ps ++ t) (broken st a) = Ok (mkP (with_a (concat ps) b) (concat ps) t true req b) ->
     kaha_test st ((concat ps ++ t) ++ [c_a]) = Ok tt -> (la = false -> b = adda) ->
     (b = false -> req = true -> y_hyphens st = STANDARD /\ c0 <> c_h) -> (b = true -> exists s l, concat ps = s ++ [l] /\ is_consonant l = true) ->
     exists a', analyse_part (analyse_brivla Bound) (jvk Bound) st false ys i (concat ps ++ t) a = Ok a'
    /\ a_parts a' = add_hyphen (a_parts a) (nh_of i a) ++ ps /\ a_hyphen a' = t
    /\ (a_cluster a = true -> a_cluster a' = true)
    /\ (y_hyphens st = STANDARD -> la = false -> a_cluster a' = true \/ a_break a' = true \/ c0 = c_h)).
  { intros b req Hn Ht Hk Hb' Hr Hc. destruct (part_core st ys i a ps t b req C Hn Ht Hk) as (a' & A1 & A2 & A3 & A4).
    - intros Hi. destruct (Hop Hi) as (Hl & p0 & P & O). rewrite (Hb' Hl). destruct (Hmid Hl) as [He _].
      eapply tos_run; [exact (o_heads _ _ _ _ O)|exact (o_cll _ _ _ _ O)|exact (o_short _ _ _ _ O)|exact He| |exact (o_tos _ _ _ _ O)|exact (o_cvv _ _ _ _ O)].
      inversion He as [s' l Hv E1 E2|s' l Hv E1 E2]; subst; [apply tarmi_end_v, Hv|rewrite app_nil_r in Hn; rewrite E1; exact Hn].
    - intros Tq Er. subst req. destruct b.
      + exfalso. destruct (Hc eq_refl) as (s & l & E & Hl). unfold with_a in Tq. rewrite E in Tq.
        destruct (rafsi_tarmi ((s ++ [l]) ++ [c_a])) eqn:T; try discriminate.
        * apply tarmi_CVhV in T as (x & y & z & T & _ & Hy & _). rewrite <- app_assoc in T. destruct s as [|s0' [|s1 [|s2 s]]]; try discriminate T.
          -- injection T as _ _ -> _. discriminate.
          -- apply (f_equal (@length _)) in T. rewrite app_length in T. cbn in T. lia.
        * apply tarmi_CVV in T as (x & y & z & T & _ & Hy & _). rewrite <- app_assoc in T. destruct s as [|s0' [|s1 [|s2 s]]]; try discriminate T.
          -- injection T as -> -> _. eapply vowel_not_consonant; eassumption.
          -- apply (f_equal (@length _)) in T. rewrite app_length in T. cbn in T. lia.
      + destruct (Hr eq_refl eq_refl) as [Y N0]. destruct (Light Y) as [X|X]; [exact X|contradiction].
    - exists a'. rewrite A4. repeat split; auto.
      + intro X. apply count_keeps, Hb, X.
      + intros Y _. destruct (Light Y); auto. }
  destruct la.
  - destruct (Hla eq_refl) as (-> & Hn & s & l & E & Hl). apply (Fin false false); rewrite ?app_nil_r.
    + rewrite E. apply tarmi_end_v, Hl.
    + rewrite E. apply tail_last; assumption.
    + apply kaha_test_ok; [apply Forall_app; split; [eapply crun_letters, C|constructor; [reflexivity|constructor]]|].
      right. left. exists s, l. split; [rewrite E, <- app_assoc; reflexivity|exact Hl].
    + discriminate.
    + discriminate.
    + discriminate.
  - destruct (Hmid eq_refl) as [He Hn]. destruct (tail_fwd st ys i (concat ps) t adda (broken st a) c0 s0 He Hn) as (req & Ht & Hr).
    assert (Hrr : adda = false -> req = true -> y_hyphens st = STANDARD /\ c0 <> c_h) by (intros X1 X2; destruct (Hr X1 X2) as (? & _ & ?); auto).
    inversion He as [s' l Hv E1 E2 E3|s' l Hv E1 E2 E3]; subst t adda; rewrite E1.
    + apply (Fin false req); auto; try discriminate.
      * apply tarmi_end_h.
      * apply kaha_test_ok; [apply Forall_app; split; [apply Forall_app; split; [eapply crun_letters, C|]|]; (constructor; [reflexivity|constructor])|].
        left. exists (concat ps). rewrite <- app_assoc. reflexivity.
    + destruct (tarmi_eqb (rafsi_tarmi (concat ps ++ [])) CVC) eqn:T.
      * apply tarmi_eqb_eq in T. pose proof T as T'. rewrite app_nil_r in T'. destruct (crun_cvc _ _ _ C T') as (r & Er & Er'). rewrite app_nil_r, Er' in *.
        destruct (part_cvc st ys i a r T') as (a' & A1 & A2 & A3 & A4 & A5). exists a'. rewrite A4, A5, Er. repeat split; auto.
      * assert (Tn : rafsi_tarmi (concat ps ++ []) <> CVC) by (intro X; rewrite X in T; discriminate).
        apply (Fin true req); auto; try discriminate.
        -- rewrite app_nil_r. eapply crun_kaha; [exact C|symmetry; exact E1|exact Hv].
        -- intros _. exists s', l. split; [symmetry; exact E1|exact Hv].
Qed.
