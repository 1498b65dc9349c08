(** A word assembled from rafsi never fails the slinku'i test: "to" put before it
    is never a CLL lujvo. *)
From Verif Require Import Str Data Tarmi Rafsi Core Api Lib Spec Shapes Decomp Basic Vowels Katna Dict Errs Builder Jvokaha Fuel Raises Inv Parts Clusters Zihevla Forms Chain Score Alt Lujvo Slinku Optimal Total.

(** ** The tosmabru state along a chain *)
Fixpoint tosrun (tos : nat) (prev : str) (fs : list str) : option nat :=
  match fs with
  | [] => Some tos
  | f :: r => match next_tosmabru tos f (tarmi_ignoring_hyphen f) (last prev 0%N) (hd 0%N f) with
              | None => None
              | Some t => tosrun t f r
              end
  end.
Lemma tosrun_snoc : forall fs tos prev f t, tosrun tos prev fs = Some t ->
  tosrun tos prev (fs ++ [f]) = next_tosmabru t f (tarmi_ignoring_hyphen f) (last (last (prev :: fs) []) 0%N) (hd 0%N f).
Proof.
  induction fs as [|f0 fs IH]; intros tos prev f t H; cbn [tosrun app] in *.
  - injection H as ->. cbn. destruct (next_tosmabru _ _ _ _ _); reflexivity.
  - destruct (next_tosmabru tos f0 _ _ _); [|discriminate]. rewrite (IH _ _ _ _ H). reflexivity.
Qed.
Lemma last_app_r : forall (a b : str) d, b <> [] -> last (a ++ b) d = last b d.
Proof.
  intros a b d H. destruct (exists_last H) as (s & x & ->). rewrite app_assoc, !last_last. reflexivity.
Qed.
Lemma chain_tosrun : forall gen st n l c, chain gen st n l c ->
  exists r0 rest tos, map fst l = r0 :: rest /\ first_tos r0 gen = Ok tos /\ tosrun tos r0 rest = Some (c_tos c)
    /\ last (c_word c) 0%N = last (last (r0 :: rest) []) 0%N.
Proof.
  induction 1 as [r0 n0 r1 n1 tos c H1 H2 | l c r rc c' Hc IH H].
  - exists r0, [r1], tos. split; [reflexivity|]. split; [exact H1|]. apply combine_word in H2 as (hy & i & N0 & N1 & W & _ & T & _).
    split; [cbn [tosrun]; rewrite T; reflexivity|]. rewrite W, app_assoc. cbn [last]. apply last_app_r. exact N1.
  - destruct IH as (r0 & rest & tos & E & F & T & La). exists r0, (rest ++ [r]), tos. split; [rewrite map_app, E; reflexivity|]. split; [exact F|].
    apply combine_word in H as (hy & i & N0 & N1 & W & _ & T' & _). split.
    + rewrite (tosrun_snoc _ _ _ _ _ T), <- La. exact T'.
    + rewrite app_comm_cons, last_last, W, app_assoc. apply last_app_r. exact N1.
Qed.

(** ** The beginning of a word made of rafsi *)
Inductive onset : str -> Prop :=
| on_cv c v t : is_consonant c = true -> is_vowel v = true -> onset (c :: v :: t)
| on_ccv_end c d v : mems [c; d] INITIAL = true -> is_vowel v = true -> onset [c; d; v]
| on_ccv_hy c d v t : mems [c; d] INITIAL = true -> is_vowel v = true -> onset (c :: d :: v :: c_h :: c_y :: t)
| on_ccv c d v t : mems [c; d] INITIAL = true -> is_vowel v = true -> onset t -> onset (c :: d :: v :: t)
| on_ccvc c d v e t : mems [c; d] INITIAL = true -> is_vowel v = true -> is_consonant e = true -> onset (c :: d :: v :: e :: c_y :: t)
| on_ccvcv c d v e v' t : mems [c; d] INITIAL = true -> is_vowel v = true -> is_consonant e = true -> is_vowel v' = true ->
    onset (c :: d :: v :: e :: v' :: t).

Lemma initial_cons : forall c d, mems [c; d] INITIAL = true -> is_consonant c = true /\ is_consonant d = true.
Proof. intros c d H. apply initial_spec in H. apply initial_c in H as [H1 H2]. split; apply is_consonant_spec; assumption. Qed.
Lemma onset_first : forall w, onset w -> exists c d t, w = c :: d :: t /\ is_consonant c = true
  /\ (is_vowel d = true \/ mems [c; d] INITIAL = true /\ exists v u, t = v :: u /\ is_vowel v = true).
Proof.
  intros w H. destruct H; match goal with G : mems _ _ = true |- _ => pose proof (initial_cons _ _ G) as [? ?] | _ => idtac end;
    (eexists _, _, _; split; [reflexivity|]); (split; [assumption|]); [left; assumption|..]; right; (split; [assumption|]); eexists _, _; split; try reflexivity; assumption.
Qed.

Lemma cll_usable : forall mz r, cll mz r -> usable mz r (Tar (rafsi_tarmi r)).
Proof. intros mz r [s H]. apply valid_usable. eapply cll_valid. exact H. Qed.
Lemma strip_suffix : forall mz r suf, cll mz r -> forallb is_hy suf = true -> strip_hyphens (r ++ suf) = r.
Proof. intros mz r suf H Hs. apply (strip_usable mz r _ [] suf (cll_usable _ _ H)); [reflexivity|exact Hs]. Qed.

(** ** The walk *)
Definition form_of (p : pc) : str := p_r p ++ p_suf p.
Lemma alt_step : forall gen st n fi p g q r p1 X mz, link gen st n fi p g q -> cll mz p1 ->
  alt p ((g, q) :: r) = p_r p :: p1 :: X -> p_suf p = [] /\ p_r q = p1 /\ alt q r = p1 :: X.
Proof.
  intros gen st n fi p g q r p1 X mz Hl Hc E. cbn [alt] in E. injection E as E.
  destruct (gap_of p g q) as [|x gq] eqn:Eg.
  - cbn [gp app] in E. unfold gap_of in Eg. apply app_eq_nil in Eg as [Eg _]. split; [exact Eg|]. split; [|exact E].
    destruct r as [|[g' q'] r]; cbn [alt] in E; congruence.
  - exfalso. cbn [gp app] in E. injection E as E _. pose proof (l_gap _ _ _ _ _ _ _ Hl) as G. fold (gap_of p g q) in G. rewrite Eg, E in G.
    apply cll_not_hyphen in Hc. destruct G as [G|G]; [subst p1; discriminate|]. apply is_hyphen_spec in G. congruence.
Qed.
Lemma cvc_y_suffix : forall gen st n g q q' , link gen st n false q g q' -> cll (allow_mz st) (p_r q') -> kind_of (p_r q) (p_t q) -> rafsi_tarmi (p_r q) = CVC ->
  gap_of q g q' = [c_y] -> p_suf q = [c_y].
Proof.
  intros gen st n g q q' Hl Hq' Hk Ht Eg. pose proof (l_suf _ _ _ _ _ _ _ Hl) as Hs.
  assert (Et : p_t q = Tar CVC) by (destruct Hk as [Hk|[[_ [Hk|Hk]]|[_ [Hk|Hk]]]]; congruence). rewrite Et in Hs.
  pose proof (l_glued _ _ _ _ _ _ _ Hl) as Hg. rewrite andb_false_l in Hg. unfold gap_of in Eg. rewrite (cll_prefix _ _ _ Hq'), app_nil_r in Eg.
  inversion Hs; try (match goal with G : _ \/ _ |- _ => decompose [or] G; discriminate end); try reflexivity.
  exfalso. match goal with G : [] = p_suf q |- _ => rewrite <- G in Hg, Eg end.
  destruct Hg; try discriminate; subst; discriminate.
Qed.

Lemma walk : forall gen st n rn hy w, onset w -> forall c P prev fi p rest,
  w = c :: concat P -> cut rn hy (allow_mz st) (Some prev) P -> plain_before (Some prev) ->
  linked gen st n fi p rest -> cll_list (allow_mz st) p rest ->
  Forall (fun q => forallb is_hy (p_suf q) = true) (map snd rest) ->
  alt p rest = p_r p :: filter norn P -> last (p_r p) 0%N = c ->
  tosrun TOSMABRU (form_of p) (map form_of (map snd rest)) <> Some 0.
Proof.
  intros gen st n rn hy w On. induction On as [c0 v t Hc Hv|c0 d v Hi Hv|c0 d v t Hi Hv|c0 d v t Hi Hv On IH|c0 d v e t Hi Hv He|c0 d v e v' t Hi Hv He Hv'];
    intros c P prev fi p rest Ew Hcut Hpl Hlk Hcl Hsuf Halt Hlast;
    (destruct P as [|p1 P1]; [discriminate Ew|]).
  { injection Ew as _ Ew. exfalso. eapply cut_vowel; [exact Hcut|symmetry; exact Ew|exact Hv]. }
  all: injection Ew as Ec Ew; rewrite <- Ec in Hlast; clear Ec c; destruct (initial_cons _ _ Hi) as [Hc0 Hd];
    (destruct (cut_consonant' _ _ _ _ _ _ _ _ Hcut Hpl (eq_sym Ew) Hd) as (s & Hs & Hnext));
    assert (Hcll : cll (allow_mz st) p1) by (exists s; exact Hs);
    pose proof (cll_norn _ _ Hcll) as Hno; cbn [filter] in Halt; rewrite Hno in Halt;
    (destruct rest as [|[g q] r]; [discriminate Halt|]); destruct Hlk as [Hlk Hlr];
    destruct (alt_step _ _ _ _ _ _ _ _ _ _ _ Hlk Hcll Halt) as (Sp & Eq & Hq); apply (f_equal (fun x => [x])) in Eq; cbn beta in Eq;
    destruct Hcl as (_ & _ & _ & Hcq); pose proof (cll_list_first _ _ _ Hcq) as Hcq1;
    cbn [map snd] in Hsuf |- *; pose proof (Forall_inv Hsuf) as Hsq; pose proof (Forall_inv_tail Hsuf) as Hsr; cbn beta in Hsq;
    cbn [tosrun]; replace (last (form_of p) 0%N) with (last (p_r p) 0%N) by (unfold form_of; rewrite Sp, app_nil_r; reflexivity); rewrite Hlast; clear Hlast;
    replace (tarmi_ignoring_hyphen (form_of q)) with (rafsi_tarmi (p_r q)) by (unfold tarmi_ignoring_hyphen, form_of; rewrite (strip_suffix _ _ _ Hcq1 Hsq); reflexivity);
    destruct Hcut as [_ Hcut].
  - (* CCV at the end *) exfalso. inversion Hs; subst; bfacts; cbn [concat app] in Ew; discriminate Ew.
  - (* CCV'y *) exfalso. inversion Hs; subst; bfacts; cbn [concat app] in Ew; injection Ew; intros; subst; try clash.
  - (* CCV and another rafsi *)
    destruct (onset_first _ On) as (c2 & d2 & t' & -> & Hc2 & Hd2).
    inversion Hs; subst; bfacts; cbn [concat app] in Ew; injection Ew; intros; subst; try clash.
    + (* CVC *)
      match goal with G : d2 :: t' = concat P1 |- _ => rename G into EP end. destruct P1 as [|p2 P2]; [discriminate EP|].
      destruct Hd2 as [Hd2|(Hi2 & _)]; [exfalso; eapply cut_vowel; [exact Hcut|symmetry; exact EP|exact Hd2]|].
      destruct (initial_cons _ _ Hi2) as [_ Hd3].
      assert (Hpl' : plain_before (Some [c1; v0; c3])).
      { intros x X. injection X as <-. eapply not_cvv; [exact Hs|discriminate|discriminate]. }
      destruct (cut_consonant' _ _ _ _ _ _ _ _ Hcut Hpl' (eq_sym EP) Hd3) as (s2 & Hs2 & _).
      assert (Hcll2 : cll (allow_mz st) p2) by (exists s2; exact Hs2). pose proof (cll_norn _ _ Hcll2) as Hno2.
      assert (Sq : p_suf q = []).
      { cbn [filter] in Hq. rewrite Hno2 in Hq. destruct r as [|[g' q'] r']; [discriminate Hq|]. destruct Hlr as [Hlq _].
        injection Eq as Eq. rewrite <- Eq in Hq. eapply alt_step; [exact Hlq|exact Hcll2|exact Hq]. }
      injection Eq as Eq. assert (Ef : form_of q = [c1; v0; c3]) by (unfold form_of; rewrite Sq, app_nil_r; exact Eq).
      replace (next_tosmabru TOSMABRU (form_of q) (rafsi_tarmi (p_r q)) c0 (hd 0%N (form_of q))) with (Some TOSMABRU).
      2:{ rewrite Ef, Eq, (cll_tarmi _ _ _ Hs). unfold next_tosmabru. cbn [hd Nat.eqb TOSMABRU]. rewrite Hi. cbn [negb tarmi_eqb last_opt].
          replace (N.eqb c3 c_y) with false; [reflexivity|]. symmetry. apply N.eqb_neq. intros ->. discriminate. }
      eapply IH; [rewrite EP; reflexivity|exact Hcut|exact Hpl'|exact Hlr|exact Hcq|exact Hsr|rewrite Eq; exact Hq|rewrite Eq; reflexivity].
    + (* CVCC *) exfalso. destruct Hd2 as [Hd2|(_ & v2 & u & EP & Hv2)]; [clash|].
      destruct Hnext as [->|(t2 & ->)]; cbn in EP; [discriminate|injection EP as <- _; discriminate].
    + (* CVCCV *) destruct Hd2 as [Hd2|(Hi2 & _)]; [exfalso; clash|]. injection Eq as Eq.
      replace (next_tosmabru TOSMABRU (form_of q) (rafsi_tarmi (p_r q)) c0 (hd 0%N (form_of q))) with (@None nat); [discriminate|].
      unfold form_of. rewrite Eq, (cll_tarmi _ _ _ Hs). unfold next_tosmabru. cbn [hd Nat.eqb TOSMABRU app]. rewrite Hi. cbn [negb tarmi_eqb].
      unfold slice. cbn [skipn firstn Nat.sub]. rewrite Hi2. reflexivity.
  - (* CCVC y *) inversion Hs; subst; bfacts; cbn [concat app] in Ew; injection Ew; intros; subst; try clash.
    match goal with G : c_y :: t = concat P1 |- _ => rename G into EP end.
    destruct (cut_y _ _ _ _ _ _ Hcut (eq_sym EP)) as (P2 & -> & _). injection Eq as Eq.
    assert (Sq : p_suf q = [c_y]).
    { change (filter norn ([c_y] :: P2)) with ([c_y] :: filter norn P2) in Hq. destruct r as [|[g' q'] r']; [discriminate Hq|].
      destruct Hlr as [Hlq _]. destruct Hcq as (_ & Hk & _ & Hcq'). pose proof (cll_list_first _ _ _ Hcq') as Hcq2.
      apply (cvc_y_suffix _ _ _ _ _ _ Hlq Hcq2 Hk); [rewrite Eq; apply (cll_tarmi _ _ _ Hs)|].
      cbn [alt] in Hq. injection Hq as _ Hq. destruct (gap_of q g' q') as [|x gq] eqn:Eg; [|cbn [gp app] in Hq; injection Hq as -> -> _; reflexivity].
      exfalso. cbn [gp app] in Hq. assert (X : p_r q' = [c_y]) by (destruct r' as [|[? ?] ?]; cbn [alt] in Hq; congruence).
      rewrite X in Hcq2. apply cll_len in Hcq2. cbn in Hcq2. lia. }
    replace (next_tosmabru TOSMABRU (form_of q) (rafsi_tarmi (p_r q)) c0 (hd 0%N (form_of q))) with (@None nat); [discriminate|].
    unfold form_of. rewrite Sq, Eq, (cll_tarmi _ _ _ Hs). unfold next_tosmabru. cbn [hd Nat.eqb TOSMABRU app]. rewrite Hi. cbn [negb tarmi_eqb last_opt]. reflexivity.
  - (* CCVCV *) exfalso. inversion Hs; subst; bfacts; cbn [concat app] in Ew; injection Ew; intros; subst; try clash.
    match goal with G : v' :: t = concat P1 |- _ => rename G into EP end. destruct P1 as [|p2 P2]; [discriminate|].
    eapply cut_vowel; [exact Hcut|symmetry; exact EP|exact Hv'].
Qed.

(** ** "to" before the word *)
Lemma pieces_forms : forall st n l ps, pieces st n l ps -> Forall (fun q => cll (allow_mz st) (p_r q)) ps ->
  map fst l = map form_of ps /\ Forall (fun q => forallb is_hy (p_suf q) = true) ps.
Proof.
  induction 1 as [x [[r t] suf] Hp|l ps x [[r t] suf] Hp IH Hx]; intro F.
  - destruct Hp as (_ & E & S & _). cbn [map]. rewrite E. split; [reflexivity|]. constructor; [|constructor]. exact (suffixed_hy _ _ _ _ S).
  - apply Forall_app in F as [F1 F2]. destruct (IH F1) as [E1 G1]. inversion F2 as [|? ? F3 _]; subst. cbn [p_r fst] in F3.
    destruct Hx as (_ & E & S & _). rewrite !map_app, E1. cbn [map]. rewrite E, (cll_prefix _ _ _ F3). split; [reflexivity|].
    apply Forall_app. split; [exact G1|]. constructor; [|constructor]. exact (suffixed_hy _ _ _ _ S).
Qed.

Lemma onset_to_cut : forall rn hy mz ps w a b, is_consonant a = true -> is_vowel b = true -> cut rn hy mz None ps -> onset w -> concat ps = a :: b :: w -> 2 <= length (rafsi_of ps) ->
  exists c P, ps = [a; b; c] :: P /\ w = c :: concat P /\ is_consonant c = true.
Proof.
  intros rn hy mz ps w a b Ha Hb Hp Ho E H2. destruct (onset_first _ Ho) as (x & y & t & -> & Hx & Hyz). destruct ps as [|p P]; [discriminate|].
  destruct Hp as [[(s & Hs & He)|(q & X & _)] _]; [|discriminate]. cbn [concat app] in E.
  inversion Hs; subst; bfacts; cbn [concat app] in E; injection E; intros; subst; try clash.
  - eexists _, P. split; [reflexivity|]. split; [|assumption]. cbn [concat app]. f_equal. symmetry. assumption.
  - destruct Hyz as [Hy|(_ & z & u & Et & Hz)]; [clash|]. destruct He as [->|(t2 & ->)]; cbn [concat app] in *; [subst; discriminate|].
    injection Et as <- _. clash.
  - cbn in H2. lia.
Qed.

Theorem onset_not_lujvo_cv : forall yh cs gl mz w ps a b, is_consonant a = true -> is_vowel b = true -> onset w -> ends_vowel w -> jvk Bound yh cs gl mz (a :: b :: w) <> Ok ps.
Proof.
  intros yh cs gl mz w ps a b Ha Hb Ho Hv J. apply jvk_cll_lujvo in J as (gen & correct & Y).
  pose proof (x_concat _ _ _ _ _ _ _ _ _ Y) as Ep. pose proof (x_cut _ _ _ _ _ _ _ _ _ Y) as Cp.
  destruct (onset_to_cut _ _ _ _ _ _ _ Ha Hb Cp Ho Ep (x_two _ _ _ _ _ _ _ _ _ Y)) as (c & P & -> & Ew & Hc).
  assert (gen = false) as ->.
  { destruct (x_last _ _ _ _ _ _ _ _ _ Y) as (s & l & El & ->). destruct Hv as (l' & El' & Hl'). apply last_opt_some in El' as [s' ->].
    change (a :: b :: s' ++ [l']) with ((a :: b :: s') ++ [l']) in El. apply app_inj_tail in El as [_ <-]. apply v_f0. exact Hl'. }
  destruct (lujvo_without_rn _ _ _ _ _ _ _ _ _ Y) as (Jp & Rp & Eu & _ & _); [apply cvc_not_cvv; exact Hc|].
  pose proof (x_word _ _ _ _ _ _ _ _ _ Y) as Hw. unfold expected_word in Hw. inv_bind Hw. destruct x as [[w' sc] ix]. rename E into He.
  assert (w' = correct). { inv_bind Hw. destruct x; congruence. } subst w'.
  set (ps := [a; b; c] :: P) in *.
  pose proof (cut_rafsi_cll _ _ _ _ _ Cp) as F. pose proof (cut_short _ _ _ _ _ Cp) as S.
  unfold expected_entry in He. inv_bind He. rename x into rll. set (st := mkSettings yh false cs gl mz) in *.
  change (piece_forms (consonants st) (glides st) (rafsi_of ps) = Ok rll) in E.
  rewrite <- (rafsi_list_list_dashed (analyse_brivla Bound) (jvk Bound) st (rafsi_of ps) F) in E.
  destruct (best_word_construction _ _ _ _ _ _ _ _ E He) as (choice & cd & qs & K).
  assert (G : Forall2 (fun r p => p_r p = r /\ p_t p = Tar (rafsi_tarmi r)) (rafsi_of ps) qs).
  { pose proof (k_source _ _ _ _ _ _ _ _ _ _ K) as Hs. clear -Hs F. revert qs Hs.
    induction F as [|r rs Hr F IH]; intros qs Hs; inversion Hs; subst; constructor; [|apply IH; assumption].
    apply source_dashed in H1; [|exact Hr]. exact H1. }
  assert (Em : map p_r qs = rafsi_of ps) by (clear -G; induction G as [|? ? ? ? [? _] G IH]; cbn [map]; congruence).
  assert (F' : Forall (fun q => cll (allow_mz st) (p_r q) /\ kind_of (p_r q) (p_t q)) qs).
  { clear -G F. change mz with (allow_mz st) in F. revert F. induction G as [|r p rs ps' [<- Ht] G IH]; intro F; constructor; inversion F; subst; auto. split; [assumption|]. left. exact Ht. }
  destruct (pieces_forms _ _ _ _ (k_pieces _ _ _ _ _ _ _ _ _ _ K)) as [Efs Hsuf].
  { clear -F'. induction F' as [|? ? [H _]]; constructor; assumption. }
  destruct (chain_linked _ _ _ _ _ (k_chain _ _ _ _ _ _ _ _ _ _ K) (Nat.eq_le_incl _ _ (k_len _ _ _ _ _ _ _ _ _ _ K)) qs (k_pieces _ _ _ _ _ _ _ _ _ _ K))
    as (p & rest & -> & Hr & Hl & Esp).
  assert (Hcl : cll_list (allow_mz st) p rest) by (apply cll_list_of; [exact F'|unfold pc in *; rewrite Em; exact S]).
  assert (Ealt : alt p rest = filter norn ps).
  { apply (cut_unique_all (rn_ok yh) true mz); [refine (alt_cut _ _ _ _ _ _ _ Hl Hcl _); reflexivity| |].
    - apply jvokaha_2_spec in Jp as [_ Jp]. eapply cut_hy. exact Jp.
    - rewrite <- Eu, <- (k_word _ _ _ _ _ _ _ _ _ _ K), Esp. apply alt_concat.
      destruct (k_built _ _ _ _ _ _ _ _ _ _ K) as (w0 & r & t & B). destruct (b_last _ _ _ _ _ _ _ _ B) as (ps' & X & _).
      assert (last (map snd rest) p = (r, t, [])) as Z.
      { transitivity (last (p :: map snd rest) p); [destruct rest; [congruence|reflexivity]|]. unfold pc in *. rewrite X. apply last_last. }
      unfold pc in *. rewrite Z. reflexivity. }
  destruct (chain_tosrun _ _ _ _ _ (k_chain _ _ _ _ _ _ _ _ _ _ K)) as (r0 & rs & tos & Er & Ft & Tr & _).
  rewrite (k_tos _ _ _ _ _ _ _ _ _ _ K) in Tr.
  cbn [map] in Efs. unfold pc in *. rewrite Efs in Er. injection Er as <- <-.
  assert (Hno : norn [a; b; c] = true) by (unfold norn; cbn [str_eqb]; rewrite !andb_false_r; reflexivity).
  unfold ps in Ealt. cbn [filter] in Ealt. rewrite Hno in Ealt.
  assert (Ep1 : p_r p = [a; b; c]) by (destruct rest as [|[? ?] ?]; cbn [alt] in Ealt; congruence).
  assert (Hpl : plain_before (Some [a; b; c])).
  { intros q Q W. injection Q as <-. apply shaped_cvv_tarmi in W. rewrite shaped3_tarmi in W; [discriminate|exact Ha|exact Hb|exact Hc]. }
  destruct Cp as [_ CP].
  assert (Sp : p_suf p = []).
  { destruct (onset_first _ Ho) as (x & y & t & -> & _ & Hyz). injection Ew as -> Ew. destruct P as [|p1 P1]; [discriminate|].
    destruct Hyz as [Hy|(Hi & _)]; [exfalso; eapply cut_vowel; [exact CP|symmetry; exact Ew|exact Hy]|].
    destruct (initial_cons _ _ Hi) as [_ Hy]. destruct (cut_consonant' _ _ _ _ _ _ _ _ CP Hpl (eq_sym Ew) Hy) as (s & Hs & _).
    assert (Hcll : cll mz p1) by (exists s; exact Hs). cbn [filter] in Ealt. rewrite (cll_norn _ _ Hcll) in Ealt.
    destruct rest as [|[g q] r]; [congruence|]. destruct Hl as [Hl _]. rewrite <- Ep1 in Ealt. apply (alt_step _ _ _ _ _ _ _ _ _ _ _ Hl Hcll Ealt). }
  unfold form_of at 1 in Ft. rewrite Sp, app_nil_r, Ep1 in Ft. unfold first_tos in Ft.
  replace (tarmi_ignoring_hyphen [a; b; c]) with CVC in Ft.
  2:{ unfold tarmi_ignoring_hyphen. pose proof (strip_suffix mz [a; b; c] []) as Z. rewrite app_nil_r in Z.
      rewrite Z; [|rewrite <- Ep1; apply (cll_list_first _ _ _ Hcl)|reflexivity]. symmetry. rewrite shaped3_tarmi; [reflexivity|exact Ha|exact Hb|exact Hc]. }
  cbn [tarmi_eqb negb orb idx_last last_opt bind] in Ft. replace (N.eqb c c_y) with false in Ft.
  2:{ symmetry. apply N.eqb_neq. intros ->. discriminate. }
  injection Ft as <-. revert Tr.
  refine (walk _ st _ _ _ w Ho c P [a; b; c] _ p rest Ew CP Hpl Hl Hcl (Forall_inv_tail Hsuf) _ _); [rewrite Ep1; exact Ealt|rewrite Ep1; reflexivity].
Qed.

Corollary onset_not_lujvo : forall yh mz w ps, onset w -> ends_vowel w -> jvk Bound yh CLUSTER false mz (L "to" ++ w) <> Ok ps.
Proof. intros yh mz w ps. apply onset_not_lujvo_cv; reflexivity. Qed.

Theorem onset_passes : forall yh mz w, onset w -> ends_vowel w -> slinkuhi Bound yh mz w = Ok false.
Proof.
  intros yh mz w Ho Hv. destruct (slinkuhi_total yh mz w Hv) as [b Hb]. rewrite Hb. f_equal.
  destruct b; [|reflexivity]. exfalso. unfold slinkuhi, Core.is_slinkuhi in Hb. destruct (onset_first _ Ho) as (c & d & t & -> & Hc & _).
  cbn [idx nth_error bind] in Hb. replace (is_vowel c) with false in Hb by (symmetry; destruct (is_vowel c) eqn:E; [apply v_f0 in E; congruence|reflexivity]).
  destruct (jvk Bound yh CLUSTER false mz (L "to" ++ c :: d :: t)) as [ps|e] eqn:E; [exact (onset_not_lujvo _ _ _ _ Ho Hv E)|].
  destruct e; discriminate.
Qed.

(** ** Assembled words *)
Definition smooth (mz : bool) (q : pc) : Prop :=
  (cll mz (p_r q) /\ kind_of (p_r q) (p_t q))
  \/ exists c v t, p_r q = c :: v :: t /\ is_consonant c = true /\ is_vowel v = true.
Lemma smooth_first : forall mz q, smooth mz q -> exists c t, p_r q = c :: t /\ is_consonant c = true.
Proof.
  intros mz q [[H _]|(c & v & t & H & Hc & _)]; [|eauto]. destruct (cll_first _ _ H) as (a & b & c & t & -> & Ha & _). eauto.
Qed.
Lemma smooth_prefix : forall mz q, smooth mz q -> prefix_of false (p_r q) = [].
Proof.
  intros mz q H. destruct (smooth_first _ _ H) as (c & t & -> & Hc). unfold prefix_of. cbn [hd].
  replace (is_vowel c) with false; [reflexivity|]. symmetry. destruct (is_vowel c) eqn:E; [apply v_f0 in E; congruence|reflexivity].
Qed.

Lemma ends_tail : forall x w, w <> [] -> ends_vowel (x ++ w) -> ends_vowel w.
Proof.
  intros x w H (l & E & Hl). exists l. split; [|exact Hl]. destruct (exists_last H) as (s & d & ->). rewrite last_opt_app.
  rewrite app_assoc, last_opt_app in E. exact E.
Qed.
Lemma spell_ne : forall mz p rest, smooth mz p -> spell p rest <> [].
Proof. intros mz p rest H. destruct (smooth_first _ _ H) as (c & t & E & _). destruct rest as [|[g q] r]; cbn [spell]; rewrite E; discriminate. Qed.

Theorem spell_onset : forall gen st n rest fi p, linked gen st n fi p rest -> Forall (smooth (allow_mz st)) (p :: map snd rest) ->
  p_suf (last (map snd rest) p) = [] -> ends_vowel (spell p rest) -> onset (spell p rest).
Proof.
  intros gen st n. induction rest as [|[g q] r IH]; intros fi p Hl F Hs Hv;
    (inversion F as [|? ? [[[s Hc] Hk]|(c & v & t & Hc & Hc1 & Hc2)] F']; subst; cbn [spell] in *; [|rewrite Hc; constructor; assumption]).
  - cbn in Hs. rewrite Hs, app_nil_r in *. inversion Hc; subst; try match goal with X : _ = p_r p |- _ => rewrite <- X in * end; bfacts; try (constructor; assumption).
    exfalso. destruct Hv as (l & El & Hl'). cbn in El. injection El as <-. clash.
  - destruct Hl as [Hl Hr]. rewrite last_snd in Hs. cbn [snd] in Hs. cbn [map snd] in F'. pose proof (Forall_inv F') as Hq.
    assert (Ho : onset (spell q r)).
    { eapply IH; [exact Hr|exact F'|exact Hs|]. eapply ends_tail; [eapply spell_ne; exact Hq|]. rewrite app_assoc in Hv. exact Hv. }
    pose proof (l_suf _ _ _ _ _ _ _ Hl) as Hsuf. pose proof (l_glued _ _ _ _ _ _ _ Hl) as Hg.
    pose proof (cll_tarmi _ _ _ Hc) as Tm. unfold kind_of in Hk. rewrite Tm in Hk.
    assert (Gap : gap_of p g q = p_suf p ++ g) by (unfold gap_of; rewrite (smooth_prefix _ _ Hq), app_nil_r; reflexivity). rewrite Gap.
    inversion Hc; subst; match goal with X : _ = p_r p |- _ => rewrite <- X in * end; bfacts; cbn [app]; try (constructor; assumption).
    + (* CCV *)
      assert (Et : p_t p = Tar CCV) by (destruct Hk as [X|[[_ [X|X]]|[_ [X|X]]]]; [exact X|discriminate..]).
      rewrite Et in Hsuf. assert (Ncv : fi && cvv_like [c1; c2; v] = false).
      { destruct (cvv_like [c1; c2; v]) eqn:Q; [|apply andb_false_r]. apply cvv_like_spec in Q as (? & ? & ? & [Q|Q] & _ & X & _); [injection Q as <- <- <-|discriminate]. clash. }
      rewrite Ncv in Hg. inversion Hsuf; subst; try (intuition discriminate).
      * match goal with X : [] = p_suf p |- _ => rewrite <- X in Hg end. destruct Hg as [_ -> _|X|_ X|_ X|_ X]; try discriminate. cbn [app]. constructor; assumption.
      * match goal with X : [c_h; c_y] = p_suf p |- _ => idtac end. cbn [app]. constructor; assumption.
    + (* CCVC *)
      assert (Et : p_t p = Tar CCVC \/ p_t p = SHORT_BRIVLA) by (destruct Hk as [X|[[X _]|[_ [X|X]]]]; [auto|auto|discriminate..]).
      inversion Hsuf; subst; try (destruct Et as [Et|Et]; rewrite Et in *; intuition discriminate).
      all: cbn [app]; constructor; assumption.
Qed.
