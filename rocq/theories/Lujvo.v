(** What it means that a word is accepted as a CLL lujvo: its pieces, and how
    it differs from the word the builder makes from the same rafsi. *)
From Verif Require Import Str Data Tarmi Rafsi Core Api Lib Spec Shapes Decomp Basic Vowels Katna Dict Errs Builder Jvokaha Fuel Raises Inv Parts Clusters Forms Chain Score Alt.

(** ** Sources of a literal CLL rafsi *)
Lemma strip_dashed : forall mz p, cll mz p -> strip_char (N.eqb c_dash) (dashed p) = p.
Proof.
  intros mz p [s Hs]. unfold strip_char, dashed.
  inversion Hs; subst; bfacts; cbn [app drop_while rev]; rewrite N.eqb_refl; repeat (use_facts; cbn [app drop_while rev]);
    rewrite ?N.eqb_refl; repeat (use_facts; cbn [app drop_while rev]); reflexivity.
Qed.

Lemma source_dashed : forall lk st p r t, cll (allow_mz st) p -> source lk st (dashed p) r t -> r = p /\ t = Tar (rafsi_tarmi p).
Proof.
  intros lk st p r t Hc H. assert (Hs : strip_char (N.eqb c_dash) (dashed p) = p).
  { eapply strip_dashed. exact Hc. }
  assert (Hl : last_opt (dashed p) = Some c_dash) by (unfold dashed; rewrite app_comm_cons; apply last_opt_app).
  destruct H as [r t ps _ H1|r ps _ _ -> _ _ H1|r _ _ -> _ _ H1|r _ _ ->|r rs H1|r ps H1|t ps H1]; try congruence.
  - exfalso. apply H1. reflexivity.
  - exfalso. apply cll_proper in Hc. rewrite Hs in H1. rewrite H1 in Hc. discriminate.
  - exfalso. apply cll_proper in Hc. rewrite Hs in H1. rewrite H1 in Hc. discriminate.
  - rewrite Hs. auto.
Qed.

(** ** The cut of the word the builder makes from CLL rafsi *)
(** no five-letter rafsi before the end *)
Fixpoint short_before_last (rs : list str) : Prop :=
  match rs with
  | [] => True
  | r :: t => match t with [] => True | _ => long_shape r = false /\ short_before_last t end
  end.

Lemma cut_short : forall rn hy mz ps prev, cut rn hy mz prev ps -> short_before_last (rafsi_of ps).
Proof.
  intros rn hy mz. induction ps as [|p ps IH]; intros prev H; [exact I|]. destruct H as [H G]. pose proof (IH _ G) as IH'.
  destruct H as [(s & Hs & H)|(q & _ & H)].
  - rewrite rafsi_of_first by (assert (cll mz p) as X by (exists s; exact Hs); apply cll_len in X; lia).
    destruct (rafsi_of ps) as [|r rs] eqn:Er; [exact I|]. split; [|exact IH'].
    unfold long_shape. rewrite (cll_tarmi _ _ _ Hs). inversion Hs; subst; try reflexivity; rewrite H in Er; discriminate.
  - unfold rafsi_of. cbn [filter]. replace (2 <? length p) with false; [exact IH'|].
    symmetry. apply Nat.ltb_ge. destruct H as (_ & [->|[[_ ->]|(_ & _ & [[-> _]|[-> _]])]]); cbn; lia.
Qed.

Lemma cll_list_of : forall st rest p, Forall (fun q => cll (allow_mz st) (p_r q) /\ kind_of (p_r q) (p_t q)) (p :: map snd rest) ->
  short_before_last (map p_r (p :: map snd rest)) -> cll_list (allow_mz st) p rest.
Proof.
  intros st. induction rest as [|[g q] r IH]; intros p F H; inversion F as [|? ? [F1 F2] F3]; subst; cbn [cll_list].
  - auto.
  - cbn [map snd] in *. destruct H as [H1 H2]. repeat split; try assumption. apply IH; assumption.
Qed.

(** the pieces of a word: no hyphen at the start or the end, never two in a row;
    [free]: a hyphen may come next *)
Fixpoint alternates (free : bool) (ps : list str) : Prop :=
  match ps with
  | [] => free = true
  | p :: r => if is_hyphen p then free = true /\ alternates false r else alternates true r
  end.

Lemma is_hyphen_spec : forall s, is_hyphen s = true <-> hyphen s.
Proof. intro s. unfold is_hyphen, hyphen. destruct (in_dec _ _ _); split; intro H; auto; try discriminate; contradiction. Qed.
Lemma is_hyphen_first : forall c s, is_consonant c = true -> s <> [] -> is_hyphen (c :: s) = false.
Proof.
  intros c s H Hs. destruct (is_hyphen (c :: s)) eqn:E; [|reflexivity]. apply is_hyphen_spec in E. unfold hyphen in E. cbn in E.
  decompose [or] E; try contradiction; match goal with X : _ = _ :: _ |- _ => injection X as ? ?; subst end; try congruence; try discriminate.
Qed.
Lemma cll_not_hyphen : forall mz r, cll mz r -> is_hyphen r = false.
Proof. intros mz r H. destruct (cll_first _ _ H) as (a & b & c & t & -> & Ha & _). apply is_hyphen_first; [exact Ha|discriminate]. Qed.

Lemma alt_alternates : forall gen st n rest fi p f, linked gen st n fi p rest -> cll_list (allow_mz st) p rest ->
  alternates f (alt p rest).
Proof.
  intros gen st n. induction rest as [|[g q] r IH]; intros fi p f Hl Hc; pose proof (cll_list_first _ _ _ Hc) as Hp; cbn [alt linked cll_list] in *.
  - cbn [alternates]. rewrite (cll_not_hyphen _ _ Hp). reflexivity.
  - destruct Hl as [K Hl]. destruct Hc as (_ & Ht & Hsh & Hc). cbn [alternates]. rewrite (cll_not_hyphen _ _ Hp).
    pose proof (cll_list_first _ _ _ Hc) as Hq.
    destruct (link_gap _ _ _ _ _ _ _ K Hq) as [E|[E|[E|(E1 & _ & _ & _ & [[E _]|[E _]])]]]; try rewrite <- E1; rewrite E;
      cbn [gp app alternates]; try (split; [reflexivity|]); eapply IH; eassumption.
Qed.

(** no piece is the hyphen r or n *)
Definition norn (p : str) : bool := negb (str_eqb p [c_r] || str_eqb p [c_n]).
Lemma cll_norn : forall mz r, cll mz r -> norn r = true.
Proof. intros mz r H. destruct (cll_first _ _ H) as (a & b & c & t & -> & _). unfold norn. cbn [str_eqb]. rewrite !andb_false_r. reflexivity. Qed.
Lemma alt_norn : forall gen st n rest fi p, linked gen st n fi p rest -> cll_list (allow_mz st) p rest ->
  fi && cvv_like (p_r p) = false -> forallb norn (alt p rest) = true.
Proof.
  intros gen st n. induction rest as [|[g q] r IH]; intros fi p Hl Hc Hf; pose proof (cll_list_first _ _ _ Hc) as Hp; cbn [alt linked cll_list] in *.
  - cbn [forallb]. rewrite (cll_norn _ _ Hp). reflexivity.
  - destruct Hl as [K Hl]. destruct Hc as (_ & Ht & Hsh & Hc). cbn [forallb]. rewrite (cll_norn _ _ Hp). cbn [andb].
    pose proof (cll_list_first _ _ _ Hc) as Hq. rewrite forallb_app, (IH _ _ Hl Hc) by reflexivity. rewrite andb_true_r.
    destruct (link_gap _ _ _ _ _ _ _ K Hq) as [E|[E|[E|(E1 & _ & X & _)]]]; [rewrite E; reflexivity..|congruence].
Qed.

Theorem construction_cut_rn : forall lk gen st vs w sc ix choice c ps,
  construction lk gen st vs w sc ix choice c ps ->
  Forall (fun q => cll (allow_mz st) (p_r q) /\ kind_of (p_r q) (p_t q)) ps ->
  short_before_last (map p_r ps) ->
  exists qs, cut (rn_ok (y_hyphens st)) true (allow_mz st) None qs /\ concat qs = w
    /\ rafsi_of qs = map p_r ps /\ alternates false qs /\ (cvv_like (hd [] (map p_r ps)) = false -> forallb norn qs = true).
Proof.
  intros lk gen st vs w sc ix choice c ps K F S.
  destruct (chain_linked _ _ _ _ _ (k_chain _ _ _ _ _ _ _ _ _ _ K) (Nat.eq_le_incl _ _ (k_len _ _ _ _ _ _ _ _ _ _ K)) ps (k_pieces _ _ _ _ _ _ _ _ _ _ K))
    as (p & rest & -> & Hr & Hl & Ew).
  pose proof (cll_list_of _ _ _ F S) as Hc. exists (alt p rest).
  split; [eapply alt_cut; [exact Hl|exact Hc|reflexivity]|]. split; [|split; [|split]].
  - rewrite <- (k_word _ _ _ _ _ _ _ _ _ _ K), Ew. apply alt_concat.
    destruct (k_built _ _ _ _ _ _ _ _ _ _ K) as (w0 & r & t & B). destruct (b_last _ _ _ _ _ _ _ _ B) as (ps' & E & _).
    assert (last (map snd rest) p = (r, t, [])) as X.
    { transitivity (last (p :: map snd rest) p); [destruct rest; [congruence|reflexivity]|]. unfold pc in *. rewrite E. apply last_last. }
    unfold pc in *. rewrite X. reflexivity.
  - eapply alt_rafsi; eassumption.
  - eapply alt_alternates; eassumption.
  - intro X. eapply alt_norn; [exact Hl|exact Hc|exact X].
Qed.

Theorem construction_cut : forall lk gen st vs w sc ix choice c ps,
  construction lk gen st vs w sc ix choice c ps ->
  Forall (fun q => cll (allow_mz st) (p_r q) /\ kind_of (p_r q) (p_t q)) ps ->
  short_before_last (map p_r ps) ->
  exists qs, cut (rn_ok (y_hyphens st)) true (allow_mz st) None qs /\ concat qs = w
    /\ rafsi_of qs = map p_r ps /\ alternates false qs.
Proof.
  intros. destruct (construction_cut_rn _ _ _ _ _ _ _ _ _ _ H H0 H1) as (qs & Q1 & Q2 & Q3 & Q4 & _). exists qs. auto.
Qed.

Theorem expected_cut_rn : forall yh cs gl mz gen rs w sc ix,
  Forall (cll mz) rs -> short_before_last rs ->
  expected_entry yh cs gl mz gen rs = Ok (w, sc, ix) ->
  exists qs, cut (rn_ok yh) true mz None qs /\ concat qs = w /\ rafsi_of qs = rs /\ alternates false qs
    /\ (cvv_like (hd [] rs) = false -> forallb norn qs = true).
Proof.
  intros yh cs gl mz gen rs w sc ix F S H. unfold expected_entry in H. inv_bind H. rename x into rll.
  set (st := mkSettings yh false cs gl mz) in *.
  change (piece_forms (consonants st) (glides st) rs = Ok rll) in E.
  rewrite <- (rafsi_list_list_dashed (analyse_brivla Bound) (jvk Bound) st rs F) in E.
  destruct (best_word_construction _ _ _ _ _ _ _ _ E H) as (choice & c & ps & K).
  assert (G : Forall2 (fun r p => p_r p = r /\ p_t p = Tar (rafsi_tarmi r)) rs ps).
  { pose proof (k_source _ _ _ _ _ _ _ _ _ _ K) as Hs. clear -Hs F. revert ps Hs.
    induction F as [|r rs Hr F IH]; intros ps Hs; inversion Hs; subst; constructor; [|apply IH; assumption].
    apply source_dashed in H1; [|exact Hr]. exact H1. }
  assert (Em : map p_r ps = rs) by (clear -G; induction G as [|? ? ? ? [? _] G IH]; cbn [map]; congruence).
  destruct (construction_cut_rn _ _ _ _ _ _ _ _ _ _ K) as (qs & Q1 & Q2 & Q3 & Q4 & Q5).
  - clear -G F. revert F. induction G as [|r p rs ps [<- Ht] G IH]; intro F; constructor; inversion F; subst; auto. split; [assumption|]. left. exact Ht.
  - unfold pc in *. rewrite Em. exact S.
  - exists qs. unfold pc in *. rewrite Em in Q3, Q5. auto 10.
Qed.

Theorem expected_cut : forall yh cs gl mz gen rs w sc ix,
  Forall (cll mz) rs -> short_before_last rs ->
  expected_entry yh cs gl mz gen rs = Ok (w, sc, ix) ->
  exists qs, cut (rn_ok yh) true mz None qs /\ concat qs = w /\ rafsi_of qs = rs /\ alternates false qs.
Proof.
  intros. destruct (expected_cut_rn _ _ _ _ _ _ _ _ _ H H0 H1) as (qs & Q1 & Q2 & Q3 & Q4 & _). exists qs. auto.
Qed.

(** ** Superfluous r and n *)
(** [drops read corr other]: [other] is [corr] with hyphens r or n added, each
    directly after a rafsi CVV or CV'V; a hyphen after the first rafsi only
    before a rafsi CCV, CCVC or CCVCV.  [read] are the pieces already read. *)
Inductive drops : list str -> list str -> list str -> Prop :=
| drops_end u : drops u [] []
| drops_same u p corr other : drops (u ++ [p]) corr other -> drops u (p :: corr) (p :: other)
| drops_skip u q o p corr other : o = L "r" \/ o = L "n" -> shaped "CVV" q \/ shaped "CV'V" q ->
    (u <> [] \/ shaped "CCV" p \/ shaped "CCVC" p \/ shaped "CCVCV" p) ->
    drops ((u ++ [q]) ++ [o; p]) corr other -> drops (u ++ [q]) (p :: corr) (o :: p :: other).

Lemma tarmi_cvv : forall q, tarmi_in (rafsi_tarmi q) [CVV; CVhV] = true -> shaped "CVV" q \/ shaped "CV'V" q.
Proof.
  intros q H. apply tarmi_in_two in H as [H|H]; [left; apply (rafsi_tarmi_shaped q CVV)|right; apply (rafsi_tarmi_shaped q CVhV)];
    try exact H; discriminate.
Qed.
Lemma tarmi_cc : forall q, tarmi_in (rafsi_tarmi q) [CCVCV; CCVC; CCV] = true -> shaped "CCV" q \/ shaped "CCVC" q \/ shaped "CCVCV" q.
Proof.
  intros q H. destruct (rafsi_tarmi q) eqn:E; try discriminate.
  - right; right. apply (rafsi_tarmi_shaped q CCVCV); [discriminate|exact E].
  - right; left. apply (rafsi_tarmi_shaped q CCVC); [discriminate|exact E].
  - left. apply (rafsi_tarmi_shaped q CCV); [discriminate|exact E].
Qed.

Lemma idxl_ok : forall (l : list str) i x, idxl l i = Ok x -> exists v, skipn i l = x :: v /\ nth_error l i = Some x.
Proof.
  intros l i x H. unfold idxl, idx in H. destruct (nth_error l i) eqn:E; [|discriminate]. injection H as <-.
  exists (skipn (S i) l). split; [|reflexivity]. revert i E. induction l as [|a l IH]; intros [|i] E; try discriminate; cbn in *.
  - injection E as ->. reflexivity.
  - apply IH. exact E.
Qed.
Lemma firstn_snoc : forall (l : list str) i x, nth_error l i = Some x -> firstn (S i) l = firstn i l ++ [x].
Proof.
  induction l as [|a l IH]; intros [|i] x E; try discriminate; cbn in *.
  - injection E as ->. reflexivity.
  - f_equal. apply IH. exact E.
Qed.
Lemma skipn_step : forall (l : list str) i x v, skipn i l = x :: v -> skipn (S i) l = v.
Proof. intros l i x v H. replace (S i) with (1 + i) by reflexivity. rewrite <- skipn_skipn, H. reflexivity. Qed.

Lemma compare_drops : forall corr other i, i <= length other -> compare_loop corr other i = Ok true ->
  drops (firstn i other) corr (skipn i other).
Proof.
  induction corr as [|part corr IH]; intros other i Hi H; cbn [compare_loop] in H; cbv zeta in H.
  - injection H as H. apply Nat.eqb_eq in H. subst i. rewrite skipn_all. constructor.
  - inv_bind H. rename x into o. apply idxl_ok in E as (v & Ev & En).
    assert (Li : i < length other) by (apply nth_error_Some; congruence).
    destruct (str_eqb part o) eqn:Ep.
    + apply str_eqb_eq in Ep. subst o. rewrite Ev. apply drops_same. rewrite <- (firstn_snoc _ _ _ En), <- (skipn_step _ _ _ _ Ev).
      apply IH; [lia|exact H].
    + match type of H with context [if ?b then S i else i] => destruct b eqn:Heqb end.
      * inv_bind H. rename x into o'. dif H; [|discriminate]. apply str_eqb_eq in Heqb0. subst o'.
        apply idxl_ok in E as (v' & Ev' & En'). assert (Li' : S i < length other) by (apply nth_error_Some; congruence).
        repeat (apply andb_t in Heqb; let X := fresh "B" in destruct Heqb as [Heqb X]).
        apply Nat.ltb_lt in Heqb. assert (Ei : exists q, nth_error other (i - 1) = Some q).
        { destruct (nth_error other (i - 1)) eqn:G; [eauto|]. apply nth_error_None in G. lia. }
        destruct Ei as [q Eq]. rewrite (nth_error_nth _ _ _ Eq) in B0. rewrite Nat.add_1_r, (nth_error_nth _ _ _ En') in B.
        assert (Ef : firstn i other = firstn (i - 1) other ++ [q]).
        { rewrite <- (firstn_snoc _ _ _ Eq). f_equal. lia. }
        assert (Es : skipn i other = o :: part :: v').
        { rewrite Ev. f_equal. rewrite <- Ev'. symmetry. eapply skipn_step. exact Ev. }
        rewrite Es, Ef. apply drops_skip.
        -- apply mems_In in B1. destruct B1 as [B1|[B1|[]]]; [left|right]; symmetry; exact B1.
        -- apply tarmi_cvv. exact B0.
        -- apply orb_true_iff in B as [B|B]; [left|right; apply tarmi_cc; exact B].
           apply Nat.ltb_lt in B. intro G. apply (f_equal (@length str)) in G. rewrite firstn_length in G. cbn in G. lia.
        -- rewrite <- Ef. replace (firstn i other ++ [o; part]) with (firstn (S (S i)) other).
           ++ rewrite <- (skipn_step _ _ _ _ Ev'). apply IH; [lia|exact H].
           ++ rewrite (firstn_snoc _ _ _ En'), (firstn_snoc _ _ _ En), <- app_assoc. reflexivity.
      * inv_bind H. rename x into o'. apply idxl_ok in E as (v' & Ev' & En'). replace o' with o in H by congruence. rewrite Ep in H. discriminate.
Qed.

Lemma last_opt_snoc_app : forall (u : list str) q, last_opt (u ++ [q]) = Some q.
Proof. intros. apply last_opt_app. Qed.

(** the state of [alternates] after the pieces [u] *)
Definition free_after (u : list str) : bool := match last_opt u with None => false | Some q => negb (is_hyphen q) end.

Lemma drops_alternates : forall rn hy mz u corr other, drops u corr other -> cut rn hy mz (last_opt u) other ->
  alternates (free_after u) corr -> alternates (free_after u) other.
Proof.
  intros rn hy mz u corr other H. induction H as [u|u p corr other H IH|u q o p corr other Ho Hq Hp H IH]; intros C A.
  - exact A.
  - cbn [alternates cut] in *. destruct C as [_ C]. rewrite <- (last_opt_app _ u p) in C. specialize (IH C).
    unfold free_after in IH. rewrite last_opt_app in IH. destruct (is_hyphen p); cbn [negb] in IH; [destruct A as [A1 A2]; split; [exact A1|]|]; apply IH; assumption.
  - cbn [cut] in C. destruct C as (_ & C1 & C2).
    assert (Hnh : is_hyphen p = false).
    { destruct C1 as [(s & Hs & _)|(q' & E & L1 & _)].
      - eapply cll_not_hyphen. exists s. exact Hs.
      - injection E as <-. exfalso. destruct Ho as [-> | ->]; apply L1; reflexivity. }
    assert (Hnq : is_hyphen q = false).
    { destruct Hq as [Hq|Hq]; inv_shaped Hq; apply is_hyphen_first; try discriminate; assumption. }
    assert (Hho : is_hyphen o = true) by (apply is_hyphen_spec; destruct Ho as [-> | ->]; cbn; auto).
    unfold free_after in *. rewrite last_opt_app, Hnq in *. cbn [negb alternates] in *. rewrite Hho, Hnh in *. split; [reflexivity|].
    replace ((u ++ [q]) ++ [o; p]) with ((u ++ [q; o]) ++ [p]) in IH by (rewrite <- !app_assoc; reflexivity).
    rewrite last_opt_app, Hnh in IH. apply IH; assumption.
Qed.

(** ** What the decomposition of a CLL lujvo is *)
Record cll_lujvo (lk : binding) (yh : yset) (cs : cset) (gl mz : bool) (w : str) (arr : list str) (gen : bool) (correct : str) : Prop := {
  x_concat : concat arr = w;
  x_cut : cut (rn_ok yh) (hy_ok yh) mz None arr;
  x_two : 2 <= length (rafsi_of arr);
  x_last : exists s l, w = s ++ [l] /\ gen = is_consonant l;
  x_word : expected_word lk yh cs gl mz gen (rafsi_of arr) = Ok correct;
  x_force : yh = FORCE_Y -> correct = w;
  x_drops : yh <> FORCE_Y -> exists corr, jvokaha_2 yh mz correct = Ok corr /\ drops [] corr arr;
  x_alt : alternates false arr
}.

Theorem jvk_cll_lujvo : forall lk yh cs gl mz w arr, jvk lk yh cs gl mz w = Ok arr ->
  exists gen correct, cll_lujvo lk yh cs gl mz w arr gen correct.
Proof.
  intros lk yh cs gl mz w arr H. rewrite jvk_eq in H. inv_bind H. rename x into arr0. dif H; [discriminate|].
  inv_bind H. inv_bind H. inv_bind H. inv_bind H. dif H; [|discriminate]. injection H as ->.
  apply jvokaha_2_spec in E as [Ec Ecut].
  rename x into piece, x0 into l, x1 into correct, x2 into good.
  apply idx_last_ok in E0 as [arr' Earr]. apply idx_last_ok in E1 as [piece' Ep].
  assert (Hw : expected_word lk yh cs gl mz (is_consonant l) (rafsi_of arr) = Ok correct).
  { destruct (expected_word _ _ _ _ _ _ _) as [x|[]]; try discriminate; exact E2. }
  assert (Hentry : exists sc ix, expected_entry yh cs gl mz (is_consonant l) (rafsi_of arr) = Ok (correct, sc, ix)).
  { unfold expected_word in Hw. inv_bind Hw. destruct x as [[w' sc] ix]. exists sc, ix. destruct (is_consonant l); [injection Hw as ->; assumption|].
    destruct lk; [discriminate|]. inv_bind Hw. dif Hw; [discriminate|injection Hw as ->; assumption]. }
  destruct Hentry as (sc & ix & He).
  destruct (expected_cut _ _ _ _ _ _ _ _ _ (cut_rafsi_cll _ _ _ _ _ Ecut) (cut_short _ _ _ _ _ Ecut) He) as (qs & Q1 & Q2 & Q3 & Q4).
  exists (is_consonant l), correct. split; try assumption.
  - eapply expected_nonempty. exact He.
  - exists (concat arr' ++ piece'), l. split; [|reflexivity]. rewrite <- Ec, Earr, concat_app, Ep. cbn. rewrite app_nil_r, app_assoc. reflexivity.
  - intros ->. cbn in E3. injection E3 as E3. apply str_eqb_eq. congruence.
  - intro N. replace (yset_eqb yh FORCE_Y) with false in E3 by (destruct yh; try reflexivity; congruence).
    inv_bind E3. rename x into corr. exists corr. split; [exact E|]. subst good. apply compare_drops in E3; [exact E3|lia].
  - destruct (yset_eqb yh FORCE_Y) eqn:EF.
    + assert (correct = w) by (injection E3 as E3; apply str_eqb_eq; congruence).
      replace arr with qs; [exact Q4|]. apply (cut_unique_all (rn_ok yh) true mz); try assumption; [apply cut_hy in Ecut; exact Ecut|congruence].
    + inv_bind E3. rename x into corr. subst good. apply compare_drops in E3; [|lia]. apply jvokaha_2_spec in E as [Ec' Ecut'].
      assert (corr = qs). { apply (cut_unique_all (rn_ok yh) true mz); try assumption; [apply cut_hy in Ecut'; exact Ecut'|congruence]. }
      subst corr. apply (drops_alternates _ _ _ _ _ _ E3 Ecut Q4).
Qed.

(** ** The converse *)
Lemma shaped_cvv_tarmi : forall q, shaped "CVV" q \/ shaped "CV'V" q -> tarmi_in (rafsi_tarmi q) [CVV; CVhV] = true.
Proof.
  intros q [H|H]; [rewrite (proj2 (rafsi_tarmi_spec q CVV ltac:(discriminate)) H)|rewrite (proj2 (rafsi_tarmi_spec q CVhV ltac:(discriminate)) H)]; reflexivity.
Qed.
Lemma shaped_cc_tarmi : forall q, shaped "CCV" q \/ shaped "CCVC" q \/ shaped "CCVCV" q -> tarmi_in (rafsi_tarmi q) [CCVCV; CCVC; CCV] = true.
Proof.
  intros q [H|[H|H]]; [rewrite (proj2 (rafsi_tarmi_spec q CCV ltac:(discriminate)) H)|rewrite (proj2 (rafsi_tarmi_spec q CCVC ltac:(discriminate)) H)
    |rewrite (proj2 (rafsi_tarmi_spec q CCVCV ltac:(discriminate)) H)]; reflexivity.
Qed.
Lemma idxl_mid : forall (u : list str) x v, idxl (u ++ x :: v) (length u) = Ok x.
Proof. intros. unfold idxl. rewrite nth_error_app2, Nat.sub_diag by lia. reflexivity. Qed.
Lemma drops_compare : forall u corr other, drops u corr other -> forall rn hy mz, cut rn hy mz (last_opt u) other ->
  compare_loop corr (u ++ other) (length u) = Ok true.
Proof.
  intros u corr other H. induction H as [u|u p corr other H IH|u q o p corr other Ho Hq Hp H IH]; intros rn hy mz C; cbn [compare_loop]; cbv zeta.
  - rewrite app_nil_r, Nat.eqb_refl. reflexivity.
  - rewrite idxl_mid. cbn [bind]. rewrite str_eqb_refl. destruct C as [_ C]. rewrite <- (last_opt_app _ u p) in C. specialize (IH _ _ _ C).
    rewrite app_length, <- app_assoc in IH. cbn [length app] in IH. rewrite Nat.add_1_r in IH. exact IH.
  - rewrite idxl_mid. cbn [bind]. cbn [cut] in C. destruct C as (_ & C1 & C2).
    assert (Hpl : 3 <= length p).
    { destruct C1 as [(s & Hs & _)|(q' & E & L1 & _)].
      - eapply (cll_len mz). exists s. exact Hs.
      - injection E as <-. exfalso. destruct Ho as [-> | ->]; apply L1; reflexivity. }
    assert (Hpo : str_eqb p o = false) by (apply str_eqb_neq; intros ->; destruct Ho as [-> | ->]; cbn in Hpl; lia).
    rewrite Hpo.
    assert (Hlen : length (u ++ [q]) = S (length u)) by (rewrite app_length; cbn; lia).
    match goal with |- context [if ?b then S _ else _] => assert (Hb : b = true) end.
    { rewrite !andb_true_iff. repeat split.
      - apply Nat.ltb_lt. lia.
      - apply Nat.ltb_lt. rewrite (app_length (u ++ [q])). cbn [length]. lia.
      - apply mems_In. destruct Ho as [-> | ->]; cbn; auto.
      - rewrite Hlen. cbn [Nat.sub]. rewrite Nat.sub_0_r, <- app_assoc. rewrite app_nth2, Nat.sub_diag by lia. cbn. apply shaped_cvv_tarmi. exact Hq.
      - apply orb_true_iff. destruct Hp as [Hp|Hp].
        + left. apply Nat.ltb_lt. rewrite Hlen. destruct u; [congruence|cbn; lia].
        + right. rewrite app_nth2 by lia. replace (length (u ++ [q]) + 1 - length (u ++ [q])) with 1 by lia. cbn. apply shaped_cc_tarmi. exact Hp. }
    rewrite Hb. clear Hb.
    replace ((u ++ [q]) ++ o :: p :: other) with (((u ++ [q]) ++ [o]) ++ p :: other) by (rewrite <- !app_assoc; reflexivity).
    replace (S (length (u ++ [q]))) with (length ((u ++ [q]) ++ [o])) at 1 by (rewrite (app_length _ [o]); cbn; lia).
    rewrite idxl_mid. cbn [bind]. rewrite str_eqb_refl.
    replace ((u ++ [q]) ++ [o; p]) with (((u ++ [q]) ++ [o]) ++ [p]) in IH by (rewrite <- !app_assoc; reflexivity).
    rewrite last_opt_app in IH. specialize (IH _ _ _ C2). rewrite <- app_assoc in IH. cbn [app] in IH.
    replace (S (S (length (u ++ [q])))) with (length (((u ++ [q]) ++ [o]) ++ [p])) by (rewrite !app_length; cbn; lia). exact IH.
Qed.

Theorem cll_lujvo_jvk : forall lk yh cs gl mz w arr gen correct,
  cll_lujvo lk yh cs gl mz w arr gen correct -> jvk lk yh cs gl mz w = Ok arr.
Proof.
  intros lk yh cs gl mz w arr gen correct X. rewrite jvk_eq.
  rewrite (proj2 (jvokaha_2_spec yh mz w arr) (conj (x_concat _ _ _ _ _ _ _ _ _ X) (x_cut _ _ _ _ _ _ _ _ _ X))). cbn [bind].
  destruct (length (rafsi_of arr) =? 1) eqn:E1; [apply Nat.eqb_eq in E1; pose proof (x_two _ _ _ _ _ _ _ _ _ X); lia|].
  destruct (x_last _ _ _ _ _ _ _ _ _ X) as (s & l & Ew & Eg).
  assert (Hne : arr <> []) by (intros ->; pose proof (x_two _ _ _ _ _ _ _ _ _ X) as G; cbn in G; lia).
  destruct arr as [|piece arr' _] using rev_ind; [congruence|]. rewrite idx_last_app. cbn [bind].
  assert (Hpl : exists s', piece = s' ++ [l]).
  { pose proof (x_concat _ _ _ _ _ _ _ _ _ X) as Ec. rewrite Ew, concat_app in Ec. cbn [concat] in Ec. rewrite app_nil_r in Ec.
    assert (Hp : piece <> []).
    { pose proof (x_cut _ _ _ _ _ _ _ _ _ X) as C. clear -C. revert C. generalize (@None str).
      induction arr' as [|x arr' IH]; intros prev C; [eapply cut_nonnil; exact C|]. cbn [app cut] in C. destruct C as [_ C]. eapply IH. exact C. }
    destruct piece as [|x y _] using rev_ind; [congruence|]. rewrite app_assoc in Ec. apply app_inj_tail in Ec as [_ ->]. eauto. }
  destruct Hpl as [s' ->]. rewrite idx_last_app. cbn [bind]. rewrite <- Eg.
  rewrite (x_word _ _ _ _ _ _ _ _ _ X). cbn [bind]. destruct (yset_eqb yh FORCE_Y) eqn:EF.
  - assert (yh = FORCE_Y) by (destruct yh; try discriminate; reflexivity). rewrite (x_force _ _ _ _ _ _ _ _ _ X H), str_eqb_refl. reflexivity.
  - destruct (x_drops _ _ _ _ _ _ _ _ _ X) as (corr & E & D); [intros ->; discriminate|]. rewrite E. cbn [bind].
    unfold compare_lujvo_pieces. pose proof (drops_compare _ _ _ D _ _ _ (x_cut _ _ _ _ _ _ _ _ _ X)) as G. cbn [app length] in G. rewrite G. reflexivity.
Qed.
