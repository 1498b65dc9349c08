(** A word assembled from CLL rafsi is cut back into exactly those rafsi, with
    the hyphens between them. *)
From Verif Require Import Str Data Tarmi Rafsi Core Api Lib Spec Shapes Decomp Basic Vowels Katna Dict Errs Builder Jvokaha Fuel Raises Inv Parts Clusters Forms Chain Score.

Definition pc := (str * rtype * str)%type.
Definition p_r (p : pc) : str := fst (fst p).
Definition p_t (p : pc) : rtype := snd (fst p).
Definition p_suf (p : pc) : str := snd p.

(** ** What is known about two neighbours, [gl] being the hyphen put in by the builder *)
Record link (gen : bool) (st : settings) (n : nat) (fi : bool) (p : pc) (gl : str) (q : pc) : Prop := {
  l_usable : usable (allow_mz st) (p_r p) (p_t p);
  l_suf : suffixed fi false (p_t p) (p_suf p);
  l_usable' : usable (allow_mz st) (p_r q) (p_t q);
  l_glued : glued gen (y_hyphens st) n (fi && cvv_like (p_r p)) (p_suf p) (p_r q) gl;
  l_gap : gap_ok (p_suf p ++ gl ++ prefix_of false (p_r q));
  l_bare : p_suf p = [] -> prefix_of false (p_r q) = [] /\ rafsi_tarmi (p_r q) <> OTHER_RAFSI;
  l_pair : p_suf p = [] -> gl = [] -> forall a b, last (p_r p) 0%N = a -> hd 0%N (p_r q) = b ->
        (is_consonant a = true -> is_consonant b = true -> permissible (allow_mz st) a b)
        /\ (forall b' d s, p_r q ++ p_suf q = b' :: d :: s -> ~ forbidden_triple a b' d);
  l_ccv : fi = true -> rafsi_tarmi (p_r p) = CCV -> p_suf p <> [c_h; c_y];
  l_std : p_suf p = [c_h] -> prefix_of false (p_r q) = [c_h] \/ y_hyphens st <> STANDARD
}.

(** the pieces after the first, each with the hyphen before it *)
Fixpoint linked (gen : bool) (st : settings) (n : nat) (fi : bool) (p : pc) (rest : list (str * pc)) : Prop :=
  match rest with
  | [] => True
  | (g, q) :: r => link gen st n fi p g q /\ linked gen st n false q r
  end.

Lemma last_default : forall A (l : list A) d d', l <> [] -> last l d = last l d'.
Proof. induction l as [|a [|b l] IH]; intros d d' H; [congruence|reflexivity|]. apply (IH d d'). discriminate. Qed.
Lemma last_snd : forall (r : list (str * pc)) x p, last (map snd (x :: r)) p = last (map snd r) (snd x).
Proof.
  intros [|y r] x p; [reflexivity|]. change (last (map snd (x :: y :: r)) p) with (last (map snd (y :: r)) p).
  apply last_default. discriminate.
Qed.
Lemma linked_snoc : forall gen st n rest fi p g q, linked gen st n fi p rest ->
  link gen st n (match rest with [] => fi | _ => false end) (last (map snd rest) p) g q ->
  linked gen st n fi p (rest ++ [(g, q)]).
Proof.
  induction rest as [|[g' q'] r IH]; intros fi p g q H G; cbn [app linked] in *.
  - auto.
  - destruct H as [H1 H2]. split; [exact H1|]. apply IH; [exact H2|]. rewrite last_snd in G. destruct r; exact G.
Qed.

Definition gap_of (p : pc) (g : str) (q : pc) : str := p_suf p ++ g ++ prefix_of false (p_r q).
Fixpoint spell (p : pc) (rest : list (str * pc)) : str :=
  match rest with
  | [] => p_r p ++ p_suf p
  | (g, q) :: r => p_r p ++ gap_of p g q ++ spell q r
  end.

Lemma spell_snoc : forall rest p g q, spell p (rest ++ [(g, q)]) = spell p rest ++ g ++ prefix_of false (p_r q) ++ p_r q ++ p_suf q.
Proof.
  induction rest as [|[g' q'] r IH]; intros p g q; cbn [app spell].
  - unfold gap_of. rewrite <- !app_assoc. reflexivity.
  - rewrite IH, <- !app_assoc. reflexivity.
Qed.
Lemma last_snoc : forall A (l : list A) x d, last (l ++ [x]) d = x.
Proof. intros. apply last_last. Qed.

Lemma glue_facts : forall w r wc rc sc ix tos gen n st c,
  combine w r wc rc sc ix tos gen n st = Ok (Some c) ->
  (last w 0%N = c_h -> hd 0%N r = c_h \/ y_hyphens st <> STANDARD)
  /\ (forall r0, length r0 = 3 -> rafsi_tarmi r0 = CCV -> w <> r0 ++ [c_h; c_y]).
Proof.
  intros w r wc rc sc ix tos gen n st c H. apply combine_word in H as (hy & i & W1 & W2 & W3 & W4 & _). unfold glue in W4. split.
  - intro E. rewrite E in W4. cbn [N.eqb] in W4. change (N.eqb c_h c_h) with true in W4. cbv iota in W4.
    dif W4; [|discriminate]. apply orb_true_iff in Heqb as [G|G]; [left; apply N.eqb_eq in G; exact G|right].
    intro Q. rewrite Q in G. discriminate.
  - intros r0 L3 Et ->. destruct r0 as [|a [|b [|d [|]]]]; try discriminate. cbn [app last length] in W4.
    change (N.eqb c_y c_h) with false in W4. cbn [Nat.eqb andb firstn skipn] in W4. rewrite Et in W4. discriminate.
Qed.

(** where the rafsi stand *)
Fixpoint spots (off : nat) (p : pc) (rest : list (str * pc)) : list (nat * nat) :=
  (off, off + length (p_r p)) :: match rest with
  | [] => []
  | (g, q) :: r => spots (off + length (p_r p) + length (gap_of p g q)) q r
  end.
Lemma spots_snoc : forall rest off p g q, spots off p (rest ++ [(g, q)]) =
  spots off p rest ++ [(off + length (spell p rest) + length g + length (prefix_of false (p_r q)),
    off + length (spell p rest) + length g + length (prefix_of false (p_r q)) + length (p_r q))].
Proof.
  induction rest as [|[g' q'] r IH]; intros off p g q; cbn [app spots spell].
  - unfold gap_of. rewrite !app_length. do 2 f_equal. f_equal; lia.
  - rewrite IH. cbn [app]. f_equal. f_equal. rewrite !app_length. do 2 f_equal; lia.
Qed.

Theorem chain_linked_spots : forall gen st n choice c, chain gen st n choice c -> length choice <= n ->
  forall ps, pieces st n choice ps ->
  exists p rest, ps = p :: map snd rest /\ rest <> [] /\ linked gen st n true p rest /\ c_word c = spell p rest /\ c_idx c = spots 0 p rest.
Proof.
  intros gen st n choice c H. induction H as [f0 n0 f1 n1 tos c H1 H2 | l c f k c' Hc IH H]; intros Hn ps Hps.
  - cbn [length] in *. apply pieces_two_inv in Hps as ([[r0 t0] suf0] & [[r1 t1] suf1] & -> & P0 & P1).
    assert (E0 : (0 =? n - 1) = false) by (apply Nat.eqb_neq; lia). rewrite E0 in P0.
    destruct (join_first st gen n (f0, n0) (f1, n1) _ _ _ _ _ _ _ _ _ P0 P1 H2) as (gl & J1 & J2 & J3 & J4 & J5 & J6 & J7 & _).
    destruct (glue_facts _ _ _ _ _ _ _ _ _ _ _ H2) as [Q1 Q2].
    pose proof P0 as (U0 & F0 & S0 & K0). pose proof P1 as (U1 & F1 & S1 & K1). cbn [fst prefix_of app] in F0. cbn [fst] in F1.
    exists (r0, t0, suf0), [(gl, (r1, t1, suf1))]. split; [reflexivity|]. split; [discriminate|]. split; [split; [|exact I]; split|split];
      cbn [p_suf p_r p_t fst snd andb] in *; try assumption.
    + intros Hs Hg a b Ea Eb. destruct (J7 Hs Hg) as (a' & b' & Ea' & Eb' & G & G').
      rewrite Hs, app_nil_r in Ea'. rewrite Ea in Ea'. rewrite Eb in Eb'. subst a' b'. auto.
    + intros _ Et Es. apply (Q2 r0); [|exact Et|rewrite F0, Es; reflexivity].
      apply tarmi_CCV in Et as (x & y & z & -> & _). reflexivity.
    + intro Es. destruct Q1 as [G|G]; [| |right; exact G].
      * rewrite F0, Es. apply last_last.
      * left. rewrite F1 in G. destruct (prefix_cases false r1) as [E|[E _]]; [|exact E]. rewrite E in G. cbn [app] in G.
        destruct (u_first _ _ _ U1) as (a & s & Ea & Ha). rewrite Ea in G. cbn in G. subst a. discriminate.
    + cbn [spell gap_of p_r p_suf fst snd]. unfold gap_of. cbn [p_r p_suf fst snd]. rewrite J1, <- !app_assoc. reflexivity.
    + rewrite J2. cbn [spots p_r p_suf fst snd]. unfold gap_of. cbn [p_r p_suf fst snd]. rewrite !app_length. cbn [app]. do 2 f_equal. f_equal; lia.
  - rewrite app_length in Hn. cbn [length] in Hn.
    assert (Hl : l <> []) by (pose proof (chain_length _ _ _ _ _ Hc); destruct l; [cbn in *; lia|discriminate]).
    apply pieces_snoc_inv in Hps as (ps0 & [[r1 t1] suf1] & -> & Hps & P1); [|exact Hl].
    destruct (IH ltac:(lia) ps0 Hps) as (p & rest & Eps & Hr & Hlk & Ew & Ei).
    destruct (chain_built _ _ _ _ _ Hc ltac:(lia) ps0 Hps) as (w0 & r & t & tail & B).
    assert (El : (length l =? n) = false) by (apply Nat.eqb_neq; lia). rewrite El in B.
    destruct (join_next _ _ _ _ _ _ _ _ _ _ _ _ _ _ B P1 H) as (gl & J & Jt & Jg).
    destruct J as (J1 & J2 & J3 & J4 & J5 & J6 & J7 & _).
    exists p, (rest ++ [(gl, (r1, t1, suf1))]). split; [rewrite Eps, map_app; reflexivity|]. split; [destruct rest; discriminate|].
    destruct (b_last _ _ _ _ _ _ _ _ B) as (ps' & Eps' & _).
    assert (Elast : last (map snd rest) p = (r, t, tail)).
    { rewrite Eps in Eps'. transitivity (last (p :: map snd rest) p); [destruct rest; [congruence|reflexivity]|]. rewrite Eps'. apply last_snoc. }
    split; [|split].
    + apply linked_snoc; [exact Hlk|]. unfold pc in *. rewrite Elast. replace (match rest with [] => true | _ => false end) with false by (destruct rest; [congruence|reflexivity]).
      pose proof P1 as (U1 & F1 & S1 & K1).
      split; cbn [p_suf p_r p_t fst snd andb]; try assumption.
      * apply (b_usable _ _ _ _ _ _ _ _ B).
      * apply (b_suffix _ _ _ _ _ _ _ _ B).
      * destruct J4; try discriminate; [apply glued_none|apply glued_y]; try assumption. discriminate.
      * intros Et Eg a b Ea Eb. destruct (J7 Et Eg) as (a' & b' & Ea' & Eb' & G1 & G2).
        assert (a' = a).
        { rewrite <- Ea', <- Ea, (b_word _ _ _ _ _ _ _ _ B), Et, app_nil_r.
          destruct (u_last _ _ _ (b_usable _ _ _ _ _ _ _ _ B)) as (s & d & -> & _). rewrite app_assoc, !last_last. reflexivity. }
        rewrite Eb in Eb'. subst b'. rewrite H0 in G1, G2. auto.
      * discriminate.
      * intro Et. pose proof (suffixed_cases _ _ _ _ (b_suffix _ _ _ _ _ _ _ _ B)) as [E|[E|[E|[_ E]]]]; subst; discriminate.
    + rewrite spell_snoc, <- Ew. cbn [p_r p_suf fst snd]. exact J1.
    + rewrite spots_snoc, <- Ei, <- Ew, J2. cbn [p_r fst snd Nat.add]. reflexivity.
Qed.
Theorem chain_linked : forall gen st n choice c, chain gen st n choice c -> length choice <= n ->
  forall ps, pieces st n choice ps ->
  exists p rest, ps = p :: map snd rest /\ rest <> [] /\ linked gen st n true p rest /\ c_word c = spell p rest.
Proof. intros gen st n choice c H Hn ps Hp. destruct (chain_linked_spots _ _ _ _ _ H Hn ps Hp) as (p & rest & H1 & H2 & H3 & H4 & _). exists p, rest. auto. Qed.

(** ** The cut of a word made of CLL rafsi *)
Definition gp (g : str) : list str := match g with [] => [] | _ => [g] end.
Fixpoint alt (p : pc) (rest : list (str * pc)) : list str :=
  match rest with
  | [] => [p_r p]
  | (g, q) :: r => p_r p :: gp (gap_of p g q) ++ alt q r
  end.

Lemma concat_gp : forall g, concat (gp g) = g.
Proof. intros [|c g]; [reflexivity|]. cbn. rewrite app_nil_r. reflexivity. Qed.
Lemma alt_concat : forall rest p, p_suf (last (map snd rest) p) = [] -> concat (alt p rest) = spell p rest.
Proof.
  induction rest as [|[g q] r IH]; intros p H; cbn [alt spell concat].
  - cbn in H. rewrite H, !app_nil_r. reflexivity.
  - rewrite concat_app, concat_gp, IH; [reflexivity|]. rewrite last_snd in H. exact H.
Qed.

Definition long_shape (r : str) : bool := tarmi_in (rafsi_tarmi r) [CVCCV; CCVCV].
(** the kind under which a form of a CLL rafsi is made *)
Definition kind_of (r : str) (t : rtype) : Prop :=
  t = Tar (rafsi_tarmi r)
  \/ (t = SHORT_BRIVLA /\ (rafsi_tarmi r = CVCC \/ rafsi_tarmi r = CCVC))
  \/ (t = LONG_BRIVLA /\ (rafsi_tarmi r = CVCCV \/ rafsi_tarmi r = CCVCV)).
(** all CLL rafsi; the five-letter ones only at the end *)
Fixpoint cll_list (mz : bool) (p : pc) (rest : list (str * pc)) : Prop :=
  cll mz (p_r p) /\ kind_of (p_r p) (p_t p)
  /\ match rest with [] => True | (_, q) :: r => long_shape (p_r p) = false /\ cll_list mz q r end.

Lemma cll_first : forall mz r, cll mz r -> exists a b c t, r = a :: b :: c :: t /\ is_consonant a = true
  /\ (is_vowel b = true \/ (is_consonant b = true /\ mems [a; b] INITIAL = true /\ is_vowel c = true)).
Proof. intros mz r [s H]. eapply cll_rafsi_head. exact H. Qed.
Lemma cll_prefix : forall mz fi r, cll mz r -> prefix_of fi r = [].
Proof.
  intros mz fi r H. destruct (cll_first _ _ H) as (a & b & c & t & -> & Ha & _). unfold prefix_of. destruct fi; [reflexivity|]. cbn [hd].
  rewrite (k_f0 _ Ha). reflexivity.
Qed.

Lemma cll_list_first : forall mz p rest, cll_list mz p rest -> cll mz (p_r p).
Proof. intros mz p [|[g q] r] H; apply H. Qed.

Lemma alt_head : forall p rest, exists s, concat (alt p rest) = p_r p ++ s.
Proof. intros p [|[g q] r]; cbn [alt concat]; eexists; reflexivity. Qed.

(** the gaps that occur between CLL rafsi *)
Lemma link_gap : forall gen st n fi p g q, link gen st n fi p g q ->
  cll (allow_mz st) (p_r q) ->
  gap_of p g q = [] \/ gap_of p g q = [c_y] \/ gap_of p g q = [c_h; c_y]
  \/ (g = gap_of p g q /\ p_suf p = [] /\ fi && cvv_like (p_r p) = true /\ y_hyphens st <> FORCE_Y
      /\ (g = [c_n] /\ hd 0%N (p_r q) = c_r \/ g = [c_r] /\ hd 0%N (p_r q) <> c_r)).
Proof.
  intros gen st n fi p g q K Hq. unfold gap_of. rewrite (cll_prefix _ false _ Hq), app_nil_r.
  pose proof (l_glued _ _ _ _ _ _ _ K) as G. pose proof (suffixed_cases _ _ _ _ (l_suf _ _ _ _ _ _ _ K)) as S.
  destruct G as [G1 G2 G3|G1 G2|G1 G2 G3 G4 G5 G6|G1 G2 G3 G4 G5 G6 G7|G1 G2 G3 G4 G5 G6 G7]; subst g; rewrite ?G1; cbn [app]; rewrite ?app_nil_r; auto.
  - destruct S as [S|[S|[S|[S _]]]]; auto. congruence.
  - right; right; right. repeat split; auto.
  - right; right; right. repeat split; auto.
Qed.

Lemma cvv_shaped : forall s, cvv_like s = true -> shaped "CVV" s \/ shaped "CV'V" s.
Proof.
  intros s H. apply cvv_like_spec in H as (c & v1 & v2 & [->| ->] & Hc & H1 & H2); [left|right];
    repeat (apply Forall2_cons; [first [apply is_consonant_spec; assumption|apply is_vowel_spec; assumption|reflexivity]|]); apply Forall2_nil.
Qed.
Lemma cvv_tarmi : forall mz s r, cll_rafsi mz s r -> cvv_like r = true -> s = "CVV"%string \/ s = "CV'V"%string.
Proof.
  intros mz s r H C. unfold cvv_like in C. rewrite (cll_tarmi _ _ _ H) in C. inversion H; subst; auto; discriminate.
Qed.

Lemma cll_len : forall mz r, cll mz r -> 3 <= length r.
Proof. intros mz r H. destruct (cll_first _ _ H) as (a & b & c & t & -> & _). cbn. lia. Qed.

Lemma concat_alt_head : forall mz p rest, cll_list mz p rest -> exists a b c t, concat (alt p rest) = a :: b :: c :: t
  /\ is_consonant a = true /\ p_r p = a :: b :: c :: firstn (length (p_r p) - 3) t.
Proof.
  intros mz p rest H. apply cll_list_first in H. destruct (cll_first _ _ H) as (a & b & c & t & E & Ha & _).
  destruct (alt_head p rest) as (s & Es). rewrite Es, E. exists a, b, c, (t ++ s). split; [reflexivity|]. split; [exact Ha|].
  cbn [length Nat.sub]. do 3 f_equal. rewrite Nat.sub_0_r, firstn_app, Nat.sub_diag, firstn_all. cbn. rewrite app_nil_r. reflexivity.
Qed.

(** a hyphen between two CLL rafsi may stand where it is *)
Lemma link_hyphen : forall gen st n fi p g q rest, link gen st n fi p g q -> cll (allow_mz st) (p_r p) ->
  cll_list (allow_mz st) q rest -> gap_of p g q <> [] ->
  placed_hyphen (rn_ok (y_hyphens st)) true (p_r p) (gap_of p g q) (alt q rest).
Proof.
  intros gen st n fi p g q rest K Hp Hql Hg. pose proof (cll_list_first _ _ _ Hql) as Hq.
  split; [apply cll_len in Hp; lia|].
  destruct (link_gap _ _ _ _ _ _ _ K Hq) as [E|[E|[E|(E1 & E2 & E3 & E4 & E5)]]].
  - congruence.
  - left. exact E.
  - right; left. split; [reflexivity|exact E].
  - right; right. split; [unfold rn_ok; destruct (y_hyphens st); try reflexivity; congruence|]. apply andb_t in E3 as [_ E3].
    split; [apply cvv_shaped; exact E3|]. rewrite <- E1.
    destruct (concat_alt_head _ _ _ Hql) as (qa & qb & qc & qt & Eq & Hqa & Eqr). rewrite Eqr in E5. cbn [hd] in E5.
    destruct E5 as [[-> ->]|[-> E5]]; [left|right]; split; try reflexivity.
    + rewrite Eq. eexists. reflexivity.
    + rewrite Eq. exists qa, (qb :: qc :: qt). split; [reflexivity|]. split; [apply is_consonant_spec; exact Hqa|]. intro G. injection G as G. apply E5. exact G.
Qed.

Lemma gp_cons : forall g, g <> [] -> gp g = [g].
Proof. intros [|c g] H; [congruence|reflexivity]. Qed.

(** a CLL rafsi that is not the last may stand where it is *)
Lemma link_rafsi : forall gen st n fi p g q rest, link gen st n fi p g q ->
  cll (allow_mz st) (p_r p) -> kind_of (p_r p) (p_t p) -> long_shape (p_r p) = false ->
  cll_list (allow_mz st) q rest ->
  placed_rafsi (allow_mz st) fi (p_r p) (gp (gap_of p g q) ++ alt q rest).
Proof.
  intros gen st n fi p g q rest K Hp Ht Hl Hql. pose proof (cll_list_first _ _ _ Hql) as Hq.
  destruct (concat_alt_head _ _ _ Hql) as (qa & qb & qc & qt & Eq & Hqa & Eqr).
  pose proof (link_gap _ _ _ _ _ _ _ K Hq) as HG. pose proof (l_suf _ _ _ _ _ _ _ K) as SF. pose proof (l_glued _ _ _ _ _ _ _ K) as GL.
  assert (Hpre : prefix_of false (p_r q) = []) by (eapply cll_prefix; exact Hq).
  destruct Hp as [s Hs]. exists s. split; [exact Hs|]. pose proof (cll_tarmi _ _ _ Hs) as Tm. unfold kind_of in Ht. rewrite Tm in Ht. unfold long_shape in Hl. rewrite Tm in Hl.
  assert (Hcv : cvv_like (p_r p) = tarmi_in (rafsi_tarmi (p_r p)) [CVhV; CVV]) by reflexivity. rewrite Tm in Hcv.
  inversion Hs as [c1 v c2 H1 H2 H3 Es Er|c v1 v2 H1 H2 Es Er|c v1 v2 H1 H2 H3 Es Er|c1 c2 v H1 H2 Es Er|c1 v c2 c3 H1 H2 H3 Es Er|c1 c2 v c3 H1 H2 H3 Es Er|c1 v c2 c3 v' H1 H2 H3 H4 Es Er|c1 c2 v c3 v' H1 H2 H3 H4 Es Er]; subst s; try exact I; try discriminate Hl; cbv iota in *.
  - destruct Ht as [Ht|[[_ [Ht|Ht]]|[_ [Ht|Ht]]]]; try discriminate. rewrite Ht in SF. intros d1 d2 d3 E. injection E as <- <- <-.
    assert (HG' : gap_of p g q = [] \/ gap_of p g q = [c_y]).
    { destruct HG as [G|[G|[G|(G1 & G2 & G3 & _)]]]; auto; exfalso.
      - unfold gap_of in G. rewrite Hpre, app_nil_r in G. rewrite Hcv, andb_false_r in GL.
        assert (p_suf p = [] \/ p_suf p = [c_y]) as [Z|Z] by
          (inversion SF; subst; auto; try discriminate; repeat match goal with X : _ \/ _ |- _ => destruct X end; discriminate);
        rewrite Z in *; destruct GL; subst; discriminate.
      - rewrite Hcv, andb_false_r in G3. discriminate. }
    destruct HG' as [Eg|Eg]; rewrite Eg; cbn [gp app concat].
    + unfold gap_of in Eg. apply app_eq_nil in Eg as [Es Eg]. apply app_eq_nil in Eg as [Egl _].
      destruct (l_pair _ _ _ _ _ _ _ K Es Egl c2 qa) as [G1 G2]; [rewrite <- Er; reflexivity|rewrite Eqr; reflexivity|].
      rewrite Eq. split.
      * intros c t E _. injection E as <- _. apply G1; [apply is_consonant_spec; exact H3|exact Hqa].
      * intros c d t E. injection E as <- <- _. rewrite Eqr in G2. eapply (G2 qa qb). reflexivity.
    + split.
      * intros c t E Hc. injection E as <- _. apply is_consonant_spec in Hc. discriminate.
      * intros c d t E F. injection E as <- _. unfold forbidden_triple in F. cbn in F. decompose [or] F; try contradiction; discriminate.
  - destruct Ht as [Ht|[[_ [Ht|Ht]]|[_ [Ht|Ht]]]]; try discriminate. rewrite Ht in SF. intros -> t E. destruct HG as [G|[G|[G|(G1 & G2 & G3 & _)]]].
    + rewrite G in E. cbn [gp app] in E. destruct rest as [|[? ?] ?]; cbn [alt] in E; injection E as E _; rewrite E in Hq; apply cll_len in Hq; cbn in Hq; lia.
    + rewrite G in E. discriminate.
    + unfold gap_of in G. rewrite Hpre, app_nil_r in G. rewrite Hcv, andb_false_r in GL.
      pose proof (l_ccv _ _ _ _ _ _ _ K eq_refl Tm) as NC.
      destruct GL; subst; try discriminate; rewrite ?app_nil_r in G; try congruence. rewrite H in SF.
      inversion SF; subst; match goal with X : _ \/ _ |- _ => destruct X as [X|X]; discriminate end.
    + rewrite Hcv, andb_false_r in G3. discriminate.
  - right. assert (p_suf p = [c_y]).
    { destruct Ht as [Ht|[[Ht [_|_]]|[_ [Ht|Ht]]]]; try discriminate; rewrite Ht in SF; inversion SF; subst; try discriminate; try reflexivity; repeat match goal with X : _ \/ _ |- _ => destruct X end; discriminate. }
    unfold gap_of. rewrite H, Hpre, app_nil_r. rewrite H in GL. destruct GL; subst; try discriminate. exists (alt q rest). reflexivity.
  - right. assert (p_suf p = [c_y]).
    { destruct Ht as [Ht|[[Ht [_|_]]|[_ [Ht|Ht]]]]; try discriminate; rewrite Ht in SF; inversion SF; subst; try discriminate; try reflexivity; repeat match goal with X : _ \/ _ |- _ => destruct X end; discriminate. }
    unfold gap_of. rewrite H, Hpre, app_nil_r. rewrite H in GL. destruct GL; subst; try discriminate. exists (alt q rest). reflexivity.
Qed.

Theorem alt_cut : forall gen st n rest fi p prev, linked gen st n fi p rest -> cll_list (allow_mz st) p rest ->
  fi = match prev with None => true | _ => false end ->
  cut (rn_ok (y_hyphens st)) true (allow_mz st) prev (alt p rest).
Proof.
  intros gen st n rest. induction rest as [|[g q] r IH]; intros fi p prev Hl Hc Ef; cbn [alt linked cll_list] in *.
  - cbn [cut]. split; [|exact I]. left. destruct Hc as ([s Hs] & _). exists s. split; [exact Hs|].
    inversion Hs; subst; auto; try (split; intros; discriminate); intros; discriminate.
  - destruct Hl as [K Hl]. destruct Hc as (Hp & Ht & Hsh & Hc). cbn [cut]. split.
    + left. subst fi. eapply link_rafsi; eassumption.
    + destruct (gap_of p g q) as [|g0 gs] eqn:Eg; cbn [gp app].
      * apply (IH false); [exact Hl|exact Hc|reflexivity].
      * cbn [cut]. split.
        -- right. exists (p_r p). split; [reflexivity|]. rewrite <- Eg. eapply link_hyphen; try eassumption. rewrite Eg. discriminate.
        -- apply (IH false); [exact Hl|exact Hc|reflexivity].
Qed.

Lemma cut_hy : forall rn hy mz ps prev, cut rn hy mz prev ps -> cut rn true mz prev ps.
Proof.
  intros rn hy mz. induction ps as [|p ps IH]; intros prev H; [exact I|]. destruct H as [H G]. split; [|apply IH; exact G].
  destruct H as [H|(q & E & L & H)]; [left; exact H|right]. exists q. split; [exact E|]. split; [exact L|].
  destruct H as [H|[[_ H]|H]]; auto.
Qed.

Lemma rafsi_of_app : forall a b, rafsi_of (a ++ b) = rafsi_of a ++ rafsi_of b.
Proof. intros. apply filter_app. Qed.

(** the rafsi of the pieces *)
Lemma alt_rafsi : forall gen st n rest fi p, linked gen st n fi p rest -> cll_list (allow_mz st) p rest ->
  rafsi_of (alt p rest) = map p_r (p :: map snd rest).
Proof.
  intros gen st n rest. induction rest as [|[g q] r IH]; intros fi p Hl Hc; cbn [alt linked cll_list] in *.
  - destruct Hc as (Hp & _). apply cll_len in Hp. unfold rafsi_of. cbn [filter]. rewrite (proj2 (Nat.ltb_lt 2 _)) by lia. reflexivity.
  - destruct Hl as [K Hl]. destruct Hc as (Hp & Ht & Hsh & Hc). apply cll_len in Hp. rewrite rafsi_of_first by lia. cbn [map snd]. f_equal.
    rewrite rafsi_of_app, (IH _ _ Hl Hc). cbn [map].
    pose proof (cll_list_first _ _ _ Hc) as Hq.
    destruct (link_gap _ _ _ _ _ _ _ K Hq) as [E|[E|[E|(E1 & _ & _ & _ & [[E _]|[E _]])]]]; try rewrite <- E1; rewrite E; reflexivity.
Qed.
