(** Letters and consonant clusters of accepted words (C04, C18). *)
From Verif Require Import Str Data Tarmi Rafsi Core Api Lib Spec Shapes Decomp Basic Vowels Katna Dict Errs Builder Jvokaha Fuel Raises Inv Parts.

(** ** Joining strings *)
Lemma contains_app2 : forall a b x y, contains (a ++ b) [x; y] ->
  contains a [x; y] \/ contains b [x; y] \/ exists a' b', a = a' ++ [x] /\ b = y :: b'.
Proof.
  intros a b x y (u & w & H). revert u H. induction a as [|c a IH]; intros u H.
  - right; left. exists u, w. exact H.
  - destruct u as [|d u]; cbn in H.
    + injection H as -> H. destruct a as [|e a].
      * destruct b as [|e b]; [discriminate|]. injection H as -> H. right; right. exists [], b. auto.
      * injection H as -> H. left. exists [], a. reflexivity.
    + injection H as -> H. destruct (IH u H) as [(p & q & ->)|[G|(a' & b' & -> & ->)]].
      * left. exists (d :: p), q. reflexivity.
      * auto.
      * right; right. exists (d :: a'), b'. auto.
Qed.

Lemma contains_app3 : forall a b x y z, contains (a ++ b) [x; y; z] ->
  contains a [x; y; z] \/ contains b [x; y; z]
  \/ (exists a' b', a = a' ++ [x] /\ b = y :: z :: b') \/ (exists a' b', a = a' ++ [x; y] /\ b = z :: b').
Proof.
  intros a b x y z (u & w & H). revert u H. induction a as [|c a IH]; intros u H.
  - right; left. exists u, w. exact H.
  - destruct u as [|d u]; cbn in H.
    + injection H as -> H. destruct a as [|e a].
      * destruct b as [|e [|f b]]; try discriminate. injection H as -> -> H. right; right; left. exists [], b. auto.
      * injection H as -> H. destruct a as [|f a].
        -- destruct b as [|f b]; [discriminate|]. injection H as -> H. right; right; right. exists [], b. auto.
        -- injection H as -> H. left. exists [], a. reflexivity.
    + injection H as -> H. destruct (IH u H) as [(p & q & ->)|[G|[(a' & b' & -> & ->)|(a' & b' & -> & ->)]]].
      * left. exists (d :: p), q. reflexivity.
      * auto.
      * right; right; left. exists (d :: a'), b'. auto.
      * right; right; right. exists (d :: a'), b'. auto.
Qed.

Lemma triple_consonants : forall a b c, forbidden_triple a b c -> consonant a /\ consonant b /\ consonant c.
Proof.
  intros a b c H. apply triple_spec in H. apply triple_short in H as (x & y & z & E & H1 & H2 & H3).
  injection E as -> -> ->. repeat split; apply is_consonant_spec; assumption.
Qed.

Lemma clusters_app : forall mz a b, clusters_ok mz a -> clusters_ok mz b ->
  (forall a' x y b', a = a' ++ [x] -> b = y :: b' -> consonant x -> consonant y ->
     permissible mz x y
     /\ (forall z b'', b' = z :: b'' -> ~ forbidden_triple x y z)
     /\ (forall w a'', a' = a'' ++ [w] -> ~ forbidden_triple w x y)) ->
  clusters_ok mz (a ++ b).
Proof.
  intros mz a b [A1 A2] [B1 B2] J. split.
  - intros x y H Hx Hy. apply contains_app2 in H as [H|[H|(a' & b' & Ea & Eb)]]; [auto|auto|].
    apply (J _ _ _ _ Ea Eb Hx Hy).
  - intros x y z H Hf. pose proof (triple_consonants _ _ _ Hf) as (Hx & Hy & Hz).
    apply contains_app3 in H as [H|[H|[(a' & b' & Ea & Eb)|(a' & b' & Ea & Eb)]]].
    + eapply A2; eassumption.
    + eapply B2; eassumption.
    + destruct (J _ _ _ _ Ea Eb Hx Hy) as (_ & J2 & _). eapply J2; [reflexivity|exact Hf].
    + assert (Ea' : a = (a' ++ [x]) ++ [y]) by (rewrite <- app_assoc; exact Ea).
      destruct (J _ _ _ _ Ea' Eb Hy Hz) as (_ & _ & J3). eapply J3; [reflexivity|exact Hf].
Qed.

Lemma clusters_app_l : forall mz a b, clusters_ok mz (a ++ b) -> clusters_ok mz a.
Proof.
  intros mz a b [H1 H2]. split.
  - intros x y (u & v & ->). apply H1. exists u, (v ++ b). rewrite <- !app_assoc. reflexivity.
  - intros x y z (u & v & ->). apply H2. exists u, (v ++ b). rewrite <- !app_assoc. reflexivity.
Qed.
Lemma clusters_app_r : forall mz a b, clusters_ok mz (a ++ b) -> clusters_ok mz b.
Proof.
  intros mz a b [H1 H2]. split.
  - intros x y (u & v & ->). apply H1. exists (a ++ u), v. rewrite <- !app_assoc. reflexivity.
  - intros x y z (u & v & ->). apply H2. exists (a ++ u), v. rewrite <- !app_assoc. reflexivity.
Qed.

Lemma clusters_nil : forall mz, clusters_ok mz [].
Proof. intro mz. split; intros a b; [|intro c]; intros (u & v & H); destruct u; discriminate. Qed.
Lemma clusters_one : forall mz c, clusters_ok mz [c].
Proof.
  intros mz c. split; intros a b; [|intro d]; intros (u & v & H);
    (destruct u as [|? u]; [discriminate|]; injection H as _ H; destruct u; discriminate).
Qed.
Lemma clusters_cons_nc : forall mz c s, is_consonant c = false -> clusters_ok mz s -> clusters_ok mz (c :: s).
Proof.
  intros mz c s Hc H. apply (clusters_app mz [c] s); [apply clusters_one|exact H|].
  intros a' x y b' E _ Hx _. exfalso. apply is_consonant_spec in Hx.
  destruct a' as [|? a']; [injection E as <-; congruence|]. injection E as _ E. destruct a'; discriminate.
Qed.
Lemma clusters_app_l_nc : forall mz a c b, is_consonant c = false -> clusters_ok mz (a ++ [c]) -> clusters_ok mz b ->
  clusters_ok mz (a ++ c :: b).
Proof.
  intros mz a c b Hc H G. change (c :: b) with ([c] ++ b). rewrite app_assoc. apply clusters_app; [exact H|exact G|].
  intros a' x y b' E _ Hx _. exfalso. apply is_consonant_spec in Hx. apply app_inj_tail in E as [_ <-]. congruence.
Qed.
Lemma clusters_app_nc : forall mz a b, clusters_ok mz a -> clusters_ok mz b ->
  (forall c r, b = c :: r -> is_consonant c = false) -> clusters_ok mz (a ++ b).
Proof.
  intros mz a b H G F. apply clusters_app; [exact H|exact G|].
  intros a' x y b' _ E _ Hy. exfalso. apply is_consonant_spec in Hy. rewrite (F _ _ E) in Hy. discriminate.
Qed.
Lemma clusters_cons : forall mz c d s, permissible mz c d -> (forall e s', s = e :: s' -> ~ forbidden_triple c d e) ->
  clusters_ok mz (d :: s) -> clusters_ok mz (c :: d :: s).
Proof.
  intros mz c d s Hp Ht H. apply (clusters_app mz [c] (d :: s)); [apply clusters_one|exact H|].
  intros a' x y b' E E2 _ _. injection E2 as <- <-.
  destruct a' as [|? a']; [|injection E as _ E; destruct a'; discriminate]. injection E as <-.
  split; [exact Hp|]. split; [exact Ht|]. intros w a'' E. destruct a''; discriminate.
Qed.

(** ** Good strings *)
Definition good (mz : bool) (s : str) : Prop := Forall lojban_letter s /\ clusters_ok mz s.

Lemma good_app_l : forall mz a b, good mz (a ++ b) -> good mz a.
Proof. intros mz a b [H G]. apply Forall_app in H. split; [apply H|eapply clusters_app_l; exact G]. Qed.
Lemma good_app_nc : forall mz a b, good mz a -> good mz b ->
  (forall c r, b = c :: r -> is_consonant c = false) -> good mz (a ++ b).
Proof.
  intros mz a b [H1 H2] [G1 G2] F. split; [apply Forall_app; auto|apply clusters_app_nc; auto].
Qed.
Lemma good_cons_nc : forall mz c s, lojban_letter c -> is_consonant c = false -> good mz s -> good mz (c :: s).
Proof. intros mz c s L C [H1 H2]. split; [constructor; auto|apply clusters_cons_nc; auto]. Qed.
Lemma good_nil : forall mz, good mz [].
Proof. intro. split; [constructor|apply clusters_nil]. Qed.
Lemma good_one : forall mz c, lojban_letter c -> good mz [c].
Proof. intros. split; [auto|apply clusters_one]. Qed.

Lemma letter_v : forall c, vowel c -> lojban_letter c. Proof. intros; left; assumption. Qed.
Lemma letter_c : forall c, consonant c -> lojban_letter c. Proof. intros; right; left; assumption. Qed.
Lemma letter_h : lojban_letter c_h. Proof. right; right; left; reflexivity. Qed.
Lemma letter_y' : lojban_letter c_y. Proof. right; right; right; reflexivity. Qed.

Lemma permissible_c : forall mz a b, permissible mz a b -> consonant a /\ consonant b.
Proof. intros mz a b (H1 & H2 & _). auto. Qed.
Lemma initial_c : forall a b, initial_pair a b -> consonant a /\ consonant b.
Proof. intros a b H. apply initial_spec, initial_consonants in H as [H1 H2]. split; apply is_consonant_spec; assumption. Qed.
Lemma initial_perm : forall mz a b, initial_pair a b -> permissible mz a b.
Proof. intros mz a b H. apply valid_pairs_spec, initial_permissible, initial_spec. exact H. Qed.

Ltac nc := match goal with
  | H : vowel ?c |- is_consonant ?c = false => apply v_f0; apply is_vowel_spec; exact H
  | |- is_consonant _ = false => reflexivity
  end.

(** A rafsi has good clusters. *)
Lemma good_rafsi : forall mz s p, cll_rafsi mz s p -> good mz p.
Proof.
  intros mz s p H.
  assert (D : forall v1 v2, diphthong [v1; v2] -> vowel v1 /\ vowel v2).
  { intros v1 v2 D. unfold diphthong in D. cbn in D. unfold vowel.
    decompose [or] D; try contradiction; match goal with E : _ = [v1; v2] |- _ => injection E as <- <- end; cbn; tauto. }
  assert (V : forall v s, vowel v -> good mz s -> good mz (v :: s))
    by (intros v s' Hv; apply good_cons_nc; [apply letter_v; exact Hv|nc]).
  assert (Hh : forall s, good mz s -> good mz (c_h :: s)) by (intro; apply good_cons_nc; [apply letter_h|reflexivity]).
  assert (CV : forall c v s, consonant c -> vowel v -> good mz (v :: s) -> good mz (c :: v :: s)).
  { intros c v s' Hc Hv Hs. change (c :: v :: s') with ([c] ++ v :: s'). apply good_app_nc; [apply good_one, letter_c, Hc|exact Hs|].
    intros x r E. injection E as <- _. nc. }
  assert (CC : forall c d s, permissible mz c d -> (forall e s', s = e :: s' -> ~ consonant e) ->
             good mz (d :: s) -> good mz (c :: d :: s)).
  { intros c d s' Hp Hn [G1 G2]. split; [constructor; [apply letter_c, (permissible_c _ _ _ Hp)|exact G1]|].
    apply clusters_cons; [exact Hp| |exact G2]. intros e s'' E F. apply triple_consonants in F. apply (Hn _ _ E), F. }
  assert (NC : forall v, vowel v -> ~ consonant v).
  { intros v Hv Hc. apply is_vowel_spec in Hv. apply is_consonant_spec in Hc. rewrite (v_f0 _ Hv) in Hc. discriminate. }
  inversion H; subst; clear H;
    repeat match goal with
    | G : _ /\ _ |- _ => destruct G
    | G : diphthong [_; _] |- _ => apply D in G as [? ?]
    | G : initial_pair _ _ |- _ => pose proof (initial_c _ _ G); apply (initial_perm mz) in G
    | G : permissible _ ?a ?b |- _ => lazymatch goal with _ : consonant a, _ : consonant b |- _ => fail | _ => pose proof (permissible_c _ _ _ G) end
    end;
    repeat first
      [ assumption
      | apply good_nil
      | apply good_one; first [apply letter_c; assumption|apply letter_v; assumption]
      | apply CV; [assumption|assumption|]
      | apply CC; [assumption|let E := fresh in intros ? ? E; injection E as <- _; apply NC; assumption|]
      | apply CC; [assumption|let E := fresh in intros ? ? E; discriminate E|]
      | apply V; [assumption|]
      | apply Hh ].
Qed.

(** Where a rafsi ends in a consonant, [placed_rafsi] looks at what follows. *)
Lemma placed_good : forall mz first p next, placed_rafsi mz first p next -> good mz (concat next) ->
  good mz (p ++ concat next).
Proof.
  intros mz first p next (s & Hs & Hp) [G1 G2]. pose proof (good_rafsi _ _ _ Hs) as [P1 P2].
  split; [apply Forall_app; auto|]. apply clusters_app; [assumption|assumption|].
  intros a' x y b' Ea Eb Hx Hy.
  assert (NC : forall v, vowel v -> ~ consonant v).
  { intros v Hv Hc. apply is_vowel_spec in Hv. apply is_consonant_spec in Hc. rewrite (v_f0 _ Hv) in Hc. discriminate. }
  assert (D : forall v1 v2, diphthong [v1; v2] -> vowel v2).
  { intros v1 v2 D. unfold diphthong in D. cbn in D. unfold vowel.
    decompose [or] D; try contradiction; match goal with E : _ = [v1; v2] |- _ => injection E as <- <- end; cbn; tauto. }
  assert (last_eq : forall q (z : char), p = q ++ [z] -> z = x /\ q = a').
  { intros q z E. rewrite Ea in E. apply app_inj_tail in E as [-> ->]. auto. }
  clear Ea. inversion Hs; subst s p; cbv beta iota in Hp.
  - destruct (Hp _ _ _ eq_refl) as [Q1 Q2]. destruct (last_eq [c1; v] c2 eq_refl) as [<- <-].
    split; [apply (Q1 _ _ Eb Hy)|]. split.
    + intros z b'' ->. eapply Q2. exact Eb.
    + intros w a'' E F. destruct (app_inj_tail [c1] a'' v w E) as [_ <-]. apply triple_consonants in F as [F _].
      eapply NC; eassumption.
  - destruct (last_eq [c; v1] v2 eq_refl) as [<- <-]. exfalso. eapply NC; [|exact Hx]. eauto.
  - destruct (last_eq [c; v1; apostrophe] v2 eq_refl) as [<- <-]. exfalso. eapply NC; eassumption.
  - destruct (last_eq [c1; c2] v eq_refl) as [<- <-]. exfalso. eapply NC; eassumption.
  - exfalso. destruct Hp as [->|[t ->]]; [discriminate|]. cbn in Eb. injection Eb as <- _.
    apply is_consonant_spec in Hy. discriminate.
  - exfalso. destruct Hp as [->|[t ->]]; [discriminate|]. cbn in Eb. injection Eb as <- _.
    apply is_consonant_spec in Hy. discriminate.
  - subst next. discriminate.
  - subst next. discriminate.
Qed.

Lemma permissible_r : forall mz c, consonant c -> c <> c_r -> permissible mz c_r c.
Proof.
  intros mz c Hc Hn. apply permb_spec. apply is_consonant_spec in Hc.
  assert (G : forallb (fun c => N.eqb c c_r || permb mz c_r c) CONSONANTS = true) by (destruct mz; vm_compute; reflexivity).
  rewrite forallb_forall in G. apply memc_In in Hc. apply G in Hc. apply orb_true_iff in Hc as [Hc|Hc]; [|exact Hc].
  apply N.eqb_eq in Hc. congruence.
Qed.

Lemma hyphen_good : forall mz rn hy q p next, placed_hyphen rn hy q p next -> good mz (concat next) ->
  good mz (p ++ concat next).
Proof.
  intros mz rn hy q p next [_ H] [G1 G2].
  assert (single : forall c, p = [c] -> consonant c ->
            (forall y b', concat next = y :: b' -> consonant y -> permissible mz c y
               /\ forall z b'', b' = z :: b'' -> ~ forbidden_triple c y z) -> good mz (p ++ concat next)).
  { intros c -> Hc J. split; [apply Forall_app; split; [constructor; [apply letter_c, Hc|constructor]|exact G1]|].
    apply clusters_app; [apply clusters_one|exact G2|]. intros a' x y b' Ea Eb Hx Hy.
    destruct a' as [|? a']; [|injection Ea as _ Ea; destruct a'; discriminate]. injection Ea as <-.
    destruct (J _ _ Eb Hy) as [J1 J2]. split; [exact J1|]. split; [exact J2|]. intros w a'' E; destruct a''; discriminate. }
  destruct H as [->|[[_ ->]|[_ [_ [[-> [t Et]]|[-> (c & t & Et & Hc & Hr)]]]]]].
  - apply good_cons_nc; [apply letter_y'|reflexivity|split; assumption].
  - apply good_cons_nc; [apply letter_h|reflexivity|]. apply good_cons_nc; [apply letter_y'|reflexivity|split; assumption].
  - apply (single c_n); [reflexivity|apply is_consonant_spec; reflexivity|]. rewrite Et. intros y b' E Hy.
    injection E as <- <-. split; [apply permb_spec; destruct mz; vm_compute; reflexivity|].
    intros z b'' _ F. unfold forbidden_triple in F. cbn in F. decompose [or] F; try contradiction; discriminate.
  - apply (single c_r); [reflexivity|apply is_consonant_spec; reflexivity|]. rewrite Et. intros y b' E Hy.
    injection E as <- <-. split; [apply permissible_r; [exact Hc|intros ->; apply Hr; reflexivity]|].
    intros z b'' _ F. unfold forbidden_triple in F. cbn in F. decompose [or] F; try contradiction; discriminate.
Qed.

Lemma cut_good : forall rn hy mz ps prev, cut rn hy mz prev ps -> good mz (concat ps).
Proof.
  induction ps as [|p ps IH]; intros prev H; [apply good_nil|].
  destruct H as [[H|(q & _ & H)] Hc]; cbn [concat].
  - eapply placed_good; [exact H|eauto].
  - eapply hyphen_good; [exact H|eauto].
Qed.

(** ** Words accepted by the zi'evla check *)
Lemma windows2 : forall mz s, forallb is_consonant s = true ->
  forallb (fun p => mems p (valid_pairs mz)) (windows 2 s) = true ->
  existsb (fun p => mems p BANNED_TRIPLES) (windows 3 s) = false -> good mz s.
Proof.
  induction s as [|a s IH]; intros Hc H2 H3; [apply good_nil|].
  cbn [forallb] in Hc. apply andb_t in Hc as [Ha Hc]. apply is_consonant_spec in Ha.
  destruct s as [|b s]; [apply good_one, letter_c, Ha|].
  cbn [windows length Nat.ltb Nat.leb firstn forallb] in H2. apply andb_t in H2 as [Hp H2].
  assert (G : good mz (b :: s)).
  { apply IH; [exact Hc| |].
    - cbn [windows]. exact H2.
    - destruct s as [|c s]; [reflexivity|]. cbn [windows length Nat.ltb Nat.leb firstn existsb] in H3.
      apply orb_false_iff in H3 as [_ H3]. exact H3. }
  destruct G as [G1 G2]. split; [constructor; [apply letter_c, Ha|exact G1]|].
  apply clusters_cons; [apply valid_pairs_spec; exact Hp| |exact G2].
  intros e s' -> F. cbn [windows length Nat.ltb Nat.leb firstn existsb] in H3.
  apply orb_false_iff in H3 as [H3 _]. apply triple_spec in F. congruence.
Qed.

Lemma take_while_Forall : forall p s, Forall (fun c => p c = true) (take_while p s).
Proof. intros p s. apply Forall_forall. intros c H. pose proof (take_while_all p s) as G. rewrite forallb_forall in G. auto. Qed.

Lemma good_vowels : forall mz s, Forall (fun c => is_vowel c = true) s -> good mz s.
Proof.
  intros mz s H. induction H; [apply good_nil|]. apply good_cons_nc; [apply letter_v, is_vowel_spec; assumption|apply v_f0; assumption|assumption].
Qed.

Lemma zloop_good : forall mz fuel copy s z z', zloop fuel mz copy s z = Ok z' -> good mz s.
Proof.
  induction fuel as [|f IH]; intros copy s z z' H.
  { destruct s; [apply good_nil|discriminate]. }
  destruct s as [|v0 vr]; [apply good_nil|]. cbn [zloop] in H. set (s := v0 :: vr) in *.
  destruct (is_consonant v0) eqn:Ec.
  - cbv zeta in H. dif H; [discriminate|]. dif H; [discriminate|]. dif H; [discriminate|]. dif H; [discriminate|].
    dif H; [discriminate|]. apply negb_false_iff in Heqb1.
    rewrite <- (take_drop_while is_consonant s). apply good_app_nc.
    + apply windows2; [apply take_while_all|assumption|assumption].
    + eapply IH. exact H.
    + intros c r E. eapply drop_while_head. exact E.
  - destruct (is_vowel v0) eqn:Ev.
    + cbv zeta in H. destruct (split_vowel_cluster _) as [syl|e]; [|destruct e; discriminate].
      inv_bind H. dif H; [discriminate|]. dif H; [discriminate|].
      rewrite <- (take_drop_while is_vowel s).
      assert (G : good mz (drop_while is_vowel s)) by (eapply IH; exact H).
      clear - G. induction (take_while_Forall is_vowel s) as [|c r Hc Hr IHr]; [exact G|].
      cbn [app]. apply good_cons_nc; [apply letter_v, is_vowel_spec; assumption|apply v_f0; assumption|assumption].
    + destruct (N.eqb v0 c_h) eqn:Eh; [|discriminate]. apply N.eqb_eq in Eh. 
      dif H; [discriminate|]. dif H; [discriminate|]. unfold s. rewrite Eh.
      apply good_cons_nc; [apply letter_h|reflexivity|]. eapply IH. exact H.
Qed.

Definition starts_ok (w : str) : Prop :=
  forall a b t, w = a :: b :: t -> consonant a -> consonant b -> initial_pair a b.

Lemma zihevla_initial_starts : forall s, is_zihevla_initial_cluster (take_while is_consonant s) = true -> starts_ok s.
Proof.
  intros s H a b t -> Ha Hb. apply is_consonant_spec in Ha, Hb. cbn [take_while] in H. rewrite Ha, Hb in H.
  unfold is_zihevla_initial_cluster in H. cbn [length] in H. dif H; [discriminate|]. apply initial_spec.
  dif H. { apply negb_true_iff, orb_false_iff in H as [H _]. apply negb_false_iff in H. exact H. }
  dif H; [|exfalso].
  - destruct (take_while is_consonant t); [exact H|discriminate].
  - destruct (take_while is_consonant t) as [|? [|]]; discriminate.
Qed.

Lemma zloop_starts : forall mz fuel copy s z z', zloop fuel mz copy s z = Ok z' -> z_pos z = 0 -> starts_ok s.
Proof.
  intros mz [|f] copy s z z' H Hz.
  { destruct s; [intros a b t E; discriminate|discriminate]. }
  destruct s as [|v0 vr]; [intros a b t E; discriminate|]. cbn [zloop] in H. set (s := v0 :: vr) in *.
  destruct (is_consonant v0) eqn:Ec.
  - cbv zeta in H. rewrite Hz in H. dif H; [discriminate|]. dif H; [discriminate|]. dif H; [discriminate|]. dif H; [discriminate|].
    dif H; [discriminate|]. apply negb_false_iff in Heqb3. cbn [Nat.eqb] in Heqb3. apply zihevla_initial_starts. exact Heqb3.
  - intros a b t E Ha. unfold s in E. injection E as -> _. apply is_consonant_spec in Ha. congruence.
Qed.

Lemma zihevla_good : forall ana jvk req yh ex mz v t, check_zihevla_or_rafsi ana jvk req yh ex mz v = Ok t ->
  good mz v /\ starts_ok v.
Proof.
  intros ana jvk req yh ex mz v t H. unfold check_zihevla_or_rafsi in H. dif H; [discriminate|]. inv_bind H.
  split; [eapply zloop_good; exact E|eapply zloop_starts; [exact E|reflexivity]].
Qed.

Lemma cut_starts : forall rn hy mz ps, cut rn hy mz None ps -> starts_ok (concat ps).
Proof.
  intros rn hy mz [|p ps] H; [intros a b t E; discriminate|].
  destruct H as [[(s & Hs & _)|(q & E & _)] _]; [|discriminate]. intros a b t E Ha Hb. cbn [concat] in E.
  assert (NC : forall v, vowel v -> consonant v -> False).
  { intros v Hv Hc. apply is_vowel_spec in Hv. apply is_consonant_spec in Hc. rewrite (v_f0 _ Hv) in Hc. discriminate. }
  inversion Hs; subst; cbn in E; injection E as <- <- E; try assumption; try (exfalso; match goal with V : vowel ?v, C : consonant ?v |- _ => exact (NC v V C) end).
  exfalso. unfold diphthong in H0. cbn in H0. apply is_consonant_spec in Hb.
  decompose [or] H0; try contradiction; match goal with G : _ = [_; _] |- _ => injection G as <- <- end; discriminate.
Qed.

Lemma starts_app : forall a b, starts_ok a -> (forall c r, b = c :: r -> is_consonant c = false) -> starts_ok (a ++ b).
Proof.
  intros a b H F x y t E Hx Hy. destruct a as [|p [|q a]]; cbn in E.
  - exfalso. apply is_consonant_spec in Hx. rewrite (F _ _ E) in Hx. discriminate.
  - injection E as <- E. exfalso. apply is_consonant_spec in Hy. rewrite (F _ _ E) in Hy. discriminate.
  - injection E as <- <- E. eapply H; [reflexivity|assumption|assumption].
Qed.
Lemma starts_app_l : forall a b, starts_ok (a ++ b) -> starts_ok a.
Proof. intros a b H x y t -> Hx Hy. eapply H; [reflexivity|assumption|assumption]. Qed.

(** ** One y-part *)
Lemma part_head_h : forall i p0 nh part h, part_head i p0 nh = Ok (part, nh ++ h) -> p0 = h ++ part -> h = [] \/ h = [c_h].
Proof.
  intros i p0 nh part h H E. unfold part_head in H. destruct p0 as [|c r]; [discriminate|].
  destruct (N.eqb c c_h) eqn:Eh.
  - apply N.eqb_eq in Eh. destruct r as [|r0 r]; [discriminate|]. dif H; [discriminate|]. inv_bind H. inv_bind H.
    dif H; [discriminate|]. injection H as <- H. apply app_inv_head in H. subst h. auto.
  - dif H; [discriminate|]. injection H as <- H. rewrite <- (app_nil_r nh) in H at 1. apply app_inv_head in H. auto.
Qed.

Lemma part_tail_hyphen : forall st cm ys i part cl p, part_tail st cm ys i part cl = Ok p ->
  p_hyphen p = [] \/ p_hyphen p = [c_h].
Proof.
  intros st cm ys i part cl p H. unfold part_tail in H. inv_bind H. dif H.
  - inv_bind H. inv_bind H. dif H; [discriminate|]. injection H as <-. auto.
  - dif H; injection H as <-; auto.
Qed.

Lemma part_good : forall ana jvk st cm ys i p0 a a', part_case ana jvk st cm ys i p0 a a' ->
  good (allow_mz st) p0 /\ (hd 0%N p0 <> c_h -> starts_ok p0).
Proof.
  intros ana jvk st cm ys i p0 a a' H.
  assert (fin : forall h part, p0 = h ++ part -> (h = [] \/ h = [c_h]) -> good (allow_mz st) part -> starts_ok part ->
            good (allow_mz st) p0 /\ (hd 0%N p0 <> c_h -> starts_ok p0)).
  { intros h part -> [->| ->] Hg Hs; cbn [app]; [auto|].
    split; [apply good_cons_nc; [apply letter_h|reflexivity|exact Hg]|]. intro G. exfalso. apply G. reflexivity. }
  assert (tail : forall part p cl, part_tail st cm ys i part cl = Ok p -> good (allow_mz st) (p_copy p) -> starts_ok (p_copy p) ->
            good (allow_mz st) part /\ starts_ok part).
  { intros part p cl Ht Hg Hs. destruct (part_tail_eq _ _ _ _ _ _ _ Ht) as (<- & _ & _).
    destruct (part_tail_hyphen _ _ _ _ _ _ _ Ht) as [-> | ->]; [rewrite app_nil_r; auto|]. split.
    - apply good_app_nc; [exact Hg|apply good_one, letter_h|]. intros c r E. injection E as <- _. reflexivity.
    - apply starts_app; [exact Hs|]. intros c r E. injection E as <- _. reflexivity. }
  destruct H as [h part E0 Eh Ht|h part p found num cl E0 Eh Hn Hne Ht Hc Hk Hj Hf Hv Hcf Htos Hmh|h part p num cl t E0 Eh Hn Hne Ht Hk Hz].
  - apply (fin h part E0); [eapply part_head_h; eassumption| |].
    + apply tarmi_CVC in Ht as (x & y & z & -> & H1 & H2 & H3). apply (good_rafsi _ "CVC").
      constructor; (apply is_consonant_spec || apply is_vowel_spec); assumption.
    + apply tarmi_CVC in Ht as (x & y & z & -> & H1 & H2 & H3). intros u v w E Hu Hv. injection E as -> -> _.
      apply is_consonant_spec in Hv. rewrite (v_f0 _ H2) in Hv. discriminate.
  - apply jvokaha_2_sound in Hj as [Hj1 Hj2].
    destruct (tail _ _ _ Ht) as [G1 G2]; [rewrite <- Hj1; eapply cut_good; exact Hj2|rewrite <- Hj1; eapply cut_starts; exact Hj2|].
    apply (fin h part E0); [eapply part_head_h; eassumption|assumption|assumption].
  - apply zihevla_good in Hz as [Z1 Z2]. destruct (part_tail_eq _ _ _ _ _ _ _ Ht) as (_ & _ & Ep).
    assert (exists x, p_part p = p_copy p ++ x) as [x Ex] by (rewrite Ep; destruct (p_adda p); eauto using app_nil_r).
    rewrite Ex in Z1, Z2.
    destruct (tail _ _ _ Ht) as [G1 G2]; [eapply good_app_l; exact Z1|eapply starts_app_l; exact Z2|].
    apply (fin h part E0); [eapply part_head_h; eassumption|assumption|assumption].
Qed.

Lemma loop_good : forall ana jvk st cm ys parts i a a', analyse_loop ana jvk st cm ys i parts a = Ok a' ->
  Forall (good (allow_mz st)) parts /\ (forall p ps, parts = p :: ps -> hd 0%N p <> c_h -> starts_ok p).
Proof.
  induction parts as [|p ps IH]; intros i a a' H; [split; [constructor|intros ? ? E; discriminate]|].
  cbn [analyse_loop] in H. inv_bind H. apply analyse_part_inv, part_good in E as [E1 E2].
  split; [constructor; [exact E1|eapply IH; exact H]|]. intros q qs Eq. injection Eq as <- <-. exact E2.
Qed.

Lemma good_join : forall mz parts, Forall (good mz) parts -> good mz (join_on c_y parts).
Proof.
  intros mz parts H. induction H as [|p ps Hp Hps IH]; [apply good_nil|].
  destruct ps as [|q qs]; [exact Hp|]. change (join_on c_y (p :: q :: qs)) with (p ++ c_y :: join_on c_y (q :: qs)).
  apply good_app_nc; [exact Hp|apply good_cons_nc; [apply letter_y'|reflexivity|exact IH]|].
  intros c r E. injection E as <- _. reflexivity.
Qed.

Theorem accepted_good : forall lk st w t ps, analyse_brivla lk st w = Ok (t, ps) ->
  good (allow_mz st) (standard_spelling w) /\ starts_ok (standard_spelling w).
Proof.
  intros lk st w t ps H. apply analyse_inv in H. set (v := standard_spelling w) in *. clearbody v.
  destruct H.
  - apply is_gismu_spec in H as [(a & b & c & d & e & -> & H1 & H2 & H3 & H4)|(a & b & c & d & e & -> & H1 & H2 & H3 & H4)].
    + split; [apply (good_rafsi _ "CVCCV"); constructor; assumption|]. intros x y u E Hx Hy. injection E as -> -> _. exfalso.
      apply is_vowel_spec in H2. apply is_consonant_spec in Hy. rewrite (v_f0 _ H2) in Hy. discriminate.
    + split; [apply (good_rafsi _ "CCVCV"); constructor; assumption|]. intros x y u E Hx Hy. injection E as -> -> _. assumption.
  - assert (E : jvokaha_2 (y_hyphens st) (allow_mz st) v = Ok ps) by (eapply jvokaha_pieces; exact H3).
    apply jvokaha_2_sound in E as [<- E]. split; [eapply cut_good; exact E|eapply cut_starts; exact E].
  - eapply zihevla_good. eassumption.
  - unfold analyse_compound in H8. inv_bind H8. apply loop_good in E as [E1 E2].
    rewrite <- (join_split c_y v). split; [apply good_join; exact E1|].
    pose proof (split_on_nonnil c_y v) as Hn. pose proof (join_split c_y v) as J.
    destruct (split_on c_y v) as [|p qs]; [congruence|].
    apply idx0_ok in H5 as [r Er].
    assert (Hh : hd 0%N p <> c_h).
    { destruct p as [|p0 p']; [discriminate|]. cbn [hd].
      assert (p0 = c) by (rewrite Er in J; destruct qs; cbn in J; congruence). subst p0.
      intros ->. discriminate. }
    specialize (E2 _ _ eq_refl Hh). destruct qs as [|q qs]; [exact E2|].
    change (join_on c_y (p :: q :: qs)) with (p ++ c_y :: join_on c_y (q :: qs)).
    apply starts_app; [exact E2|]. intros d r' E. injection E as <- _. reflexivity.
Qed.
