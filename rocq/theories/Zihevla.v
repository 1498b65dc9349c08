(** The rules a zi'evla, or an experimental rafsi, obeys *)
From Verif Require Import Str Data Tarmi Rafsi Core Api Lib Spec Shapes Decomp Basic Vowels Katna Dict Errs Builder Jvokaha Fuel Raises Inv Parts Clusters.

Lemma zi_initial_spec : forall r, Forall (fun c => is_consonant c = true) r -> (is_zihevla_initial_cluster r = true <-> zi_initial r).
Proof.
  intros r F. unfold is_zihevla_initial_cluster.
  destruct r as [|a [|b [|c [|d r]]]]; cbn [length Nat.ltb Nat.leb Nat.eqb firstn skipn zi_initial].
  - split; auto.
  - split; auto.
  - apply initial_spec.
  - rewrite negb_orb, !negb_involutive, andb_true_iff. rewrite (initial_spec a b). split; intros [H1 H2]; split; try exact H1.
    + apply mems_In in H2. cbn in H2. decompose [or] H2; try contradiction;
        match goal with X : _ = [b; c] |- _ => injection X as <- <- end; (split; [apply initial_spec; reflexivity|]); cbn; intuition discriminate.
    + destruct H2 as (H2 & H3 & H4). apply initial_spec in H2. apply mems_In in H2.
      assert (G : forallb (fun p => match p with
                  | [b; c] => mems [b; c] ZIhEVLA_INITIAL || negb (memc c (L "lr")) || memc b (L "csx") | _ => true end) INITIAL = true) by (vm_compute; reflexivity).
      rewrite forallb_forall in G. specialize (G _ H2). cbn beta iota in G.
      apply orb_true_iff in G as [G|G]; [apply orb_true_iff in G as [G|G]; [exact G|]|].
      * apply memc_In in H3. rewrite H3 in G. discriminate.
      * apply memc_In in G. contradiction.
  - split; [discriminate|contradiction].
Qed.

Definition count_c (w : str) : nat := length (filter is_consonant w).
Lemma count_app : forall a b, count_c (a ++ b) = count_c a + count_c b.
Proof. intros. unfold count_c. rewrite filter_app, app_length. reflexivity. Qed.
Lemma count_all : forall r, Forall (fun c => is_consonant c = true) r -> count_c r = length r.
Proof. intros r H. unfold count_c. induction H as [|c r Hc H IH]; [reflexivity|]. cbn [filter length]. rewrite Hc. cbn [length]. congruence. Qed.
Lemma count_none : forall r, Forall (fun c => is_consonant c = false) r -> count_c r = 0.
Proof. intros r H. unfold count_c. induction H as [|c r Hc H IH]; [reflexivity|]. cbn [filter length]. rewrite Hc. exact IH. Qed.
Lemma count_one : forall u, count_c u <= 1 <-> at_most_one_consonant u.
Proof.
  split.
  - intros H a x b y c -> Hx Hy. apply is_consonant_spec in Hx, Hy. rewrite count_app in H. change (x :: b ++ y :: c) with ([x] ++ b ++ [y] ++ c) in H.
    rewrite !count_app in H. unfold count_c in H at 2 4. cbn [filter length] in H. rewrite Hx, Hy in H. cbn [length] in H. lia.
  - intro H. destruct (le_lt_dec (count_c u) 1) as [G|G]; [exact G|exfalso].
    assert (S1 : forall v, 1 <= count_c v -> exists a x b, v = a ++ x :: b /\ is_consonant x = true /\ count_c a = 0).
    { induction v as [|z v IH]; intro K; [cbn in K; lia|]. destruct (is_consonant z) eqn:Ez.
      - exists [], z, v. auto.
      - unfold count_c in K. cbn [filter length] in K. rewrite Ez in K. destruct (IH K) as (a & x & b & -> & Hx & Ha). exists (z :: a), x, b. repeat split; auto.
        unfold count_c. cbn [filter length]. rewrite Ez. exact Ha. }
    destruct (S1 u ltac:(lia)) as (a & x & b & -> & Hx & Ha).
    assert (1 <= count_c b).
    { rewrite count_app in G. change (x :: b) with ([x] ++ b) in G. rewrite count_app in G. unfold count_c in G at 2. cbn [filter length] in G. rewrite Hx in G. cbn [length] in G. lia. }
    destruct (S1 b H0) as (a' & y & c & -> & Hy & _). apply (H a x a' y c eq_refl); apply is_consonant_spec; assumption.
Qed.

Definition middle_ok (r : str) : Prop := is_zihevla_middle_cluster r = true.

(** no two neighbours of the same kind at a boundary *)
Definition apart (pre s : str) : Prop :=
  forall u a c t, pre = u ++ [a] -> s = c :: t -> ~ (is_consonant a = true /\ is_consonant c = true) /\ ~ (is_vowel a = true /\ is_vowel c = true).

Lemma no_cluster_app : forall a b, no_cluster a -> no_cluster b -> apart a b -> no_cluster (a ++ b).
Proof.
  intros a b Ha Hb Hab x y H [Hx Hy]. apply contains_app2 in H as [H|[H|(a' & b' & E1 & E2)]].
  - apply (Ha x y H). auto.
  - apply (Hb x y H). auto.
  - destruct (Hab _ _ _ _ E1 E2) as [G _]. apply G. split; apply is_consonant_spec; assumption.
Qed.
Lemma no_cluster_short : forall c, no_cluster [c].
Proof. intros c a b (u & v & E). apply (f_equal (@length char)) in E. rewrite !app_length in E. cbn in E. lia. Qed.
Lemma no_cluster_nc : forall r, Forall (fun c => is_consonant c = false) r -> no_cluster r.
Proof.
  intros r H a b (u & v & ->) [Ha _]. apply is_consonant_spec in Ha. apply Forall_app in H as [_ H]. inversion H; congruence.
Qed.

Lemma while_run : forall p P s c t, (forall x, p x = true <-> P x) -> s = c :: t -> p c = true ->
  run_of P (take_while p s) (drop_while p s).
Proof.
  intros p P s c t HP -> Hc. split; [cbn [take_while]; rewrite Hc; discriminate|]. split.
  - eapply Forall_impl; [|apply take_while_Forall]. intros x Hx. apply HP. exact Hx.
  - intros x u E G. apply HP in G. apply drop_while_head in E. congruence.
Qed.
Lemma while_last : forall p s c t, s = c :: t -> p c = true -> exists u a, take_while p s = u ++ [a] /\ p a = true.
Proof.
  intros p s c t -> Hc. pose proof (take_while_Forall p (c :: t)) as F. destruct (take_while p (c :: t)) as [|x r _] eqn:E using rev_ind.
  - cbn [take_while] in E. rewrite Hc in E. discriminate.
  - exists r, x. split; [reflexivity|]. apply Forall_app in F as [_ F]. inversion F. assumption.
Qed.

Lemma apart_nil : forall s, apart [] s.
Proof. intros s u a c t E. destruct u; discriminate. Qed.
Lemma apart_while : forall p pre s c t, s = c :: t -> p c = true ->
  (forall a x, p a = true -> p x = false -> ~ (is_consonant a = true /\ is_consonant x = true) /\ ~ (is_vowel a = true /\ is_vowel x = true)) ->
  apart (pre ++ take_while p s) (drop_while p s).
Proof.
  intros p pre s c t Es Hc HP u a x w E1 E2. destruct (while_last p s c t Es Hc) as (r & y & Er & Hy). rewrite Er, app_assoc in E1.
  apply app_inj_tail in E1 as [_ ->]. apply drop_while_head in E2. apply HP; assumption.
Qed.

Definition cl_inv (copy pre : str) (p : option nat) : Prop :=
  match p with
  | None => no_cluster pre
  | Some p => exists u v, first_cluster copy u v /\ length u = p /\ count_c u <= 1
  end.
Record zinv (copy pre s : str) (z : zstate) : Prop := {
  zi_copy : copy = pre ++ s; zi_pos : z_pos z = length pre; zi_cons : z_cons z = count_c pre;
  zi_apart : apart pre s; zi_cl : cl_inv copy pre (z_cluster z);
  zi_syl : z_syl z = 0 -> Forall (fun c => is_consonant c = true) pre;
  zi_fin0 : z_final z = 0 -> exists r w, pre = r ++ w /\ Forall (fun c => is_consonant c = true) r /\ Forall (fun c => is_consonant c = false) w;
  zi_fin1 : 0 < z_final z -> exists u c t, pre = u ++ c :: t /\ u <> [] /\ is_consonant c = true }.

Lemma zinv_start : forall v, zinv v [] v (mkZ 0 0 None 0 0).
Proof.
  intro v. constructor; cbn; auto using apart_nil; try lia.
  - intros a b (u & t & E). destruct u; discriminate.
  - intros _. exists [], []. auto.
Qed.

Lemma zinv_cons : forall copy pre s v0 vr z, zinv copy pre s z -> s = v0 :: vr -> is_consonant v0 = true ->
  let chunk := take_while is_consonant s in
  let first := (2 <=? length chunk) && match z_cluster z with None => true | _ => false end in
  (first && (1 <? z_cons z)) = false ->
  zinv copy (pre ++ chunk) (drop_while is_consonant s)
    (mkZ (z_pos z + length chunk) (z_syl z) (if first then Some (z_pos z) else z_cluster z) (z_cons z + length chunk) (z_pos z)).
Proof.
  intros copy pre s v0 vr z I Es Hv chunk first Hf. destruct I as [I1 I2 I3 I4 I5 I6 I7 I8].
  assert (F : Forall (fun c => is_consonant c = true) chunk) by apply take_while_Forall.
  assert (E : chunk ++ drop_while is_consonant s = s) by apply take_drop_while.
  assert (EC : chunk = v0 :: take_while is_consonant vr) by (unfold chunk; rewrite Es; cbn [take_while]; rewrite Hv; reflexivity).
  constructor; cbn [z_pos z_cons z_cluster z_syl z_final].
  - rewrite <- app_assoc, E. exact I1.
  - rewrite app_length, I2. reflexivity.
  - rewrite count_app, (count_all chunk F), I3. reflexivity.
  - apply (apart_while is_consonant pre s v0 vr Es Hv). intros a x Ha Hx. split; intros [? ?]; [congruence|]. apply k_f0 in Ha. congruence.
  - destruct first eqn:Ef.
    + rewrite andb_true_l in Hf. unfold first in Ef. apply andb_t in Ef as [Ef1 Ef2]. destruct (z_cluster z); [discriminate|].
      exists pre, s. split; [|split; [symmetry; exact I2|rewrite <- I3; apply Nat.ltb_ge in Hf; exact Hf]].
      split; [exact I1|]. split.
      * apply Nat.leb_le in Ef1. rewrite EC in Ef1, F, E. destruct (take_while is_consonant vr) as [|b t]; [cbn in Ef1; lia|].
        exists v0, b, (t ++ drop_while is_consonant s). split; [symmetry; exact E|]. inversion F as [|? ? Fa F']; inversion F' as [|? ? Fb _].
        split; apply is_consonant_spec; assumption.
      * rewrite Es. cbn [firstn]. apply no_cluster_app; [exact I5|apply no_cluster_short|].
        intros u a c t Ea Ec. injection Ec as <- <-. exact (I4 u a v0 vr Ea Es).
    + destruct (z_cluster z) as [p|]; [exact I5|]. unfold first in Ef. rewrite andb_true_r in Ef. apply Nat.leb_gt in Ef.
      rewrite EC in Ef |- *. destruct (take_while is_consonant vr); [|cbn in Ef; lia].
      apply no_cluster_app; [exact I5|apply no_cluster_short|].
      intros u a c t Ea Ec. injection Ec as <- <-. exact (I4 u a v0 vr Ea Es).
  - intro G. apply Forall_app. split; auto.
  - intro G. rewrite I2 in G. destruct pre; [|discriminate]. exists chunk, []. rewrite app_nil_r. auto.
  - intro G. exists pre, v0, (take_while is_consonant vr). rewrite <- EC. repeat split; auto. rewrite I2 in G. destruct pre; [cbn in G; lia|discriminate].
Qed.

Lemma zinv_nc : forall copy pre chunk s rest z n k, zinv copy pre s z -> s = chunk ++ rest -> chunk <> [] ->
  Forall (fun c => is_consonant c = false) chunk -> n = z_pos z + length chunk -> apart (pre ++ chunk) rest ->
  (k = 0 -> Forall (fun c => is_consonant c = true) (pre ++ chunk)) ->
  zinv copy (pre ++ chunk) rest (mkZ n k (z_cluster z) (z_cons z) (z_final z)).
Proof.
  intros copy pre chunk s rest z n k I Es Hn F -> HA HK. destruct I as [I1 I2 I3 I4 I5 I6 I7 I8].
  constructor; cbn [z_pos z_cons z_cluster z_syl z_final]; auto.
  - rewrite <- app_assoc, <- Es. exact I1.
  - rewrite app_length, I2. reflexivity.
  - rewrite count_app, (count_none chunk F), I3. lia.
  - destruct (z_cluster z) as [p|]; [exact I5|]. apply no_cluster_app; [exact I5|apply no_cluster_nc; exact F|].
    intros u a c t Ea Ec. subst chunk. apply (I4 u a c (t ++ rest) Ea). exact Es.
  - intro G. destruct (I7 G) as (r & w & -> & Hr & Hw). exists r, (w ++ chunk). rewrite app_assoc. repeat split; auto. apply Forall_app; auto.
  - intro G. destruct (I8 G) as (u & c & t & -> & Hu & Hc). exists u, c, (t ++ chunk). rewrite <- app_assoc. auto.
Qed.

Lemma nucleus_not_glide : forall s, nucleus s -> mems s FOLLOW_VOWEL_CLUSTERS = false.
Proof.
  intros s H. apply start_spec in H. apply mems_In in H. revert s H. apply Forall_forall. unfold START_VOWEL_CLUSTERS.
  repeat constructor.
Qed.
Lemma windows2_conv : forall mz s, forallb is_consonant s = true -> clusters_ok mz s ->
  forallb (fun p => mems p (valid_pairs mz)) (windows 2 s) = true
  /\ existsb (fun p => mems p BANNED_TRIPLES) (windows 3 s) = false.
Proof.
  induction s as [|a s IH]; intros Hc G; [auto|]. cbn [forallb] in Hc. apply andb_t in Hc as [Ha Hc].
  assert (G' : clusters_ok mz s) by (apply (clusters_app_r mz [a] s); exact G).
  destruct (IH Hc G') as [K2 K3]. destruct s as [|b s]; [auto|]. cbn [forallb] in Hc. apply andb_t in Hc as [Hb Hc]. destruct G as [G2 G3]. split.
  - change (windows 2 (a :: b :: s)) with ([a; b] :: windows 2 (b :: s)). cbn [forallb]. rewrite K2, andb_true_r. apply valid_pairs_spec, G2.
    + exists [], s. reflexivity.
    + apply is_consonant_spec, Ha.
    + apply is_consonant_spec, Hb.
  - destruct s as [|c s]; [reflexivity|]. change (windows 3 (a :: b :: c :: s)) with ([a; b; c] :: windows 3 (b :: c :: s)). cbn [existsb]. rewrite K3, orb_false_r.
    destruct (mems [a; b; c] BANNED_TRIPLES) eqn:E; [|reflexivity]. exfalso. apply triple_spec in E. apply (G3 a b c); [|exact E]. exists [], s. reflexivity.
Qed.

Lemma nth_before : forall (pre s : str) c, nth_error (pre ++ s) (length pre - 1) = Some c -> 1 <= length pre -> exists u, pre = u ++ [c].
Proof.
  intros pre s c H Hl. destruct pre as [|a u _] using rev_ind; [cbn in Hl; lia|]. rewrite app_length in H. cbn [length] in H.
  rewrite <- app_assoc in H. replace (length u + 1 - 1) with (length u) in H by lia. rewrite nth_error_app2, Nat.sub_diag in H by lia.
  cbn in H. injection H as ->. exists u. reflexivity.
Qed.
Lemma nth_before_conv : forall (u s : str) c, nth_error ((u ++ [c]) ++ s) (length (u ++ [c]) - 1) = Some c.
Proof.
  intros u s c. rewrite app_length. cbn [length]. rewrite <- app_assoc. replace (length u + 1 - 1) with (length u) by lia.
  rewrite nth_error_app2, Nat.sub_diag by lia. reflexivity.
Qed.

Lemma split_class : forall p (u u' r r' : str), u ++ r = u' ++ r' -> Forall (fun c => p c = true) r -> Forall (fun c => p c = true) r' ->
  ~ (exists q a, u = q ++ [a] /\ p a = true) -> ~ (exists q a, u' = q ++ [a] /\ p a = true) -> u = u' /\ r = r'.
Proof.
  intros p u u' r. revert u u'. induction r as [|c r IH] using rev_ind; intros u u' r' E Fr Fr' Hu Hu'.
  - destruct r' as [|c' r' _] using rev_ind; [rewrite !app_nil_r in E; auto|]. exfalso. apply Hu. exists (u' ++ r'), c'.
    rewrite app_nil_r, app_assoc in E. split; [exact E|]. apply Forall_app in Fr' as [_ K]. inversion K. assumption.
  - apply Forall_app in Fr as [Fr K]. destruct r' as [|c' r' _] using rev_ind.
    + exfalso. apply Hu'. exists (u ++ r), c. rewrite app_nil_r, app_assoc in E. split; [auto|]. inversion K. assumption.
    + apply Forall_app in Fr' as [Fr' K']. rewrite !app_assoc in E. apply app_inj_tail in E as [E ->].
      destruct (IH u u' r' E Fr Fr' Hu Hu') as [-> ->]. auto.
Qed.

Lemma zloop_sound : forall mz fuel copy s z z' pre, zloop fuel mz copy s z = Ok z' -> zinv copy pre s z ->
  exists syl, zi_text middle_ok mz pre s syl /\ z_syl z' = z_syl z + length syl /\ zinv copy copy [] z'
    /\ (s = [] \/ (z_cluster z' = None -> smooth_end copy)).
Proof.
  induction fuel as [|f IH]; intros copy s z z' pre H I.
  { destruct s; [|discriminate]. injection H as <-. exists []. split; [constructor|]. rewrite Nat.add_0_r. split; [reflexivity|]. split; [|left; reflexivity].
    pose proof (zi_copy _ _ _ _ I) as E. rewrite app_nil_r in E. subst pre. exact I. }
  destruct s as [|v0 vr].
  { injection H as <-. exists []. split; [constructor|]. rewrite Nat.add_0_r. split; [reflexivity|]. split; [|left; reflexivity].
    pose proof (zi_copy _ _ _ _ I) as E. rewrite app_nil_r in E. subst pre. exact I. }
  cbn [zloop] in H. remember (v0 :: vr) as s eqn:Es. destruct (is_consonant v0) eqn:Ec; [|destruct (is_vowel v0) eqn:Ev].
  - cbv zeta in H. dif H; [discriminate|]. dif H; [discriminate|]. dif H; [discriminate|]. dif H; [discriminate|]. dif H; [discriminate|].
    apply negb_false_iff in Heqb1, Heqb3. pose proof (zinv_cons copy pre s v0 vr z I Es Ec Heqb) as I'. cbv zeta in I'.
    destruct (IH _ _ _ _ _ H I') as (syl & T & Esy & IE & SM). exists syl. split; [|split; [exact Esy|split; [exact IE|right]]].
    + rewrite <- (take_drop_while is_consonant s). apply zi_consonants; [|eapply proj2, windows2; [apply take_while_all|assumption|assumption]| | |exact T].
      * apply (while_run is_consonant consonant s v0 vr); auto. intro x. apply is_consonant_spec.
      * intros ->. rewrite (zi_pos _ _ _ _ I) in Heqb3. apply zi_initial_spec; [apply take_while_Forall|exact Heqb3].
      * intro Hp. rewrite (zi_pos _ _ _ _ I) in Heqb3. destruct pre; [contradiction|exact Heqb3].
    + intro G. destruct SM as [SM|SM]; [|exact (SM G)]. intros _ u r l E Hr FV _ _ _ _. exfalso.
      rewrite (zi_copy _ _ _ _ I), <- (take_drop_while is_consonant s), SM, app_nil_r in E.
      destruct (while_last is_consonant s v0 vr Es Ec) as (q & a & Eq & Ha). rewrite Eq in E.
      destruct r as [|x r _] using rev_ind; [contradiction|]. rewrite !app_assoc in E. apply app_inj_tail in E as [_ ->].
      apply Forall_app in FV as [_ FV]. inversion FV as [|? ? Hx _]. apply is_vowel_spec in Hx. apply v_f0 in Hx. congruence.
  - cbv zeta in H. destruct (split_vowel_cluster _) as [l|e] eqn:El; [|destruct e; discriminate]. apply split_vowel_cluster_spec in El as [El Sl].
    inv_bind H. rename x into prev, E into Eprev. match type of H with (if ?b then _ else _) = _ => destruct b eqn:EB; [discriminate|] end.
    match type of H with (if ?b then _ else _) = _ => destruct b eqn:EF; [discriminate|] end.
    assert (FV : Forall (fun c => is_vowel c = true) (take_while is_vowel s)) by apply take_while_Forall.
    assert (FN : Forall (fun c => is_consonant c = false) (take_while is_vowel s)) by (eapply Forall_impl; [|exact FV]; intros ? ?; apply v_f0; assumption).
    assert (NE : take_while is_vowel s <> []) by (rewrite Es; cbn [take_while]; rewrite Ev; discriminate).
    assert (LN : l <> []) by (intros ->; cbn in El; congruence).
    assert (I' : zinv copy (pre ++ take_while is_vowel s) (drop_while is_vowel s)
      (mkZ (z_pos z + length (take_while is_vowel s)) (z_syl z + length l) (z_cluster z) (z_cons z) (z_final z))).
    { apply (zinv_nc copy pre (take_while is_vowel s) s (drop_while is_vowel s)); auto.
      - symmetry. apply take_drop_while.
      - apply (apart_while is_vowel pre s v0 vr Es Ev). intros a b Ha Hb. split; intros [? ?]; [apply v_f0 in Ha|]; congruence.
      - intro G. destruct l; [contradiction|cbn in G; lia]. }
    destruct (IH _ _ _ _ _ H I') as (syl & T & Esy & IE & SM). exists (l ++ syl). split; [|split; [|split; [exact IE|right]]].
    + rewrite <- (take_drop_while is_vowel s) at 1. apply zi_vowels; auto.
      * apply (while_run is_vowel vowel s v0 vr); auto. intro b. apply is_vowel_spec.
      * intro Hp. rewrite (zi_pos _ _ _ _ I) in EF. destruct pre; [contradiction|]. cbn [length Nat.eqb negb andb] in EF.
        destruct l as [|s0 l]; [contradiction|]. destruct Sl as (s1 & r & E1 & [Hn|Hg] & _); injection E1 as <- <-; [exact Hn|].
        apply follow_spec in Hg. congruence.
    + cbn [z_syl] in Esy. rewrite app_length. lia.
    + intro G. destruct SM as [SM|SM]; [|exact (SM G)]. intros NC u r l' E Hr FV' Hu Hu' El' Sl'.
      assert (EU : copy = pre ++ take_while is_vowel s).
      { rewrite (zi_copy _ _ _ _ I), <- (take_drop_while is_vowel s) at 1. rewrite SM, app_nil_r. reflexivity. }
      assert (ER : u = pre /\ r = take_while is_vowel s).
      { apply (split_class is_vowel u pre r (take_while is_vowel s)); auto.
        - rewrite <- E. exact EU.
        - eapply Forall_impl; [|exact FV']. intros b Hb. apply is_vowel_spec. exact Hb.
        - intros (q & a & -> & Ha). apply Hu. exists q, a. split; [reflexivity|apply is_vowel_spec; exact Ha].
        - intros (q & a & -> & Ha). destruct (zi_apart _ _ _ _ I q a v0 vr eq_refl Es) as [_ K]. apply K. auto. }
      destruct ER as [-> ->]. assert (l' = l).
      { assert (X : split_vowel_cluster (take_while is_vowel s) = Ok l) by (apply split_vowel_cluster_spec; auto).
        assert (Y : split_vowel_cluster (take_while is_vowel s) = Ok l') by (apply split_vowel_cluster_spec; auto). congruence. }
      subst l'.
      destruct (le_lt_dec (length l) 1) as [?|G1]; [assumption|exfalso].
      assert (ZC : z_cluster z = None).
      { destruct (z_cluster z) as [p|] eqn:EZ; [|reflexivity]. exfalso. pose proof (zi_cl _ _ _ _ I) as K. rewrite EZ in K.
        destruct K as (u' & v' & (-> & (b & y & t & -> & Hb & Hy) & _) & _). apply (NC b y); [|auto]. exists u', t. reflexivity. }
      rewrite ZC, andb_true_l in EB. assert (K1 : (2 <=? length l) = true) by (apply Nat.leb_le; lia).
      assert (K2 : (z_pos z + length (concat l) =? length copy) = true) by (apply Nat.eqb_eq; rewrite El, EU, app_length, (zi_pos _ _ _ _ I); reflexivity).
      rewrite K1, K2, !andb_true_r in EB. apply negb_false_iff, N.eqb_eq in EB. rewrite (zi_pos _ _ _ _ I) in *.
      destruct pre as [|p0 pre'].
      * cbn [length Nat.eqb] in *. rewrite EU in *. cbn [app] in *. match goal with K : idx_last _ = Ok ?a |- _ => apply idx_last_ok in K as (q & Eq) end.
        rewrite Eq in FV. apply Forall_app in FV as [_ FV]. inversion FV as [|? ? Hx _]. apply v_f1 in Hx. apply N.eqb_neq in Hx. congruence.
      * cbn [length Nat.eqb] in *. match goal with K : idx copy _ = Ok ?a |- _ => apply idx_ok in K; rewrite EU in K; apply (nth_before (p0 :: pre')) in K; [|cbn; lia]; destruct K as (q & Eq) end.
        apply Hu'. exists q, c_h. split; [congruence|reflexivity].
  - destruct (N.eqb v0 c_h) eqn:Eh; [|discriminate]. apply N.eqb_eq in Eh. cbv zeta in H.
    match type of H with (if ?b then _ else _) = _ => destruct b eqn:EB; [discriminate|] end.
    match type of H with (if ?b then _ else _) = _ => destruct b eqn:EF; [discriminate|] end.
    apply orb_false_iff in EB as [EB1 EB2], EF as [EF1 EF2]. apply negb_false_iff in EB2, EF2. apply Nat.ltb_ge in EB1.
    rewrite (zi_pos _ _ _ _ I) in *. rewrite (zi_copy _ _ _ _ I) in EB2, EF2.
    destruct (nth_error (pre ++ s) (length pre - 1)) as [c|] eqn:EN; [|discriminate]. apply nth_before in EN as (q & Eq); [|lia].
    assert (exists b v, vr = b :: v /\ is_vowel b = true) as (b & v & Evr & Hb).
    { rewrite nth_error_app2 in EF2 by lia. replace (length pre + 1 - length pre) with 1 in EF2 by lia. subst s. cbn [nth_error] in EF2.
      destruct vr as [|b v]; [discriminate|]. exists b, v. auto. }
    assert (I' : zinv copy (pre ++ [v0]) vr (mkZ (length pre + 1) (z_syl z) (z_cluster z) (z_cons z) (z_final z))).
    { apply (zinv_nc copy pre [v0] s vr); auto.
      - discriminate.
      - rewrite (zi_pos _ _ _ _ I). reflexivity.
      - intros u a x t E _. apply app_inj_tail in E as [_ <-]. split; intros [? _]; congruence.
      - intro G. exfalso. pose proof (zi_syl _ _ _ _ I G) as K. rewrite Eq in K. apply Forall_app in K as [_ K]. inversion K as [|? ? Hx _]. apply k_f0 in Hx. congruence. }
    destruct (IH _ _ _ _ _ H I') as (syl & T & Esy & IE & SM). exists syl. split; [|split; [exact Esy|split; [exact IE|right]]].
    + rewrite Es, Eh. apply zi_apostrophe; [|exists b, v; split; [exact Evr|apply is_vowel_spec; exact Hb]|rewrite Eh in T; exact T].
      exists q, c. split; [exact Eq|apply is_vowel_spec; exact EB2].
    + destruct SM as [SM|SM]; [congruence|exact SM].
Qed.

Lemma run_while : forall p P r w, (forall x, p x = true <-> P x) -> run_of P r w -> take_while p (r ++ w) = r /\ drop_while p (r ++ w) = w.
Proof.
  intros p P r w HP (_ & F & H). induction F as [|c r Hc F IH].
  - cbn [app]. destruct w as [|c w]; [auto|]. cbn [take_while drop_while]. destruct (p c) eqn:E; [|auto].
    exfalso. apply (H c w eq_refl). apply HP. exact E.
  - apply HP in Hc. cbn [app take_while drop_while]. rewrite Hc. destruct IH as [-> ->]. auto.
Qed.

Lemma zloop_complete : forall mz pre s syl, zi_text middle_ok mz pre s syl -> forall fuel copy z, length s <= fuel -> zinv copy pre s z ->
  (forall u v, first_cluster copy u v -> count_c u <= 1) -> smooth_end copy -> exists z', zloop fuel mz copy s z = Ok z'.
Proof.
  induction 1 as [pre|pre r w syl Hr Hcl Hi Hm T IH|pre r w l syl Hr El Sl Hn T IH|pre w syl Hb Ha T IH]; intros fuel copy z Hf I HC HS.
  - exists z. destruct fuel; reflexivity.
  - destruct (run_while is_consonant consonant r w is_consonant_spec Hr) as [E1 E2].
    destruct Hr as (Hr & Fr & _). destruct r as [|v0 vr]; [contradiction|]. destruct fuel as [|f]; [cbn in Hf; lia|].
    assert (FB : Forall (fun c => is_consonant c = true) (v0 :: vr)) by (eapply Forall_impl; [|exact Fr]; intros c Hc; apply is_consonant_spec; exact Hc).
    assert (Hc0 : is_consonant v0 = true) by (inversion FB; assumption).
    destruct (windows2_conv mz (v0 :: vr)) as [W2 W3]; [apply forallb_forall, Forall_forall; exact FB|exact Hcl|].
    change ((v0 :: vr) ++ w) with (v0 :: vr ++ w) in *. cbn [zloop]. rewrite Hc0, E1, E2, W2, W3. cbv zeta.
    assert (G1 : ((2 <=? length (v0 :: vr)) && match z_cluster z with None => true | _ => false end && (1 <? z_cons z)) = false).
    { match goal with |- ?a && _ = false => destruct a eqn:EA; [|reflexivity] end. rewrite andb_true_l. apply andb_t in EA as [EA EB]. apply Nat.ltb_ge. rewrite (zi_cons _ _ _ _ I).
      apply (HC pre (v0 :: vr ++ w)). split; [exact (zi_copy _ _ _ _ I)|]. pose proof (zi_cl _ _ _ _ I) as K. destruct (z_cluster z); [discriminate|]. split.
      - destruct vr as [|b t]; [discriminate|]. exists v0, b, (t ++ w). inversion Fr as [|? ? ? F']; inversion F'. auto.
      - cbn [firstn]. apply no_cluster_app; [exact K|apply no_cluster_short|]. intros u a c t Ea Ec. injection Ec as <- <-.
        exact (zi_apart _ _ _ _ I u a v0 (vr ++ w) Ea eq_refl). }
    rewrite G1. cbn [negb].
    assert (G2 : ((z_syl z =? 0) && (2 <=? length (v0 :: vr)) && negb (mems (firstn 2 (v0 :: vr)) INITIAL)) = false).
    { destruct (z_syl z =? 0) eqn:EZ; [|reflexivity]. apply Nat.eqb_eq in EZ. pose proof (zi_syl _ _ _ _ I EZ) as K.
      destruct pre as [|p q _] using rev_ind.
      - specialize (Hi eq_refl). destruct vr as [|b [|c [|d t]]]; cbn [zi_initial firstn length] in *; try contradiction; [reflexivity| |].
        + apply initial_spec in Hi. rewrite Hi. reflexivity.
        + destruct Hi as [Hi _]. apply initial_spec in Hi. rewrite Hi. reflexivity.
      - exfalso. destruct (zi_apart _ _ _ _ I q p v0 (vr ++ w) eq_refl eq_refl) as [X _]. apply X. apply Forall_app in K as [_ K]. inversion K. auto. }
    rewrite G2.
    assert (G3 : (if z_pos z =? 0 then is_zihevla_initial_cluster (v0 :: vr) else is_zihevla_middle_cluster (v0 :: vr)) = true).
    { rewrite (zi_pos _ _ _ _ I). destruct pre as [|p q]; cbn [length Nat.eqb].
      - apply zi_initial_spec; auto.
      - apply Hm. discriminate. }
    rewrite G3. cbn [negb]. apply IH; auto.
    + cbn [length] in Hf |- *. rewrite app_length in Hf. lia.
    + pose proof (zinv_cons copy pre (v0 :: vr ++ w) v0 (vr ++ w) z I eq_refl Hc0) as Z. cbv zeta in Z. rewrite E1, E2 in Z. apply Z. exact G1.
  - destruct (run_while is_vowel vowel r w is_vowel_spec Hr) as [E1 E2].
    destruct Hr as (Hr & Fr & Hw). destruct r as [|v0 vr]; [contradiction|]. destruct fuel as [|f]; [cbn in Hf; lia|].
    assert (FB : Forall (fun c => is_vowel c = true) (v0 :: vr)) by (eapply Forall_impl; [|exact Fr]; intros c Hc; apply is_vowel_spec; exact Hc).
    assert (FN : Forall (fun c => is_consonant c = false) (v0 :: vr)) by (eapply Forall_impl; [|exact FB]; intros ? ?; apply v_f0; assumption).
    assert (Hc0 : is_vowel v0 = true) by (inversion FB; assumption). pose proof (v_f0 _ Hc0) as Hc1.
    assert (LN : l <> []) by (intros ->; discriminate El).
    assert (SV : split_vowel_cluster (v0 :: vr) = Ok l) by (apply split_vowel_cluster_spec; auto).
    change ((v0 :: vr) ++ w) with (v0 :: vr ++ w) in *. cbn [zloop]. rewrite Hc0, Hc1, E1, E2, SV. cbv zeta.
    assert (exists prev, (if z_pos z =? 0 then idx_last copy else idx copy (z_pos z - 1)) = Ok prev) as (prev & Ep).
    { rewrite (zi_pos _ _ _ _ I), (zi_copy _ _ _ _ I). destruct pre as [|p q _] using rev_ind.
      - cbn [length Nat.eqb app]. destruct (idx_last (v0 :: vr ++ w)) eqn:EL; [eauto|]. apply idx_last_nil_err in EL as [EL _]. discriminate.
      - destruct (length (q ++ [p]) =? 0) eqn:E0; [apply Nat.eqb_eq in E0; rewrite app_length in E0; cbn in E0; lia|].
        exists p. unfold idx. rewrite nth_before_conv. reflexivity. }
    rewrite Ep. cbn [bind].
    match goal with |- exists z', (if ?b then _ else _) = _ => assert (G1 : b = false) end.
    { match goal with |- ?b = false => destruct b eqn:EB; [exfalso|reflexivity] end.
      apply andb_t in EB as [EB EL]. apply andb_t in EB as [EB E2']. apply andb_t in EB as [EZ EP].
      destruct (z_cluster z) as [|] eqn:EC; [discriminate|]. apply Nat.leb_le in E2'. apply Nat.eqb_eq in EL.
      pose proof (zi_cl _ _ _ _ I) as K. rewrite EC in K. cbn [cl_inv] in K.
      rewrite El, (zi_pos _ _ _ _ I), (zi_copy _ _ _ _ I) in EL. rewrite app_length in EL. change (v0 :: vr ++ w) with ((v0 :: vr) ++ w) in EL. rewrite app_length in EL.
      destruct w as [|w0 w']; [|cbn in EL; lia]. clear EL. rewrite app_nil_r in *.
      assert (HS' : length l <= 1); [|exact (Nat.lt_irrefl 1 (Nat.le_trans _ _ _ E2' HS'))]. apply (HS) with (u := pre) (r := v0 :: vr) (l := l); auto.
      - rewrite (zi_copy _ _ _ _ I). apply no_cluster_app; [exact K|apply no_cluster_nc; exact FN|exact (zi_apart _ _ _ _ I)].
      - exact (zi_copy _ _ _ _ I).
      - intros (u & a & Ea & Hav). destruct (zi_apart _ _ _ _ I u a v0 vr Ea eq_refl) as [_ X]. apply X. split; [apply is_vowel_spec|]; assumption.
      - intros (u & a & Ea & <-). rewrite (zi_pos _ _ _ _ I), (zi_copy _ _ _ _ I), Ea in Ep.
        destruct (length (u ++ [apostrophe]) =? 0) eqn:E0; [apply Nat.eqb_eq in E0; rewrite app_length in E0; cbn in E0; lia|].
        unfold idx in Ep. rewrite nth_before_conv in Ep. injection Ep as <-. discriminate EP. }
    rewrite G1.
    match goal with |- exists z', (if ?b then _ else _) = _ => assert (G2 : b = false) end.
    { rewrite (zi_pos _ _ _ _ I). destruct pre as [|p q]; [reflexivity|]. cbn [length Nat.eqb negb andb]. destruct l as [|s0 l]; [reflexivity|].
      apply nucleus_not_glide. apply Hn. discriminate. }
    rewrite G2. apply IH; auto.
    + cbn [length] in Hf |- *. rewrite app_length in Hf. lia.
    + apply (zinv_nc copy pre (v0 :: vr) (v0 :: vr ++ w) w); auto.
      * intros u a c t Ea Ec. destruct (exists_last Hr) as (q & y & Eq). rewrite Eq, app_assoc in Ea. apply app_inj_tail in Ea as [_ ->].
        rewrite Eq in FB. apply Forall_app in FB as [_ FB]. inversion FB as [|? ? Hy _]. split; intros [X Y]; [apply v_f0 in Hy; congruence|].
        apply (Hw c t Ec). apply is_vowel_spec. exact Y.
      * intro G. destruct l; [contradiction|cbn in G; lia].
  - destruct fuel as [|f]; [cbn in Hf; lia|]. cbn [zloop]. change (is_consonant apostrophe) with false. change (is_vowel apostrophe) with false. change (N.eqb apostrophe c_h) with true. cbv zeta.
    destruct Hb as (q & p & -> & Hp). destruct Ha as (b & v & -> & Hb). apply is_vowel_spec in Hp, Hb.
    rewrite (zi_pos _ _ _ _ I), (zi_copy _ _ _ _ I), nth_before_conv, Hp.
    assert (L1 : (length (q ++ [p]) <? 1) = false) by (apply Nat.ltb_ge; rewrite app_length; cbn; lia). rewrite L1.
    rewrite nth_error_app2 by lia. replace (length (q ++ [p]) + 1 - length (q ++ [p])) with 1 by lia. cbn [nth_error]. rewrite Hb. cbn [negb orb].
    rewrite <- (zi_copy _ _ _ _ I).
    apply IH; auto.
    + cbn [length] in *. lia.
    + apply (zinv_nc copy (q ++ [p]) [apostrophe] (apostrophe :: b :: v) (b :: v)); auto.
      * discriminate.
      * rewrite (zi_pos _ _ _ _ I). reflexivity.
      * intros u a x t E _. apply app_inj_tail in E as [_ <-]. split; intros [X _]; discriminate X.
      * intro G. exfalso. pose proof (zi_syl _ _ _ _ I G) as K. apply Forall_app in K as [_ K]. inversion K as [|? ? Hx _]. apply k_f0 in Hx. congruence.
Qed.

Lemma zi_text_mono : forall (m m' : str -> Prop) mz pre s syl, (forall r, m r -> m' r) -> zi_text m mz pre s syl -> zi_text m' mz pre s syl.
Proof. intros m m' mz pre s syl HM. induction 1; [apply zi_end|apply zi_consonants|apply zi_vowels|apply zi_apostrophe]; auto. Qed.

Lemma run_unique : forall P r w r' w', run_of P r w -> run_of P r' w' -> r ++ w = r' ++ w' -> r = r' /\ w = w'.
Proof.
  intros P r w r' w' (_ & F & H) (_ & F' & H'). revert r' F'. induction F as [|c r Hc F IH]; intros [|c' r'] F' E.
  - auto.
  - exfalso. cbn [app] in E. inversion F'; subst. eapply H; [reflexivity|eassumption].
  - exfalso. cbn [app] in E. subst. eapply H'; [reflexivity|eassumption].
  - injection E as <- E. inversion F'; subst. destruct (IH r' ltac:(assumption) E) as [-> ->]. auto.
Qed.
Lemma run_head : forall (P : char -> Prop) r w, run_of P r w -> exists c t, r = c :: t /\ P c.
Proof. intros P r w (Hn & F & _). destruct r as [|c t]; [contradiction|]. exists c, t. inversion F. auto. Qed.
Lemma vc_excl : forall c, vowel c -> consonant c -> False.
Proof. intros c H1 H2. apply is_vowel_spec in H1. apply is_consonant_spec in H2. apply v_f0 in H1. congruence. Qed.
Lemma apos_nv : ~ vowel apostrophe.
Proof. intro H. apply is_vowel_spec in H. discriminate. Qed.
Lemma apos_nc : ~ consonant apostrophe.
Proof. intro H. apply is_consonant_spec in H. discriminate. Qed.

(** the syllables are determined by the letters *)
Lemma zi_text_inv : forall m mz pre s syl, zi_text m mz pre s syl ->
  match s with
  | [] => syl = []
  | c :: _ =>
      (consonant c /\ exists r w, s = r ++ w /\ run_of consonant r w /\ zi_text m mz (pre ++ r) w syl)
      \/ (vowel c /\ exists r w l syl', s = r ++ w /\ syl = l ++ syl' /\ run_of vowel r w /\ concat l = r /\ syllables l /\ zi_text m mz (pre ++ r) w syl')
      \/ (c = apostrophe /\ ends_in vowel pre /\ exists b w, s = c :: b :: w /\ vowel b /\ zi_text m mz (pre ++ [c]) (b :: w) syl)
  end.
Proof.
  intros m mz pre s syl [p|p r w syl0 Hr Hcl Hi Hm T|p r w l syl0 Hr El Sl Hn T|p w syl0 Hb Ha T].
  - reflexivity.
  - destruct (run_head _ _ _ Hr) as (c & t & Er & Hc). destruct (r ++ w) as [|c' t'] eqn:E; [rewrite Er in E; discriminate|].
    assert (c' = c) as -> by (rewrite Er in E; injection E as -> _; reflexivity). left. split; [exact Hc|]. exists r, w. rewrite <- E. auto.
  - destruct (run_head _ _ _ Hr) as (c & t & Er & Hc). destruct (r ++ w) as [|c' t'] eqn:E; [rewrite Er in E; discriminate|].
    assert (c' = c) as -> by (rewrite Er in E; injection E as -> _; reflexivity). right. left. split; [exact Hc|]. exists r, w, l, syl0. rewrite <- E. auto 10.
  - right. right. split; [reflexivity|]. split; [exact Hb|]. destruct Ha as (b & v & -> & Hv). exists b, v. auto.
Qed.
Lemma zi_text_det : forall m m' mz mz' pre pre' s syl syl', zi_text m mz pre s syl -> zi_text m' mz' pre' s syl' -> syl = syl'.
Proof.
  intros m m' mz mz' pre pre' s syl syl' T. revert pre' syl'. induction T as [pre|pre r w syl Hr Hcl Hi Hm T IH|pre r w l syl Hr El Sl Hn T IH|pre w syl Hb Ha T IH]; intros pre' syl' T'; apply zi_text_inv in T'.
  - auto.
  - destruct (run_head _ _ _ Hr) as (c & t & Er & Hc). destruct (r ++ w) as [|c' t'] eqn:E; [rewrite Er in E; discriminate|].
    assert (c' = c) as -> by (rewrite Er in E; injection E as -> _; reflexivity). rewrite <- E in T'.
    destruct T' as [(_ & r' & w' & E' & Hr' & T')|[(Hv & _)|(-> & _)]]; [|exfalso; exact (vc_excl _ Hv Hc)|exfalso; exact (apos_nc Hc)].
    destruct (run_unique _ _ _ _ _ Hr Hr' E') as [<- <-]. eauto.
  - destruct (run_head _ _ _ Hr) as (c & t & Er & Hc). destruct (r ++ w) as [|c' t'] eqn:E; [rewrite Er in E; discriminate|].
    assert (c' = c) as -> by (rewrite Er in E; injection E as -> _; reflexivity). rewrite <- E in T'.
    destruct T' as [(Hk & _)|[(_ & r' & w' & l' & syl2 & E' & -> & Hr' & El' & Sl' & T')|(-> & _)]]; [exfalso; exact (vc_excl _ Hc Hk)| |exfalso; exact (apos_nv Hc)].
    destruct (run_unique _ _ _ _ _ Hr Hr' E') as [<- <-]. f_equal; [|eauto].
    assert (X : split_vowel_cluster r = Ok l) by (apply split_vowel_cluster_spec; auto).
    assert (Y : split_vowel_cluster r = Ok l') by (apply split_vowel_cluster_spec; auto). congruence.
  - destruct T' as [(Hk & _)|[(Hv & _)|(_ & _ & b & w' & E & _ & T')]]; [exfalso; exact (apos_nc Hk)|exfalso; exact (apos_nv Hv)|].
    injection E as ->. eauto.
Qed.

Lemma first_cluster_unique : forall w u v u' v', first_cluster w u v -> first_cluster w u' v' -> u = u' /\ v = v'.
Proof.
  assert (G : forall w u v u' v', first_cluster w u v -> first_cluster w u' v' -> length u < length u' -> False).
  { intros w u v u' v' (E & (a & b & t & -> & Ha & Hb) & _) (E' & _ & H) Hl. subst w.
    assert (u' = u ++ skipn (length u) u') as Eu.
    { rewrite <- (firstn_skipn (length u) u') at 1. f_equal. apply (f_equal (firstn (length u))) in E'.
      rewrite firstn_app, Nat.sub_diag, firstn_all, firstn_O, app_nil_r, firstn_app in E'.
      replace (length u - length u') with 0 in E' by lia. rewrite firstn_O, app_nil_r in E'. symmetry. exact E'. }
    rewrite Eu in E', H, Hl. rewrite app_length in Hl. destruct (skipn (length u) u') as [|x s]; [cbn in Hl; lia|].
    rewrite <- app_assoc in E'. apply app_inv_head in E'. cbn [app] in E'. injection E' as <- E'.
    apply (H a b); [|auto]. destruct s as [|y s].
    - cbn [app] in E'. subst v'. exists u, []. rewrite <- app_assoc. reflexivity.
    - injection E' as <- E'. exists u, (s ++ firstn 1 v'). rewrite <- app_assoc. reflexivity. }
  intros w u v u' v' H H'. assert (L : length u = length u').
  { destruct (lt_eq_lt_dec (length u) (length u')) as [[L|L]|L]; [exfalso; eapply G; [exact H|exact H'|exact L]|exact L|exfalso; eapply G; [exact H'|exact H|exact L]]. }
  destruct H as [-> _], H' as [E' _].
  assert (u = u') as ->.
  { apply (f_equal (firstn (length u))) in E'. rewrite firstn_app, Nat.sub_diag, firstn_all, firstn_O, app_nil_r, L, firstn_app, Nat.sub_diag, firstn_all, firstn_O, app_nil_r in E'. exact E'. }
  apply app_inv_head in E'. auto.
Qed.
Lemma cluster_excl : forall w u v, first_cluster w u v -> no_cluster w -> False.
Proof. intros w u v (-> & (a & b & t & -> & Ha & Hb) & _) N. apply (N a b); [|auto]. exists u, t. reflexivity. Qed.

Lemma glide_spec : forall s, is_glide s = true <-> starts_with_glide s.
Proof.
  intro s. split.
  - destruct s as [|a [|b t]]; try discriminate. cbn [is_glide]. intro H. apply andb_t in H as [H Hb]. exists a, b, t.
    split; [reflexivity|]. split; [|apply is_vowel_spec; exact Hb]. apply orb_true_iff in H as [H|H]; apply N.eqb_eq in H; subst a; cbn; auto.
  - intros (a & b & t & -> & Ha & Hb). apply is_vowel_spec in Hb. cbn [is_glide]. rewrite Hb. cbn in Ha. destruct Ha as [<-|[<-|[]]]; reflexivity.
Qed.

(** the loop over the suffixes before the cluster *)
Lemma falls_apart_spec : forall ana yh v p is_, Forall (fun i => i <= p /\ p - i < length v) is_ ->
  (falls_apart ana yh v p is_ = Ok false <->
   forall i, In i is_ -> (exists c t, skipn (p - i) v = c :: t /\ consonant c) \/ starts_with_glide (skipn (p - i) v) ->
     Core.is_brivla ana (dflt_y yh) (skipn (p - i) v) = Ok false).
Proof.
  intros ana yh v p is_ F. induction F as [|i is_ [Hi Hl] F IH]; [split; [intros _ i []|reflexivity]|]. cbn [falls_apart].
  destruct (skipn (p - i) v) as [|c t] eqn:ES. { apply (f_equal (@length char)) in ES. rewrite skipn_length in ES. cbn in ES. lia. }
  assert (EI : idx v (p - i) = Ok c).
  { unfold idx. rewrite <- (firstn_skipn (p - i) v), ES, nth_error_app2, firstn_length_le, Nat.sub_diag by (rewrite ?firstn_length; lia). reflexivity. }
  rewrite EI. cbn [bind]. destruct (is_consonant c || is_glide (c :: t)) eqn:EC.
  - split.
    + intros H. inv_bind H. destruct x; [discriminate|]. intros j [<-|Hj] HG; [rewrite ES; exact E|]. apply IH; assumption.
    + intro H. rewrite <- ES at 1. rewrite (H i (or_introl eq_refl)).
      * cbn [bind]. apply IH. intros j Hj. apply H. right. exact Hj.
      * rewrite ES. apply orb_true_iff in EC as [EC|EC]; [left; exists c, t; split; [reflexivity|apply is_consonant_spec; exact EC]|right; apply glide_spec; exact EC].
  - rewrite IH. split; intros H j Hj; [|apply H; right; exact Hj]. destruct Hj as [<-|Hj]; [|apply H; exact Hj].
    rewrite ES. intros [(c' & t' & E' & Hc)|HG]; exfalso.
    + injection E' as <- <-. apply is_consonant_spec in Hc. rewrite Hc in EC. discriminate.
    + apply glide_spec in HG. rewrite HG, orb_true_r in EC. discriminate.
Qed.

Section Check.
Variables (ana : ana_t) (jvk : jvk_t) (yh : yset).
Definition stays_whole (w : str) : Prop := forall s, falls_apart_into w s -> Core.is_brivla ana (dflt_y yh) s = Ok false.

Lemma falls_apart_whole : forall w u v p, first_cluster w u v -> length u = p -> 0 < p ->
  (stays_whole w <-> Core.is_brivla ana (dflt_y yh) (skipn p w) = Ok false /\ falls_apart ana yh w p (seq 1 (p - 1)) = Ok false).
Proof.
  intros w u v p FC Hp H0. pose proof FC as (E & (a & b & t & Ev & Ha & Hb) & _).
  assert (F : Forall (fun i => i <= p /\ p - i < length w) (seq 1 (p - 1))).
  { apply Forall_forall. intros i Hi. apply in_seq in Hi. split; [lia|]. rewrite E, app_length. lia. }
  rewrite (falls_apart_spec ana yh w p _ F).
  assert (SK : skipn p w = v) by (rewrite E, <- Hp, skipn_app, skipn_all, Nat.sub_diag; reflexivity). split.
  - intro H. split.
    + apply H. exists u, [], v. rewrite app_nil_r. split; [exact FC|]. split; [intros ->; cbn in Hp; lia|]. split; [exact SK|]. left. exists a, (b :: t). rewrite SK. auto.
    + intros i Hi HG. apply H. apply in_seq in Hi. exists (firstn (p - i) u), (skipn (p - i) u), v. rewrite firstn_skipn. split; [exact FC|]. split.
      * intro X. apply (f_equal (@length char)) in X. rewrite firstn_length in X. cbn in X. lia.
      * split; [|exact HG]. rewrite E, skipn_app. replace (p - i - length u) with 0 by lia. reflexivity.
  - intros [H1 H2] s (u1 & u2 & v' & FC' & Hn & -> & HG). destruct (first_cluster_unique _ _ _ _ _ FC FC') as [Eu <-].
    destruct u2 as [|x u2].
    + cbn [app]. rewrite <- SK. exact H1.
    + assert (ES : skipn (length u1) w = (x :: u2) ++ v) by (rewrite E, Eu, <- app_assoc, skipn_app, skipn_all, Nat.sub_diag; reflexivity).
      rewrite <- ES in HG |- *. assert (L : length u1 = p - (S (length u2))) by (rewrite <- Hp, Eu, app_length; cbn [length]; lia).
      rewrite L in HG |- *. apply H2; [|exact HG]. apply in_seq. rewrite Eu, app_length in Hp. cbn [length] in Hp. destruct u1; [contradiction|cbn [length] in *; lia].
Qed.

Lemma check_zihevla_iff : forall req ex mz v,
  check_zihevla_or_rafsi ana jvk req yh ex mz v = Ok ZIhEVLA <->
  (req = true -> 4 <= length v) /\
  exists syl, zihevla_letters middle_ok mz v syl /\ (req = true \/ ex = false -> 2 <= length syl) /\ (2 < length syl -> stays_whole v)
    /\ Core.is_slinkuhi jvk yh mz v = Ok false.
Proof.
  intros req ex mz v. unfold check_zihevla_or_rafsi. split.
  - intro H. dif H; [discriminate|]. split.
    { intros ->. cbn [andb] in Heqb. apply Nat.ltb_ge in Heqb. exact Heqb. }
    inv_bind H. rename x into z, E into EZ. destruct (zloop_sound _ _ _ _ _ _ [] EZ (zinv_start v)) as (syl & T & Esy & I & _). cbn [z_syl] in Esy.
    inv_bind H. rename x into un, E into EU. destruct (z_cluster z) as [p|] eqn:EC.
    2:{ dif H; [discriminate|]. inv_bind H. dif H; [discriminate|]. dif H; [discriminate|]. dif H; discriminate. }
    pose proof (zi_cl _ _ _ _ I) as CL. rewrite EC in CL. destruct CL as (u & w & FC & Lp & Cu).
    exists syl. split; [constructor; [exact T|exists u, w; split; [exact FC|apply count_one; exact Cu]]|].
    rewrite Esy in EU. cbn [Nat.add] in EU. split; [|split].
    + intro G. match type of EU with (if ?b then _ else _) = _ => destruct b eqn:E2; [discriminate|] end.
      assert (X : req || negb ex = true) by (destruct G as [-> | ->]; [reflexivity|apply orb_true_r]). rewrite X, andb_true_r in E2.
      apply Nat.ltb_ge in E2. exact E2.
    + intro G. match type of EU with (if ?b then _ else _) = _ => destruct b eqn:E2; [discriminate|] end.
      assert (X : (2 <? length syl) = true) by (apply Nat.ltb_lt; exact G). rewrite X in EU.
      destruct (0 <? p) eqn:E0.
      * apply Nat.ltb_lt in E0. inv_bind EU. destruct x; [discriminate|]. inv_bind EU. destruct x; [discriminate|].
        apply (falls_apart_whole v u w p FC Lp E0). split; assumption.
      * apply Nat.ltb_ge in E0. intros s (u1 & u2 & w' & FC' & Hn & _). destruct (first_cluster_unique _ _ _ _ _ FC FC') as [Eu _].
        exfalso. apply (f_equal (@length char)) in Eu. rewrite app_length in Eu. destruct u1; [contradiction|]. cbn [length] in Eu. lia.
    + inv_bind H. rename x into c0, E into E0. inv_bind H. rename x into vc, E into EVC. dif H.
      * subst vc. destruct (is_vowel c0) eqn:Ev; [|discriminate]. unfold Core.is_slinkuhi. rewrite E0. cbn [bind]. rewrite Ev. reflexivity.
      * inv_bind H. destruct x; [discriminate|assumption].
  - intros (H4 & syl & [T (u & w & FC & Hu)] & H2 & HW & HS).
    assert (G0 : req && (length v <? 4) = false).
    { destruct req; [|reflexivity]. cbn [andb]. apply Nat.ltb_ge. auto. }
    rewrite G0. destruct (zloop_complete mz [] v syl T (length v) v (mkZ 0 0 None 0 0) (le_n _) (zinv_start v)) as (z & EZ).
    + intros u' w' FC'. destruct (first_cluster_unique _ _ _ _ _ FC FC') as [<- _]. apply count_one. exact Hu.
    + intro NC. exfalso. exact (cluster_excl _ _ _ FC NC).
    + rewrite EZ. cbn [bind]. destruct (zloop_sound _ _ _ _ _ _ [] EZ (zinv_start v)) as (syl' & T' & Esy & I & _). cbn [z_syl Nat.add] in Esy.
      assert (ES : length syl' = length syl).
      { f_equal. exact (zi_text_det _ _ _ _ _ _ _ _ _ T' T). }
      rewrite Esy, ES. pose proof (zi_cl _ _ _ _ I) as CL. destruct (z_cluster z) as [p|]; [|exfalso; exact (cluster_excl _ _ _ FC CL)].
      destruct CL as (u' & w' & FC' & Lp & _). destruct (first_cluster_unique _ _ _ _ _ FC FC') as [<- <-]. clear FC'.
      assert (G1 : (length syl <? 2) && (req || negb ex) = false).
      { destruct (req || negb ex) eqn:ER; [|apply andb_false_r]. rewrite andb_true_r. apply Nat.ltb_ge. apply H2.
        apply orb_true_iff in ER as [->|ER]; [auto|]. apply negb_true_iff in ER. auto. }
      rewrite G1. pose proof FC as (Ev & (a & b & t & Ew & Ha & Hb) & _).
      assert (GU : (if 2 <? length syl then
            if 0 <? p then
                  b <- Core.is_brivla ana (dflt_y yh) (skipn p v) ;;
                  if b then Err NotZihevlaError
                  else
                    b' <- falls_apart ana yh v p (seq 1 (p - 1)) ;;
                    if b' then Err NotZihevlaError else Ok tt
                else Ok tt
            else Ok tt) = Ok tt).
      { destruct (2 <? length syl) eqn:E2; [|reflexivity]. apply Nat.ltb_lt in E2. destruct (0 <? p) eqn:E0; [|reflexivity]. apply Nat.ltb_lt in E0.
        destruct (proj1 (falls_apart_whole v u w p FC Lp E0) (HW E2)) as [X1 X2]. rewrite X1. cbn [bind]. rewrite X2. reflexivity. }
      rewrite GU. cbn [bind]. unfold Core.is_slinkuhi in HS |- *. destruct v as [|c0 [|c1 v']].
      * discriminate HS.
      * exfalso. subst w. destruct u as [|? [|? ?]]; discriminate.
      * cbn [idx nth_error bind]. destruct (is_vowel c0) eqn:E0.
        -- destruct (is_consonant c1); reflexivity.
        -- change (idx (c0 :: c1 :: v') 0) with (Ok c0) in HS. cbn [bind] in HS. rewrite E0 in HS. rewrite HS. reflexivity.
Qed.
End Check.

(** ** Clusters inside a word *)
Definition sonorant_pair (p : str) : Prop := exists c s, p = [c; s] /\ In s (L "lmnr").
Lemma sonorant_spec : forall c, is_sonorant c = true -> In c (L "lmnr").
Proof. intros c H. apply memc_In in H. revert H. cbn. intuition. Qed.
Lemma re_pairs_sound : forall n s, length s <= n -> re_pairs s = true -> exists ps, s = concat ps /\ Forall sonorant_pair ps.
Proof.
  induction n as [|n IH]; intros s Hn H.
  - destruct s; [|cbn in Hn; lia]. exists []. auto.
  - destruct s as [|a [|b t]]; [exists []; auto|discriminate|]. cbn [re_pairs] in H. apply andb_t in H as [H1 H]. apply andb_t in H1 as [_ H1].
    destruct (IH t ltac:(cbn in Hn; lia) H) as (ps & -> & F). exists ([a; b] :: ps). split; [reflexivity|]. constructor; [|exact F].
    exists a, b. split; [reflexivity|apply sonorant_spec; exact H1].
Qed.
Lemma re_tail_sound : forall s g, re_tail s = Some g -> s <> [] /\ (g = None -> length s = 1) /\ (forall o, g = Some o -> o = s).
Proof.
  intros s g H. unfold re_tail in H. destruct s as [|a [|b [|c [|d t]]]]; try discriminate;
    repeat match type of H with (if ?b then _ else _) = _ => destruct b end; try discriminate; injection H as <-;
    (split; [discriminate|]); (split; [intro X; first [discriminate X|reflexivity]|intros o E; first [discriminate E|injection E as <-; reflexivity]]).
Qed.
Lemma re_star_sound : forall n s g, length s <= n -> re_star_tail s = Some g ->
  exists ps o, s = concat ps ++ o /\ Forall sonorant_pair ps /\ re_tail o = Some g.
Proof.
  induction n as [|n IH]; intros s g Hn H.
  - destruct s; [|cbn in Hn; lia]. discriminate.
  - assert (T : forall g, re_tail s = Some g -> exists ps o, s = concat ps ++ o /\ Forall sonorant_pair ps /\ re_tail o = Some g).
    { intros g' E. exists [], s. auto. }
    destruct s as [|a [|b t]]; try (apply T; exact H).
    change (re_star_tail (a :: b :: t)) with (if is_consonant a && is_sonorant b then
        match re_star_tail t with Some g => Some g | None => re_tail (a :: b :: t) end else re_tail (a :: b :: t)) in H.
    destruct (is_consonant a && is_sonorant b) eqn:E; [|apply T; exact H].
    destruct (re_star_tail t) as [g'|] eqn:Et; [|apply T; exact H]. injection H as ->.
    apply andb_t in E as [_ E]. destruct (IH t g ltac:(cbn in Hn; lia) Et) as (ps & o & -> & F & Ho).
    exists ([a; b] :: ps), o. split; [reflexivity|]. split; [|exact Ho]. constructor; [|exact F]. exists a, b. split; [reflexivity|apply sonorant_spec; exact E].
Qed.
Lemma re_head_sound : forall s g, re_head s = Some g -> exists coda ps, s = coda ++ concat ps /\ length coda <= 1 /\ Forall sonorant_pair ps.
Proof.
  intros s g H. unfold re_head in H. destruct s as [|c t]; [exists [], []; auto|].
  destruct (is_consonant c && re_pairs t) eqn:E.
  - apply andb_t in E as [_ E]. destruct (re_pairs_sound _ t (le_n _) E) as (ps & -> & F). exists [c], ps. auto.
  - destruct (re_pairs (c :: t)) eqn:E'; [|discriminate]. destruct (re_pairs_sound _ _ (le_n _) E') as (ps & -> & F). exists [], ps. auto with arith.
Qed.
Lemma re_full_sound : forall s g, re_full s = Some g -> exists coda ps o, s = coda ++ concat ps ++ o /\ length coda <= 1 /\ Forall sonorant_pair ps /\ re_tail o = Some g.
Proof.
  assert (K : forall s g, re_star_tail s = Some g -> exists coda ps o, s = coda ++ concat ps ++ o /\ length coda <= 1 /\ Forall sonorant_pair ps /\ re_tail o = Some g).
  { intros s g H. destruct (re_star_sound _ s g (le_n _) H) as (ps & o & -> & F & Ho). exists [], ps, o. auto with arith. }
  intros s g H. unfold re_full in H. destruct s as [|c t]; [apply K; exact H|]. destruct (is_consonant c); [|apply K; exact H].
  destruct (re_star_tail t) as [g'|] eqn:E; [|apply K; exact H]. injection H as ->.
  destruct (re_star_sound _ t g (le_n _) E) as (ps & o & -> & F & Ho). exists [c], ps, o. auto.
Qed.

Lemma middle_sound : forall r, r <> [] -> Forall (fun c => is_consonant c = true) r -> middle_ok r -> zi_middle r.
Proof.
  intros r Hn Fr H. unfold middle_ok, is_zihevla_middle_cluster in H.
  destruct (length r =? 3) eqn:E3.
  - apply Nat.eqb_eq in E3. destruct r as [|a [|b [|c [|]]]]; try discriminate E3. destruct (is_sonorant b) eqn:Eb.
    + exists [], [[a; b]], [c]. repeat split; auto; [|discriminate]. constructor; [|constructor]. exists a, b. split; [reflexivity|apply sonorant_spec; exact Eb].
    + apply andb_t in H as [_ H]. exists [a], [], [b; c]. repeat split; auto; [|discriminate]. cbn [zi_initial]. apply initial_spec. exact H.
  - destruct (length r <? 3) eqn:E2.
    + apply Nat.ltb_lt in E2. destruct r as [|a [|b [|c t]]]; [contradiction| | |cbn in E2; lia].
      * exists [], [], [a]. repeat split; auto; discriminate.
      * exists [a], [], [b]. repeat split; auto; discriminate.
    + apply Nat.eqb_neq in E3. apply Nat.ltb_ge in E2. cbv zeta in H.
      assert (FL : forall k, Forall (fun c => is_consonant c = true) (lastn k r)).
      { intro k. rewrite <- (dropl_lastn k r) in Fr. apply Forall_app in Fr as [_ Fr]. exact Fr. }
      match type of H with context [if ?b then (if _ then _ else _) else _] => destruct b eqn:EM end.
      * apply andb_t in EM as [_ EM]. destruct (is_zihevla_initial_cluster (lastn 3 r)) eqn:EI.
        -- destruct (re_head (dropl 3 r)) as [g|] eqn:EH; [|discriminate]. apply re_head_sound in EH as (coda & ps & E & Hc & F).
           exists coda, ps, (lastn 3 r). rewrite app_assoc, <- E, dropl_lastn. repeat split; auto; [apply zi_initial_spec; auto|].
           intro X. pose proof (dropl_lastn 3 r) as Y. rewrite X, app_nil_r in Y. apply (f_equal (@length char)) in Y. unfold dropl in Y. rewrite firstn_length in Y. lia.
        -- destruct (re_head (dropl 2 r)) as [g|] eqn:EH; [|discriminate]. apply re_head_sound in EH as (coda & ps & E & Hc & F).
           exists coda, ps, (lastn 2 r). rewrite app_assoc, <- E, dropl_lastn. repeat split; auto.
           ++ apply mems_In in EM. pose proof EM as EM'. apply mems_In in EM'. destruct (lastn 2 r) as [|a [|b [|c t]]]; cbn [zi_initial]; try exact I.
              ** apply initial_spec. exact EM'.
              ** exfalso. assert (X : Forall (fun x => length x = 2) INITIAL) by (repeat constructor). rewrite Forall_forall in X. specialize (X _ EM). discriminate X.
           ++ intro X. rewrite X in EM. discriminate EM.
      * destruct (re_full r) as [g|] eqn:EF; [|discriminate]. destruct (re_full_sound r g EF) as (coda & ps & o & E & Hc & F & Ho).
        destruct (re_tail_sound o g Ho) as (Hon & H1 & H2). exists coda, ps, o. repeat split; auto.
        assert (FO : Forall (fun c => is_consonant c = true) o) by (rewrite E in Fr; apply Forall_app in Fr as [_ Fr]; apply Forall_app in Fr as [_ Fr]; exact Fr).
        destruct g as [g|].
        -- rewrite (H2 g eq_refl) in H. apply zi_initial_spec; assumption.
        -- specialize (H1 eq_refl). destruct o as [|a [|]]; try discriminate H1. exact I.
Qed.

Lemma zi_text_middle : forall mz pre s syl, zi_text middle_ok mz pre s syl -> zi_text zi_middle mz pre s syl.
Proof.
  induction 1 as [pre|pre r w syl Hr Hcl Hi Hm T IH|pre r w l syl Hr El Sl Hn T IH|pre w syl Hb Ha T IH]; [apply zi_end|apply zi_consonants|apply zi_vowels|apply zi_apostrophe]; auto.
  intro Hp. destruct Hr as (Hr & F & _). apply middle_sound; auto. eapply Forall_impl; [|exact F]. intros c Hc. apply is_consonant_spec. exact Hc.
Qed.

(** ** Experimental rafsi *)
Lemma check_rafsi_iff : forall ana jvk yh req ex mz v,
  check_zihevla_or_rafsi ana jvk req yh ex mz v = Ok RAFSI <->
  req = false /\ exists syl, exp_rafsi_letters mz v syl /\ (ex = false -> 2 <= length syl)
    /\ (ex = true \/ exists c t, v = c :: t /\ consonant c).
Proof.
  intros ana jvk yh req ex mz v. unfold check_zihevla_or_rafsi. split.
  - intro H. dif H; [discriminate|]. inv_bind H. rename x into z, E into EZ.
    destruct (zloop_sound _ _ _ _ _ _ [] EZ (zinv_start v)) as (syl & T & Esy & I & SM). cbn [z_syl Nat.add] in Esy.
    inv_bind H. rename x into un, E into EU. destruct (z_cluster z) as [p|] eqn:EC.
    { inv_bind H. inv_bind H. dif H; [discriminate|]. inv_bind H. dif H; discriminate. }
    destruct req; [discriminate|]. split; [reflexivity|]. inv_bind H. rename x into c0, E into E0.
    match type of H with (if ?b then _ else _) = _ => destruct b eqn:E1; [discriminate|] end.
    match type of H with (if ?b then _ else _) = _ => destruct b eqn:E2; [discriminate|] end.
    match type of H with (if ?b then _ else _) = _ => destruct b eqn:E3; [discriminate|] end.
    apply Nat.ltb_ge in E2, E3. apply idx0_ok in E0 as (t & ->).
    pose proof (zi_cl _ _ _ _ I) as NC. rewrite EC in NC. cbn [cl_inv] in NC.
    exists syl. split; [constructor|split].
    + eapply zi_text_mono; [|exact T]. auto.
    + discriminate.
    + intros u c w E Hc. destruct (zi_fin0 _ _ _ _ I) as (r & q & Erq & Fr & Fq); [lia|]. rewrite (zi_cons _ _ _ _ I) in E2.
      apply is_consonant_spec in Hc. rewrite Erq in E, E2. rewrite count_app, (count_all r Fr) in E2.
      destruct r as [|x r].
      * exfalso. cbn [app] in E. rewrite E in Fq. apply Forall_app in Fq as [_ Fq]. inversion Fq. congruence.
      * cbn [length] in E2. destruct r; [|cbn in E2; lia]. destruct u as [|y u]; [reflexivity|]. exfalso. cbn [app] in E. injection E as _ E.
        rewrite E in Fq. apply Forall_app in Fq as [_ Fq]. inversion Fq. congruence.
    + destruct SM as [SM|SM]; [discriminate|auto].
    + intros ->. cbn [negb orb] in EU. rewrite andb_true_r, Esy in EU. destruct (length syl <? 2) eqn:EL; [discriminate|]. apply Nat.ltb_ge in EL. exact EL.
    + destruct ex; [auto|]. right. exists c0, t. split; [reflexivity|]. apply is_consonant_spec. rewrite andb_true_r in E1. apply negb_false_iff in E1. exact E1.
  - intros (-> & syl & [T Hn Hc Hs] & H2 & HX). cbn [andb].
    assert (NC : no_cluster v).
    { intros a b (u & w & E) [Ha Hb]. specialize (Hc (u ++ [a]) b w). rewrite <- app_assoc in Hc. specialize (Hc E Hb). destruct u; discriminate. }
    assert (T' : zi_text middle_ok mz [] v syl).
    { clear - T Hc. assert (G : forall m pre s, zi_text m mz pre s syl -> v = pre ++ s -> zi_text middle_ok mz pre s syl); [|eapply G; [exact T|reflexivity]].
      clear T. intros m pre s T. revert Hc. induction T as [pre|pre r w syl Hr Hcl Hi Hm T IH|pre r w l syl Hr El Sl Hn T IH|pre w syl Hb Ha T IH]; intros HC E;
        [apply zi_end|apply zi_consonants|apply zi_vowels|apply zi_apostrophe]; auto.
      - intro Hp. exfalso. destruct (run_head _ _ _ Hr) as (c & t & -> & Hc). apply Hp. eapply HC; [exact E|exact Hc].
      - apply IH; auto. rewrite <- app_assoc. exact E.
      - apply IH; auto. rewrite <- app_assoc. exact E.
      - apply IH; auto. rewrite <- app_assoc. exact E. }
    destruct (zloop_complete mz [] v syl T' (length v) v (mkZ 0 0 None 0 0) (le_n _) (zinv_start v)) as (z & EZ).
    + intros u w FC. exfalso. exact (cluster_excl _ _ _ FC NC).
    + exact Hs.
    + rewrite EZ. cbn [bind]. destruct (zloop_sound _ _ _ _ _ _ [] EZ (zinv_start v)) as (syl' & T2 & Esy & I & _). cbn [z_syl Nat.add] in Esy.
      rewrite (zi_text_det _ _ _ _ _ _ _ _ _ T2 T') in Esy. rewrite Esy.
      assert (EC : z_cluster z = None).
      { pose proof (zi_cl _ _ _ _ I) as CL. destruct (z_cluster z); [|reflexivity]. destruct CL as (u & w & FC & _). exfalso. exact (cluster_excl _ _ _ FC NC). }
      rewrite EC. assert (G1 : (length syl <? 2) && (false || negb ex) = false).
      { destruct ex; [apply andb_false_r|]. rewrite andb_true_r. apply Nat.ltb_ge. auto. }
      rewrite G1. assert (G2 : (if 2 <? length syl then Ok tt else Ok tt) = Ok tt) by (destruct (2 <? length syl); reflexivity). rewrite G2. cbn [bind].
      destruct v as [|c0 t]; [contradiction|]. cbn [idx nth_error bind].
      assert (G3 : negb (is_consonant c0) && negb ex = false).
      { destruct HX as [->|(c & t' & E & Hk)]; [apply andb_false_r|]. injection E as <- <-. apply is_consonant_spec in Hk. rewrite Hk. reflexivity. }
      rewrite G3. assert (FT : Forall (fun c => is_consonant c = false) t).
      { apply Forall_forall. intros c Hin. apply in_split in Hin as (u & w & ->). destruct (is_consonant c) eqn:E; [|reflexivity].
        apply is_consonant_spec in E. specialize (Hc (c0 :: u) c w eq_refl E). discriminate. }
      assert (G4 : (1 <? z_cons z) = false).
      { apply Nat.ltb_ge. rewrite (zi_cons _ _ _ _ I). change (c0 :: t) with ([c0] ++ t). rewrite count_app, (count_none t FT).
        unfold count_c. cbn [filter]. destruct (is_consonant c0); cbn [length]; lia. }
      rewrite G4. destruct (0 <? z_final z) eqn:EF; [|reflexivity]. exfalso. apply Nat.ltb_lt in EF.
      destruct (zi_fin1 _ _ _ _ I EF) as (u & c & w & E & Hu & Hk). apply Hu. apply is_consonant_spec in Hk. eapply Hc; eassumption.
Qed.
