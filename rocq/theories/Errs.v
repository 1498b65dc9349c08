(** Which exceptions each function of the model can raise. *)
From Verif Require Import Str Data Tarmi Rafsi Core Api Lib Spec Shapes Decomp Basic Vowels Katna.

(** Every exception of [r] satisfies [P]. *)
Definition errs {A} (P : exn -> Prop) (r : res A) : Prop := forall e, r = Err e -> P e.

Lemma errs_ok : forall A P (a : A), errs P (Ok a).
Proof. intros A P a e H. discriminate. Qed.
Lemma errs_err : forall A (P : exn -> Prop) e, P e -> errs P (@Err A e).
Proof. intros A P e H e' E. injection E as <-. exact H. Qed.
Lemma errs_bind : forall A B P (m : res A) (k : A -> res B),
  errs P m -> (forall a, m = Ok a -> errs P (k a)) -> errs P (bind m k).
Proof.
  intros A B P [a|e] k H1 H2; cbn; [auto|]. intros e' E. injection E as <-. apply H1. reflexivity.
Qed.
Lemma errs_weaken : forall A (P Q : exn -> Prop) (r : res A), errs P r -> (forall e, P e -> Q e) -> errs Q r.
Proof. intros A P Q r H HPQ e E. apply HPQ, H, E. Qed.
Lemma errs_idx : forall (P : exn -> Prop) s i, P IndexError -> errs P (idx s i).
Proof. intros P s i H. unfold idx. destruct (nth_error s i); [apply errs_ok|apply errs_err; exact H]. Qed.
Lemma errs_idxl : forall (P : exn -> Prop) A (s : list A) i, P IndexError -> errs P (idxl s i).
Proof. intros P A s i H. unfold idxl. destruct (nth_error s i); [apply errs_ok|apply errs_err; exact H]. Qed.
Lemma errs_idx_last : forall (P : exn -> Prop) A (s : list A), P IndexError -> errs P (idx_last s).
Proof. intros P A s H. unfold idx_last. destruct (last_opt s); [apply errs_ok|apply errs_err; exact H]. Qed.

Create HintDb errs.
#[export] Hint Resolve errs_idx errs_idxl errs_idx_last : errs.
Ltac es :=
  repeat match goal with
  | |- errs _ (Ok _) => apply errs_ok
  | |- errs _ (Err _) => apply errs_err; solve [auto | cbn; auto 12]
  | |- errs _ (bind _ _) => apply errs_bind; [|intros]
  | |- errs _ (if ?b then _ else _) => destruct b eqn:?
  | |- errs _ (match ?x with _ => _ end) => destruct x eqn:?
  | |- errs _ _ => solve [eauto with errs | cbn; eauto with errs]
  end.

Definition only (l : list exn) (e : exn) : Prop := In e l.
#[export] Hint Extern 1 (only _ _) => (cbn; tauto) : core errs.
Lemma only_cons : forall e l, only (e :: l) e.
Proof. left; reflexivity. Qed.

Lemma errs_normalise : forall w, errs (only [IndexError]) (normalise w).
Proof. intros w. unfold normalise. es. Qed.
Lemma errs_hyphen_len : forall yh prev w, errs (only [IndexError]) (hyphen_len yh prev w).
Proof. intros. unfold hyphen_len. es. Qed.
Definition J2ERR := [DecompositionError; InvalidClusterError; NotBrivlaError; IndexError].

Lemma hyphen_len_pos : forall yh prev w k, hyphen_len yh prev w = Ok (Some k) -> 1 <= k.
Proof.
  intros yh prev w k H. unfold hyphen_len in H.
  destruct prev; [|discriminate]. destruct w; [discriminate|]. dif H; [|discriminate].
  dif H; [injection H as <-; lia|]. inv_bind H. dif H; [injection H as <-; lia|].
  dif H; [injection H as <-; lia|discriminate].
Qed.
Lemma errs_j2_loop : forall f yh mz orig w acc, length w < f ->
  errs (only J2ERR) (jvokaha2_loop f yh mz orig w acc).
Proof.
  induction f as [|f IH]; intros yh mz orig w acc H; [lia|]. cbn [jvokaha2_loop].
  destruct w as [|c w]; [es|].
  assert (sk : forall k, 1 <= k -> length (skipn k (c :: w)) < f).
  { intros k Hk. rewrite skipn_length. cbn [length] in *. lia. }
  apply errs_bind.
  { eapply errs_weaken; [apply errs_hyphen_len|]. cbn. tauto. }
  intros [k|] E.
  { apply IH. apply sk. eapply hyphen_len_pos. exact E. }
  cbv zeta.
  repeat match goal with
  | |- errs _ (if ?b then _ else _) => destruct b
  | |- errs _ (jvokaha2_loop f _ _ _ (skipn ?k _) _) => apply IH, sk; lia
  | |- errs _ (Ok _) => apply errs_ok
  | |- errs _ (Err _) => apply errs_err; cbn; tauto
  end.
Qed.
Lemma errs_jvokaha_2 : forall yh mz w, errs (only J2ERR) (jvokaha_2 yh mz w).
Proof. intros. apply errs_j2_loop. lia. Qed.

Lemma errs_compare_loop : forall corr other i, errs (only [IndexError]) (compare_loop corr other i).
Proof. induction corr as [|p corr IH]; intros other i; cbn [compare_loop]; cbv zeta; es; apply IH. Qed.

(** ** The builder *)
Lemma errs_get_rafsi : forall r t f l cs gl,
  errs (only [IndexError; AssertionError]) (get_rafsi_for_rafsi r t f l cs gl).
Proof. intros. unfold get_rafsi_for_rafsi. es. Qed.

Lemma errs_next_consonants : forall a b c d e f g, errs (only [IndexError]) (next_consonants a b c d e f g).
Proof. intros. unfold next_consonants, last_sound, first_sound. es. Qed.
#[export] Hint Resolve errs_next_consonants : errs.
Lemma errs_combine : forall a b c d e f g h i j, errs (only [IndexError]) (combine a b c d e f g h i j).
Proof. intros. unfold combine. cbv zeta. es. Qed.
#[export] Hint Resolve errs_combine : errs.
Lemma errs_update : forall c t, errs (only [IndexError]) (update_current_best c t).
Proof. intros. unfold update_current_best. cbv zeta. es. Qed.
#[export] Hint Resolve errs_update : errs.
Lemma errs_fold : forall A B P (f : A -> B -> res A) l a, (forall a b, errs P (f a b)) -> errs P (fold_res f l a).
Proof.
  intros A B P f l. induction l as [|b l IH]; intros a H; cbn; [apply errs_ok|].
  apply errs_bind; [apply H|]. intros. apply IH, H.
Qed.
Lemma errs_first_tos : forall r g, errs (only [IndexError]) (first_tos r g).
Proof. intros. unfold first_tos. es. Qed.
#[export] Hint Resolve errs_first_tos : errs.
Lemma errs_table : forall gen st rll, errs (only [IndexError]) (lujvo_table gen st rll).
Proof.
  intros. unfold lujvo_table. apply errs_bind; [es|]. intros l0 _. apply errs_bind.
  - destruct l0; [es|]. apply errs_bind; [es|]. intros l1 _. unfold first_step.
    apply errs_fold. intros t [r0 n0]. apply errs_fold. intros t' [r1 n1]. es.
  - intros t _. apply errs_fold. intros t' rl. unfold next_step.
    apply errs_fold. intros t'' [r c]. apply errs_fold. intros t3 [[[tos k] ch] [[w sc] ix]]. es.
Qed.

(** ** check_zihevla_or_rafsi *)
Lemma errs_svc : forall vs, errs (only [DecompositionError]) (split_vowel_cluster vs).
Proof. intros vs e H. apply split_vowel_cluster_err in H. subst. left. reflexivity. Qed.

Lemma drop_while_lt : forall p c s, p c = true -> length (drop_while p (c :: s)) < length (c :: s).
Proof. intros p c s H. cbn. rewrite H. pose proof (drop_while_length p s). lia. Qed.

Lemma errs_zloop : forall f mz copy v z, length v <= f ->
  errs (only [NotZihevlaError; IndexError]) (zloop f mz copy v z).
Proof.
  induction f as [|f IH]; intros mz copy v z H.
  - destruct v; [cbn [zloop]; es|cbn in H; lia].
  - destruct v as [|v0 vr]; [cbn [zloop]; es|].
    cbn [zloop]. destruct (is_consonant v0) eqn:Ec.
    { cbv zeta. pose proof (drop_while_lt is_consonant v0 vr Ec).
      repeat match goal with |- errs _ (if ?b then _ else _) => destruct b end;
        try (apply errs_err; auto). apply IH. cbn [length] in *. lia. }
    destruct (is_vowel v0) eqn:Ev.
    { cbv zeta. pose proof (drop_while_lt is_vowel v0 vr Ev).
      destruct (split_vowel_cluster _) as [sy|e] eqn:Es.
      - apply errs_bind; [es|]. intros prev _.
        repeat match goal with |- errs _ (if ?b then _ else _) => destruct b end;
          try (apply errs_err; auto). apply IH. cbn [length] in *. lia.
      - apply split_vowel_cluster_err in Es. subst e. apply errs_err. auto. }
    repeat match goal with |- errs _ (if ?b then _ else _) => destruct b end;
      try (apply errs_err; auto). apply IH. cbn [length] in *. lia.
Qed.
