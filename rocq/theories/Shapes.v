(** Letter classes, clusters and shapes of the model against the specification. *)
From Verif Require Import Str Data Tarmi Core Lib Spec.

Lemma is_vowel_spec : forall c, is_vowel c = true <-> vowel c.
Proof. intro; unfold is_vowel, vowel. rewrite memc_In. reflexivity. Qed.
Lemma is_consonant_spec : forall c, is_consonant c = true <-> consonant c.
Proof. intro; unfold is_consonant, consonant. rewrite memc_In. reflexivity. Qed.

(** What a known class decides. *)
Lemma v_f0 : forall c, is_vowel c = true -> is_consonant c = false.
Proof. intros c H; apply memc_In in H; cbn in H; decompose [or] H; subst; try contradiction; reflexivity. Qed.
Lemma v_f1 : forall c, is_vowel c = true -> N.eqb c c_h = false.
Proof. intros c H; apply memc_In in H; cbn in H; decompose [or] H; subst; try contradiction; reflexivity. Qed.
Lemma v_f2 : forall c, is_vowel c = true -> N.eqb c c_y = false.
Proof. intros c H; apply memc_In in H; cbn in H; decompose [or] H; subst; try contradiction; reflexivity. Qed.
Lemma v_f3 : forall c, is_vowel c = true -> N.eqb c c_r = false.
Proof. intros c H; apply memc_In in H; cbn in H; decompose [or] H; subst; try contradiction; reflexivity. Qed.
Lemma v_f4 : forall c, is_vowel c = true -> N.eqb c c_n = false.
Proof. intros c H; apply memc_In in H; cbn in H; decompose [or] H; subst; try contradiction; reflexivity. Qed.
Lemma v_f5 : forall c, is_vowel c = true -> N.eqb c c_dash = false.
Proof. intros c H; apply memc_In in H; cbn in H; decompose [or] H; subst; try contradiction; reflexivity. Qed.
Lemma v_f6 : forall c, is_vowel c = true -> N.eqb c_h c = false.
Proof. intros c H; apply memc_In in H; cbn in H; decompose [or] H; subst; try contradiction; reflexivity. Qed.
Lemma v_f7 : forall c, is_vowel c = true -> N.eqb c_y c = false.
Proof. intros c H; apply memc_In in H; cbn in H; decompose [or] H; subst; try contradiction; reflexivity. Qed.
Lemma v_f8 : forall c, is_vowel c = true -> N.eqb c_dash c = false.
Proof. intros c H; apply memc_In in H; cbn in H; decompose [or] H; subst; try contradiction; reflexivity. Qed.
Lemma v_f9 : forall c, is_vowel c = true -> is_hy c = false.
Proof. intros c H; apply memc_In in H; cbn in H; decompose [or] H; subst; try contradiction; reflexivity. Qed.
Lemma v_f10 : forall c, is_vowel c = true -> N.eqb c_r c = false.
Proof. intros c H; apply memc_In in H; cbn in H; decompose [or] H; subst; try contradiction; reflexivity. Qed.
Lemma v_f11 : forall c, is_vowel c = true -> N.eqb c_n c = false.
Proof. intros c H; apply memc_In in H; cbn in H; decompose [or] H; subst; try contradiction; reflexivity. Qed.
Lemma k_f0 : forall c, is_consonant c = true -> is_vowel c = false.
Proof. intros c H; apply memc_In in H; cbn in H; decompose [or] H; subst; try contradiction; reflexivity. Qed.
Lemma k_f1 : forall c, is_consonant c = true -> N.eqb c c_h = false.
Proof. intros c H; apply memc_In in H; cbn in H; decompose [or] H; subst; try contradiction; reflexivity. Qed.
Lemma k_f2 : forall c, is_consonant c = true -> N.eqb c c_y = false.
Proof. intros c H; apply memc_In in H; cbn in H; decompose [or] H; subst; try contradiction; reflexivity. Qed.
Lemma k_f3 : forall c, is_consonant c = true -> N.eqb c c_dash = false.
Proof. intros c H; apply memc_In in H; cbn in H; decompose [or] H; subst; try contradiction; reflexivity. Qed.
Lemma k_f4 : forall c, is_consonant c = true -> N.eqb c_h c = false.
Proof. intros c H; apply memc_In in H; cbn in H; decompose [or] H; subst; try contradiction; reflexivity. Qed.
Lemma k_f5 : forall c, is_consonant c = true -> N.eqb c_y c = false.
Proof. intros c H; apply memc_In in H; cbn in H; decompose [or] H; subst; try contradiction; reflexivity. Qed.
Lemma k_f6 : forall c, is_consonant c = true -> N.eqb c_dash c = false.
Proof. intros c H; apply memc_In in H; cbn in H; decompose [or] H; subst; try contradiction; reflexivity. Qed.
Lemma k_f7 : forall c, is_consonant c = true -> is_hy c = false.
Proof. intros c H; apply memc_In in H; cbn in H; decompose [or] H; subst; try contradiction; reflexivity. Qed.
Lemma k_f8 : forall c, is_consonant c = true -> N.eqb c c_i = false.
Proof. intros c H; apply memc_In in H; cbn in H; decompose [or] H; subst; try contradiction; reflexivity. Qed.
Lemma k_f9 : forall c, is_consonant c = true -> N.eqb c c_u = false.
Proof. intros c H; apply memc_In in H; cbn in H; decompose [or] H; subst; try contradiction; reflexivity. Qed.
Lemma k_f10 : forall c, is_consonant c = true -> N.eqb c c_a = false.
Proof. intros c H; apply memc_In in H; cbn in H; decompose [or] H; subst; try contradiction; reflexivity. Qed.
(** Rewrite every test whose answer is known. *)
Ltac use_facts :=
  repeat match goal with
  | H : is_vowel ?c = _ |- context [is_vowel ?c] => rewrite H
  | H : is_consonant ?c = _ |- context [is_consonant ?c] => rewrite H
  | H : is_hy ?c = _ |- context [is_hy ?c] => rewrite H
  | H : N.eqb ?a ?b = _ |- context [N.eqb ?a ?b] => rewrite H
  | H : is_vowel ?c = true |- context [is_consonant ?c] => rewrite (v_f0 c H)
  | H : is_vowel ?c = true |- context [N.eqb ?c c_h] => rewrite (v_f1 c H)
  | H : is_vowel ?c = true |- context [N.eqb ?c c_y] => rewrite (v_f2 c H)
  | H : is_vowel ?c = true |- context [N.eqb ?c c_r] => rewrite (v_f3 c H)
  | H : is_vowel ?c = true |- context [N.eqb ?c c_n] => rewrite (v_f4 c H)
  | H : is_vowel ?c = true |- context [N.eqb ?c c_dash] => rewrite (v_f5 c H)
  | H : is_vowel ?c = true |- context [N.eqb c_h ?c] => rewrite (v_f6 c H)
  | H : is_vowel ?c = true |- context [N.eqb c_y ?c] => rewrite (v_f7 c H)
  | H : is_vowel ?c = true |- context [N.eqb c_dash ?c] => rewrite (v_f8 c H)
  | H : is_vowel ?c = true |- context [is_hy ?c] => rewrite (v_f9 c H)
  | H : is_vowel ?c = true |- context [N.eqb c_r ?c] => rewrite (v_f10 c H)
  | H : is_vowel ?c = true |- context [N.eqb c_n ?c] => rewrite (v_f11 c H)
  | H : is_consonant ?c = true |- context [is_vowel ?c] => rewrite (k_f0 c H)
  | H : is_consonant ?c = true |- context [N.eqb ?c c_h] => rewrite (k_f1 c H)
  | H : is_consonant ?c = true |- context [N.eqb ?c c_y] => rewrite (k_f2 c H)
  | H : is_consonant ?c = true |- context [N.eqb ?c c_dash] => rewrite (k_f3 c H)
  | H : is_consonant ?c = true |- context [N.eqb c_h ?c] => rewrite (k_f4 c H)
  | H : is_consonant ?c = true |- context [N.eqb c_y ?c] => rewrite (k_f5 c H)
  | H : is_consonant ?c = true |- context [N.eqb c_dash ?c] => rewrite (k_f6 c H)
  | H : is_consonant ?c = true |- context [is_hy ?c] => rewrite (k_f7 c H)
  | H : is_consonant ?c = true |- context [N.eqb ?c c_i] => rewrite (k_f8 c H)
  | H : is_consonant ?c = true |- context [N.eqb ?c c_u] => rewrite (k_f9 c H)
  | H : is_consonant ?c = true |- context [N.eqb ?c c_a] => rewrite (k_f10 c H)
  end.
Ltac use_facts_in G :=
  repeat match goal with
  | H : is_vowel ?c = _ |- _ => lazymatch type of G with context [is_vowel c] => rewrite H in G end
  | H : is_consonant ?c = _ |- _ => lazymatch type of G with context [is_consonant c] => rewrite H in G end
  | H : is_hy ?c = _ |- _ => lazymatch type of G with context [is_hy c] => rewrite H in G end
  | H : N.eqb ?a ?b = _ |- _ => lazymatch type of G with context [N.eqb a b] => rewrite H in G end
  | H : is_vowel ?c = true |- _ => lazymatch type of G with context [is_consonant c] => rewrite (v_f0 c H) in G end
  | H : is_vowel ?c = true |- _ => lazymatch type of G with context [N.eqb c c_h] => rewrite (v_f1 c H) in G end
  | H : is_vowel ?c = true |- _ => lazymatch type of G with context [N.eqb c c_y] => rewrite (v_f2 c H) in G end
  | H : is_vowel ?c = true |- _ => lazymatch type of G with context [N.eqb c c_r] => rewrite (v_f3 c H) in G end
  | H : is_vowel ?c = true |- _ => lazymatch type of G with context [N.eqb c c_n] => rewrite (v_f4 c H) in G end
  | H : is_vowel ?c = true |- _ => lazymatch type of G with context [N.eqb c c_dash] => rewrite (v_f5 c H) in G end
  | H : is_vowel ?c = true |- _ => lazymatch type of G with context [N.eqb c_h c] => rewrite (v_f6 c H) in G end
  | H : is_vowel ?c = true |- _ => lazymatch type of G with context [N.eqb c_y c] => rewrite (v_f7 c H) in G end
  | H : is_vowel ?c = true |- _ => lazymatch type of G with context [N.eqb c_dash c] => rewrite (v_f8 c H) in G end
  | H : is_vowel ?c = true |- _ => lazymatch type of G with context [is_hy c] => rewrite (v_f9 c H) in G end
  | H : is_vowel ?c = true |- _ => lazymatch type of G with context [N.eqb c_r c] => rewrite (v_f10 c H) in G end
  | H : is_vowel ?c = true |- _ => lazymatch type of G with context [N.eqb c_n c] => rewrite (v_f11 c H) in G end
  | H : is_consonant ?c = true |- _ => lazymatch type of G with context [is_vowel c] => rewrite (k_f0 c H) in G end
  | H : is_consonant ?c = true |- _ => lazymatch type of G with context [N.eqb c c_h] => rewrite (k_f1 c H) in G end
  | H : is_consonant ?c = true |- _ => lazymatch type of G with context [N.eqb c c_y] => rewrite (k_f2 c H) in G end
  | H : is_consonant ?c = true |- _ => lazymatch type of G with context [N.eqb c c_dash] => rewrite (k_f3 c H) in G end
  | H : is_consonant ?c = true |- _ => lazymatch type of G with context [N.eqb c_h c] => rewrite (k_f4 c H) in G end
  | H : is_consonant ?c = true |- _ => lazymatch type of G with context [N.eqb c_y c] => rewrite (k_f5 c H) in G end
  | H : is_consonant ?c = true |- _ => lazymatch type of G with context [N.eqb c_dash c] => rewrite (k_f6 c H) in G end
  | H : is_consonant ?c = true |- _ => lazymatch type of G with context [is_hy c] => rewrite (k_f7 c H) in G end
  | H : is_consonant ?c = true |- _ => lazymatch type of G with context [N.eqb c c_i] => rewrite (k_f8 c H) in G end
  | H : is_consonant ?c = true |- _ => lazymatch type of G with context [N.eqb c c_u] => rewrite (k_f9 c H) in G end
  | H : is_consonant ?c = true |- _ => lazymatch type of G with context [N.eqb c c_a] => rewrite (k_f10 c H) in G end
  end.
Ltac red1 := cbn [andb orb negb length Nat.eqb Nat.ltb Nat.leb app firstn skipn nth_error].
Ltac red1_in H := cbn [andb orb negb length Nat.eqb Nat.ltb Nat.leb app firstn skipn nth_error] in H.
(** Use the facts to refute a test of one letter against two classes. *)
Ltac clash :=
  exfalso;
  repeat match goal with
  | H : is_vowel ?c = true, G : is_consonant ?c = true |- _ => rewrite (v_f0 c H) in G; discriminate
  end; try discriminate; try congruence.

(** ** Shapes *)
(** Split every conditional of the goal. *)
Ltac split_ifs :=
  repeat match goal with
  | |- context [if ?b then _ else _] => destruct b eqn:?; cbn [andb orb negb] in *
  end.

Definition shape_pat (t : tarmi) : string :=
  match t with
  | CVC => "CVC" | CVV => "CVV" | CVhV => "CV'V" | CCV => "CCV" | CVCC => "CVCC" | CCVC => "CCVC"
  | CVCCV => "CVCCV" | CCVCV => "CCVCV" | _ => "?"
  end.

Lemma shaped_nil : forall s, shaped "" s <-> s = [].
Proof. intro s. split; intro H; [inversion H; reflexivity | subst; constructor]. Qed.
Lemma shaped_cons : forall a p s,
  shaped (String a p) s <-> exists c r, s = c :: r /\ fits a c /\ shaped p r.
Proof.
  intros. split.
  - intro H. inversion H; subst. eauto.
  - intros (c & r & -> & H1 & H2). constructor; assumption.
Qed.

(** [shaped "CVC" s] as a list of letters with boolean facts *)
Ltac inv_shaped H :=
  repeat (apply shaped_cons in H;
          let E := fresh "E" in destruct H as (? & ? & E & ? & H);
          first [ injection E as <- <- | rewrite E in *; clear E | discriminate E ]);
  first [ apply shaped_nil in H; first [discriminate H | subst; clear H || idtac | idtac] | idtac ];
  cbn [fits] in *;
  repeat match goal with
  | G : vowel _ |- _ => apply is_vowel_spec in G
  | G : consonant _ |- _ => apply is_consonant_spec in G
  end.

Lemma tarmi_eqb_eq : forall a b, tarmi_eqb a b = true <-> a = b.
Proof. intros [] []; split; intro H; try reflexivity; discriminate. Qed.

Lemma rafsi_tarmi_shaped : forall s t, shape_pat t <> "?"%string ->
  rafsi_tarmi s = t -> shaped (shape_pat t) s.
Proof.
  intros s t Ht H.
  destruct s as [|a s]; [subst; cbn in Ht; congruence|].
  unfold rafsi_tarmi in H.
  destruct (str_eqb (a :: s) (L "'y")); [subst; cbn in Ht; congruence|].
  destruct (negb (is_consonant a) && _) eqn:Ea; [subst; cbn in Ht; congruence|].
  destruct s as [|b [|c [|d [|e [|? ?]]]]]; try (subst; cbn in Ht; congruence).
  - destruct (is_vowel a); subst; cbn in Ht; congruence.
  - assert (Ca : is_consonant a = true) by (destruct (is_consonant a); [reflexivity|discriminate]).
    repeat dif H; try (subst; cbn in Ht; congruence); subst; cbn in Ht |- *;
      repeat match goal with
      | G : _ && _ = true |- _ => apply andb_t in G as [? ?]
      | G : negb _ = true |- _ => apply negb_true_iff in G
      | G : negb _ = false |- _ => apply negb_false_iff in G
      end;
      repeat (apply Forall2_cons || apply Forall2_nil); cbn;
      try (apply is_vowel_spec; assumption); try (apply is_consonant_spec; assumption).
  - assert (Ca : is_consonant a = true) by (destruct (is_consonant a); [reflexivity|discriminate]).
    repeat dif H; try (subst; cbn in Ht; congruence); subst; cbn in Ht |- *;
      repeat match goal with
      | G : _ && _ = true |- _ => apply andb_t in G as [? ?]
      | G : negb _ = true |- _ => apply negb_true_iff in G
      | G : negb _ = false |- _ => apply negb_false_iff in G
      end;
      repeat (apply Forall2_cons || apply Forall2_nil); cbn;
      try (apply is_vowel_spec; assumption); try (apply is_consonant_spec; assumption).
    apply N.eqb_eq. assumption.
  - dif H; [|subst; cbn in Ht; congruence].
    unfold is_gismu_shape in *.
    repeat dif H; repeat dif Heqb0; try discriminate;
      repeat match goal with
      | G : _ && _ = true |- _ => apply andb_t in G as [? ?]
      | G : negb _ = true |- _ => apply negb_true_iff in G
      | G : negb _ = false |- _ => apply negb_false_iff in G
      end; subst; cbn;
      try solve [clash];
      repeat (apply Forall2_cons || apply Forall2_nil); cbn;
      try (apply is_vowel_spec; assumption); try (apply is_consonant_spec; assumption).
Qed.

Lemma shaped_rafsi_tarmi : forall s t, shape_pat t <> "?"%string ->
  shaped (shape_pat t) s -> rafsi_tarmi s = t.
Proof.
  intros s t Ht H. destruct t; cbn in Ht; try congruence; cbn [shape_pat] in H; inv_shaped H;
    unfold rafsi_tarmi, is_gismu_shape; change (L "'y") with [c_h; c_y]; cbn [str_eqb]; red1;
    repeat (use_facts; red1); subst; reflexivity.
Qed.

Lemma rafsi_tarmi_spec : forall s t, shape_pat t <> "?"%string ->
  (rafsi_tarmi s = t <-> shaped (shape_pat t) s).
Proof. split; [apply rafsi_tarmi_shaped | apply shaped_rafsi_tarmi]; assumption. Qed.

(** Inversion of the shape test, with boolean facts. *)
Lemma tarmi_CVC : forall s, rafsi_tarmi s = CVC ->
  exists a b c, s = [a; b; c] /\ is_consonant a = true /\ is_vowel b = true /\ is_consonant c = true.
Proof. intros s H. apply (rafsi_tarmi_shaped s CVC) in H; [|discriminate]. cbn [shape_pat] in H. inv_shaped H. eauto 10. Qed.
Lemma tarmi_CVV : forall s, rafsi_tarmi s = CVV ->
  exists a b c, s = [a; b; c] /\ is_consonant a = true /\ is_vowel b = true /\ is_vowel c = true.
Proof. intros s H. apply (rafsi_tarmi_shaped s CVV) in H; [|discriminate]. cbn [shape_pat] in H. inv_shaped H. eauto 10. Qed.
Lemma tarmi_CCV : forall s, rafsi_tarmi s = CCV ->
  exists a b c, s = [a; b; c] /\ is_consonant a = true /\ is_consonant b = true /\ is_vowel c = true.
Proof. intros s H. apply (rafsi_tarmi_shaped s CCV) in H; [|discriminate]. cbn [shape_pat] in H. inv_shaped H. eauto 10. Qed.
Lemma tarmi_CVhV : forall s, rafsi_tarmi s = CVhV ->
  exists a b c, s = [a; b; c_h; c] /\ is_consonant a = true /\ is_vowel b = true /\ is_vowel c = true.
Proof. intros s H. apply (rafsi_tarmi_shaped s CVhV) in H; [|discriminate]. cbn [shape_pat] in H. inv_shaped H. subst. eauto 10. Qed.
Lemma tarmi_CVCC : forall s, rafsi_tarmi s = CVCC ->
  exists a b c d, s = [a; b; c; d] /\ is_consonant a = true /\ is_vowel b = true /\ is_consonant c = true
    /\ is_consonant d = true.
Proof. intros s H. apply (rafsi_tarmi_shaped s CVCC) in H; [|discriminate]. cbn [shape_pat] in H. inv_shaped H. eauto 10. Qed.
Lemma tarmi_CCVC : forall s, rafsi_tarmi s = CCVC ->
  exists a b c d, s = [a; b; c; d] /\ is_consonant a = true /\ is_consonant b = true /\ is_vowel c = true
    /\ is_consonant d = true.
Proof. intros s H. apply (rafsi_tarmi_shaped s CCVC) in H; [|discriminate]. cbn [shape_pat] in H. inv_shaped H. eauto 10. Qed.
Lemma tarmi_CVCCV : forall s, rafsi_tarmi s = CVCCV ->
  exists a b c d e, s = [a; b; c; d; e] /\ is_consonant a = true /\ is_vowel b = true /\ is_consonant c = true
    /\ is_consonant d = true /\ is_vowel e = true.
Proof. intros s H. apply (rafsi_tarmi_shaped s CVCCV) in H; [|discriminate]. cbn [shape_pat] in H. inv_shaped H. eauto 12. Qed.
Lemma tarmi_CCVCV : forall s, rafsi_tarmi s = CCVCV ->
  exists a b c d e, s = [a; b; c; d; e] /\ is_consonant a = true /\ is_consonant b = true /\ is_vowel c = true
    /\ is_consonant d = true /\ is_vowel e = true.
Proof. intros s H. apply (rafsi_tarmi_shaped s CCVCV) in H; [|discriminate]. cbn [shape_pat] in H. inv_shaped H. eauto 12. Qed.

(** ** Clusters *)
Lemma initial_spec : forall a b, mems [a; b] INITIAL = true <-> initial_pair a b.
Proof. intros. rewrite mems_In. reflexivity. Qed.

Lemma initial_consonants : forall a b, mems [a; b] INITIAL = true ->
  is_consonant a = true /\ is_consonant b = true.
Proof.
  intros a b H. apply mems_In in H.
  assert (F : forall p, In p INITIAL -> match p with [x; y] => is_consonant x && is_consonant y = true | _ => False end).
  { assert (G : forallb (fun p => match p with [x; y] => is_consonant x && is_consonant y | _ => false end) INITIAL = true)
      by (vm_compute; reflexivity).
    intros p Hp. eapply forallb_forall in G; [|exact Hp]. destruct p as [|x [|y [|]]]; try discriminate. exact G. }
  apply F in H. apply andb_t in H. exact H.
Qed.

Definition permb (mz : bool) (a b : char) : bool :=
  memc a CONSONANTS && memc b CONSONANTS && negb (N.eqb a b)
  && negb (memc a (L "bdgjvz") && memc b (L "cfkpstx"))
  && negb (memc a (L "cfkpstx") && memc b (L "bdgjvz"))
  && negb (memc a (L "cjsz") && memc b (L "cjsz"))
  && negb (mems [a; b] (map L ["cx"; "kx"; "xc"; "xk"]%string))
  && (negb (str_eqb [a; b] (L "mz")) || mz).

Lemma permb_spec : forall mz a b, permb mz a b = true <-> permissible mz a b.
Proof.
  intros. unfold permb, permissible, consonant, voiced, unvoiced, sibilant.
  assert (nand : forall x y, negb (x && y) = true <-> ~ (x = true /\ y = true))
    by (intros [] []; cbn; intuition congruence).
  assert (imp : forall x y, negb x || y = true <-> (x = true -> y = true))
    by (intros [] []; cbn; intuition congruence).
  assert (neg : forall x, negb x = true <-> ~ x = true) by (intros []; cbn; intuition congruence).
  rewrite !andb_true_iff, !nand, imp, !neg, N.eqb_eq, str_eqb_eq, mems_In, !memc_In.
  change CONSONANTS with (L "bcdfgjklmnprstvxz"). tauto.
Qed.

Lemma valid_pairs_perm : forall mz a b, mems [a; b] (valid_pairs mz) = permb mz a b.
Proof.
  intros mz a b.
  destruct (is_consonant a && is_consonant b) eqn:E.
  - assert (G : forall mz, forallb (fun a => forallb (fun b => Bool.eqb (mems [a; b] (valid_pairs mz)) (permb mz a b)) CONSONANTS) CONSONANTS = true)
      by (intros []; vm_compute; reflexivity).
    specialize (G mz). apply andb_t in E as [Ea Eb]. apply memc_In in Ea, Eb.
    eapply forallb_forall in G; [|exact Ea]. eapply forallb_forall in G; [|exact Eb].
    apply Bool.eqb_prop in G. exact G.
  - replace (permb mz a b) with false
      by (unfold permb; unfold is_consonant in E; rewrite E; reflexivity).
    destruct (mems [a; b] (valid_pairs mz)) eqn:F; [|reflexivity]. apply mems_In in F.
    assert (G : forall mz, forallb (fun p => match p with [x; y] => is_consonant x && is_consonant y | _ => false end) (valid_pairs mz) = true)
      by (intros []; vm_compute; reflexivity).
    specialize (G mz). eapply forallb_forall in G; [|exact F]. cbn beta iota in G. congruence.
Qed.

Lemma valid_pairs_spec : forall mz a b, mems [a; b] (valid_pairs mz) = true <-> permissible mz a b.
Proof. intros. rewrite valid_pairs_perm. apply permb_spec. Qed.

Lemma permissible_consonants : forall mz a b, permissible mz a b ->
  is_consonant a = true /\ is_consonant b = true.
Proof. intros mz a b (H1 & H2 & _). split; apply is_consonant_spec; assumption. Qed.

Lemma initial_permissible : forall mz a b, mems [a; b] INITIAL = true -> mems [a; b] (valid_pairs mz) = true.
Proof.
  intros mz a b H. apply mems_In in H. 
  assert (G : forall mz, forallb (fun p => mems p (valid_pairs mz)) INITIAL = true)
    by (intros []; vm_compute; reflexivity).
  specialize (G mz). eapply forallb_forall in G; eassumption.
Qed.

Lemma triple_spec : forall a b c, mems [a; b; c] BANNED_TRIPLES = true <-> forbidden_triple a b c.
Proof. intros. rewrite mems_In. reflexivity. Qed.

Lemma triple_short : forall s, mems s BANNED_TRIPLES = true -> exists a b c, s = [a; b; c]
  /\ is_consonant a = true /\ is_consonant b = true /\ is_consonant c = true.
Proof.
  intros s H. apply mems_In in H. cbn in H.
  decompose [or] H; subst; try contradiction; repeat eexists; reflexivity.
Qed.
