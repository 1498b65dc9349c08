(** General lemmas about the string functions of Str.v.  No model content. *)
From Verif Require Import Str.
From Coq Require Export Lia ZifyBool ZifyNat ZifyN.

Lemma bind_ok : forall A B (m : res A) (k : A -> res B) b,
  bind m k = Ok b -> exists a, m = Ok a /\ k a = Ok b.
Proof. intros A B [a|e] k b H; cbn in H; [eauto | discriminate]. Qed.

Lemma bind_err : forall A B (m : res A) (k : A -> res B) e,
  bind m k = Err e -> m = Err e \/ exists a, m = Ok a /\ k a = Err e.
Proof. intros A B [a|e'] k e H; cbn in H; [right; eauto | left; congruence]. Qed.

(** Destruct a hypothesis [bind m k = Ok b]. *)
Ltac inv_bind H :=
  let a := fresh "x" in let H1 := fresh "E" in
  apply bind_ok in H; destruct H as [a [H1 H]].

Lemma str_eqb_eq : forall a b, str_eqb a b = true <-> a = b.
Proof.
  induction a as [|x a IH]; destruct b as [|y b]; cbn; split; intro H; try congruence; try discriminate.
  - apply andb_true_iff in H as [H1 H2]. apply N.eqb_eq in H1. apply IH in H2. congruence.
  - injection H as -> ->. rewrite N.eqb_refl. apply IH. reflexivity.
Qed.

Lemma str_eqb_refl : forall a, str_eqb a a = true.
Proof. intro; apply str_eqb_eq; reflexivity. Qed.

Lemma str_eqb_neq : forall a b, str_eqb a b = false <-> a <> b.
Proof.
  intros. rewrite <- str_eqb_eq. destruct (str_eqb a b); split; congruence.
Qed.

Lemma mems_In : forall s l, mems s l = true <-> In s l.
Proof.
  intros. unfold mems. rewrite existsb_exists. split.
  - intros [x [H1 H2]]. apply str_eqb_eq in H2. subst; assumption.
  - intro H. exists s. split; [assumption | apply str_eqb_refl].
Qed.

Lemma memc_In : forall c s, memc c s = true <-> In c s.
Proof.
  intros. unfold memc. rewrite existsb_exists. split.
  - intros [x [H1 H2]]. apply N.eqb_eq in H2. subst; assumption.
  - intro H. exists c. split; [assumption | apply N.eqb_refl].
Qed.

Lemma last_opt_app : forall A (s : list A) c, last_opt (s ++ [c]) = Some c.
Proof.
  induction s as [|x s IH]; intro c; [reflexivity|].
  cbn. rewrite IH. destruct (s ++ [c]) eqn:E; [|reflexivity].
  destruct s; discriminate.
Qed.

Lemma last_opt_some : forall A (s : list A) c, last_opt s = Some c -> exists s', s = s' ++ [c].
Proof.
  intros A s c. destruct (rev s) as [|x r] eqn:E.
  - apply (f_equal (@rev A)) in E. rewrite rev_involutive in E. subst; discriminate.
  - apply (f_equal (@rev A)) in E. rewrite rev_involutive in E. cbn in E. subst.
    rewrite last_opt_app. intro H; injection H as ->. eauto.
Qed.

Lemma last_opt_none : forall A (s : list A), last_opt s = None -> s = [].
Proof.
  intros A s H. destruct (rev s) as [|x r] eqn:E.
  - apply (f_equal (@rev A)) in E. rewrite rev_involutive in E. subst; reflexivity.
  - apply (f_equal (@rev A)) in E. rewrite rev_involutive in E. cbn in E. subst.
    rewrite last_opt_app in H. discriminate.
Qed.

Lemma last_opt_app_ne : forall A (a b : list A), b <> [] -> last_opt (a ++ b) = last_opt b.
Proof.
  intros A a b H. destruct (last_opt b) eqn:E.
  - apply last_opt_some in E as [s' ->]. rewrite app_assoc. apply last_opt_app.
  - apply last_opt_none in E. contradiction.
Qed.

Lemma idx_last_ok : forall A (s : list A) c, idx_last s = Ok c -> exists s', s = s' ++ [c].
Proof.
  intros A s c H. unfold idx_last in H. destruct (last_opt s) eqn:E; [|discriminate].
  injection H as ->. apply last_opt_some; assumption.
Qed.

Lemma idx_last_app : forall A (s : list A) c, idx_last (s ++ [c]) = Ok c.
Proof. intros. unfold idx_last. rewrite last_opt_app. reflexivity. Qed.

Lemma idx_last_nil_err : forall A (s : list A) e, idx_last s = Err e -> s = [] /\ e = IndexError.
Proof.
  intros A s e H. unfold idx_last in H. destruct (last_opt s) eqn:E; [discriminate|].
  split; [apply last_opt_none; assumption | congruence].
Qed.

Lemma idx0_ok : forall s c, idx s 0 = Ok c -> exists r, s = c :: r.
Proof. intros [|x s] c H; cbn in H; [discriminate|]. injection H as ->. eauto. Qed.

Lemma idx_ok : forall s i c, idx s i = Ok c -> nth_error s i = Some c.
Proof. intros s i c H. unfold idx in H. destruct (nth_error s i); congruence. Qed.

Lemma idxl_ok : forall A (s : list A) i c, idxl s i = Ok c -> nth_error s i = Some c.
Proof. intros A s i c H. unfold idxl in H. destruct (nth_error s i); congruence. Qed.

Lemma dropl_app : forall s c, dropl 1 (s ++ [c]) = s.
Proof.
  intros. unfold dropl. rewrite app_length. cbn.
  replace (length s + 1 - 1) with (length s) by lia.
  rewrite firstn_app, Nat.sub_diag, firstn_all. cbn. apply app_nil_r.
Qed.

Lemma take_drop_while : forall p s, take_while p s ++ drop_while p s = s.
Proof.
  induction s as [|c s IH]; [reflexivity|]. cbn. destruct (p c); cbn; congruence.
Qed.

Lemma take_while_all : forall p s, forallb p (take_while p s) = true.
Proof.
  induction s as [|c s IH]; [reflexivity|]. cbn. destruct (p c) eqn:E; cbn; [rewrite E|]; auto.
Qed.

Lemma drop_while_head : forall p s c r, drop_while p s = c :: r -> p c = false.
Proof.
  induction s as [|x s IH]; cbn; intros c r H; [discriminate|].
  destruct (p x) eqn:E; [eauto|]. congruence.
Qed.

Lemma drop_while_length : forall p s, length (drop_while p s) <= length s.
Proof.
  induction s as [|c s IH]; cbn; [lia|]. destruct (p c); cbn; lia.
Qed.

Lemma take_while_length : forall p s, length (take_while p s) <= length s.
Proof.
  induction s as [|c s IH]; cbn; [lia|]. destruct (p c); cbn; lia.
Qed.

(** split_on *)
Fixpoint join_on (c : char) (l : list str) : str :=
  match l with
  | [] => []
  | [p] => p
  | p :: ps => p ++ c :: join_on c ps
  end.

Lemma split_on_nonnil : forall c s, split_on c s <> [].
Proof.
  induction s as [|x s IH]; cbn; [discriminate|].
  destruct (N.eqb c x); [discriminate|]. destruct (split_on c s); discriminate.
Qed.

Lemma join_split : forall c s, join_on c (split_on c s) = s.
Proof.
  induction s as [|x s IH]; [reflexivity|]. cbn.
  destruct (N.eqb c x) eqn:E.
  - apply N.eqb_eq in E. subst x.
    destruct (split_on c s) eqn:F; [exfalso; eapply split_on_nonnil; eauto|].
    cbn [join_on]. rewrite app_nil_l. f_equal. rewrite <- F in IH. rewrite F in IH. assumption.
  - destruct (split_on c s) as [|p ps] eqn:F; [exfalso; eapply split_on_nonnil; eauto|].
    destruct ps; cbn in IH |- *; congruence.
Qed.

Lemma split_on_nosep : forall c s p, In p (split_on c s) -> ~ In c p.
Proof.
  induction s as [|x s IH]; cbn; intros p H.
  - destruct H as [<-|[]]; auto.
  - destruct (N.eqb c x) eqn:E.
    + destruct H as [<-|H]; [auto|]. auto.
    + apply N.eqb_neq in E.
      destruct (split_on c s) as [|q qs] eqn:F; [exfalso; eapply split_on_nonnil; eauto|].
      destruct H as [<-|H].
      * intros [->|H]; [congruence|]. apply (IH q); [left; reflexivity|assumption].
      * apply IH. right; assumption.
Qed.

Lemma split_on_none : forall c s, ~ In c s -> split_on c s = [s].
Proof.
  induction s as [|x s IH]; cbn; intro H; [reflexivity|].
  destruct (N.eqb c x) eqn:E.
  - apply N.eqb_eq in E. exfalso; auto.
  - rewrite IH by tauto. reflexivity.
Qed.

Lemma split_on_app : forall c a s, ~ In c a -> split_on c (a ++ c :: s) = a :: split_on c s.
Proof.
  induction a as [|x a IH]; cbn; intros s H.
  - rewrite N.eqb_refl. reflexivity.
  - destruct (N.eqb c x) eqn:E; [apply N.eqb_eq in E; exfalso; auto|].
    rewrite IH by tauto. reflexivity.
Qed.

Lemma skipn_skipn : forall A (s : list A) a b, skipn a (skipn b s) = skipn (a + b) s.
Proof.
  induction s as [|x s IH]; intros a b; [rewrite !skipn_nil; reflexivity|].
  destruct b as [|b]; [rewrite Nat.add_0_r; reflexivity|].
  rewrite Nat.add_succ_r. cbn [skipn]. apply IH.
Qed.

Lemma firstn_skipn_slice : forall i j (s : str), i <= j -> j <= length s ->
  firstn i s ++ slice i j s ++ skipn j s = s.
Proof.
  intros. unfold slice. rewrite <- (firstn_skipn i s) at 4. f_equal.
  rewrite <- (firstn_skipn (j - i) (skipn i s)) at 2. f_equal.
  rewrite skipn_skipn. f_equal. lia.
Qed.

(** Destruct the outermost conditional of a hypothesis. *)
Ltac dif H :=
  match type of H with
  | (if ?b then _ else _) = _ => destruct b eqn:?
  | (match ?b with _ => _ end) = _ => destruct b eqn:?
  end.

Lemma andb_t : forall a b, a && b = true -> a = true /\ b = true.
Proof. apply andb_true_iff. Qed.

Lemma Forall2_length : forall A B (R : A -> B -> Prop) l l', Forall2 R l l' -> length l = length l'.
Proof. induction 1; cbn; congruence. Qed.
