(** C59: the dictionary written by make_rafsi_list.py. *)
From Verif Require Import Str Data Tarmi Rafsi Core Lib Spec Shapes Score Props13 Genlist.
From Coq Require Import List Bool Arith NArith ZArith Lia Permutation Sorted.
Import ListNotations.

(** ** Specification *)
(** the entries that are used: gismu, cmavo, experimental cmavo, and experimental
    gismu that do not share their first four letters with a gismu *)
Definition kept (vs : list valsi) (v : valsi) : Prop :=
  In v vs /\
  (In (v_type v) (map L ["gismu"; "cmavo"; "experimental cmavo"]%string)
   \/ (v_type v = L "experimental gismu" /\ forall g, In g vs -> v_type g = L "gismu" -> firstn 4 (v_word g) <> firstn 4 (v_word v))).
(** a rafsi given to a word by the dictionary or by the list in the script *)
Definition by_hand (w r : str) : Prop := exists rs, In (w, rs) EXCEPTIONS /\ In r rs.
Definition assigned (vs : list valsi) (w r : str) : Prop :=
  (exists v, kept vs v /\ v_word v = w /\ In r (v_rafsi v)) \/ by_hand w r.
(** a rafsi that the notes of a word mention between dashes *)
Definition letter (c : char) : Prop := In c (L "abcdefghijklmnopqrstuvwxyz").
Definition rafsi_text (r : str) : Prop :=
  exists c x y, consonant c /\ letter x /\ letter y /\ (r = [c; x; y] \/ r = [c; x; apostrophe; y]).
Definition mentioned (r notes : str) : Prop :=
  rafsi_text r /\ exists u c t, notes = u ++ [c] ++ L "-" ++ r ++ L "-" ++ t /\ (forall x t', t = x :: t' -> ~ letter x).
Definition proposed (vs : list valsi) (w r : str) : Prop :=
  exists v, kept vs v /\ v_word v = w /\ (exists a b, lower (v_notes v) = a ++ L "rafsi" ++ b) /\ mentioned r (v_notes v)
    /\ forall c d s, r = c :: d :: s -> consonant d -> initial_pair c d.

(** ** The pieces of the script *)
Definition has (d : sdict) (w r : str) : Prop := exists s, In (w, s) d /\ In r s.
Lemma set_add_In : forall r s x, In x (set_add r s) <-> In x s \/ x = r.
Proof.
  intros r s x. unfold set_add. destruct (mems r s) eqn:E.
  - apply mems_In in E. split; [auto|intros [H| ->]; assumption].
  - rewrite in_app_iff. cbn. intuition congruence.
Qed.
Lemma str_eqb_ne : forall a b, str_eqb a b = false -> a <> b.
Proof. intros a b H ->. assert (str_eqb b b = true) by (apply str_eqb_eq; reflexivity). congruence. Qed.
Lemma has_add : forall w r d w' r', has (dict_add w r d) w' r' <-> has d w' r' \/ (w' = w /\ r' = r).
Proof.
  intros w r d w' r'. unfold has. induction d as [|[k s] d IH]; cbn [dict_add].
  - split.
    + intros (s & [H|[]] & Hr). injection H as <- <-. destruct Hr as [<-|[]]. right. auto.
    + intros [(s & [] & _)|[-> ->]]. exists [r]. cbn. auto.
  - destruct (str_eqb k w) eqn:E.
    + apply str_eqb_eq in E. subst k. split.
      * intros (s' & [H|H] & Hr).
        -- injection H as <- <-. apply set_add_In in Hr as [Hr| ->]; [left; exists s; split; [left; reflexivity|exact Hr]|right; auto].
        -- left. exists s'. split; [right; exact H|exact Hr].
      * intros [(s' & [H|H] & Hr)|[-> ->]].
        -- injection H as <- <-. exists (set_add r s). split; [left; reflexivity|apply set_add_In; auto].
        -- exists s'. split; [right; exact H|exact Hr].
        -- exists (set_add r s). split; [left; reflexivity|apply set_add_In; auto].
    + split.
      * intros (s' & [H|H] & Hr).
        -- injection H as <- <-. left. exists s. split; [left; reflexivity|exact Hr].
        -- destruct IH as [IH _]. destruct IH as [(s2 & H2 & Hr2)|K]; [eauto|left; exists s2; split; [right; exact H2|exact Hr2]|right; exact K].
      * intros [(s' & [H|H] & Hr)|K].
        -- exists s'. split; [left; exact H|exact Hr].
        -- destruct IH as [_ IH]. destruct IH as (s2 & H2 & Hr2); [left; eauto|]. exists s2. split; [right; exact H2|exact Hr2].
        -- destruct IH as [_ IH]. destruct IH as (s2 & H2 & Hr2); [right; exact K|]. exists s2. split; [right; exact H2|exact Hr2].
Qed.
Lemma has_reset : forall w d w' r', has (dict_reset w d) w' r' -> has d w' r'.
Proof.
  intros w d w' r'. unfold has. induction d as [|[k s] d IH]; cbn [dict_reset].
  - intros (s & [H|[]] & Hr). injection H as <- <-. destruct Hr.
  - destruct (str_eqb k w); intros (s' & [H|H] & Hr).
    + injection H as <- <-. destruct Hr.
    + exists s'. split; [right; exact H|exact Hr].
    + exists s'. split; [left; exact H|exact Hr].
    + destruct IH as (s2 & H2 & Hr2); [eauto|]. exists s2. split; [right; exact H2|exact Hr2].
Qed.
Lemma has_reset_other : forall w d w' r', w' <> w -> has d w' r' -> has (dict_reset w d) w' r'.
Proof.
  intros w d w' r' N. unfold has. induction d as [|[k s] d IH]; cbn [dict_reset].
  - intros (s & [] & _).
  - destruct (str_eqb k w) eqn:E; intros (s' & [H|H] & Hr).
    + injection H as <- <-. apply str_eqb_eq in E. contradiction.
    + exists s'. split; [right; exact H|exact Hr].
    + exists s'. split; [left; exact H|exact Hr].
    + destruct IH as (s2 & H2 & Hr2); [eauto|]. exists s2. split; [right; exact H2|exact Hr2].
Qed.
Definition keys (d : sdict) : list str := map fst d.
Lemma keys_add : forall w r d x, In x (keys (dict_add w r d)) <-> In x (keys d) \/ x = w.
Proof.
  intros w r d x. induction d as [|[k s] d IH]; cbn [dict_add]; [cbn; intuition congruence|]. destruct (str_eqb k w) eqn:E.
  - apply str_eqb_eq in E. subst k. cbn. intuition congruence.
  - cbn. rewrite IH. tauto.
Qed.
Lemma keys_reset : forall w d x, In x (keys (dict_reset w d)) <-> In x (keys d) \/ x = w.
Proof.
  intros w d x. induction d as [|[k s] d IH]; cbn [dict_reset]; [cbn; intuition congruence|]. destruct (str_eqb k w) eqn:E.
  - apply str_eqb_eq in E. subst k. cbn. intuition congruence.
  - cbn. rewrite IH. tauto.
Qed.
Definition wf (d : sdict) : Prop := NoDup (keys d) /\ Forall (fun kv => NoDup (snd kv)) d.
Lemma set_add_NoDup : forall r s, NoDup s -> NoDup (set_add r s).
Proof.
  intros r s H. unfold set_add. destruct (mems r s) eqn:E; [exact H|]. apply (Permutation_NoDup (l := r :: s)); [apply Permutation_cons_append|].
  constructor; [|exact H]. intro I. apply mems_In in I. congruence.
Qed.
Lemma wf_add : forall w r d, wf d -> wf (dict_add w r d).
Proof.
  intros w r d. induction d as [|[k s] d IH]; intros [N F]; cbn [dict_add].
  - split; [repeat constructor; intros []|repeat constructor; intros []].
  - inversion N as [|? ? N1 N2]; subst. inversion F as [|? ? F1 F2]; subst. destruct (str_eqb k w) eqn:E.
    + split; [constructor; assumption|constructor; [apply set_add_NoDup; exact F1|exact F2]].
    + destruct (IH (conj N2 F2)) as [G1 G2]. split; [|constructor; assumption]. cbn. constructor; [|exact G1].
      intro I. apply (keys_add w r d) in I as [I|I]; [exact (N1 I)|]. exact (str_eqb_ne _ _ E I).
Qed.
Lemma wf_reset : forall w d, wf d -> wf (dict_reset w d).
Proof.
  intros w d. induction d as [|[k s] d IH]; intros [N F]; cbn [dict_reset].
  - split; [repeat constructor; intros []|repeat constructor].
  - inversion N as [|? ? N1 N2]; subst. inversion F as [|? ? F1 F2]; subst. destruct (str_eqb k w) eqn:E.
    + split; [constructor; assumption|constructor; [constructor|exact F2]].
    + destruct (IH (conj N2 F2)) as [G1 G2]. split; [|constructor; assumption]. cbn. constructor; [|exact G1].
      intro I. apply (keys_reset w d) in I as [I|I]; [exact (N1 I)|]. exact (str_eqb_ne _ _ E I).
Qed.

(** ** The loops *)
Lemma assigned_loop : forall w rs g, let g' := fold_left (add_assigned w) rs g in
  (forall w' r', has (g_raf g') w' r' <-> has (g_raf g) w' r' \/ (w' = w /\ In r' rs))
  /\ g_exp g' = g_exp g /\ (forall r, In r (g_prio g') <-> In r (g_prio g) \/ In r rs)
  /\ (wf (g_raf g) -> wf (g_raf g')) /\ (forall x, In x (keys (g_raf g)) -> In x (keys (g_raf g'))).
Proof.
  intros w rs. induction rs as [|r rs IH]; intro g; cbn [fold_left]; cbv zeta.
  - split; [intros w' r'; cbn; tauto|]. split; [reflexivity|]. split; [intro r; cbn; tauto|]. split; auto.
  - destruct (IH (add_assigned w g r)) as (A & B & C & D & E). cbn [add_assigned g_raf g_exp g_prio] in *. split; [|split; [exact B|split; [|split]]].
    + intros w' r'. split. { intro H. apply A in H as [H|[-> H]]; [apply has_add in H as [H|[-> ->]]|]; cbn; auto. }
      intros [H|[-> [->|H]]]; apply A; [left; apply has_add; left; exact H|left; apply has_add; right; auto|right; auto].
    + intro x. rewrite C, in_app_iff. cbn. intuition congruence.
    + intro W. apply D, wf_add, W.
    + intros x H. apply E. apply keys_add. auto.
Qed.
Definition passes (r : str) : Prop := exists c d s, r = c :: d :: s /\ is_consonant d && negb (mems (firstn 2 r) INITIAL) = false.
Lemma proposed_loop : forall w rs g, let g' := fold_left (add_proposed w) rs g in
  g_raf g' = g_raf g /\ g_prio g' = g_prio g
  /\ (forall w' r', has (g_exp g') w' r' <-> has (g_exp g) w' r' \/ (w' = w /\ In r' rs /\ passes r')).
Proof.
  intros w rs. induction rs as [|r rs IH]; intro g; cbn [fold_left]; cbv zeta.
  - split; [reflexivity|]. split; [reflexivity|]. intros w' r'; cbn; tauto.
  - destruct (IH (add_proposed w g r)) as (A & B & C).
    assert (S : g_raf (add_proposed w g r) = g_raf g /\ g_prio (add_proposed w g r) = g_prio g
      /\ forall w' r', has (g_exp (add_proposed w g r)) w' r' <-> has (g_exp g) w' r' \/ (w' = w /\ r' = r /\ passes r)).
    { unfold add_proposed. destruct r as [|c [|d s]].
      - repeat split; auto. intros [H|(_ & _ & c & d & s & H & _)]; [exact H|discriminate].
      - repeat split; auto. intros [H|(_ & _ & c' & d & s & H & _)]; [exact H|discriminate].
      - destruct (_ && _) eqn:E; cbn [g_raf g_exp g_prio].
        + repeat split; auto. intros [H|(_ & _ & c' & d' & s' & H & K)]; [exact H|]. injection H as <- <- <-. congruence.
        + split; [reflexivity|]. split; [reflexivity|]. intros w' r'. rewrite has_add. split; [|tauto]. intros [H|[-> ->]]; [auto|]. right. split; [reflexivity|]. split; [reflexivity|]. exists c, d, s. auto. }
    destruct S as (S1 & S2 & S3). split; [congruence|]. split; [congruence|]. intros w' r'. rewrite C, S3. cbn. split.
    + intros [[H|(-> & -> & P)]|(-> & H & P)]; auto.
    + intros [H|(-> & [->|H] & P)]; auto.
Qed.

(** the regular expression *)
Lemma is_az_letter : forall c, is_az c = true <-> letter c.
Proof.
  intro c. unfold is_az. rewrite andb_true_iff, !N.leb_le. split.
  - intro H. assert (K : In c (map N.of_nat (seq 97 26))); [|exact K]. apply in_map_iff. exists (N.to_nat c). split; [apply N2Nat.id|]. apply in_seq. lia.
  - intro H. change (In c (map N.of_nat (seq 97 26))) in H. apply in_map_iff in H as (n & <- & H). apply in_seq in H. lia.
Qed.
Lemma re_end_some : forall r rest r' t, re_end r rest = Some (r', t) -> r' = r /\ (exists u, rest = u ++ t) /\ forall x t', rest = x :: t' -> ~ letter x.
Proof.
  intros r rest r' t H. unfold re_end in H. destruct rest as [|c rest].
  - injection H as <- <-. split; [reflexivity|]. split; [exists []; reflexivity|discriminate].
  - destruct (is_az c) eqn:E; [discriminate|]. injection H as <- <-. split; [reflexivity|]. split; [exists [c]; reflexivity|].
    intros x t' K. injection K as <- <-. intro X. apply is_az_letter in X. congruence.
Qed.
Lemma re_at_some : forall s r t, re_at s = Some (r, t) -> mentioned r s /\ exists u, s = u ++ t.
Proof.
  intros s r t H. destruct s as [|a [|d [|c [|x [|y [|z rest]]]]]]; try discriminate. cbn [re_at] in H.
  destruct (N.eqb d c_dash && is_consonant c && is_az x) eqn:E; [|discriminate]. apply andb_true_iff in E as [E E3]. apply andb_true_iff in E as [E1 E2].
  apply N.eqb_eq in E1. subst d. apply is_consonant_spec in E2. apply is_az_letter in E3. destruct (N.eqb y c_h) eqn:Ey.
  - apply N.eqb_eq in Ey. subst y. destruct rest as [|e rest]; [discriminate|]. destruct (is_az z && N.eqb e c_dash) eqn:E; [|discriminate]. apply andb_true_iff in E as [E4 E5].
    apply N.eqb_eq in E5. subst e. apply is_az_letter in E4. apply re_end_some in H as (-> & (u & ->) & H). split.
    + split; [exists c, x, z; auto|]. exists [], a, (u ++ t). split; [reflexivity|exact H].
    + exists ([a; c_dash; c; x; c_h; z; c_dash] ++ u). rewrite <- app_assoc. reflexivity.
  - destruct (is_az y && N.eqb z c_dash) eqn:E; [|discriminate]. apply andb_true_iff in E as [E4 E5].
    apply N.eqb_eq in E5. subst z. apply is_az_letter in E4. apply re_end_some in H as (-> & (u & ->) & H). split.
    + split; [exists c, x, y; auto|]. exists [], a, (u ++ t). split; [reflexivity|exact H].
    + exists ([a; c_dash; c; x; y; c_dash] ++ u). rewrite <- app_assoc. reflexivity.
Qed.
Lemma mentioned_app : forall r u s, mentioned r s -> mentioned r (u ++ s).
Proof. intros r u s [H (v & c & t & -> & K)]. split; [exact H|]. exists (u ++ v), c, t. split; [rewrite <- app_assoc; reflexivity|exact K]. Qed.
Lemma findall_mentioned : forall f s r, In r (re_findall f s) -> mentioned r s.
Proof.
  induction f as [|f IH]; intros s r H; [destruct H|]. cbn [re_findall] in H. destruct s as [|a s]; [destruct H|].
  destruct (re_at (a :: s)) as [[r' t]|] eqn:E.
  - destruct (re_at_some _ _ _ E) as [M (u & Eu)]. destruct H as [<-|H]; [exact M|]. rewrite Eu. apply mentioned_app, IH, H.
  - apply (mentioned_app r [a] s), IH, H.
Qed.
Lemma is_prefix_spec : forall p s, is_prefix p s = true -> exists t, s = p ++ t.
Proof.
  induction p as [|x p IH]; intros s H; [exists s; reflexivity|]. destruct s as [|y s]; [discriminate|]. cbn in H. apply andb_true_iff in H as [H1 H2].
  apply N.eqb_eq in H1. subst y. destruct (IH s H2) as [t ->]. exists t. reflexivity.
Qed.
Lemma has_sub_spec : forall p s, has_sub p s = true -> exists a b, s = a ++ p ++ b.
Proof.
  intros p s. induction s as [|x s IH]; cbn [has_sub]; intro H; apply orb_true_iff in H as [H|H].
  - apply is_prefix_spec in H as [t ->]. exists [], t. reflexivity.
  - discriminate.
  - apply is_prefix_spec in H as [t ->]. exists [], t. reflexivity.
  - destruct (IH H) as (a & b & ->). exists (x :: a), b. reflexivity.
Qed.
Lemma passes_initial : forall r, passes r -> rafsi_text r -> forall c d s, r = c :: d :: s -> consonant d -> initial_pair c d.
Proof.
  intros r (c' & d' & s' & E & P) _ c d s E' Hd. subst r. injection E' as -> -> ->. apply is_consonant_spec in Hd. rewrite Hd in P. cbn [andb firstn] in P.
  apply negb_false_iff in P. apply initial_spec. exact P.
Qed.

(** one <valsi> *)
Lemma add_valsi_spec : forall v g, let g' := add_valsi g v in
  (forall w' r', has (g_raf g') w' r' <-> has (g_raf g) w' r' \/ (w' = v_word v /\ In r' (v_rafsi v)))
  /\ (forall r, In r (g_prio g') <-> In r (g_prio g) \/ In r (v_rafsi v))
  /\ (forall w' r', has (g_exp g') w' r' -> has (g_exp g) w' r'
        \/ (w' = v_word v /\ (exists a b, lower (v_notes v) = a ++ L "rafsi" ++ b) /\ mentioned r' (v_notes v) /\ passes r'))
  /\ (wf (g_raf g) -> wf (g_raf g')) /\ (forall x, In x (keys (g_raf g)) -> In x (keys (g_raf g')))
  /\ (forall w' r', has (g_exp g) w' r' -> has (g_exp g') w' r')
  /\ (forall r, has_sub (L "rafsi") (lower (v_notes v)) = true -> In r (proposed_rafsi (v_notes v)) -> passes r -> has (g_exp g') (v_word v) r).
Proof.
  intros v g. cbv zeta. unfold add_valsi. cbv zeta. destruct (assigned_loop (v_word v) (v_rafsi v) g) as (A & B & C & D & E).
  destruct (has_sub _ _) eqn:H.
  - destruct (proposed_loop (v_word v) (proposed_rafsi (v_notes v)) (fold_left (add_assigned (v_word v)) (v_rafsi v) g)) as (A' & B' & C').
    rewrite A', B'. split; [exact A|]. split; [exact C|].
    split; [|split; [exact D|split; [exact E|split; [intros w' r' K; apply C'; left; rewrite B; exact K|intros r _ K P; apply C'; auto]]]]. intros w' r' K. apply C' in K as [K|(-> & K & P)].
    + left. rewrite B in K. exact K.
    + right. split; [reflexivity|]. split; [apply has_sub_spec; exact H|]. split; [eapply findall_mentioned; exact K|exact P].
  - split; [exact A|]. split; [exact C|].
    split; [|split; [exact D|split; [exact E|split; [intros w' r' K; rewrite B; exact K|intros r X; congruence]]]]. intros w' r' K. left. rewrite B in K. exact K.
Qed.
Definition keptb (gim : list str) (v : valsi) : bool :=
  if mems (v_type v) [L "gismu"; L "experimental gismu"]
  then negb (str_eqb (v_type v) (L "experimental gismu") && mems (firstn 4 (v_word v)) gim)
  else mems (v_type v) [L "cmavo"; L "experimental cmavo"].
Lemma gimste_In : forall vs x, In x (gimste vs) <-> exists g, In g vs /\ v_type g = L "gismu" /\ firstn 4 (v_word g) = x.
Proof.
  intros vs x. unfold gimste. rewrite in_map_iff. split.
  - intros (g & E & H). apply filter_In in H as [H1 H2]. apply str_eqb_eq in H2. eauto.
  - intros (g & H1 & H2 & E). exists g. split; [exact E|]. apply filter_In. split; [exact H1|]. apply str_eqb_eq. exact H2.
Qed.
Lemma keptb_spec : forall vs v, In v vs -> (keptb (gimste vs) v = true <-> kept vs v).
Proof.
  intros vs v Hin. unfold keptb, kept. destruct (mems (v_type v) [L "gismu"; L "experimental gismu"]) eqn:E.
  - apply mems_In in E. destruct (str_eqb (v_type v) (L "experimental gismu")) eqn:E2.
    + apply str_eqb_eq in E2. cbn [andb]. rewrite negb_true_iff. split.
      * intro H. split; [exact Hin|]. right. split; [exact E2|]. intros g Hg Tg X.
        assert (K : mems (firstn 4 (v_word v)) (gimste vs) = true) by (apply mems_In, gimste_In; eauto). congruence.
      * intros [_ [H|[_ H]]]; [rewrite E2 in H; cbn in H; exfalso; intuition discriminate|].
        destruct (mems _ _) eqn:M; [|reflexivity]. apply mems_In, gimste_In in M as (g & G1 & G2 & G3). exfalso. exact (H g G1 G2 G3).
    + cbn [andb negb]. split; [|reflexivity]. intros _. split; [exact Hin|]. left. destruct E as [E|[E|[]]]; [left; exact E|]. symmetry in E. apply str_eqb_eq in E. congruence.
  - split.
    + intro H. apply mems_In in H. split; [exact Hin|]. left. cbn in *. intuition auto.
    + intros [_ [H|[H _]]].
      * destruct H as [H|H]; [|apply mems_In; exact H]. exfalso. assert (K : mems (v_type v) [L "gismu"; L "experimental gismu"] = true) by (apply mems_In; cbn; auto). congruence.
      * exfalso. assert (K : mems (v_type v) [L "gismu"; L "experimental gismu"] = true) by (apply mems_In; cbn; auto). congruence.
Qed.
Lemma step_spec : forall gim g v, let g' := valsi_step gim g v in
  (keptb gim v = false /\ g' = g)
  \/ (keptb gim v = true /\ exists d,
      (d = dict_reset (v_word v) (g_raf g) \/ (d = g_raf g /\ v_type v <> L "gismu"))
      /\ g' = add_valsi (mkG d (g_exp g) (g_prio g)) v).
Proof.
  intros gim g v. cbv zeta. unfold valsi_step, keptb. destruct (mems (v_type v) [L "gismu"; L "experimental gismu"]) eqn:E.
  - destruct (_ && _); [left; auto|]. right. split; [reflexivity|]. eauto.
  - destruct (mems (v_type v) [L "cmavo"; L "experimental cmavo"]); [right|left; auto]. split; [reflexivity|].
    exists (g_raf g). split; [right; split; [reflexivity|]|destruct g; reflexivity].
    intro X. rewrite X in E. discriminate.
Qed.

(** ** All of them *)
Record inv (vs done : list valsi) (g : gstate) : Prop := {
  i_raf : forall w r, has (g_raf g) w r -> exists v, kept vs v /\ v_word v = w /\ In r (v_rafsi v);
  i_exp : forall w r, has (g_exp g) w r -> proposed vs w r;
  i_prio : forall r, In r (g_prio g) <-> exists v, In v done /\ kept vs v /\ In r (v_rafsi v);
  i_wf : wf (g_raf g);
  i_found : forall v r, In v done -> kept vs v -> has_sub (L "rafsi") (lower (v_notes v)) = true -> In r (proposed_rafsi (v_notes v)) -> passes r -> has (g_exp g) (v_word v) r;
  i_all : NoDup (map v_word vs) -> forall v r, In v done -> kept vs v -> In r (v_rafsi v) -> has (g_raf g) (v_word v) r;
  i_gismu : forall v, In v done -> v_type v = L "gismu" -> In (v_word v) (keys (g_raf g)) }.
Lemma loop_inv : forall vs todo done g, vs = done ++ todo -> inv vs done g -> inv vs vs (fold_left (valsi_step (gimste vs)) todo g).
Proof.
  intros vs todo. induction todo as [|v todo IH]; intros done g Ev I; cbn [fold_left].
  - rewrite app_nil_r in Ev. subst done. exact I.
  - apply (IH (done ++ [v])); [rewrite <- app_assoc; exact Ev|]. destruct I as [I1 I2 I3 I4 I7 I5 I6].
    assert (Hin : In v vs) by (rewrite Ev; apply in_or_app; cbn; auto).
    assert (Hnew : NoDup (map v_word vs) -> forall v', In v' done -> v_word v' <> v_word v).
    { intros N v' Hv' X. rewrite Ev, map_app in N. cbn in N. apply NoDup_remove_2 in N. apply N. apply in_or_app. left. rewrite <- X. apply in_map. exact Hv'. }
    destruct (step_spec (gimste vs) g v) as [[K ->]|(K & d & Hd & ->)].
    + assert (NK : ~ kept vs v) by (intro X; apply keptb_spec in X; [congruence|exact Hin]). split; try assumption.
      * intro r. rewrite I3. split.
        -- intros (x & X1 & X2). exists x. split; [apply in_or_app; auto|exact X2].
        -- intros (x & X1 & X2 & X3). apply in_app_or in X1 as [X1|[->|[]]]; [eauto|contradiction].
      * intros x r X1 X2 X3 X4 X5. apply in_app_or in X1 as [X1|[->|[]]]; [eauto|contradiction].
      * intros N x r X1 X2 X3. apply in_app_or in X1 as [X1|[->|[]]]; [eauto|contradiction].
      * intros x X1 X2. apply in_app_or in X1 as [X1|[->|[]]]; [eauto|]. exfalso. apply NK. split; [exact Hin|]. left. rewrite X2. cbn. auto.
    + apply keptb_spec in K; [|exact Hin]. destruct (add_valsi_spec v (mkG d (g_exp g) (g_prio g))) as (A & B & C & D & E & F & G). cbn [g_raf g_exp g_prio] in *.
      assert (Hd1 : forall w r, has d w r -> has (g_raf g) w r) by (destruct Hd as [->|[-> _]]; [intros w r; apply has_reset|auto]).
      assert (Hd2 : forall w r, w <> v_word v -> has (g_raf g) w r -> has d w r) by (destruct Hd as [->|[-> _]]; [intros w r N; apply has_reset_other; exact N|auto]).
      assert (Hd3 : forall x, In x (keys (g_raf g)) -> In x (keys d)) by (destruct Hd as [->|[-> _]]; [intros x X; apply keys_reset; auto|auto]).
      split.
      * intros w r H. apply A in H as [H|[-> H]]; [apply I1, Hd1, H|]. exists v. auto.
      * intros w r H. apply C in H as [H|(-> & H1 & H2 & H3)]; [apply I2; exact H|]. exists v. split; [exact K|]. split; [reflexivity|]. split; [exact H1|]. split; [exact H2|].
        apply passes_initial; [exact H3|apply H2].
      * intro r. rewrite B, I3. split.
        -- intros [(x & X1 & X2)|H]; [exists x; split; [apply in_or_app; auto|exact X2]|]. exists v. split; [apply in_or_app; cbn; auto|auto].
        -- intros (x & X1 & X2 & X3). apply in_app_or in X1 as [X1|[->|[]]]; [left; eauto|right; exact X3].
      * apply D. destruct Hd as [->|[-> _]]; [apply wf_reset; exact I4|exact I4].
      * intros x r X1 X2 X3 X4 X5. apply in_app_or in X1 as [X1|[->|[]]]; [apply F, I7; assumption|apply G; assumption].
      * intros N x r X1 X2 X3. apply A. apply in_app_or in X1 as [X1|[->|[]]]; [|right; auto]. left. apply Hd2; [apply Hnew; assumption|]. apply I5; assumption.
      * intros x X1 X2. apply E. apply in_app_or in X1 as [X1|[->|[]]]; [apply Hd3, I6; assumption|].
        destruct Hd as [->|[_ Hd]]; [apply keys_reset; auto|contradiction].
Qed.
Lemma exceptions_inv : forall (ex : sdict) g, let g' := fold_left exception_step ex g in
  (forall w r, has (g_raf g') w r <-> has (g_raf g) w r \/ has ex w r) /\ g_exp g' = g_exp g
  /\ (forall r, In r (g_prio g') <-> In r (g_prio g) \/ exists w, has ex w r)
  /\ (wf (g_raf g) -> wf (g_raf g')) /\ (forall x, In x (keys (g_raf g)) -> In x (keys (g_raf g'))).
Proof.
  intros ex. induction ex as [|[k rs] ex IH]; intro g; cbn [fold_left]; cbv zeta.
  - split; [intros w r; split; [auto|intros [H|(s & [] & _)]; exact H]|]. split; [reflexivity|].
    split; [intro r; split; [auto|intros [H|(w & s & [] & _)]; exact H]|]. auto.
  - destruct (IH (exception_step g (k, rs))) as (A & B & C & D & E). unfold exception_step in *. cbn [fst snd] in *.
    destruct (assigned_loop k rs g) as (A' & B' & C' & D' & E').
    assert (HC : forall w r, has ((k, rs) :: ex) w r <-> (w = k /\ In r rs) \/ has ex w r).
    { intros w r. unfold has. split.
      - intros (s & [H|H] & Hr); [injection H as <- <-; auto|eauto].
      - intros [[-> H]|(s & H & Hr)]; [exists rs; cbn; auto|exists s; cbn; auto]. }
    split; [|split; [congruence|split; [|split; auto]]].
    + intros w r. rewrite A, A', HC. tauto.
    + intro r. rewrite C, C'. split.
      * intros [[H|H]|(w & H)]; [auto|right; exists k; apply HC; auto|right; exists w; apply HC; auto].
      * intros [H|(w & H)]; [auto|]. apply HC in H as [[-> H]|H]; eauto.
Qed.
Lemma merge_inner : forall prio w rs d, let d' := fold_left (fun d r => if mems r prio then d else dict_add w r d) rs d in
  (forall w' r', has d' w' r' <-> has d w' r' \/ (w' = w /\ In r' rs /\ ~ In r' prio))
  /\ (wf d -> wf d') /\ (forall x, In x (keys d) -> In x (keys d')).
Proof.
  intros prio w rs. induction rs as [|r rs IH]; intro d; cbn [fold_left]; cbv zeta.
  - split; [intros w' r'; split; [auto|intros [H|(_ & [] & _)]; exact H]|]. auto.
  - destruct (mems r prio) eqn:E.
    + destruct (IH d) as (A & B & C). split; [|split; assumption]. intros w' r'. rewrite A. apply mems_In in E. cbn. split; [intros [H|(-> & H & N)]; auto|].
      intros [H|(-> & [->|H] & N)]; [auto|contradiction|auto].
    + destruct (IH (dict_add w r d)) as (A & B & C). split; [|split; [intro W; apply B, wf_add; exact W|intros x X; apply C, keys_add; auto]].
      intros w' r'. rewrite A, has_add. assert (N : ~ In r prio) by (intro X; apply mems_In in X; congruence). cbn. split.
      * intros [[H|[-> ->]]|(-> & H & K)]; auto.
      * intros [H|(-> & [->|H] & K)]; auto.
Qed.
Lemma merge_spec : forall prio (ex : sdict) d, let d' := fold_left (merge_step prio) ex d in
  (forall w r, has d' w r <-> has d w r \/ (has ex w r /\ ~ In r prio)) /\ (wf d -> wf d') /\ (forall x, In x (keys d) -> In x (keys d')).
Proof.
  intros prio ex. induction ex as [|[k rs] ex IH]; intro d; cbn [fold_left]; cbv zeta.
  - split; [intros w' r'; split; [auto|intros [H|[(s & [] & _) _]]; exact H]|]. auto.
  - destruct (IH (merge_step prio d (k, rs))) as (A & B & C). unfold merge_step in A at 2, B at 1, C at 1. cbn [fst snd] in *.
    destruct (merge_inner prio k rs d) as (A' & B' & C').
    assert (HC : forall w r, has ((k, rs) :: ex) w r <-> (w = k /\ In r rs) \/ has ex w r).
    { intros w r. unfold has. split.
      - intros (s & [H|H] & Hr); [injection H as <- <-; auto|eauto].
      - intros [[-> H]|(s & H & Hr)]; [exists rs; cbn; auto|exists s; cbn; auto]. }
    split; [|split; auto]. intros w r. rewrite A, A', HC. tauto.
Qed.
Lemma start_inv : forall vs, inv vs [] (mkG [] [] []).
Proof.
  intro vs. split; cbn; try (intros; tauto).
  - intros w r (s & [] & _).
  - intros w r (s & [] & _).
  - intro r. split; [intros []|intros (v & [] & _)].
  - split; constructor.
Qed.
Definition final (vs : list valsi) : sdict := let g := collect vs in fold_left (merge_step (g_prio g)) (g_exp g) (g_raf g).
Lemma final_spec : forall vs,
  (forall w r, has (final vs) w r -> assigned vs w r \/ (proposed vs w r /\ forall w', ~ assigned vs w' r))
  /\ wf (final vs)
  /\ (NoDup (map v_word vs) -> forall w r, assigned vs w r -> has (final vs) w r)
  /\ (forall v, In v vs -> v_type v = L "gismu" -> In (v_word v) (keys (final vs)))
  /\ (forall v r, kept vs v -> has_sub (L "rafsi") (lower (v_notes v)) = true -> In r (proposed_rafsi (v_notes v)) -> passes r ->
        (forall w', ~ assigned vs w' r) -> has (final vs) (v_word v) r).
Proof.
  intro vs. unfold final, collect. cbv zeta.
  pose proof (loop_inv vs vs [] (mkG [] [] []) eq_refl (start_inv vs)) as I. set (g1 := fold_left (valsi_step (gimste vs)) vs (mkG [] [] [])) in *. clearbody g1. destruct I as [I1 I2 I3 I4 I7 I5 I6].
  destruct (exceptions_inv EXCEPTIONS g1) as (A & B & C & D & E). set (g2 := fold_left exception_step EXCEPTIONS g1) in *. clearbody g2.
  destruct (merge_spec (g_prio g2) (g_exp g2) (g_raf g2)) as (A' & B' & C'). split; [|split; [|split; [|split]]].
  - intros w r H. apply A' in H as [H|[H N]].
    + left. apply A in H as [H|H]; [left; apply I1; exact H|right; exact H].
    + right. rewrite B in H. split; [apply I2; exact H|]. intros w' [(v & V1 & V2 & V3)|V]; apply N, C.
      * left. apply I3. exists v. split; [apply V1|auto].
      * right. exists w'. exact V.
  - apply B', D, I4.
  - intros ND w r [(v & V1 & <- & V3)|V]; apply A'; left; apply A; [left; apply I5; auto; apply V1|right; exact V].
  - intros v V1 V2. apply C', E, I6; assumption.
  - intros v r V1 V2 V3 V4 V5. apply A'. right. split; [rewrite B; apply I7; auto; apply V1|]. intro N. apply C in N as [N|(w & N)].
    + apply I3 in N as (x & _ & X1 & X2). apply (V5 (v_word x)). left. eauto.
    + apply (V5 w). right. exact N.
Qed.

(** ** Sorting *)
Lemma insert_perm : forall r l, Permutation (insert_key r l) (r :: l).
Proof.
  intros r l. induction l as [|x l IH]; cbn [insert_key]; [reflexivity|]. destruct (Z.leb _ _); [reflexivity|]. rewrite IH. apply perm_swap.
Qed.
Lemma sort_perm : forall l, Permutation (sort_rafsi l) l.
Proof. induction l as [|r l IH]; [reflexivity|]. cbn. rewrite insert_perm. constructor. exact IH. Qed.
Definition key_le (a b : str) : Prop := (sort_key a <= sort_key b)%Z.
Lemma insert_sorted : forall r l, StronglySorted key_le l -> StronglySorted key_le (insert_key r l).
Proof.
  intros r l H. induction H as [|x l H IH F]; cbn [insert_key]; [repeat constructor|]. destruct (Z.leb _ _) eqn:E.
  - apply Z.leb_le in E. constructor; [constructor; assumption|]. constructor; [exact E|]. eapply Forall_impl; [|exact F]. unfold key_le. intros; lia.
  - apply Z.leb_gt in E. constructor; [exact IH|]. apply Forall_forall. intros y Hy. apply (Permutation_in _ (insert_perm r l)) in Hy as [<-|Hy]; [unfold key_le; lia|].
    rewrite Forall_forall in F. exact (F y Hy).
Qed.
Lemma sort_sorted : forall l, StronglySorted key_le (sort_rafsi l).
Proof. induction l as [|r l IH]; [constructor|]. apply insert_sorted, IH. Qed.

(** ** C59 *)
(** Whatever the dictionary and whatever order sets are enumerated in: every rafsi
    of an entry belongs to that word, officially, by hand or by its notes, and a
    rafsi taken from notes is assigned to no word at all. *)
Theorem C59_entries_justified : forall order vs w rs r, (forall l, Permutation (order l) l) ->
  In (w, rs) (generate order vs) -> In r rs ->
  assigned vs w r \/ (proposed vs w r /\ forall w', ~ assigned vs w' r).
Proof.
  intros order vs w rs r O H Hr. unfold generate in H. cbv zeta in H. fold (final vs) in H. apply in_map_iff in H as ([k s] & E & H). injection E as -> <-.
  apply (proj1 (final_spec vs)). exists s. split; [exact H|]. apply (Permutation_in _ (O s)). apply (Permutation_in _ (sort_perm _)). exact Hr.
Qed.
(** If no word is listed twice, every assigned rafsi of every word that is used is
    in its entry, and every gismu has an entry. *)
Theorem C59_nothing_lost : forall order vs, (forall l, Permutation (order l) l) -> NoDup (map v_word vs) ->
  (forall w r, assigned vs w r -> exists rs, In (w, rs) (generate order vs) /\ In r rs)
  /\ (forall v, In v vs -> v_type v = L "gismu" -> exists rs, In (v_word v, rs) (generate order vs)).
Proof.
  intros order vs O N. destruct (final_spec vs) as (_ & _ & A & B & _). unfold generate. cbv zeta. fold (final vs). split.
  - intros w r H. destruct (A N w r H) as (s & H1 & H2). exists (sort_rafsi (order s)). split; [apply in_map_iff; exists (w, s); auto|].
    apply (Permutation_in _ (Permutation_sym (sort_perm _))). apply (Permutation_in _ (Permutation_sym (O s))). exact H2.
  - intros v H1 H2. specialize (B v H1 H2). unfold keys in B. apply in_map_iff in B as ([k s] & E & H). cbn in E. subst k. exists (sort_rafsi (order s)). apply in_map_iff. exists (v_word v, s). auto.
Qed.
(** Each word has one entry, without repetitions, in the order of the ranks of the
    shapes: first rafsi of none of the eight shapes, then CVCCV, CVCC, CCVCV, CCVC,
    CVC, CV'V, CCV, CVV. *)
Lemma sort_key_rank : forall r k, rank r k <-> k = sort_key r.
Proof. intros r k. assert (sort_key r = rank_of r) as -> by (unfold sort_key, rank_of; destruct (rafsi_tarmi r); reflexivity). split; [apply rank_det|intros ->; apply rank_spec]. Qed.
Theorem C59_sorted : forall order vs, (forall l, Permutation (order l) l) ->
  NoDup (map fst (generate order vs))
  /\ forall w rs, In (w, rs) (generate order vs) ->
       NoDup rs /\ StronglySorted (fun a b => forall i j, rank a i -> rank b j -> (i <= j)%Z) rs.
Proof.
  intros order vs O. destruct (final_spec vs) as (_ & [W1 W2] & _). unfold generate. cbv zeta. fold (final vs). split.
  - rewrite map_map. cbn [fst]. exact W1.
  - intros w rs H. apply in_map_iff in H as ([k s] & E & H). injection E as -> <-. cbn [fst snd]. split.
    + rewrite Forall_forall in W2. specialize (W2 _ H). cbn in W2. eapply Permutation_NoDup; [apply Permutation_sym, sort_perm|]. eapply Permutation_NoDup; [apply Permutation_sym, O|exact W2].
    + generalize (sort_sorted (order s)). generalize (sort_rafsi (order s)). intros l S. induction S as [|x l S IH F]; constructor; [exact IH|].
      eapply Forall_impl; [|exact F]. intros b K i j Hi Hj. apply sort_key_rank in Hi, Hj. subst. exact K.
Qed.
(** The order in which sets are enumerated changes neither the words, nor the sets
    of rafsi, nor the sequence of shapes. *)
Lemma sorted_keys_unique : forall l l', Permutation l l' -> StronglySorted key_le l -> StronglySorted key_le l' -> map sort_key l = map sort_key l'.
Proof.
  intros l l' P S S'.
  assert (G : forall a b : list Z, Permutation a b -> StronglySorted Z.le a -> StronglySorted Z.le b -> a = b).
  { clear. induction a as [|x a IH]; intros b P S S'; [apply Permutation_nil in P; subst; reflexivity|].
    destruct b as [|y b]; [apply Permutation_sym, Permutation_nil in P; discriminate|]. inversion S as [|? ? S1 F1]; subst. inversion S' as [|? ? S2 F2]; subst. rewrite Forall_forall in F1, F2.
    assert (x = y).
    { assert (I1 : In x (y :: b)) by (apply (Permutation_in _ P); left; reflexivity). assert (I2 : In y (x :: a)) by (apply (Permutation_in _ (Permutation_sym P)); left; reflexivity).
      destruct I1 as [->|I1]; [reflexivity|]. destruct I2 as [->|I2]; [reflexivity|]. apply F1 in I2. apply F2 in I1. lia. }
    subst y. f_equal. apply IH; [eapply Permutation_cons_inv; exact P|assumption|assumption]. }
  assert (M : forall l, StronglySorted key_le l -> StronglySorted Z.le (map sort_key l)).
  { clear. intros l H. induction H as [|x l H IH F]; cbn; constructor; [exact IH|]. apply Forall_map. exact F. }
  apply G; [apply Permutation_map; exact P|apply M; exact S|apply M; exact S'].
Qed.
Theorem C59_any_order : forall order order' vs, (forall l, Permutation (order l) l) -> (forall l, Permutation (order' l) l) ->
  Forall2 (fun a b => fst a = fst b /\ Permutation (snd a) (snd b) /\ Forall2 (fun r r' => forall k, rank r k <-> rank r' k) (snd a) (snd b))
    (generate order vs) (generate order' vs).
Proof.
  intros order order' vs O O'. unfold generate. cbv zeta. fold (final vs). induction (final vs) as [|[k s] d IH]; cbn [map]; constructor; [|exact IH]. cbn [fst snd].
  assert (P : Permutation (sort_rafsi (order s)) (sort_rafsi (order' s))).
  { rewrite sort_perm, (sort_perm (order' s)), O, O'. reflexivity. }
  pose proof (sorted_keys_unique _ _ P (sort_sorted _) (sort_sorted _)) as K. split; [reflexivity|]. split; [exact P|].
  clear -K. revert K. generalize (sort_rafsi (order s)) (sort_rafsi (order' s)). induction l as [|x l IH]; intros [|y l'] K; try discriminate; constructor.
  - cbn in K. injection K as K _. intro k. rewrite !sort_key_rank, K. reflexivity.
  - apply IH. cbn in K. injection K as _ K. exact K.
Qed.

(** The first rafsi that the notes propose is found, and used if no word has it. *)
Lemma re_at_here : forall r c t, rafsi_text r -> (forall x t', t = x :: t' -> ~ letter x) -> exists t', re_at ([c] ++ L "-" ++ r ++ L "-" ++ t) = Some (r, t').
Proof.
  intros r c t (k & x & y & Hk & Hx & Hy & E) Ht. apply is_consonant_spec in Hk. apply is_az_letter in Hx, Hy.
  assert (Y : N.eqb y c_h = false). { apply N.eqb_neq. intros ->. discriminate. }
  assert (Z : forall q, exists t', re_end q t = Some (q, t')).
  { intro q. destruct t as [|z t]; [exists []; reflexivity|]. cbn. destruct (is_az z) eqn:Ez; [|eauto]. exfalso. apply is_az_letter in Ez. exact (Ht z t eq_refl Ez). }
  destruct E as [->| ->]; cbn [app L list_ascii_of_string map re_at].
  - change (L "-") with [c_dash]. cbn [app re_at]. rewrite Hk, Hx, Y, Hy, !N.eqb_refl. cbn [andb]. apply Z.
  - change (L "-") with [c_dash]. cbn [app re_at]. rewrite Hk, Hx, Hy, !N.eqb_refl. change (N.eqb apostrophe c_h) with true. cbn [andb]. apply Z.
Qed.
Lemma findall_first : forall u f c r t, rafsi_text r -> (forall x t', t = x :: t' -> ~ letter x) -> ~ In c_dash (u ++ [c]) -> length u < f ->
  In r (re_findall f (u ++ [c] ++ L "-" ++ r ++ L "-" ++ t)).
Proof.
  induction u as [|a u IH]; intros f c r t Hr Ht N Hf; (destruct f as [|f]; [lia|]).
  - destruct (re_at_here r c t Hr Ht) as [t' E]. cbn [app] in E |- *. cbn [re_findall]. rewrite E. left. reflexivity.
  - cbn [app re_findall]. assert (E : re_at (a :: u ++ c :: L "-" ++ r ++ L "-" ++ t) = None).
    { destruct (u ++ c :: L "-" ++ r ++ L "-" ++ t) as [|b s] eqn:Es; [reflexivity|].
      assert (b <> c_dash). { intros ->. apply N. destruct u as [|b u]; injection Es as -> _; cbn; auto. }
      unfold re_at. destruct s as [|? [|? [|? [|? ?]]]]; try reflexivity. apply N.eqb_neq in H. rewrite H. reflexivity. }
    cbn [app] in E. rewrite E. apply IH; [exact Hr|exact Ht|intro X; apply N; right; exact X|cbn in Hf; lia].
Qed.
Lemma prefix_app : forall p t, is_prefix p (p ++ t) = true.
Proof. induction p as [|x p IH]; intro t; [reflexivity|]. cbn. rewrite N.eqb_refl. apply IH. Qed.
Lemma has_sub_app : forall p a b, has_sub p (a ++ p ++ b) = true.
Proof.
  intros p a b. induction a as [|x a IH]; cbn [app].
  - destruct (p ++ b) eqn:E; cbn [has_sub]; rewrite <- E, prefix_app; reflexivity.
  - cbn [has_sub]. rewrite IH. apply orb_true_r.
Qed.
Theorem C59_first_proposal_kept : forall order vs v r u c t, (forall l, Permutation (order l) l) -> kept vs v ->
  (exists a b, lower (v_notes v) = a ++ L "rafsi" ++ b) ->
  v_notes v = u ++ [c] ++ L "-" ++ r ++ L "-" ++ t -> ~ In (hd 0%N (L "-")) (u ++ [c]) -> (forall x t', t = x :: t' -> ~ letter x) ->
  rafsi_text r -> (forall c d s, r = c :: d :: s -> consonant d -> initial_pair c d) -> (forall w', ~ assigned vs w' r) ->
  exists rs, In (v_word v, rs) (generate order vs) /\ In r rs.
Proof.
  intros order vs v r u c t O K (a & b & Hl) En Nd Ht Hr Hi Na. destruct (final_spec vs) as (_ & _ & _ & _ & F). unfold generate. cbv zeta. fold (final vs).
  destruct (F v r K) as (s & H1 & H2).
  - rewrite Hl. apply has_sub_app.
  - unfold proposed_rafsi. rewrite En at 2. apply findall_first; try assumption. rewrite En, !app_length. cbn. lia.
  - destruct Hr as (k & x & y & _ & _ & _ & Hr). assert (exists s, r = k :: x :: s) as [s ->] by (destruct Hr as [->| ->]; eauto).
    exists k, x, s. split; [reflexivity|]. destruct (is_consonant x) eqn:Ex; [|reflexivity]. cbn [andb firstn]. apply negb_false_iff, initial_spec. apply (Hi k x s eq_refl). apply is_consonant_spec. exact Ex.
  - exact Na.
  - exists (sort_rafsi (order s)). split; [apply in_map_iff; exists (v_word v, s); auto|].
    apply (Permutation_in _ (Permutation_sym (sort_perm _))). apply (Permutation_in _ (Permutation_sym (O s))). exact H2.
Qed.
(** What the notes propose can be lost: of two rafsi that share the character
    between them only the first is found. *)
Definition two_proposed : valsi := mkValsi (L "bralo") (L "experimental gismu") [] (L "Proposed rafsi: -bra-,-ral-").
Theorem C59_proposed_complete_refuted : exists order vs w r, (forall l, Permutation (order l) l) /\ NoDup (map v_word vs) /\
  proposed vs w r /\ (forall w', ~ assigned vs w' r) /\ forall rs, In (w, rs) (generate order vs) -> ~ In r rs.
Proof.
  exists (fun l => l), [two_proposed], (L "bralo"), (L "ral"). split; [reflexivity|]. split; [repeat constructor; intros []|]. split; [|split].
  - exists two_proposed. split; [|split; [reflexivity|split; [|split]]].
    + split; [left; reflexivity|]. right. split; [reflexivity|]. intros g [<-|[]] H. discriminate.
    + exists (L "proposed "), (L ": -bra-,-ral-"). reflexivity.
    + split.
      * exists 114%N, 97%N, 108%N. split; [apply is_consonant_spec; reflexivity|]. split; [apply is_az_letter; reflexivity|]. split; [apply is_az_letter; reflexivity|]. left. reflexivity.
      * exists (L "Proposed rafsi: -bra-"), 44%N, []. split; [reflexivity|]. discriminate.
    + intros c d s E Hd. injection E as <- <- <-. apply is_consonant_spec in Hd. discriminate.
  - intros w' [(v & [[<-|[]] _] & _ & [])|(rs & H & Hr)].
    assert (K : existsb (fun kv => mems (L "ral") (snd kv)) EXCEPTIONS = true); [|vm_compute in K; discriminate].
    apply existsb_exists. exists (w', rs). split; [exact H|]. apply mems_In. exact Hr.
  - intros rs H Hr.
    assert (K : existsb (fun kv => str_eqb (fst kv) (L "bralo") && mems (L "ral") (snd kv)) (generate (fun l => l) [two_proposed]) = true); [|vm_compute in K; discriminate].
    apply existsb_exists. exists (L "bralo", rs). split; [exact H|]. apply andb_true_iff. split; [apply str_eqb_eq; reflexivity|apply mems_In; exact Hr].
Qed.
(** A gismu listed twice loses the rafsi of its first listing: the hypothesis of
    [C59_nothing_lost] is needed. *)
Theorem C59_listed_twice_refuted : exists order vs w r, (forall l, Permutation (order l) l) /\ assigned vs w r
  /\ forall rs, In (w, rs) (generate order vs) -> ~ In r rs.
Proof.
  pose (a := mkValsi (L "broda") (L "gismu") [L "rod"] []). pose (b := mkValsi (L "broda") (L "gismu") [L "bo'a"] []).
  exists (fun l => l), [a; b], (L "broda"), (L "rod"). split; [reflexivity|]. split.
  - left. exists a. split; [split; [left; reflexivity|left; left; reflexivity]|]. split; [reflexivity|left; reflexivity].
  - intros rs H Hr.
    assert (K : existsb (fun kv => str_eqb (fst kv) (L "broda") && mems (L "rod") (snd kv)) (generate (fun l => l) [a; b]) = true); [|vm_compute in K; discriminate].
    apply existsb_exists. exists (L "broda", rs). split; [exact H|]. apply andb_true_iff. split; [apply str_eqb_eq; reflexivity|apply mems_In; exact Hr].
Qed.

(** A case: an experimental gismu that collides with a gismu is dropped, a proposed
    rafsi that a gismu holds is dropped, one that is free is kept. *)
Example generate_case :
  let vs := [mkValsi (L "klama") (L "gismu") [L "kla"] []; mkValsi (L "klami") (L "experimental gismu") [L "kli"] [];
             mkValsi (L "kalse") (L "experimental gismu") [] (L "Rafsi: -kla-, -kas-, -ka'e-.")] in
  firstn 2 (generate (fun l => l) vs) = [(L "klama", [L "kla"]); (L "kalse", [L "kas"; L "ka'e"])].
Proof. vm_compute. reflexivity. Qed.
(** The dictionary in the repository, rafsi.py, has this form, and has the
    by-hand entries. *)
Theorem C59_shipped :
  NoDup (map fst RAFSI_LIST)
  /\ (forall w rs, In (w, rs) RAFSI_LIST -> NoDup rs /\ StronglySorted (fun a b => forall i j, rank a i -> rank b j -> (i <= j)%Z) rs)
  /\ (forall w r, by_hand w r -> exists rs, In (w, rs) RAFSI_LIST /\ In r rs).
Proof.
  assert (U : forall l, (fix u (l : list str) := match l with [] => true | x :: l' => negb (mems x l') && u l' end) l = true -> NoDup l).
  { induction l as [|x l IH]; intro H; constructor; apply andb_true_iff in H as [H1 H2]; [|apply IH; exact H2]. intro I. apply mems_In in I. rewrite I in H1. discriminate. }
  split; [|split].
  - apply U. vm_compute. reflexivity.
  - assert (K : forallb (fun kv => (fix u (l : list str) := match l with [] => true | x :: l' => negb (mems x l') && u l' end) (snd kv)
      && (fix q (l : list str) := match l with [] => true | x :: l' => forallb (fun y => Z.leb (sort_key x) (sort_key y)) l' && q l' end) (snd kv)) RAFSI_LIST = true) by (vm_compute; reflexivity).
    intros w rs H. rewrite forallb_forall in K. apply K in H. cbn [snd] in H. apply andb_true_iff in H as [H1 H2]. split; [apply U; exact H1|]. clear K H1 U w.
    induction rs as [|x rs IH]; constructor; apply andb_true_iff in H2 as [H1 H2]; [apply IH; exact H2|]. rewrite forallb_forall in H1. apply Forall_forall. intros y Hy i j Hi Hj.
    apply sort_key_rank in Hi, Hj. subst. apply Z.leb_le, H1, Hy.
  - assert (K : forallb (fun kv => forallb (fun r => existsb (fun e => str_eqb (fst e) (fst kv) && mems r (snd e)) RAFSI_LIST) (snd kv)) EXCEPTIONS = true) by (vm_compute; reflexivity).
    intros w r (rs & H & Hr). rewrite forallb_forall in K. apply K in H. cbn [fst snd] in H. rewrite forallb_forall in H. apply H in Hr. apply existsb_exists in Hr as ([k s] & I & E). cbn [fst snd] in E.
    apply andb_true_iff in E as [E1 E2]. apply str_eqb_eq in E1. subst k. exists s. split; [exact I|apply mems_In; exact E2].
Qed.
