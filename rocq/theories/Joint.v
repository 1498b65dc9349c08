(** Two consonants in a row, y and ' ignored, in every accepted brivla *)
From Verif Require Import Str Data Tarmi Rafsi Core Api Lib Spec Shapes Decomp Basic Vowels Katna Dict Errs Builder Jvokaha Fuel Raises Inv Parts Clusters Zihevla Forms Chain Score Alt Lujvo Slinku Compound Whole Optimal Total Onset Found Tosm Props1 Props6 Props10.
From Coq Require Import Lia.

Definition hush (e : char) : Prop := e = letter_y \/ e = apostrophe.
(** two consonants of [w] with nothing but y and ' between them *)
Definition joint (w : str) : Prop :=
  exists x c g d z, w = x ++ c :: g ++ d :: z /\ consonant c /\ consonant d /\ Forall hush g.
Definition closed (w : str) : Prop := exists x c g, w = x ++ c :: g /\ consonant c /\ Forall hush g.
Definition ready (w : str) : Prop := exists g d z, w = g ++ d :: z /\ consonant d /\ Forall hush g.
Definition mark (w : str) : Prop := joint w \/ closed w.

Lemma joint_l : forall a b, joint a -> joint (a ++ b).
Proof. intros a b (x & c & g & d & z & -> & H). exists x, c, g, d, (z ++ b). rewrite <- app_assoc. cbn [app]. rewrite <- app_assoc. auto. Qed.
Lemma joint_r : forall a b, joint b -> joint (a ++ b).
Proof. intros a b (x & c & g & d & z & -> & H). exists (a ++ x), c, g, d, z. rewrite <- app_assoc. auto. Qed.
Lemma closed_r : forall a b, closed b -> closed (a ++ b).
Proof. intros a b (x & c & g & -> & H). exists (a ++ x), c, g. rewrite <- app_assoc. auto. Qed.
Lemma closed_h : forall a g, closed a -> Forall hush g -> closed (a ++ g).
Proof. intros a g' (x & c & g & -> & H & G) G'. exists x, c, (g ++ g'). rewrite <- app_assoc. cbn [app]. split; [reflexivity|]. split; [exact H|]. apply Forall_app. auto. Qed.
Lemma mark_r : forall a b, mark b -> mark (a ++ b).
Proof. intros a b [H|H]; [left; apply joint_r|right; apply closed_r]; exact H. Qed.
Lemma mark_h : forall a g, mark a -> Forall hush g -> mark (a ++ g).
Proof. intros a b [H|H] G; [left; apply joint_l|right; apply closed_h]; assumption. Qed.
Lemma closed_ready : forall a b, closed a -> ready b -> joint (a ++ b).
Proof.
  intros a b (x & c & g & -> & H & G) (g' & d & z & -> & H' & G'). exists x, c, (g ++ g'), d, z.
  rewrite <- !app_assoc. cbn [app]. repeat split; try assumption. apply Forall_app. auto.
Qed.
Lemma mark_ready : forall a b, mark a -> ready b -> joint (a ++ b).
Proof. intros a b [H|H] R; [apply joint_l; exact H|apply closed_ready; assumption]. Qed.
Lemma ready_l : forall a b, ready a -> ready (a ++ b).
Proof. intros a b (g & d & z & -> & H). exists g, d, (z ++ b). rewrite <- app_assoc. auto. Qed.
Lemma ready_h : forall g b, Forall hush g -> ready b -> ready (g ++ b).
Proof. intros g b G (g' & d & z & -> & H & G'). exists (g ++ g'), d, z. rewrite <- app_assoc. split; [reflexivity|]. split; [exact H|]. apply Forall_app. auto. Qed.
Lemma ready_c : forall c z, consonant c -> ready (c :: z).
Proof. intros c z H. exists [], c, z. auto. Qed.
Lemma hush_c : forall c, hush c -> consonant c -> False.
Proof. intros c [-> | ->] H; apply is_consonant_spec in H; discriminate. Qed.
Lemma mark_vowel : forall w, mark w -> ends_vowel w -> joint w.
Proof.
  intros w [H|(x & c & g & -> & H & G)] (l & E & V); [exact H|]. exfalso. apply last_opt_some in E as [s E].
  destruct (exists_last (l := c :: g)) as (g' & e & Eg); [discriminate|]. rewrite Eg, app_assoc in E. apply app_inj_tail in E as [_ <-].
  assert (K : consonant e \/ hush e).
  { assert (I : In e (c :: g)) by (rewrite Eg; apply in_or_app; right; left; reflexivity).
    destruct I as [<-|I]; [left; exact H|right]. rewrite Forall_forall in G. apply G, I. }
  destruct K as [K|[-> | ->]]; [|discriminate|discriminate]. apply is_consonant_spec in K. rewrite (v_f0 _ V) in K. discriminate.
Qed.

(** ** One rafsi *)
Definition heavy (p : str) : Prop := tarmi_in (rafsi_tarmi p) [CVV; CVhV; OTHER_RAFSI] = false.
Lemma cll_ready : forall mz s p, cll_rafsi mz s p -> ready p.
Proof.
  intros mz s p H. destruct (cll_first mz p) as (a & b & c & t & -> & Ha & _); [exists s; exact H|]. apply ready_c, is_consonant_spec, Ha.
Qed.
Lemma cll_mark : forall mz s p, cll_rafsi mz s p -> heavy p -> mark p.
Proof.
  intros mz s p H Hv. unfold heavy in Hv. rewrite (cll_tarmi _ _ _ H) in Hv.
  destruct H; try discriminate.
  - right. exists [c1; v], c2, []. auto.
  - left. apply initial_c in H as [H1 H2]. exists [], c1, [], c2, [v]. auto.
  - right. exists [c1; v; c2], c3, []. repeat split; auto. apply H1.
  - left. apply initial_c in H as [H1' H2]. exists [], c1, [], c2, [v; c3]. auto.
  - left. exists [c1; v], c2, [], c3, [v']. repeat split; auto; apply H1.
  - left. apply initial_c in H as [H1' H2']. exists [], c1, [], c2, [v; c3; v']. auto.
Qed.

Lemma cut_follow : forall rn hy mz ps p, cut rn hy mz (Some p) ps -> alternates true ps -> concat ps = [] \/ ready (concat ps).
Proof.
  intros rn hy mz ps p C A. destruct ps as [|q next]; [left; reflexivity|right]. destruct C as [[(s & Hs & _)|(q' & _ & D)] C2].
  - cbn [concat]. apply ready_l. eapply cll_ready. exact Hs.
  - assert (K : is_hyphen q = true -> Forall hush q -> ready (concat (q :: next))).
    { intros Hh Hq. cbn [alternates] in A. rewrite Hh in A. destruct A as [_ A]. cbn [concat]. apply ready_h; [exact Hq|].
      destruct next as [|r next]; [discriminate|]. destruct C2 as [[(s & Hs & _)|(q2 & E2 & L2 & D2)] C3].
      - cbn [concat]. apply ready_l. eapply cll_ready. exact Hs.
      - exfalso. cbn [alternates] in A. assert (X : is_hyphen r = true).
        { apply is_hyphen_spec. unfold hyphen. destruct D2 as [->|[[_ ->]|(_ & _ & [[-> _]|[-> _]])]]; cbn; auto. }
        rewrite X in A. destruct A; discriminate. }
    destruct D as (L & [->|[[_ ->]|(_ & _ & [[-> _]|[-> _]])]]).
    + apply K; [reflexivity|]. constructor; [left; reflexivity|constructor].
    + apply K; [reflexivity|]. constructor; [right; reflexivity|]. constructor; [left; reflexivity|constructor].
    + apply ready_c, is_consonant_spec. reflexivity.
    + apply ready_c, is_consonant_spec. reflexivity.
Qed.

Definition telling (p : str) : Prop := heavy p /\ p <> [c_y] /\ p <> [c_h; c_y].

Lemma cut_mark : forall rn hy mz ps prev f, cut rn hy mz prev ps -> alternates f ps -> Exists telling ps -> mark (concat ps).
Proof.
  intros rn hy mz. induction ps as [|p ps IH]; intros prev f C A X; [inversion X|]. destruct C as [C1 C2].
  assert (A' : exists f', alternates f' ps /\ (is_hyphen p = false -> f' = true)).
  { cbn [alternates] in A. destruct (is_hyphen p); [destruct A as [_ A]; exists false; split; [exact A|discriminate]|exists true; auto]. }
  destruct A' as (f' & A1 & A2).
  inversion X as [? ? Hp|? ? Hp]; subst; [|cbn [concat]; apply mark_r; eapply IH; eassumption].
  destruct Hp as (Hv & Hy1 & Hy2). cbn [concat]. destruct C1 as [(s & Hs & _)|(q & _ & _ & D)].
  - pose proof (cll_mark _ _ _ Hs Hv) as M. rewrite A2 in A1 by (eapply cll_not_hyphen; exists s; exact Hs).
    destruct (cut_follow _ _ _ _ _ C2 A1) as [->|R]; [rewrite app_nil_r; exact M|]. left. apply mark_ready; assumption.
  - destruct D as [->|[[_ ->]|(_ & _ & [[-> (t & ->)]|[-> (c & t & -> & Hc & _)]])]]; [destruct (Hy1 eq_refl)|destruct (Hy2 eq_refl)| |].
    + left. exists [], c_n, [], c_r, t. repeat split; auto; apply is_consonant_spec; reflexivity.
    + left. exists [], c_r, [], c, t. repeat split; auto; apply is_consonant_spec; reflexivity.
Qed.

(** ** No joint: every consonant is followed by a vowel *)
Definition calm (w : str) : Prop := forall x c z, w = x ++ c :: z -> consonant c -> exists v z', z = v :: z' /\ vowel v.
Lemma calm_app : forall a b, calm a -> calm b -> calm (a ++ b).
Proof.
  intros a b Ha Hb x c z E Hc. apply app_eq_app in E as (l & [[-> E]|[-> E]]).
  - destruct l as [|d l].
    + cbn [app] in E. destruct (Hb [] c z (eq_sym E) Hc) as (v & z' & -> & V). eauto.
    + cbn [app] in E. injection E as <- ->. destruct (Ha x c l eq_refl Hc) as (v & z' & -> & V). cbn [app]. eauto.
  - apply (Hb l c z E Hc).
Qed.
Lemma calm_joint : forall w, calm w -> joint w -> False.
Proof.
  intros w H (x & c & g & d & z & -> & Hc & Hd & G). destruct (H x c (g ++ d :: z) eq_refl Hc) as (v & z' & E & V).
  apply is_vowel_spec in V. destruct g as [|e g]; cbn [app] in E; injection E as -> _.
  - apply is_consonant_spec in Hd. rewrite (v_f0 _ V) in Hd. discriminate.
  - inversion G as [|? ? [-> | ->] _]; discriminate.
Qed.
Lemma calm_mark : forall w, calm w -> mark w -> False.
Proof.
  intros w H [J|(x & c & g & -> & Hc & G)]; [eapply calm_joint; eassumption|].
  destruct (H x c g eq_refl Hc) as (v & z' & -> & V). inversion G as [|? ? [-> | ->] _]; apply is_vowel_spec in V; discriminate.
Qed.
Lemma vowel_not_consonant : forall c, vowel c -> consonant c -> False.
Proof. intros c H G. apply is_vowel_spec in H. apply is_consonant_spec in G. rewrite (v_f0 _ H) in G. discriminate. Qed.

(** ** What jvokaha accepts *)
Lemma cons_two : forall w r h k rc m, next_consonants w r h k rc CLUSTER false = Ok m -> k = 2 \/ k = 0 -> rc = 2 \/ rc = 0 ->
  m = 0 \/ (m = 2 /\ (k = 2 \/ rc = 2 \/ h = [c_n] \/ h = [c_r]
    \/ (exists l, last_sound w = Ok l /\ is_consonant l = true))).
Proof.
  intros w r h k rc m H Hk Hr. unfold next_consonants in H. inv_bind H. injection H as H. cbn [cset_eqb andb] in H.
  destruct (str_eqb h [c_n]) eqn:E1; [apply str_eqb_eq in E1; cbn [orb] in E; injection E as <-; right; split; [subst m; destruct Hk as [-> | ->]; reflexivity|auto]|].
  destruct (str_eqb h [c_r]) eqn:E2; [apply str_eqb_eq in E2; cbn [orb] in E; injection E as <-; right; split; [subst m; destruct Hk as [-> | ->]; reflexivity|auto]|].
  cbn [orb cset_eqb] in E. destruct (rc =? 2) eqn:E3; [apply Nat.eqb_eq in E3; cbn [negb] in E; injection E as <-; right; split; [subst m rc; destruct Hk as [-> | ->]; reflexivity|auto]|]. cbn [negb] in E.
  inv_bind E. rename x0 into l. inv_bind E. rename x0 into rr. injection E as <-. cbn [cset_eqb andb] in H.
  destruct Hk as [-> | ->]; [right; split; [subst m; reflexivity|auto]|].
  destruct (is_consonant l) eqn:Hl; cbn [andb] in H; [|left; subst m; reflexivity].
  destruct (_ || _) in H; [|left; subst m; reflexivity]. right. split; [subst m; reflexivity|]. do 4 right. eauto.
Qed.
Lemma last_sound_closed : forall w l, last_sound w = Ok l -> is_consonant l = true -> closed w.
Proof.
  intros w l H Hl. unfold last_sound in H. apply idx0_ok in H as [s E].
  assert (K : forall u, exists g, Forall hush g /\ rev u = rev (drop_while is_hy u) ++ g).
  { induction u as [|c u IH]; [exists []; auto|]. cbn [drop_while]. destruct (is_hy c) eqn:Eh; [|exists []; split; [constructor|rewrite app_nil_r; reflexivity]].
    destruct IH as (g & G & Eg). exists (g ++ [c]). split.
    - apply Forall_app. split; [exact G|]. constructor; [|constructor]. unfold is_hy in Eh. apply orb_true_iff in Eh as [Eh|Eh]; apply N.eqb_eq in Eh; subst; [right|left]; reflexivity.
    - cbn [rev]. rewrite Eg, app_assoc. reflexivity. }
  destruct (K (rev w)) as (g & G & Eg). rewrite rev_involutive, E in Eg. cbn [rev] in Eg. rewrite <- app_assoc in Eg. exists (rev s), l, g. cbn [app] in Eg. split; [exact Eg|]. split; [apply is_consonant_spec; exact Hl|exact G].
Qed.
Lemma glue_cases : forall w r t gen n yh ll r0 h, glue w r t gen n yh ll r0 = Some h -> Forall hush h \/ h = [c_r] \/ h = [c_n].
Proof.
  intros w r t gen n yh ll r0 h H. unfold glue in H.
  assert (Y : hush c_y) by (left; reflexivity). assert (A : hush c_h) by (right; reflexivity).
  dif H; [dif H; [injection H as <-; auto|discriminate]|]. dif H; [discriminate|].
  dif H; [|injection H as <-; auto]. cbv zeta in H. dif H; [injection H as <-; auto|].
  destruct (tarmi_in _ _); [|injection H as <-; auto]. destruct (yset_eqb _ _); [injection H as <-; auto|].
  destruct (N.eqb r0 c_r); injection H as <-; auto.
Qed.
Definition shaped_form (x : str * nat) : Prop :=
  (snd x = 2 -> mark (fst x)) /\ (snd x = 2 \/ snd x = 0) /\ exists a t, fst x = a :: t /\ is_consonant a = true.
Lemma chain_mark : forall gen st n choice c, chain gen st n choice c -> consonants st = CLUSTER -> glides st = false ->
  Forall shaped_form choice -> (c_cons c = 2 -> mark (c_word c)) /\ (c_cons c = 2 \/ c_cons c = 0).
Proof.
  intros gen st n choice c H Hcs Hgl.
  assert (K : forall w r k rc sc ix tos n c, combine w r k rc sc ix tos gen n st = Ok (Some c) ->
    (k = 2 -> mark w) -> (k = 2 \/ k = 0) -> shaped_form (r, rc) ->
    (c_cons c = 2 -> mark (c_word c)) /\ (c_cons c = 2 \/ c_cons c = 0)).
  { clear -Hcs Hgl. intros w r k rc sc ix tos n c H M1 K1 (M2 & K2 & a & t & Er & Ha). cbn [fst snd] in *.
    apply combine_word in H as (h & i & _ & _ & W & G & _ & _ & _ & _ & N & _). apply glue_cases in G.
    rewrite Hcs, Hgl in N. apply cons_two in N; [|exact K1|exact K2]. destruct N as [N|[N D]].
    - split; [intro E; congruence|auto].
    - split; [intros _|auto]. rewrite W. assert (R : ready r) by (rewrite Er; apply ready_c, is_consonant_spec, Ha).
      assert (J : forall x, consonant x -> mark (w ++ [x] ++ r)).
      { intros x Hx. apply mark_r. left. apply closed_ready; [exists [], x, []; auto|exact R]. }
      assert (Q : mark w -> mark (w ++ h ++ r)).
      { intro M. destruct G as [G|[-> | ->]]; [|apply J, is_consonant_spec; reflexivity|apply J, is_consonant_spec; reflexivity].
        left. apply mark_ready; [exact M|]. apply ready_h; assumption. }
      destruct D as [D|[D|[D|[D|(l & D1 & D2)]]]].
      + apply Q, M1, D.
      + apply mark_r, mark_r, M2, D.
      + subst h. apply J, is_consonant_spec. reflexivity.
      + subst h. apply J, is_consonant_spec. reflexivity.
      + apply Q. right. eapply last_sound_closed; eassumption. }
  induction H as [r0 n0 r1 n1 tos c H1 H2|l c r rc c' Hc IH H]; intros F.
  - inversion F as [|? ? F0 F1]; subst. inversion F1 as [|? ? F2 _]; subst. eapply K; [exact H2|apply F0|apply F0|exact F2].
  - apply Forall_app in F as [F0 F1]. inversion F1 as [|? ? F2 _]; subst. destruct (IH F0) as [I1 I2]. eapply K; eassumption.
Qed.

Lemma piece_form : forall st fi la x p, piece st fi la x p -> consonants st = CLUSTER ->
  cll (allow_mz st) (p_r p) -> p_t p = Tar (rafsi_tarmi (p_r p)) -> shaped_form x.
Proof.
  intros st fi la x [[r t] suf] (U & E & S & C) Hcs [s Hs] Ht. cbn [p_r p_t fst snd] in *.
  rewrite (cll_prefix (allow_mz st)) in E by (exists s; exact Hs). cbn [app] in E.
  assert (Hh : Forall hush suf).
  { apply suffixed_hy in S. apply Forall_forall. intros c Hc. rewrite forallb_forall in S. apply S in Hc. unfold is_hy in Hc.
    apply orb_true_iff in Hc as [Hc|Hc]; apply N.eqb_eq in Hc; subst; [right|left]; reflexivity. }
  rewrite E in C. rewrite Hcs, Ht in C. unfold credit in C. cbn [cset_eqb] in C.
  unfold shaped_form. cbn [fst snd]. rewrite E. split; [|split].
  - intro N. apply mark_h; [|exact Hh]. eapply cll_mark; [exact Hs|]. unfold heavy. rewrite N in C. rewrite (cll_tarmi _ _ _ Hs) in *.
    destruct Hs; first [reflexivity|discriminate].
  - rewrite C. destruct (rafsi_tarmi r); auto.
  - destruct (cll_first (allow_mz st) r) as (a & b & c & t' & -> & Ha & _); [exists s; exact Hs|]. exists a. eexists. split; [reflexivity|exact Ha].
Qed.
Lemma pieces_form : forall st n l ps, pieces st n l ps -> consonants st = CLUSTER ->
  Forall (fun p => cll (allow_mz st) (p_r p) /\ p_t p = Tar (rafsi_tarmi (p_r p))) ps -> Forall shaped_form l.
Proof.
  induction 1 as [x p H|l ps x p H IH Hp]; intros Hcs F.
  - inversion F as [|? ? [F1 F2] _]; subst. constructor; [|constructor]. eapply piece_form; eassumption.
  - apply Forall_app in F as [F1 F2]. inversion F2 as [|? ? [F3 F4] _]; subst. apply Forall_app. split; [auto|]. constructor; [|constructor]. eapply piece_form; eassumption.
Qed.

Lemma expected_mark : forall yh gl mz gen rs w sc ix, gl = false -> Forall (cll mz) rs ->
  expected_entry yh CLUSTER gl mz gen rs = Ok (w, sc, ix) -> mark w.
Proof.
  intros yh gl mz gen rs w sc ix Hgl F He. unfold expected_entry in He. inv_bind He. rename x into rll. set (st := mkSettings yh false CLUSTER gl mz) in *.
  change (piece_forms (consonants st) (glides st) rs = Ok rll) in E.
  rewrite <- (rafsi_list_list_dashed (analyse_brivla Bound) (jvk Bound) st rs F) in E.
  destruct (best_word_construction _ _ _ _ _ _ _ _ E He) as (choice & cd & qs & K).
  assert (G : Forall (fun p => cll (allow_mz st) (p_r p) /\ p_t p = Tar (rafsi_tarmi (p_r p))) qs).
  { pose proof (k_source _ _ _ _ _ _ _ _ _ _ K) as Hs. clear -Hs F. change mz with (allow_mz st) in F. revert qs Hs.
    induction F as [|r rs Hr F IH]; intros qs Hs; inversion Hs; subst; constructor; [|apply IH; assumption].
    apply source_dashed in H1; [|exact Hr]. destruct H1 as [H1 H2]. unfold p_r, p_t. rewrite H1. auto. }
  destruct (chain_mark _ _ _ _ _ (k_chain _ _ _ _ _ _ _ _ _ _ K) eq_refl Hgl) as [M _].
  - eapply pieces_form; [exact (k_pieces _ _ _ _ _ _ _ _ _ _ K)|reflexivity|exact G].
  - rewrite <- (k_word _ _ _ _ _ _ _ _ _ _ K). apply M. apply (k_cons _ _ _ _ _ _ _ _ _ _ K).
Qed.

(** pieces that are not telling make a calm text *)
Lemma heavy_dec : forall p, {heavy p} + {~ heavy p}.
Proof. intro p. unfold heavy. destruct (tarmi_in _ _); [right; discriminate|left; reflexivity]. Qed.
Lemma cut_calm : forall rn hy mz ps prev, cut rn hy mz prev ps -> ~ Exists telling ps -> calm (concat ps).
Proof.
  intros rn hy mz. induction ps as [|p ps IH]; intros prev C X; [intros [|? ?] ? ? E; discriminate|]. destruct C as [C1 C2]. cbn [concat].
  apply calm_app; [|eapply IH; [exact C2|]; intro G; apply X; right; exact G].
  assert (T : ~ telling p) by (intro G; apply X; left; exact G). clear X IH C2. destruct C1 as [(s & Hs & _)|(q & _ & _ & D)].
  - assert (Hv : ~ heavy p). { intro G. apply T. split; [exact G|]. pose proof (cll_len mz p (ex_intro _ s Hs)) as L. split; intros ->; cbn in L; lia. }
    unfold heavy in Hv. rewrite (cll_tarmi _ _ _ Hs) in Hv. clear T.
    destruct Hs; try (exfalso; apply Hv; reflexivity).
    + intros x d z E Hd. apply diphthong_vowels in H0 as [V1 V2]. apply is_vowel_spec in V1. apply is_vowel_spec in V2. destruct x as [|x0 [|x1 [|x2 x]]].
      * injection E as <- <-. eauto.
      * exfalso. injection E as _ <- _. exact (vowel_not_consonant _ V1 Hd).
      * exfalso. injection E as _ _ <- _. exact (vowel_not_consonant _ V2 Hd).
      * destruct x; discriminate.
    + intros x d z E Hd. destruct x as [|x0 [|x1 [|x2 [|x3 x]]]].
      * injection E as <- <-. eauto.
      * exfalso. injection E as _ <- _. exact (vowel_not_consonant _ H0 Hd).
      * exfalso. injection E as _ _ <- _. apply is_consonant_spec in Hd. discriminate.
      * exfalso. injection E as _ _ _ <- _. exact (vowel_not_consonant _ H1 Hd).
      * destruct x; discriminate.
  - assert (N : forall a, hush a -> ~ consonant a) by (intros a Ha Hc; eapply hush_c; eassumption).
    destruct D as [->|[[_ ->]|(_ & _ & D)]].
    + intros [|e1 [|e2 x]] c z E Hc; [injection E as <- _|discriminate|discriminate]. exfalso. apply (N letter_y); [left; reflexivity|exact Hc].
    + intros [|e1 [|e2 [|e3 x]]] c z E Hc; [injection E as <- _|injection E as _ <- _|discriminate|discriminate]; exfalso; eapply N; [|exact Hc| |exact Hc]; [right|left]; reflexivity.
    + exfalso. apply T. destruct D as [[-> _]|[-> _]]; (split; [reflexivity|split; discriminate]).
Qed.
Lemma drops_in : forall u corr other, drops u corr other -> forall p, In p corr -> In p other.
Proof. induction 1; intros p' H'; cbn [In] in *; [auto|destruct H'; auto|]. destruct H'; [auto|]. right. right. apply IHdrops. assumption. Qed.

Theorem lujvo_joint : forall lk yh gl mz w arr gen correct, cll_lujvo lk yh CLUSTER gl mz w arr gen correct -> gl = false -> mark w.
Proof.
  intros lk yh gl mz w arr gen correct X Hgl.
  assert (M : mark correct).
  { pose proof (x_word _ _ _ _ _ _ _ _ _ X) as Hw. unfold expected_word in Hw. inv_bind Hw. destruct x as [[w' sc] ix].
    assert (w' = correct). { destruct gen; [congruence|]. destruct lk; [discriminate|]. inv_bind Hw. destruct x; congruence. } subst w'.
    eapply expected_mark; [exact Hgl| |exact E]. eapply cut_rafsi_cll. apply (x_cut _ _ _ _ _ _ _ _ _ X). }
  assert (D : yh = FORCE_Y \/ yh <> FORCE_Y) by (destruct yh; auto; right; discriminate).
  destruct D as [D|D]; [rewrite <- (x_force _ _ _ _ _ _ _ _ _ X D); exact M|].
  destruct (x_drops _ _ _ _ _ _ _ _ _ X D) as (corr & Hc & Hd). apply jvokaha_2_spec in Hc as [<- Ccut].
  rewrite <- (x_concat _ _ _ _ _ _ _ _ _ X).
  destruct (Exists_dec telling corr) as [T|T].
  - intro p. destruct (heavy_dec p) as [Hp|Hp]; [|right; intros [? _]; contradiction].
    destruct (list_eq_dec N.eq_dec p [c_y]) as [->|N1]; [right; intros (_ & G & _); congruence|].
    destruct (list_eq_dec N.eq_dec p [c_h; c_y]) as [->|N2]; [right; intros (_ & _ & G); congruence|]. left. split; auto.
  - eapply cut_mark; [exact (x_cut _ _ _ _ _ _ _ _ _ X)|exact (x_alt _ _ _ _ _ _ _ _ _ X)|].
    apply Exists_exists in T as (p & I & T). apply Exists_exists. exists p. split; [eapply drops_in; eassumption|exact T].
  - exfalso. eapply calm_mark; [eapply cut_calm; eassumption|exact M].
Qed.

(** ** Compounds *)
Lemma concat_with : forall a nh, concat (with_hyphen a nh) = concat (a_parts a) ++ nh.
Proof. intros a [|c nh]; cbn [with_hyphen]; [rewrite app_nil_r; reflexivity|]. rewrite concat_app. cbn [concat]. rewrite app_nil_r. reflexivity. Qed.
Lemma count_telling : forall found num cl num', count_found found num cl = (num', true) -> cl = true \/ Exists heavy found.
Proof.
  induction found as [|p found IH]; intros num cl num' H; cbn [count_found] in H; [injection H as _ ->; auto|]. cbv zeta in H.
  destruct (tarmi_in (rafsi_tarmi p) [CVV; CVhV]) eqn:E1; [apply IH in H as [H|H]; auto|].
  destruct (tarmi_eqb (rafsi_tarmi p) OTHER_RAFSI) eqn:E2; cbn [negb] in H; [apply IH in H as [H|H]; auto|].
  right. left. unfold heavy. destruct (rafsi_tarmi p); first [reflexivity|discriminate].
Qed.

Record tally (a : astate) : Prop := {
  t_hyphen : Forall hush (a_hyphen a);
  t_cluster : a_cluster a = true -> mark (concat (a_parts a));
  t_break : a_break a = true -> closed (concat (a_parts a)) }.

Lemma first_joint : forall w u v x, first_cluster w u v -> w = x \/ w = x ++ [c_a] -> joint x.
Proof.
  intros w u v x (-> & (a & b & t & -> & Ha & Hb) & _) [E|E].
  - subst x. exists u, a, [], b, t. auto.
  - destruct (exists_last (l := a :: b :: t)) as (t' & e & Et); [discriminate|]. rewrite Et, app_assoc in E. apply app_inj_tail in E as [<- ->].
    destruct t' as [|a' [|b' t']]; [discriminate| |].
    + cbn [app] in Et. injection Et as _ -> _. apply is_consonant_spec in Hb. discriminate.
    + cbn [app] in Et. injection Et as <- <- _. exists u, a, [], b, t'. auto.
Qed.
Lemma gismu_joint : forall mz v, is_gismu v mz = true -> joint v.
Proof.
  intros mz v H. apply is_gismu_spec in H as [(a & b & c & d & e & -> & H1 & H2 & H3 & H4)|(a & b & c & d & e & -> & H1 & H2 & H3 & H4)].
  - exists [a; b], c, [], d, [e]. split; [reflexivity|]. split; [apply H3|]. split; [apply H3|constructor].
  - apply initial_c in H1 as [I1 I2]. exists [], a, [], b, [c; d; e]. auto.
Qed.

Lemma part_tally : forall lk st cm ys i p0 a a', part_case (analyse_brivla lk) (jvk lk) st cm ys i p0 a a' ->
  ~ In c_y p0 -> exp_rafsi_shapes st = false -> glides st = false -> tally a -> tally a'.
Proof.
  intros lk st cm ys i p0 a a' H Hy Hex Hgl [T1 T2 T3].
  assert (Y : hush c_y) by (left; reflexivity). assert (A : hush c_h) by (right; reflexivity).
  assert (HH : forall h part, p0 = h ++ part -> part_head i p0 (start_hyphen i a) = Ok (part, start_hyphen i a ++ h) ->
    Forall hush (start_hyphen i a ++ h)).
  { intros h part E1 E2. pose proof (part_head_h _ _ _ _ _ E2 E1) as G. apply Forall_app. split.
    - unfold start_hyphen. destruct (i =? 0); [exact T1|]. apply Forall_app. auto.
    - destruct G as [-> | ->]; auto. }
  assert (PH : forall part p cl, part_tail st cm ys i part cl = Ok p -> Forall hush (p_hyphen p)).
  { intros part p cl Et. apply part_tail_hyphen in Et as [-> | ->]; auto. }
  assert (CB : forall part, cluster_before st part a = true -> (a_break a = true /\ is_consonant (hd 0%N part) = true) \/ a_cluster a = true).
  { intros part G. unfold cluster_before in G. rewrite Hgl in G. cbn [andb] in G. rewrite orb_false_r in G.
    destruct (a_break a); cbn [andb] in G; [|auto]. destruct (is_consonant _); auto. }
  destruct H as [h part E1 E2 Ht|h part p found num cl E1 E2 Ht Hne Et Hc Ek Ej Hf Hv Hn Hto Hst|h part p num cl t E1 E2 Ht Hne Et Ek Ez];
    pose proof (HH _ _ E1 E2) as HN; split; cbn [a_hyphen a_cluster a_break a_parts]; try discriminate;
    try (eapply PH; exact Et); rewrite ?concat_app, ?concat_with; cbn [concat]; rewrite ?app_nil_r.
  - constructor.
  - apply tarmi_CVC in Ht as (x & y & z & -> & Hx & _). intro G. left. rewrite <- app_assoc. apply mark_ready; [apply T2, G|].
    apply ready_h; [exact HN|]. apply ready_c, is_consonant_spec, Hx.
  - apply tarmi_CVC in Ht as (x & y & z & -> & Hx & _ & Hz). intros _. apply closed_r. exists [x; y], z, []. split; [reflexivity|]. split; [apply is_consonant_spec; exact Hz|constructor].
  - intro G. subst cl. apply count_telling in Hn. apply jvokaha_2_spec in Ej as [Ec Ecut].
    destruct Hn as [Hn|Hn].
    + assert (R : ready (concat found)).
      { destruct found as [|f fs]; [congruence|]. destruct Ecut as [[(s & Hs & _)|(q & Q & _)] _]; [|discriminate]. cbn [concat]. apply ready_l. eapply cll_ready. exact Hs. }
      left. rewrite <- app_assoc. apply mark_ready; [|apply ready_h; assumption]. apply CB in Hn as [[B _]|B]; [right; apply T3, B|apply T2, B].
    + apply mark_r. eapply (cut_mark _ _ _ _ _ true); [exact Ecut| |].
      * eapply cut_noy_alternates; [exact Ecut| |discriminate]. rewrite Ec. destruct (part_tail_eq _ _ _ _ _ _ _ Et) as [Ep _]. intro G. apply Hy. rewrite E1, <- Ep.
        apply in_or_app. right. apply in_or_app. left. exact G.
      * apply Exists_exists in Hn as (f & F1 & F2). apply Exists_exists. exists f. split; [exact F1|]. split; [exact F2|].
        assert (N : ~ In c_y f).
        { intro G. apply Hy. rewrite E1. destruct (part_tail_eq _ _ _ _ _ _ _ Et) as [Ep _]. rewrite <- Ep, <- Ec. apply in_or_app. right. apply in_or_app. left. apply in_concat. eauto. }
        split; intros ->; apply N; cbn; auto.
  - intros _. apply mark_r. left. rewrite Hex in Ez. cbn [negb] in Ez. rewrite orb_true_r in Ez.
    destruct (check_types _ _ _ _ _ _ _ _ Ez) as [-> | ->]; [|apply check_rafsi_iff in Ez as [Ez _]; discriminate].
    apply check_zihevla_iff in Ez as (_ & syl & [_ (u & v & FC & _)] & _). eapply first_joint; [exact FC|].
    destruct (part_tail_eq _ _ _ _ _ _ _ Et) as (_ & _ & Ep). destruct (p_adda p); auto.
Qed.
Lemma loop_tally : forall lk st cm ys parts i a a', analyse_loop (analyse_brivla lk) (jvk lk) st cm ys i parts a = Ok a' ->
  Forall (fun p => ~ In c_y p) parts -> exp_rafsi_shapes st = false -> glides st = false -> tally a -> tally a'.
Proof.
  induction parts as [|p ps IH]; intros i a a' H Hy Hex Hgl T; cbn [analyse_loop] in H; [injection H as <-; exact T|].
  inv_bind H. inversion Hy; subst. eapply IH; try eassumption. apply analyse_part_inv in E. eapply part_tally; eassumption.
Qed.

Theorem accepted_joint : forall lk st w t ps, analyse_brivla lk st w = Ok (t, ps) -> t <> CMEVLA ->
  consonants st = CLUSTER -> exp_rafsi_shapes st = false -> glides st = false -> joint (standard_spelling w).
Proof.
  intros lk st w t ps H Ht Hcs Hex Hgl. pose proof (C01_decomposition_lossless _ _ _ _ _ H) as Ec.
  apply analyse_inv in H. set (v := standard_spelling w) in *. clearbody v.
  inversion H; subst.
  - eapply gismu_joint. exact H0.
  - apply jvk_cll_lujvo in H4 as (gen & correct & X). rewrite Hcs in X. apply mark_vowel; [eapply lujvo_joint; eassumption|].
    exists l. split; [assumption|]. destruct (is_consonant l); [congruence|]. assumption.
  - match goal with X : check_zihevla_or_rafsi _ _ _ _ _ _ _ = Ok ?t0 |- _ => rename X into Ez; destruct (check_types _ _ _ _ _ _ _ _ Ez) as [-> | ->]; [|apply check_rafsi_iff in Ez as [Ez _]; discriminate] end.
    apply check_zihevla_iff in Ez as (_ & syl & [_ (u & x & FC & _)] & _). eapply first_joint; [exact FC|]. left. reflexivity.
  - match goal with X : analyse_compound _ _ _ _ _ _ _ = _ |- _ => rename X into HC end.
    destruct (is_consonant l) eqn:El; [congruence|]. match goal with X : false || is_vowel l = true |- _ => rename X into Hl end.
    apply mark_vowel; [|exists l; split; assumption].
    unfold analyse_compound in HC. inv_bind HC. rename x into a. dif HC; [discriminate|]. inv_bind HC. inv_bind HC. dif HC; [discriminate|]. injection HC as <-.
    rewrite Hcs in Heqb. cbn [negb] in Heqb. rewrite !andb_true_r in Heqb. apply negb_false_iff in Heqb.
    eapply t_cluster; [|exact Heqb]. eapply loop_tally; [exact E| |exact Hex|exact Hgl|].
    + apply Forall_forall. intros p Hp. eapply split_on_nosep. exact Hp.
    + split; cbn; [constructor|discriminate|discriminate].
Qed.
