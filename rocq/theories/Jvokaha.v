(** jvokaha without recursion: its result does not depend on the analyser, and
    three levels of recursion always suffice. *)
From Verif Require Import Str Data Tarmi Rafsi Core Lib Spec Shapes Katna Decomp Errs Builder.

Lemma diphthong_vowels : forall a b, diphthong [a; b] -> is_vowel a = true /\ is_vowel b = true.
Proof.
  intros a b H. cbn in H. decompose [or] H; try contradiction;
    match goal with G : _ = [_; _] |- _ => injection G as <- <- end; split; reflexivity.
Qed.

(** Turn facts of the specification into facts about the model's tests. *)
Ltac bfacts :=
  repeat match goal with
  | G : vowel _ |- _ => apply is_vowel_spec in G
  | G : consonant _ |- _ => apply is_consonant_spec in G
  | G : initial_pair ?a ?b |- _ =>
      apply initial_spec in G; destruct (initial_consonants a b G)
  | G : permissible ?mz ?a ?b |- _ =>
      destruct (permissible_consonants mz a b G); apply valid_pairs_spec in G
  | G : diphthong [?a; ?b] |- _ =>
      destruct (diphthong_vowels a b G);
      let D := fresh "Dip" in
      assert (D : mems [a; b] (Ls ["ai"; "ei"; "oi"; "au"]%string) = true) by (apply mems_In; exact G); clear G
  end.

Lemma cll_tarmi : forall mz s p, cll_rafsi mz s p -> rafsi_tarmi p =
  match s with
  | "CVC"%string => CVC | "CVV"%string => CVV | "CV'V"%string => CVhV | "CCV"%string => CCV
  | "CVCC"%string => CVCC | "CCVC"%string => CCVC | "CVCCV"%string => CVCCV | "CCVCV"%string => CCVCV
  | _ => OTHER_RAFSI
  end.
Proof.
  intros mz s p H. inversion H; subst; bfacts; try unfold apostrophe; tarmi_compute; try reflexivity.
Qed.
Lemma cll_valid : forall mz s p, cll_rafsi mz s p -> is_valid_rafsi p mz = true.
Proof.
  intros mz s p H. unfold is_valid_rafsi. rewrite (cll_tarmi _ _ _ H).
  inversion H; subst; bfacts; cbv [tarmi_in existsb tarmi_eqb tarmi_val Z.eqb Pos.eqb orb]; try reflexivity;
    cbn [firstn slice skipn Nat.sub]; assumption.
Qed.

(** A piece of a CLL shape. *)
Definition cll (mz : bool) (p : str) : Prop := exists s, cll_rafsi mz s p.
Definition proper (t : tarmi) : bool := tarmi_in t [CVC; CVV; CVhV; CCV; CVCC; CCVC; CVCCV; CCVCV].

Lemma cll_proper : forall mz p, cll mz p -> proper (rafsi_tarmi p) = true.
Proof. intros mz p [s H]. rewrite (cll_tarmi _ _ _ H). inversion H; subst; reflexivity. Qed.

Lemma valid_cll : forall mz p, is_valid_rafsi p mz = true -> rafsi_tarmi p <> CVV -> cll mz p.
Proof.
  intros mz p H Hv. unfold is_valid_rafsi in H. unfold cll.
  destruct (rafsi_tarmi p) eqn:E; cbv [tarmi_in existsb tarmi_eqb tarmi_val Z.eqb Pos.eqb orb] in H; try discriminate; try congruence.
  - apply tarmi_CVCCV in E as (a & b & c & d & e & -> & ?). cbn in H. eexists. 
    apply valid_pairs_spec in H. apply r_cvccv; try apply is_consonant_spec; try apply is_vowel_spec; tauto.
  - apply tarmi_CVCC in E as (a & b & c & d & -> & ?). cbn in H. eexists. 
    apply valid_pairs_spec in H. apply r_cvcc; try apply is_consonant_spec; try apply is_vowel_spec; tauto.
  - apply tarmi_CCVCV in E as (a & b & c & d & e & -> & ?). cbn in H. eexists. 
    apply initial_spec in H. apply r_ccvcv; try apply is_consonant_spec; try apply is_vowel_spec; tauto.
  - apply tarmi_CCVC in E as (a & b & c & d & -> & ?). cbn in H. eexists. 
    apply initial_spec in H. apply r_ccvc; try apply is_consonant_spec; try apply is_vowel_spec; tauto.
  - apply tarmi_CVC in E as (a & b & c & -> & ?). eexists.
    apply r_cvc; try apply is_consonant_spec; try apply is_vowel_spec; tauto.
  - apply tarmi_CVhV in E as (a & b & c & -> & ?). eexists.
    apply r_cvhv; try apply is_consonant_spec; try apply is_vowel_spec; tauto.
  - apply tarmi_CCV in E as (a & b & c & -> & ?). cbn in H. eexists. 
    apply initial_spec in H. apply r_ccv; try apply is_consonant_spec; try apply is_vowel_spec; tauto.
Qed.

(** ** A dashed CLL piece as tanru component *)
Lemma letters_only : forall s, s <> [] -> forallb is_lojban_letter s = true -> is_only_lojban_characters s = true.
Proof. intros [|]; [congruence|auto]. Qed.

Lemma rafsi_list_for_dashed : forall ana jvk st f l p, cll (allow_mz st) p ->
  rafsi_list_for ana jvk st f l (dashed p)
  = get_rafsi_for_rafsi p (Tar (rafsi_tarmi p)) f l (consonants st) (glides st).
Proof.
  intros ana jvk st f l p Hp. pose proof (cll_proper _ _ Hp) as Hpr. destruct Hp as [s Hs].
  pose proof (cll_valid _ _ _ Hs) as Hv.
  assert (G : strip_char (N.eqb c_dash) (dashed p) = p /\ is_only_lojban_characters p = true
    /\ exists l', last_opt p = Some l' /\ N.eqb l' c_h = false).
  { unfold strip_char, dashed, is_only_lojban_characters, is_lojban_letter.
    inversion Hs; subst; bfacts;
      (split; [cbn [app drop_while rev]; rewrite N.eqb_refl; repeat (use_facts; cbn [app drop_while rev]); rewrite ?N.eqb_refl; repeat (use_facts; cbn [app drop_while rev]); reflexivity|]);
      (split; [cbn [forallb]; unfold apostrophe; repeat (use_facts; cbn [andb orb]); reflexivity|]);
      cbn [last_opt]; eexists; (split; [reflexivity|]); use_facts; reflexivity. }
  destruct G as (G1 & G2 & l' & G3 & G4).
  unfold rafsi_list_for. cbv zeta. unfold dashed at 1. rewrite app_comm_cons, idx_last_app. cbn [bind].
  rewrite N.eqb_refl. change (idx (dashed p) 0) with (@Ok char c_dash). cbn [bind].
  rewrite N.eqb_refl. cbn [negb]. rewrite G1, G2. cbn [negb].
  unfold idx_last. rewrite G3. cbn [bind]. rewrite G4.
  replace (tarmi_eqb (rafsi_tarmi p) OTHER_RAFSI) with false by (destruct (rafsi_tarmi p); try discriminate; reflexivity).
  rewrite Hv. reflexivity.
Qed.

(** get_rafsi_list_list on the pieces of a cut *)
Fixpoint piece_forms_loop (cs : cset) (gl : bool) (n i : nat) (ps : list str) : res (list (list (str * nat))) :=
  match ps with
  | [] => Ok []
  | p :: rest =>
      x <- get_rafsi_for_rafsi p (Tar (rafsi_tarmi p)) (i =? 0) (i =? n - 1) cs gl ;;
      y <- piece_forms_loop cs gl n (S i) rest ;;
      Ok (x :: y)
  end.
Definition piece_forms cs gl ps := piece_forms_loop cs gl (length ps) 0 ps.

Lemma rafsi_list_list_dashed : forall ana jvk st ps, Forall (cll (allow_mz st)) ps ->
  get_rafsi_list_list ana jvk st (map dashed ps) = piece_forms (consonants st) (glides st) ps.
Proof.
  intros ana jvk st ps H. unfold get_rafsi_list_list, piece_forms. rewrite map_length.
  generalize (length ps) as n, 0 as i. induction H as [|p ps Hp Hps IH]; intros n i; [reflexivity|].
  cbn [map rafsi_list_list_loop piece_forms_loop]. rewrite rafsi_list_for_dashed by assumption.
  rewrite IH. reflexivity.
Qed.

Lemma piece_forms_ok : forall cs gl mz ps, Forall (cll mz) ps -> exists rll, piece_forms cs gl ps = Ok rll.
Proof.
  intros cs gl mz ps H. unfold piece_forms. generalize (length ps) as n, 0 as i.
  induction H as [|p ps Hp Hps IH]; intros n i; [exists []; reflexivity|].
  cbn [piece_forms_loop]. destruct (IH n (S i)) as [y ->].
  assert (G : exists x, get_rafsi_for_rafsi p (Tar (rafsi_tarmi p)) (i =? 0) (i =? n - 1) cs gl = Ok x).
  { destruct Hp as [s Hs]. rewrite (cll_tarmi _ _ _ Hs). unfold get_rafsi_for_rafsi.
    inversion Hs; subst; cbn [idx nth_error bind]; destruct (i =? 0); cbn [bind];
      unfold idx_last; try (bfacts; use_facts); cbn [andb bind last_opt];
      repeat match goal with |- context [if ?b then _ else _] => destruct b end; eexists; reflexivity. }
  destruct G as [x ->]. cbn [bind]. eauto.
Qed.

(** the rafsi among the pieces of a cut *)
Definition rafsi_of (ps : list str) : list str := filter (fun x => 2 <? length x) ps.

Lemma cut_rafsi_cll : forall rn hy mz ps prev, cut rn hy mz prev ps -> Forall (cll mz) (rafsi_of ps).
Proof.
  induction ps as [|p ps IH]; intros prev H; unfold rafsi_of; cbn [filter]; [constructor|]. destruct H as [H1 H2].
  apply IH in H2. destruct (2 <? length p) eqn:E; [|exact H2]. constructor; [|exact H2].
  destruct H1 as [(s & Hs & _)|(q & _ & _ & Hq)]; [exists s; exact Hs|].
  apply Nat.ltb_lt in E. exfalso.
  destruct Hq as [->|[[_ ->]|[_ [_ [[-> _]|[-> _]]]]]]; cbn in E; lia.
Qed.

(** The word jvokaha expects for a list of rafsi (before the slinku'i test). *)
Definition expected_entry (yh : yset) (cs : cset) (gl mz gen : bool) (rs : list str) : res entry :=
  rll <- piece_forms cs gl rs ;; best_word gen (mkSettings yh false cs gl mz) rll.

Lemma glfl_dashed : forall lk ana jvk yh cs gl mz gen rs, Forall (cll mz) rs ->
  get_lujvo_from_list lk ana jvk (map dashed rs) gen (mkSettings yh false cs gl mz) =
  (let* '(w, sc, ix) := expected_entry yh cs gl mz gen rs in
   if gen then Ok (w, sc, ix)
   else match lk with
        | Unbound => Err NameError
        | Bound => b <- Core.is_slinkuhi jvk yh mz w ;;
                   if b : bool then Err NoLujvoFoundError else Ok (w, sc, ix)
        end).
Proof.
  intros. rewrite get_lujvo_from_list_eq, rafsi_list_list_dashed by assumption.
  unfold expected_entry. destruct (piece_forms _ _ _); reflexivity.
Qed.

(** The expected word starts with the first rafsi. *)
Lemma piece_forms_first : forall cs gl p rs rll, piece_forms cs gl (p :: rs) = Ok rll ->
  exists x y, rll = x :: y /\ forall r n, In (r, n) x -> exists u, r = p ++ u.
Proof.
  intros cs gl p rs rll H. unfold piece_forms in H. cbn [piece_forms_loop] in H.
  inv_bind H. inv_bind H. injection H as <-. do 2 eexists. split; [reflexivity|].
  intros r n Hin. unfold get_rafsi_for_rafsi in E. cbn [Nat.eqb bind] in E.
  destruct (length (p :: rs) - 1); destruct (rafsi_tarmi p); cbn [negb] in E; try discriminate;
    repeat (let F := fresh "F" in first
      [ dif E | apply bind_ok in E as (? & F & E) ]); try discriminate;
    injection E as <-; cbn [app] in Hin;
    repeat (destruct Hin as [Hin|Hin]; [injection Hin as <- <-; first [eexists; reflexivity | exists []; rewrite app_nil_r; reflexivity]|]); try contradiction.
Qed.

Lemma expected_prefix : forall yh cs gl mz gen p rs w sc ix,
  expected_entry yh cs gl mz gen (p :: rs) = Ok (w, sc, ix) -> exists u, w = p ++ u.
Proof.
  intros yh cs gl mz gen p rs w sc ix H. unfold expected_entry in H. inv_bind H.
  destruct (piece_forms_first _ _ _ _ _ E) as (fx & fy & -> & Hx).
  apply best_word_chain in H as (ch & c & l & H1 & H2 & H3 & _).
  destruct (chain_prefix _ _ _ _ _ H2) as (r0 & n0 & rest & u & -> & H4 & _).
  inversion H1; subst. destruct (Hx _ _ H6) as [u' ->]. rewrite H4, <- app_assoc. eauto.
Qed.
Lemma piece_forms_loop_length : forall cs gl n ps i rll,
  piece_forms_loop cs gl n i ps = Ok rll -> length rll = length ps.
Proof.
  induction ps as [|p rs IH]; intros i x E; cbn in E; [injection E as <-; reflexivity|].
  inv_bind E. inv_bind E. injection E as <-. cbn. f_equal. eauto.
Qed.
Lemma piece_forms_length : forall cs gl ps rll, piece_forms cs gl ps = Ok rll -> length rll = length ps.
Proof. intros. eapply piece_forms_loop_length. eassumption. Qed.
Lemma expected_nonempty : forall yh cs gl mz gen rs e,
  expected_entry yh cs gl mz gen rs = Ok e -> 2 <= length rs.
Proof.
  intros yh cs gl mz gen rs [[w sc] ix] H. unfold expected_entry in H. inv_bind H.
  apply best_word_chain in H as (ch & c & l & H1 & H2 & _). apply chain_length in H2.
  apply piece_forms_length in E.
  apply Forall2_length in H1. lia.
Qed.

(** ** Three levels of recursion suffice *)
Lemma jvokaha_body_glfl : forall glfl glfl' yh cs gl mz w,
  (forall arr gen, jvokaha_2 yh mz w = Ok arr -> 
     glfl (map dashed (rafsi_of arr)) gen (mkSettings yh false cs gl mz)
     = glfl' (map dashed (rafsi_of arr)) gen (mkSettings yh false cs gl mz)) ->
  jvokaha_body glfl yh cs gl mz w = jvokaha_body glfl' yh cs gl mz w.
Proof.
  intros glfl glfl' yh cs gl mz w H. unfold jvokaha_body.
  destruct (jvokaha_2 yh mz w) as [arr|]; [|reflexivity]. cbn [bind].
  fold (rafsi_of arr). destruct (length (map dashed (rafsi_of arr)) =? 1); [reflexivity|].
  destruct (idx_last arr); [|reflexivity]. cbn [bind]. destruct (idx_last a); [|reflexivity]. cbn [bind].
  rewrite (H arr) by reflexivity. reflexivity.
Qed.

Lemma rafsi_tarmi_vowel : forall c s, is_vowel c = true -> rafsi_tarmi (c :: s) = OTHER_RAFSI.
Proof.
  intros c s H. unfold rafsi_tarmi. change (L "'y") with [c_h; c_y]. cbn [str_eqb]. use_facts. cbn [andb negb].
  destruct s as [|b s]; cbn [length Nat.eqb negb]; reflexivity.
Qed.

(** no piece starts with a vowel *)
Lemma j2_vowel : forall f yh mz orig c w acc, is_vowel c = true ->
  jvokaha2_loop (S f) yh mz orig (c :: w) acc = Err DecompositionError.
Proof.
  intros f yh mz orig c w acc H. cbn [jvokaha2_loop].
  assert (E : hyphen_len yh (last_opt acc) (c :: w) = Ok None).
  { unfold hyphen_len. destruct (last_opt acc) as [q|]; [|reflexivity].
    destruct (negb (length q =? 1)); [|reflexivity]. use_facts.
    change (firstn 2 (c :: w)) with (c :: firstn 1 w).
    change (L "nr") with [c_n; c_r]. change (L "'y") with [c_h; c_y]. cbn [str_eqb]. use_facts.
    cbn [andb]. rewrite andb_false_r. destruct (yset_eqb yh FORCE_Y); reflexivity. }
  rewrite E. cbn [bind].
  change (firstn 3 (c :: w)) with (c :: firstn 2 w). change (firstn 4 (c :: w)) with (c :: firstn 3 w).
  rewrite !rafsi_tarmi_vowel by assumption.
  cbn [tarmi_in existsb]. reflexivity.
Qed.

(** the letters "to" followed by anything *)
Lemma jvokaha_2_toto : forall yh mz x, exists e, jvokaha_2 yh mz (L "toto" ++ x) = Err e
  /\ In e [DecompositionError; InvalidClusterError].
Proof.
  intros yh mz x. change (L "toto" ++ x) with (116 :: 111 :: 116 :: 111 :: x)%N.
  unfold jvokaha_2. cbn [length]. remember (S (S (length x))) as n.
  set (w := (116 :: 111 :: 116 :: 111 :: x)%N). remember (S (S n)) as f eqn:Hf.
  cbn [jvokaha2_loop]. unfold w at 1.
  change (hyphen_len yh (last_opt (@nil str)) w) with (@Ok (option nat) None). cbn [bind].
  change (firstn 3 w) with [116; 111; 116]%N. change (firstn 4 w) with [116; 111; 116; 111]%N.
  change (rafsi_tarmi [116; 111; 116]%N) with CVC. change (rafsi_tarmi [116; 111; 116; 111]%N) with OTHER_RAFSI.
  change (tarmi_eqb CVC CVV) with false. change (tarmi_eqb OTHER_RAFSI CVhV) with false.
  change (tarmi_in OTHER_RAFSI [CVCC; CCVC]) with false. cbn [andb].
  assert (G : tarmi_in (rafsi_tarmi w) [CVCCV; CCVCV] = false).
  { unfold w. destruct x as [|a [|? ?]]; [reflexivity| |reflexivity].
    change (rafsi_tarmi [116; 111; 116; 111; a]%N) with OTHER_RAFSI. reflexivity. }
  rewrite G. change (tarmi_eqb CVC CVC) with true. cbv iota.
  assert (G2 : mems (slice 2 5 w) BANNED_TRIPLES = false) by (unfold w; destruct x as [|a x]; reflexivity).
  rewrite G2. exists DecompositionError. split; [|left; reflexivity].
  change (skipn 3 w) with (111 :: x)%N. rewrite Hf. apply j2_vowel. reflexivity.
Qed.

Lemma jvokaha_toto : forall lk f yh cs gl mz x, exists e,
  (forall f, jvokaha lk (S f) yh cs gl mz (L "toto" ++ x) = Err e)
  /\ jvokaha lk (S f) yh cs gl mz (L "toto" ++ x) = Err e /\ In e [DecompositionError; InvalidClusterError].
Proof.
  intros lk f yh cs gl mz x. destruct (jvokaha_2_toto yh mz x) as (e & He & Hin).
  exists e. cbn [jvokaha]. unfold jvokaha_body. rewrite He. auto.
Qed.

(** the first piece of a cut is a prefix of at least three letters *)
Lemma cut_first : forall rn hy mz ps, cut rn hy mz None ps -> ps <> [] ->
  exists p rest, ps = p :: rest /\ cll mz p /\ exists a b c t, p = a :: b :: c :: t /\ is_consonant a = true.
Proof.
  intros rn hy mz [|p rest] H Hne; [congruence|]. destruct H as [[(s & Hs & _)|(q & F & _)] _]; [|discriminate].
  exists p, rest. split; [reflexivity|]. split; [exists s; exact Hs|].
  destruct (cll_rafsi_head _ _ _ Hs) as (a & b & c & t & -> & Ha & _). exists a, b, c, t. auto.
Qed.

Lemma slinkuhi_toto : forall lk f g yh mz u,
  Core.is_slinkuhi (jvokaha lk (S f)) yh mz (L "to" ++ u) = Ok false
  /\ Core.is_slinkuhi (jvokaha lk (S g)) yh mz (L "to" ++ u) = Ok false.
Proof.
  intros lk f g yh mz u.
  assert (G : forall f, Core.is_slinkuhi (jvokaha lk (S f)) yh mz (L "to" ++ u) = Ok false).
  { intro h. unfold Core.is_slinkuhi. change (idx (L "to" ++ u) 0) with (@Ok char 116%N). cbn [bind].
    change (is_vowel 116%N) with false. cbv iota.
    destruct (jvokaha_toto lk h yh CLUSTER false mz u) as (e & _ & He & Hin).
    change (L "to" ++ L "to" ++ u) with (L "toto" ++ u). rewrite He.
    destruct Hin as [<-|[<-|[]]]; reflexivity. }
  auto.
Qed.

Lemma rafsi_of_first : forall p rest, 2 < length p -> rafsi_of (p :: rest) = p :: rafsi_of rest.
Proof. intros p rest H. unfold rafsi_of. cbn [filter]. apply Nat.ltb_lt in H. rewrite H. reflexivity. Qed.

Lemma jvokaha_S : forall lk f yh cs gl mz w, jvokaha lk (S f) yh cs gl mz w =
  jvokaha_body (get_lujvo_from_list lk (analyse lk f) (jvokaha lk f)) yh cs gl mz w.
Proof. reflexivity. Qed.

Lemma jvokaha_to : forall lk f g yh cs gl mz u,
  jvokaha lk (S (S f)) yh cs gl mz (L "to" ++ u) = jvokaha lk (S (S g)) yh cs gl mz (L "to" ++ u).
Proof.
  intros lk f g yh cs gl mz u. rewrite (jvokaha_S lk (S f)), (jvokaha_S lk (S g)).
  apply jvokaha_body_glfl. intros arr gen Ha.
  apply jvokaha_2_sound in Ha as [Hc Hcut].
  pose proof (cut_rafsi_cll _ _ _ _ _ Hcut) as Hcll. rewrite !glfl_dashed by assumption.
  destruct (expected_entry _ _ _ _ _ _) as [[[w sc] ix]|] eqn:E; cbn [bind]; [|reflexivity].
  destruct gen; [reflexivity|]. destruct lk; [reflexivity|].
  assert (Hne : arr <> []) by (intros ->; discriminate).
  destruct (cut_first _ _ _ _ Hcut Hne) as (p & rest & -> & Hp & a & b & c & t & -> & _).
  rewrite rafsi_of_first in E by (cbn; lia).
  cbn in Hc. injection Hc as -> -> _.
  destruct (expected_prefix _ _ _ _ _ _ _ _ _ _ E) as [v ->].
  change ((116 :: 111 :: c :: t) ++ v)%N with (L "to" ++ (c :: t) ++ v).
  destruct (slinkuhi_toto Bound f g yh mz ((c :: t) ++ v)) as [-> ->]. reflexivity.
Qed.

Lemma jvokaha_fuel : forall lk f g yh cs gl mz w,
  jvokaha lk (S (S (S f))) yh cs gl mz w = jvokaha lk (S (S (S g))) yh cs gl mz w.
Proof.
  intros lk f g yh cs gl mz w. rewrite (jvokaha_S lk (S (S f))), (jvokaha_S lk (S (S g))).
  apply jvokaha_body_glfl. intros arr gen Ha.
  apply jvokaha_2_sound in Ha as [Hc Hcut].
  pose proof (cut_rafsi_cll _ _ _ _ _ Hcut) as Hcll. rewrite !glfl_dashed by assumption.
  destruct (expected_entry _ _ _ _ _ _) as [[[w' sc] ix]|] eqn:E; cbn [bind]; [|reflexivity].
  destruct gen; [reflexivity|]. destruct lk; [reflexivity|].
  unfold Core.is_slinkuhi. rewrite (jvokaha_to Bound f g). reflexivity.
Qed.

(** jvokaha as a function of its arguments. *)
Definition jvk (lk : binding) : jvk_t := jvokaha lk 3.
Lemma jvokaha_jvk : forall lk f yh cs gl mz w, 3 <= f -> jvokaha lk f yh cs gl mz w = jvk lk yh cs gl mz w.
Proof.
  intros lk f yh cs gl mz w H. destruct f as [|[|[|f]]]; [lia|lia|lia|]. apply jvokaha_fuel.
Qed.

Lemma jvk_body : forall lk yh cs gl mz w, jvk lk yh cs gl mz w =
  jvokaha_body (get_lujvo_from_list lk (analyse lk 3) (jvk lk)) yh cs gl mz w.
Proof.
  intros. rewrite <- (jvokaha_jvk lk 4) by lia. rewrite (jvokaha_S lk 3). reflexivity.
Qed.
#[global] Opaque jvk.

(** The equation jvokaha satisfies. *)
Definition slinkuhi (lk : binding) (yh : yset) (mz : bool) (w : str) : res bool :=
  Core.is_slinkuhi (jvk lk) yh mz w.
Definition expected_word (lk : binding) yh cs gl mz (gen : bool) (rs : list str) : res str :=
  let* '(w, _, _) := expected_entry yh cs gl mz gen rs in
  if gen then Ok w
  else match lk with
       | Unbound => Err NameError
       | Bound => b <- slinkuhi lk yh mz w ;; if b : bool then Err NoLujvoFoundError else Ok w
       end.
Lemma jvk_eq : forall lk yh cs gl mz w,
  jvk lk yh cs gl mz w =
  (arr <- jvokaha_2 yh mz w ;;
   if length (rafsi_of arr) =? 1 then Err DecompositionError
   else
     piece <- idx_last arr ;;
     c <- idx_last piece ;;
     correct <- match expected_word lk yh cs gl mz (is_consonant c) (rafsi_of arr) with
                | Err NoLujvoFoundError => Err DecompositionError
                | r => r
                end ;;
     good <- (if yset_eqb yh FORCE_Y then Ok (str_eqb correct w)
              else corr <- jvokaha_2 yh mz correct ;; compare_lujvo_pieces corr arr) ;;
     if good : bool then Ok arr else Err DecompositionError).
Proof.
  intros lk yh cs gl mz w. rewrite jvk_body.
  unfold jvokaha_body. destruct (jvokaha_2 yh mz w) as [arr|] eqn:Ha; [|reflexivity]. cbn [bind].
  fold (rafsi_of arr). rewrite map_length. destruct (length (rafsi_of arr) =? 1); [reflexivity|].
  destruct (idx_last arr); [|reflexivity]. cbn [bind]. destruct (idx_last a); [|reflexivity]. cbn [bind].
  apply jvokaha_2_sound in Ha as [Hc Hcut].
  rewrite glfl_dashed by (eapply cut_rafsi_cll; exact Hcut).
  unfold expected_word, slinkuhi.
  destruct (expected_entry _ _ _ _ _ _) as [[[w' sc] ix]|e]; cbn [bind]; [|destruct e; reflexivity].
  destruct (is_consonant a0); [reflexivity|]. destruct lk; [reflexivity|].
  destruct (Core.is_slinkuhi _ _ _ _) as [[]|e]; cbn [bind]; try reflexivity; destruct e; reflexivity.
Qed.
