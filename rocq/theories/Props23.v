(** Properties C54 and C55: the interactive sessions. *)
From Verif Require Import Str Data Tarmi Rafsi Core Api Lib Spec Shapes Decomp Basic Vowels Katna Dict Errs Builder Jvokaha Fuel Raises Inv Parts Clusters Zihevla Forms Chain Score Alt Lujvo Slinku Compound Whole Optimal Props1 Props2 Props3 Total Onset Pinned Found Props4 Props5 Props6 Props8 Props9 Props10 Joint Swap Unique Round Props12 Props13 Ext Ext2 Ext3 Ext4 Props14 RuleSpec Rules Rules2 Props16 ZiCut Props17 Mixed Props20 Props21 Cli.

(** ** Specification *)
(** the words of the commands among these lines, in order (lower and split are
    Python's str.lower and str.split) *)
Definition command_words (lines : list str) : list str :=
  concat (map (fun l => match l with c :: r => if N.eqb c 47 then split_ws (lower r) else [] | [] => [] end) lines).
(** the value the last of the words listed in [table] stands for, or else the default *)
Inductive latest {A} (table : list (str * A)) (default : A) : list str -> A -> Prop :=
| latest_none ws : (forall w a, In w ws -> ~ In (w, a) table) -> latest table default ws default
| latest_some ws w a ws' : In (w, a) table -> (forall w' a', In w' ws' -> ~ In (w', a') table) -> latest table default (ws ++ w :: ws') a.
(** the options in force after these lines; [cm] tells whether cmevla and brivla
    are known words (jvozba.py only) *)
Record in_force (cm : bool) (lines : list str) (s : session) : Prop := {
  f_cmevla : latest (if cm then [(L "cmevla", true); (L "brivla", false)] else []) false (command_words lines) (cmevla s);
  f_y : latest [(L "standard", STANDARD); (L "allow", ALLOW_Y); (L "force", FORCE_Y)] STANDARD (command_words lines) (y_hyphens (opts s));
  f_exp : latest [(L "more", true); (L "less", false)] false (command_words lines) (exp_rafsi_shapes (opts s));
  f_cons : latest [(L "cluster", CLUSTER); (L "2c", TWO_CONSONANTS); (L "1c", ONE_CONSONANT)] CLUSTER (command_words lines) (consonants (opts s));
  f_glides : latest [(L "glide", true); (L "glidnt", false)] false (command_words lines) (glides (opts s));
  f_mz : latest [(L "mz", true); (L "mznt", false)] false (command_words lines) (allow_mz (opts s)) }.
Definition is_command (l : str) : Prop := exists r, l = L "/" ++ r.

(** ** Proofs *)
Lemma latest_skip : forall A (table : list (str * A)) d ws a w, latest table d ws a -> (forall b, ~ In (w, b) table) -> latest table d (ws ++ [w]) a.
Proof.
  intros A table d ws a w H N. destruct H as [ws H|ws u a ws' H1 H2].
  - apply latest_none. intros x b I. apply in_app_or in I as [I|[<-|[]]]; [eapply H; exact I|apply N].
  - rewrite <- app_assoc. cbn [app]. apply latest_some; [exact H1|]. intros x b I. apply in_app_or in I as [I|[<-|[]]]; [eapply H2; exact I|apply N].
Qed.
Lemma latest_hit : forall A (table : list (str * A)) d ws w a, In (w, a) table -> latest table d (ws ++ [w]) a.
Proof. intros. apply latest_some; [assumption|intros ? ? []]. Qed.

Record good (cm : bool) (ws : list str) (s : session) : Prop := {
  g_cmevla : latest (if cm then [(L "cmevla", true); (L "brivla", false)] else []) false ws (cmevla s);
  g_y : latest [(L "standard", STANDARD); (L "allow", ALLOW_Y); (L "force", FORCE_Y)] STANDARD ws (y_hyphens (opts s));
  g_exp : latest [(L "more", true); (L "less", false)] false ws (exp_rafsi_shapes (opts s));
  g_cons : latest [(L "cluster", CLUSTER); (L "2c", TWO_CONSONANTS); (L "1c", ONE_CONSONANT)] CLUSTER ws (consonants (opts s));
  g_glides : latest [(L "glide", true); (L "glidnt", false)] false ws (glides (opts s));
  g_mz : latest [(L "mz", true); (L "mznt", false)] false ws (allow_mz (opts s)) }.

Ltac skip_tac := first [apply latest_hit; vm_compute; tauto | apply latest_skip; [assumption|intros b X; vm_compute in X; intuition discriminate]].
Lemma good_word : forall cm ws s w, good cm ws s -> good cm (ws ++ [w]) (change_word cm s w).
Proof.
  intros cm ws [c [y r k g m]] w [H1 H2 H3 H4 H5 H6]. cbn [cmevla opts y_hyphens exp_rafsi_shapes consonants glides allow_mz] in *. unfold change_word.
  destruct (cm && str_eqb w (L "cmevla")) eqn:E1. { apply andb_t in E1 as [-> E]. apply str_eqb_eq in E. subst w. constructor; cbn [cmevla opts y_hyphens exp_rafsi_shapes consonants glides allow_mz]; skip_tac. }
  destruct (cm && str_eqb w (L "brivla")) eqn:E2. { apply andb_t in E2 as [-> E]. apply str_eqb_eq in E. subst w. constructor; cbn [cmevla opts y_hyphens exp_rafsi_shapes consonants glides allow_mz]; skip_tac. }
  assert (H1' : forall b, ~ In (w, b) (if cm then [(L "cmevla", true); (L "brivla", false)] else [])).
  { intros b X. destruct cm; [|exact X]. cbn [andb] in E1, E2. destruct X as [X|[X|[]]]; injection X as <- _; discriminate. }
  pose proof (latest_skip _ _ _ _ _ _ H1 H1') as K1. clear H1 H1' E1 E2.
  repeat match goal with |- context [if str_eqb w ?k then _ else _] => let E := fresh "Q" in destruct (str_eqb w k) eqn:E;
    [apply str_eqb_eq in E; subst w; constructor; cbn [cmevla opts y_hyphens exp_rafsi_shapes consonants glides allow_mz]; [exact K1|skip_tac..]|] end.
  assert (N : forall q, str_eqb w q = false -> q <> w) by (intros q X <-; rewrite str_eqb_refl in X; discriminate).
  constructor; cbn [cmevla opts y_hyphens exp_rafsi_shapes consonants glides allow_mz]; [exact K1|..]; (apply latest_skip; [assumption|]); intros b X; cbn [In] in X; repeat destruct X as [X|X]; try contradiction;
    injection X as X _; revert X; apply N; assumption.
Qed.
Lemma good_line : forall cm r ws s, good cm ws s -> good cm (ws ++ split_ws (lower r)) (change_line cm s r).
Proof.
  intros cm r. unfold change_line. induction (split_ws (lower r)) as [|w l IH]; intros ws s G; cbn [fold_left]; [rewrite app_nil_r; exact G|].
  replace (ws ++ w :: l) with ((ws ++ [w]) ++ l) by (rewrite <- app_assoc; reflexivity). apply IH. apply good_word. exact G.
Qed.
Lemma good_force : forall cm lines s, good cm (command_words lines) s <-> in_force cm lines s.
Proof. intros. split; intros []; constructor; assumption. Qed.

Lemma command_dec : forall c r, is_command (c :: r) <-> N.eqb c 47 = true.
Proof. intros c r. split; [intros [x E]; injection E as -> _; reflexivity|]. intro H. apply N.eqb_eq in H. subst c. exists r. reflexivity. Qed.
Lemma loop_turns : forall cm prompt answer lines ws s turns e, good cm ws s ->
  loop cm prompt answer s lines = (turns, e) ->
  (forall i p out, nth_error turns i = Some (p, out) -> exists s', good cm (ws ++ command_words (firstn i lines)) s' /\ p = prompt s'
     /\ (forall l, nth_error lines i = Some l -> l <> [] -> ~ is_command l -> out = fst (answer s' l)
          /\ (snd (answer s' l) = None \/ exists x, snd (answer s' l) = Some x /\ S i = length turns /\ e = EndUncaught x))
     /\ ((forall l, nth_error lines i = Some l -> l = [] \/ is_command l) -> out = []))
  /\ (exists n, length turns = S n
     /\ ((e = EndOfInput /\ n = length lines) \/ (e = EndEmpty /\ nth_error lines n = Some [])
         \/ exists x l s', e = EndUncaught x /\ nth_error lines n = Some l /\ l <> [] /\ ~ is_command l
             /\ good cm (ws ++ command_words (firstn n lines)) s' /\ snd (answer s' l) = Some x)).
Proof.
  intros cm prompt answer. induction lines as [|l lines IH]; intros ws s turns e G H; cbn [loop] in H.
  - injection H as <- <-. split; [|exists 0; auto]. intros [|i] p out X; [|destruct i; discriminate]. injection X as <- <-. exists s. cbn [firstn]. unfold command_words. cbn [map concat]. rewrite app_nil_r. split; [exact G|]. split; [reflexivity|]. split; [discriminate|auto].
  - destruct l as [|c r].
    + injection H as <- <-. split; [|exists 0; auto]. intros [|i] p out X; [|destruct i; discriminate]. injection X as <- <-. exists s. cbn [firstn]. unfold command_words. cbn [map concat]. rewrite app_nil_r. split; [exact G|]. split; [reflexivity|]. split; [intros l X; injection X as <-; congruence|auto].
    + destruct (N.eqb c 47) eqn:Ec.
      * destruct (loop cm prompt answer (change_line cm s r) lines) as [turns' e'] eqn:E. injection H as <- <-.
        destruct (IH _ _ _ _ (good_line cm r _ _ G) E) as [T (n & Hn & N)].
        assert (W : forall i, ws ++ command_words (firstn (S i) ((c :: r) :: lines)) = (ws ++ split_ws (lower r)) ++ command_words (firstn i lines)).
        { intro i. cbn [firstn]. unfold command_words. cbn [map concat]. rewrite Ec, app_assoc. reflexivity. }
        split.
        -- intros [|i] p out X.
           ++ injection X as <- <-. exists s. cbn [firstn]. unfold command_words at 1. cbn [map concat]. rewrite app_nil_r. split; [exact G|]. split; [reflexivity|]. split; [|auto]. intros l X _ Nc. injection X as <-. exfalso. apply Nc. apply command_dec. exact Ec.
           ++ cbn [nth_error] in X. destruct (T i p out X) as (s' & G' & P & A & B). exists s'. rewrite W. split; [exact G'|]. split; [exact P|]. split; [|exact B]. intros l Hl Hn' Hc'. destruct (A l Hl Hn' Hc') as [A1 A2]. split; [exact A1|]. destruct A2 as [A2|(x & A2 & A3 & A4)]; [auto|]. right. exists x. cbn [length]. auto.
        -- exists (S n). cbn [length]. split; [lia|]. destruct N as [[N1 N2]|[[N1 N2]|(x & l & s' & N1 & N2 & N3 & N4 & N5 & N6)]]; [left; auto with arith|right; left; auto|]. right. right. exists x, l, s'. rewrite W. auto 10.
      * assert (NC : ~ is_command (c :: r)) by (intro X; apply command_dec in X; congruence).
        assert (W : forall i, ws ++ command_words (firstn (S i) ((c :: r) :: lines)) = ws ++ command_words (firstn i lines)).
        { intro i. cbn [firstn]. unfold command_words. cbn [map concat]. rewrite Ec. reflexivity. }
        destruct (answer s (c :: r)) as [o [x|]] eqn:EA.
        -- injection H as <- <-. split.
           ++ intros [|i] p out X; [|destruct i; discriminate]. injection X as <- <-. exists s. cbn [firstn]. unfold command_words at 1. cbn [map concat]. rewrite app_nil_r. split; [exact G|]. split; [reflexivity|]. split.
              ** intros l X _ _. injection X as <-. rewrite EA. split; [reflexivity|]. right. exists x. auto.
              ** intro X. destruct (X _ eq_refl) as [X'|X']; [discriminate|contradiction].
           ++ exists 0. split; [reflexivity|]. right. right. exists x, (c :: r), s. cbn [firstn]. unfold command_words. cbn [map concat]. rewrite app_nil_r, EA. split; [reflexivity|]. split; [reflexivity|]. split; [discriminate|]. auto.
        -- destruct (loop cm prompt answer s lines) as [turns' e'] eqn:E. injection H as <- <-. destruct (IH _ _ _ _ G E) as [T (n & Hn & N)]. split.
           ++ intros [|i] p out X.
              ** injection X as <- <-. exists s. cbn [firstn]. unfold command_words at 1. cbn [map concat]. rewrite app_nil_r. split; [exact G|]. split; [reflexivity|]. split.
                 --- intros l X _ _. injection X as <-. rewrite EA. auto.
                 --- intro X. destruct (X _ eq_refl) as [X'|X']; [discriminate|contradiction].
              ** cbn [nth_error] in X. destruct (T i p out X) as (s' & G' & P & A & B). exists s'. rewrite W. split; [exact G'|]. split; [exact P|]. split; [|exact B]. intros l Hl Hn' Hc'. destruct (A l Hl Hn' Hc') as [A1 A2]. split; [exact A1|]. destruct A2 as [A2|(x & A2 & A3 & A4)]; [auto|]. right. exists x. cbn [length]. auto.
           ++ exists (S n). cbn [length]. split; [lia|]. destruct N as [[N1 N2]|[[N1 N2]|(x & l & s' & N1 & N2 & N3 & N4 & N5 & N6)]]; [left; auto with arith|right; left; auto|]. right. right. exists x, l, s'. rewrite W. auto 10.
Qed.
Lemma good_start : forall cm, good cm [] session_start.
Proof. intro cm. constructor; apply latest_none; intros w a []. Qed.
Lemma exn_in_spec : forall e l, exn_in e l = true -> In e l.
Proof. intros e l. induction l as [|x l IH]; [discriminate|]. cbn [exn_in In]. destruct e, x; auto. Qed.

(** ** C54 *)
(** Every turn of a session shows the options in force: those last given.  A line
    that is no command is answered by get_lujvo_with_analytics with these options
    and nothing else; only the three exceptions named are caught.  The session
    ends with an empty line, with the end of the input, or with the first line
    that raises anything else. *)
Definition caught_jvozba := [NoLujvoFoundError; NonLojbanCharacterError; NotZihevlaError].
Theorem C54_jvozba_session : forall lk lines turns e, jvozba_main lk lines = (turns, e) ->
  (forall i p out, nth_error turns i = Some (p, out) -> exists s, in_force true (firstn i lines) s
     /\ p = L "(" ++ bool_letter (cmevla s) ++ opts_letters (opts s) ++ L ") Enter a tanru: "
     /\ (forall l, nth_error lines i = Some l -> l <> [] -> ~ is_command l ->
          match get_lujvo_with_analytics lk (cmevla s) (opts s) (TStr l) with
          | Ok x => out = [PLujvo x]
          | Err x => (In x caught_jvozba /\ out = [PError x]) \/ (~ In x caught_jvozba /\ out = [] /\ S i = length turns /\ e = EndUncaught x)
          end)
     /\ ((forall l, nth_error lines i = Some l -> l = [] \/ is_command l) -> out = []))
  /\ exists n, length turns = S n
     /\ ((e = EndOfInput /\ n = length lines) \/ (e = EndEmpty /\ nth_error lines n = Some [])
         \/ exists x l s, e = EndUncaught x /\ nth_error lines n = Some l /\ l <> [] /\ ~ is_command l
             /\ in_force true (firstn n lines) s /\ get_lujvo_with_analytics lk (cmevla s) (opts s) (TStr l) = Err x /\ ~ In x caught_jvozba).
Proof.
  intros lk lines turns e H. destruct (loop_turns _ _ _ _ _ _ _ _ (good_start true) H) as [T (n & Hn & N)]. cbn [app] in *.
  assert (NI : forall x, exn_in x caught_jvozba = false -> ~ In x caught_jvozba) by (intros x X [<-|[<-|[<-|[]]]]; discriminate). split.
  - intros i p out X. destruct (T i p out X) as (s & G & P & A & B). exists s. split; [apply good_force; exact G|]. split; [exact P|]. split; [|exact B].
    intros l Hl Hn' Hc. destruct (A l Hl Hn' Hc) as [A1 A2]. unfold jvozba_answer in A1, A2. fold caught_jvozba in A1, A2. destruct (get_lujvo_with_analytics lk (cmevla s) (opts s) (TStr l)) as [x|x]; [exact A1|].
    destruct (exn_in x caught_jvozba) eqn:Ex; [left; split; [apply exn_in_spec; exact Ex|exact A1]|]. right. split; [apply NI; exact Ex|]. split; [exact A1|]. destruct A2 as [A2|(y & A2 & A3 & A4)]; [discriminate|]. injection A2 as <-. auto.
  - exists n. split; [exact Hn|]. destruct N as [N|[N|(x & l & s & N1 & N2 & N3 & N4 & N5 & N6)]]; [auto|auto|]. right. right. exists x, l, s. split; [exact N1|]. split; [exact N2|]. split; [exact N3|]. split; [exact N4|]. split; [apply good_force; exact N5|].
    unfold jvozba_answer in N6. fold caught_jvozba in N6. destruct (get_lujvo_with_analytics lk (cmevla s) (opts s) (TStr l)) as [y|y]; [discriminate|]. destruct (exn_in y caught_jvozba) eqn:Ex; [discriminate|]. injection N6 as ->. auto.
Qed.
Definition caught_katna := [DecompositionError; NotBrivlaError].
Theorem C54_katna_session : forall lk lines turns e, katna_main lk lines = (turns, e) ->
  (forall i p out, nth_error turns i = Some (p, out) -> exists s, in_force false (firstn i lines) s
     /\ p = L "(" ++ opts_letters (opts s) ++ L ") Enter a lujvo: "
     /\ (forall l, nth_error lines i = Some l -> l <> [] -> ~ is_command l ->
          match analyse_brivla lk (opts s) l, get_veljvo lk (opts s) l with
          | Ok a, Ok v => out = [PAnalysis a; PVeljvo v]
          | Ok a, Err x => (In x caught_katna /\ out = [PAnalysis a; PError x]) \/ (~ In x caught_katna /\ out = [PAnalysis a] /\ S i = length turns /\ e = EndUncaught x)
          | Err x, _ => (In x caught_katna /\ out = [PError x]) \/ (~ In x caught_katna /\ out = [] /\ S i = length turns /\ e = EndUncaught x)
          end)
     /\ ((forall l, nth_error lines i = Some l -> l = [] \/ is_command l) -> out = []))
  /\ exists n, length turns = S n
     /\ ((e = EndOfInput /\ n = length lines) \/ (e = EndEmpty /\ nth_error lines n = Some [])
         \/ exists x l s, e = EndUncaught x /\ nth_error lines n = Some l /\ l <> [] /\ ~ is_command l
             /\ in_force false (firstn n lines) s /\ (analyse_brivla lk (opts s) l = Err x \/ get_veljvo lk (opts s) l = Err x) /\ ~ In x caught_katna).
Proof.
  intros lk lines turns e H. destruct (loop_turns _ _ _ _ _ _ _ _ (good_start false) H) as [T (n & Hn & N)]. cbn [app] in *.
  assert (NI : forall x, exn_in x caught_katna = false -> ~ In x caught_katna) by (intros x X [<-|[<-|[]]]; discriminate). split.
  - intros i p out X. destruct (T i p out X) as (s & G & P & A & B). exists s. split; [apply good_force; exact G|]. split; [exact P|]. split; [|exact B].
    intros l Hl Hn' Hc. destruct (A l Hl Hn' Hc) as [A1 A2]. unfold katna_answer in A1, A2. fold caught_katna in A1, A2. cbv zeta in A1, A2.
    destruct (analyse_brivla lk (opts s) l) as [a|x]; [destruct (get_veljvo lk (opts s) l) as [v|x]; [exact A1|]|].
    all: destruct (exn_in x caught_katna) eqn:Ex; [left; split; [apply exn_in_spec; exact Ex|exact A1]|]; right; split; [apply NI; exact Ex|]; split; [exact A1|]; destruct A2 as [A2|(y & A2 & A3 & A4)]; [discriminate|]; injection A2 as <-; auto.
  - exists n. split; [exact Hn|]. destruct N as [N|[N|(x & l & s & N1 & N2 & N3 & N4 & N5 & N6)]]; [auto|auto|]. right. right. exists x, l, s. split; [exact N1|]. split; [exact N2|]. split; [exact N3|]. split; [exact N4|]. split; [apply good_force; exact N5|].
    unfold katna_answer in N6. fold caught_katna in N6. cbv zeta in N6. destruct (analyse_brivla lk (opts s) l) as [a|y]; [destruct (get_veljvo lk (opts s) l) as [v|y]; [discriminate|]|].
    all: destruct (exn_in y caught_katna) eqn:Ex; [discriminate|]; injection N6 as ->; auto.
Qed.
(** the options in force are unique *)
Lemma latest_fun : forall A (table : list (str * A)) d ws a b, (forall w x y, In (w, x) table -> In (w, y) table -> x = y) -> latest table d ws a -> latest table d ws b -> a = b.
Proof.
  intros A table d ws a b U H K. revert ws b a H K.
  assert (G : forall ws a b, latest table d ws a -> latest table d ws b -> a = b); [|intros; eapply G; eassumption].
  induction ws as [|w ws IH] using rev_ind; intros a b H K.
  - assert (D : forall c, latest table d [] c -> c = d); [|rewrite (D _ H), (D _ K); reflexivity]. intros c X. remember [] as q eqn:E. destruct X as [u X|u v x t X1 X2]; [reflexivity|destruct u; discriminate E].
  - assert (D : forall c, latest table d (ws ++ [w]) c -> In (w, c) table \/ ((forall y, ~ In (w, y) table) /\ latest table d ws c)).
    { intros c X. remember (ws ++ [w]) as q eqn:E. destruct X as [u X1|u v x t X1 X2].
      - right. subst. split; [intro y; apply X1; apply in_or_app; right; left; reflexivity|]. apply latest_none. intros z y I. apply X1. apply in_or_app. auto.
      - destruct (@exists_last _ (v :: t)) as (t' & z & Et); [discriminate|]. rewrite Et, app_assoc in E. apply app_inj_tail in E as [E ->]. destruct t' as [|v' t'].
        + injection Et as -> ->. left. exact X1.
        + injection Et as -> ->. right. split; [intro y; apply X2; apply in_or_app; right; left; reflexivity|]. rewrite <- E. apply latest_some; [exact X1|]. intros q y I. apply X2. apply in_or_app. auto. }
    destruct (D a H) as [H1|[H1 H2]], (D b K) as [K1|[K1 K2]]; [eapply U; eassumption|exfalso; exact (K1 _ H1)|exfalso; exact (H1 _ K1)|]. apply IH; assumption.
Qed.
Ltac table_tac := let w := fresh in let x := fresh in let y := fresh in intros w x y X Y; cbn [In] in X, Y; repeat destruct X as [X|X]; try contradiction; injection X as <- <-; repeat destruct Y as [Y|Y]; try contradiction; injection Y; congruence.
Theorem C54_options_unique : forall cm lines s s', in_force cm lines s -> in_force cm lines s' -> s = s'.
Proof.
  intros cm lines [c [y r k g m]] [c' [y' r' k' g' m']] [H1 H2 H3 H4 H5 H6] [K1 K2 K3 K4 K5 K6]. cbn [cmevla opts y_hyphens exp_rafsi_shapes consonants glides allow_mz] in *.
  assert (c = c') by (eapply latest_fun; [|exact H1|exact K1]; destruct cm; table_tac).
  assert (y = y') by (eapply latest_fun; [|exact H2|exact K2]; table_tac).
  assert (r = r') by (eapply latest_fun; [|exact H3|exact K3]; table_tac).
  assert (k = k') by (eapply latest_fun; [|exact H4|exact K4]; table_tac).
  assert (g = g') by (eapply latest_fun; [|exact H5|exact K5]; table_tac).
  assert (m = m') by (eapply latest_fun; [|exact H6|exact K6]; table_tac). congruence.
Qed.

Example C54_example :
  let lines := map L ["/cmevla allow FORCE nonsense"; "lujvo ciste"; "/brivla"; "/allow standard 2c"; "lujvo ciste"; "-xy- klama"; ""; "lujvo ciste"]%string in
  jvozba_main Bound lines
  = ([(L "(FSFCFF) Enter a tanru: ", []);
      (L "(TFFCFF) Enter a tanru: ", [PLujvo (L "jvocist", 6908%Z, [(0, 3); (3, 7)])]);
      (L "(TFFCFF) Enter a tanru: ", []);
      (L "(FFFCFF) Enter a tanru: ", []);
      (L "(FSFTFF) Enter a tanru: ", [PLujvo (L "jvoci'e", 6867%Z, [(0, 3); (3, 7)])]);
      (L "(FSFTFF) Enter a tanru: ", [PError NonLojbanCharacterError]);
      (L "(FSFTFF) Enter a tanru: ", [])], EndEmpty).
Proof. vm_compute. reflexivity. Qed.
Example C54_katna_example :
  let lines := map L ["/more mz brivla"; "klama"; "lujvla"; "wiki"]%string in
  katna_main Bound lines
  = ([(L "(SFCFF) Enter a lujvo: ", []);
      (L "(STCFT) Enter a lujvo: ", [PAnalysis (GISMU, [L "klama"]); PError DecompositionError]);
      (L "(STCFT) Enter a lujvo: ", [PAnalysis (LUJVO, [L "luj"; L "vla"]); PVeljvo [L "pluja"; L "valsi"]]);
      (L "(STCFT) Enter a lujvo: ", [PError NotBrivlaError]);
      (L "(STCFT) Enter a lujvo: ", [])], EndOfInput).
Proof. vm_compute. reflexivity. Qed.
Print Assumptions C54_jvozba_session.
Print Assumptions C54_katna_session.
Print Assumptions C54_options_unique.

(** ** C39 for y-free words, whatever the options *)
Theorem C39_options_without_y : forall gen st t ws e, words_of t ws -> 2 <= length ws ->
  Forall (fun w => y_free w /\ (Z.of_nat (length (standard_spelling w)) < 10 ^ 96)%Z) ws ->
  get_lujvo Bound gen st t = Err e \/ get_lujvo_with_analytics Bound gen st t = Err e -> e = NoLujvoFoundError.
Proof.
  intros gen st t ws e Hw H2 F H.
  assert (U : Forall (fun v => usual st (standard_spelling v)) ws).
  { eapply Forall_impl; [|exact F]. intros v [[Y _] Hl]. split; [exact Hl|]. left. intros (s & l & E & D). rewrite E in Y. apply Forall_app in Y as [_ Y]. inversion Y as [|? ? Y1 _]; subst. injection D as ->.
    destruct Y1 as [Y1|[Y1|Y1]]; [apply is_consonant_spec in Y1; discriminate|apply is_vowel_spec in Y1; discriminate|discriminate]. }
  assert (F' : Forall y_free ws) by (eapply Forall_impl; [|exact F]; intros v [X _]; exact X).
  rewrite !get_lujvo_fst in H. rewrite <- (usual_builder gen st false t ws Hw U), <- get_lujvo_fst in H.
  exact (C39_without_y gen (with_exp st false) t ws e eq_refl Hw H2 F' H).
Qed.
Print Assumptions C39_options_without_y.

(** ** C55 *)
(** a tanru of one word, a literal with a bad cluster, a word with y: an exception
    nobody catches ends the session; and with is_slinkuhi unbound every tanru
    that has a lujvo does *)
Theorem C55_survives_refuted :
  jvozba_main Bound [L "klama"; L "lujvo ciste"] = ([(L "(FSFCFF) Enter a tanru: ", [])], EndUncaught IndexError)
  /\ jvozba_main Bound [L "barda -tko- klama"; L "lujvo ciste"] = ([(L "(FSFCFF) Enter a tanru: ", [])], EndUncaught InvalidClusterError)
  /\ jvozba_main Unbound [L "lujvo ciste"; L "lujvo ciste"] = ([(L "(FSFCFF) Enter a tanru: ", [])], EndUncaught NameError)
  /\ katna_main Bound [L "i'yyn"; L "klama"] = ([(L "(SFCFF) Enter a lujvo: ", [])], EndUncaught IndexError).
Proof. repeat split; vm_compute; reflexivity. Qed.
(** What holds: tanru of two or more words without y, and any lines without y, are
    always answered. *)
Theorem C55_jvozba_partial : forall lines turns e,
  Forall (fun l => l = [] \/ is_command l \/ exists ws, words_of (TStr l) ws /\ 2 <= length ws
    /\ Forall (fun w => y_free w /\ (Z.of_nat (length (standard_spelling w)) < 10 ^ 96)%Z) ws) lines ->
  jvozba_main Bound lines = (turns, e) -> e = EndEmpty \/ (e = EndOfInput /\ length turns = S (length lines)).
Proof.
  intros lines turns e F H. apply C54_jvozba_session in H as [_ (n & Hn & [[-> ->]|[[-> _]|(x & l & s & _ & Hl & Ne & Nc & _ & Er & Nx)]])]; [right; auto|left; reflexivity|exfalso].
  apply nth_error_In in Hl. rewrite Forall_forall in F. destruct (F l Hl) as [X|[X|(ws & Hw & H2 & Fw)]]; [contradiction|contradiction|].
  rewrite (C39_options_without_y _ _ _ _ _ Hw H2 Fw (or_intror Er)) in Nx. apply Nx. left. reflexivity.
Qed.
Theorem C55_katna_partial : forall lines turns e,
  Forall (fun l => is_command l \/ ~ In letter_y (standard_spelling l)) lines ->
  katna_main Bound lines = (turns, e) -> e = EndEmpty \/ (e = EndOfInput /\ length turns = S (length lines)).
Proof.
  intros lines turns e F H. apply C54_katna_session in H as [_ (n & Hn & [[-> ->]|[[-> _]|(x & l & s & _ & Hl & Ne & Nc & _ & Er & Nx)]])]; [right; auto|left; reflexivity|exfalso].
  apply nth_error_In in Hl. rewrite Forall_forall in F. destruct (F l Hl) as [X|Ny]; [contradiction|].
  assert (A : forall y, analyse_brivla Bound (opts s) l = Err y -> In y caught_katna) by (intros y X; rewrite (C08_without_y _ _ _ Ne Ny X); cbn; auto).
  apply Nx. destruct Er as [Er|Er]; [exact (A _ Er)|]. destruct (analyse_brivla Bound (opts s) l) as [[t ps]|y] eqn:E.
  - destruct (C38_get_veljvo_compounds_only Bound (opts s) l) as [K _]. destruct t.
    all: try (rewrite (K _ _ E) in Er by (cbn; tauto); injection Er as <-; cbn; auto; fail).
    3:{ exfalso. clear -E. destruct (C03_type_last_letter _ _ _ _ _ E) as [[X _]|[X _]]; [discriminate|cbn in X; intuition discriminate]. }
    all: exfalso; edestruct (C43_decomposed _ _ _ _ E) as [(es & V & _) _]; [tauto|congruence].
  - destruct (C38_get_veljvo_compounds_only Bound (opts s) l) as [_ K]. rewrite (K _ E) in Er. injection Er as <-. exact (A _ eq_refl).
Qed.
Example C55_example :
  Forall (fun l => l = [] \/ is_command l \/ exists ws, words_of (TStr l) ws /\ 2 <= length ws
    /\ Forall (fun w => y_free w /\ (Z.of_nat (length (standard_spelling w)) < 10 ^ 96)%Z) ws) [L "/more"; L "lujvo  XALno"; L ""]
  /\ jvozba_main Bound [L "/more"; L "lujvo  XALno"; L ""]
     = ([(L "(FSFCFF) Enter a tanru: ", []); (L "(FSTCFF) Enter a tanru: ", [PLujvo (L "jvoxalno", 7917%Z, [(0, 3); (3, 8)])]); (L "(FSTCFF) Enter a tanru: ", [])], EndEmpty).
Proof.
  split; [|vm_compute; reflexivity].
  apply Forall_cons; [right; left; exists (L "more"); reflexivity|]. apply Forall_cons; [|apply Forall_cons; [left; reflexivity|apply Forall_nil]].
  right. right. exists [L "lujvo"; L "XALno"]. split; [|split; [cbn; lia|]].
  - assert (N : forall w : str, forallb (fun c => negb (is_space c)) w = true -> Forall (fun c => ~ is_space c = true) w).
    { intros w H. apply Forall_forall. intros c I. rewrite forallb_forall in H. specialize (H c I). apply negb_true_iff in H. congruence. }
    apply (spaced_word _ [] (L "lujvo") [L "XALno"] (L "  XALno")); [apply Forall_nil|discriminate|apply N; reflexivity| |right; eexists; eexists; split; reflexivity].
    apply (spaced_word _ (L "  ") (L "XALno") [] []); [repeat constructor|discriminate|apply N; reflexivity|apply spaced_end; apply Forall_nil|left; reflexivity].
  - assert (Y : forall w, forallb (fun c => is_consonant c || is_vowel c) (standard_spelling w) = true -> standard_spelling w <> [] -> (Z.of_nat (length (standard_spelling w)) < 10 ^ 96)%Z -> y_free w /\ (Z.of_nat (length (standard_spelling w)) < 10 ^ 96)%Z).
    { intros w H Hn Hl. split; [|exact Hl]. split; [|exact Hn]. apply Forall_forall. intros c I. rewrite forallb_forall in H. specialize (H c I). apply orb_true_iff in H as [H|H]; [left; apply is_consonant_spec; exact H|right; left; apply is_vowel_spec; exact H]. }
    apply Forall_cons; [|apply Forall_cons; [|apply Forall_nil]]; (apply Y; vm_compute; [reflexivity|discriminate|reflexivity]).
Qed.
Print Assumptions C55_jvozba_partial.
Print Assumptions C55_katna_partial.
