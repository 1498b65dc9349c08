(** C60: the files written by make_rafsi_list.py. *)
From Verif Require Import Str Data Tarmi Rafsi Core Lib Spec Shapes Score Props13 Genlist Props28.
From Coq Require Import List Bool Arith NArith ZArith Lia Permutation.
Import ListNotations.

(** ** Specification: how such a file is read back *)
(** the string literals in a line: [qs] are the quotation marks of the language, a
    literal ends at the mark it begins with *)
Fixpoint literals (qs : str) (reading : option (char * str)) (s : str) : list str :=
  match s with
  | [] => []
  | c :: s' =>
      match reading with
      | None => if in_dec N.eq_dec c qs then literals qs (Some (c, [])) s' else literals qs None s'
      | Some (q, text) => if N.eq_dec c q then text :: literals qs None s' else literals qs (Some (q, text ++ [c])) s'
      end
  end.
(** every line with a literal is an entry: the word, then its rafsi *)
Definition entry (qs line : str) : sdict := match literals qs None line with [] => [] | w :: rs => [(w, rs)] end.
Definition read_back (qs file : str) : sdict := flat_map (entry qs) (split_on 10%N file).
Definition python_quotes : str := L "'""".
Definition rust_quotes : str := L """".
(** printable ASCII characters other than the double quote and the backslash *)
Definition word_text (s : str) : Prop := Forall (fun c => (32 <= c <= 126)%N /\ c <> 34%N /\ c <> 92%N) s.
Lemma letter_text : forall c, letter c -> (32 <= c <= 126)%N /\ c <> 34%N /\ c <> 92%N.
Proof. intros c H. apply is_az_letter in H. unfold is_az in H. apply andb_true_iff in H as [H1 H2]. apply N.leb_le in H1, H2. lia. Qed.
Lemma apostrophe_text : (32 <= apostrophe <= 126)%N /\ apostrophe <> 34%N /\ apostrophe <> 92%N.
Proof. change apostrophe with 39%N. lia. Qed.
Definition text_char (c : char) : bool := (N.leb 32 c && N.leb c 126 && negb (N.eqb c 34) && negb (N.eqb c 92))%N.
Lemma text_char_spec : forall c, text_char c = true -> (32 <= c <= 126)%N /\ c <> 34%N /\ c <> 92%N.
Proof.
  intros c H. unfold text_char in H. rewrite !andb_true_iff, !negb_true_iff, !N.leb_le, !N.eqb_neq in H. intuition lia.
Qed.

(** ** Reading literals *)
Lemma lit_skip : forall qs s t, Forall (fun c => ~ In c qs) s -> literals qs None (s ++ t) = literals qs None t.
Proof. intros qs s t H. induction H as [|c s N H IH]; [reflexivity|]. cbn. destruct (in_dec N.eq_dec c qs); [contradiction|exact IH]. Qed.
Lemma lit_in : forall qs q s acc t, ~ In q s -> literals qs (Some (q, acc)) (s ++ q :: t) = (acc ++ s) :: literals qs None t.
Proof.
  intros qs q s. induction s as [|c s IH]; intros acc t N; cbn.
  - destruct (N.eq_dec q q); [|contradiction]. rewrite app_nil_r. reflexivity.
  - destruct (N.eq_dec c q) as [->|_]; [exfalso; apply N; left; reflexivity|]. rewrite IH by (intro X; apply N; right; exact X). rewrite <- app_assoc. reflexivity.
Qed.
Lemma lit_quoted : forall qs q s t, In q qs -> ~ In q s -> literals qs None (quoted q s ++ t) = s :: literals qs None t.
Proof.
  intros qs q s t Q N. unfold quoted. rewrite <- !app_assoc. cbn [app literals]. destruct (in_dec N.eq_dec q qs); [|contradiction]. rewrite lit_in by exact N. reflexivity.
Qed.
Lemma word_no_dq : forall s, word_text s -> ~ In 34%N s.
Proof. intros s H I. unfold word_text in H. rewrite Forall_forall in H. destruct (H _ I) as (K1 & K2 & K3). lia. Qed.
Lemma word_no_nl : forall s, word_text s -> ~ In 10%N s.
Proof. intros s H I. unfold word_text in H. rewrite Forall_forall in H. destruct (H _ I) as (K1 & K2 & K3). lia. Qed.
Lemma lit_repr : forall s t, word_text s -> literals python_quotes None (py_repr s ++ t) = s :: literals python_quotes None t.
Proof.
  intros s t H. unfold py_repr. destruct (existsb (N.eqb c_h) s) eqn:E.
  - apply lit_quoted; [right; left; reflexivity|apply word_no_dq; exact H].
  - apply lit_quoted; [left; reflexivity|]. intro I. assert (existsb (N.eqb c_h) s = true) by (apply existsb_exists; exists 39%N; auto). congruence.
Qed.
Ltac skip := rewrite lit_skip by (repeat constructor; cbn; intuition discriminate).
Lemma lit_py_list : forall rs t, Forall word_text rs -> literals python_quotes None (py_list rs ++ t) = rs ++ literals python_quotes None t.
Proof.
  intros rs t H. unfold py_list. rewrite <- !app_assoc. skip.
  induction H as [|r rs Hr H IH]; [cbn [map str_join app]; skip; reflexivity|]. cbn [map str_join]. destruct (map py_repr rs) as [|x l] eqn:E.
  - destruct rs; [|discriminate]. rewrite lit_repr by exact Hr. skip. reflexivity.
  - rewrite <- !app_assoc, lit_repr by exact Hr. skip. cbn [app]. f_equal. exact IH.
Qed.
(** words joined by the rust separator: an opening mark, the words, a closing mark *)
Lemma lit_rs_list : forall rs t, Forall word_text rs ->
  literals rust_quotes None (rs_quote rs ++ str_join (L """, """) rs ++ rs_quote rs ++ t) = rs ++ literals rust_quotes None t.
Proof.
  intros rs t H. destruct rs as [|r rs]; [reflexivity|]. unfold rs_quote. revert r H. induction rs as [|r' rs IH]; intros r H; inversion H as [|? ? Hr H']; subst.
  - cbn [str_join]. change (literals rust_quotes None ([34%N] ++ r ++ [34%N] ++ t) = [r] ++ literals rust_quotes None t).
    replace ([34%N] ++ r ++ [34%N] ++ t) with (quoted 34%N r ++ t) by (unfold quoted; rewrite <- !app_assoc; reflexivity).
    rewrite lit_quoted; [reflexivity|left; reflexivity|apply word_no_dq; exact Hr].
  - specialize (IH r' H'). change (literals rust_quotes None ([34%N] ++ str_join (L """, """) (r' :: rs) ++ [34%N] ++ t) = (r' :: rs) ++ literals rust_quotes None t) in IH.
    change (literals rust_quotes None ([34%N] ++ (r ++ L """, """ ++ str_join (L """, """) (r' :: rs)) ++ [34%N] ++ t) = (r :: r' :: rs) ++ literals rust_quotes None t).
    replace ([34%N] ++ (r ++ L """, """ ++ str_join (L """, """) (r' :: rs)) ++ [34%N] ++ t)
      with (quoted 34%N r ++ L ", " ++ [34%N] ++ str_join (L """, """) (r' :: rs) ++ [34%N] ++ t)
      by (unfold quoted; change (L """, """) with ([34%N] ++ L ", " ++ [34%N]); rewrite <- !app_assoc; reflexivity).
    rewrite lit_quoted; [|left; reflexivity|apply word_no_dq; exact Hr]. skip. rewrite IH. reflexivity.
Qed.

(** ** Lines *)
Lemma read_line : forall qs line rest, ~ In 10%N line -> read_back qs (line ++ newline ++ rest) = entry qs line ++ read_back qs rest.
Proof. intros qs line rest H. unfold read_back. cbn [newline app]. change (line ++ newline ++ rest) with (line ++ 10%N :: rest). rewrite split_on_app by exact H. reflexivity. Qed.
Lemma no_nl_app : forall a b, ~ In 10%N a -> ~ In 10%N b -> ~ In 10%N (a ++ b).
Proof. intros a b A B I. apply in_app_or in I as [I|I]; auto. Qed.
Ltac nonl := first [apply word_no_nl; assumption | cbn; intuition discriminate].
Lemma join_no_nl : forall sep l, ~ In 10%N sep -> Forall (fun x => ~ In 10%N x) l -> ~ In 10%N (str_join sep l).
Proof. intros sep l S H. induction H as [|x l Hx H IH]; [auto|]. cbn [str_join]. destruct l; [exact Hx|]. apply no_nl_app; [exact Hx|]. apply no_nl_app; [exact S|exact IH]. Qed.
Lemma quoted_no_nl : forall q s, q <> 10%N -> word_text s -> ~ In 10%N (quoted q s).
Proof. intros q s Q H. apply no_nl_app; [cbn; intuition congruence|]. apply no_nl_app; [nonl|cbn; intuition congruence]. Qed.
Lemma list_no_nl : forall rs, Forall word_text rs -> ~ In 10%N (py_list rs).
Proof.
  intros rs H. apply no_nl_app; [nonl|]. apply no_nl_app; [|nonl]. apply join_no_nl; [nonl|]. apply Forall_map. eapply Forall_impl; [|exact H].
  intros s Hs. unfold py_repr. destruct (existsb _ _); apply quoted_no_nl; auto; discriminate.
Qed.
Definition good (d : sdict) : Prop := Forall (fun kv => word_text (fst kv) /\ Forall word_text (snd kv)) d.
Lemma read_lines : forall qs (line : str * list str -> str) body tl, (forall kv, word_text (fst kv) -> Forall word_text (snd kv) ->
    line kv = body kv ++ newline /\ ~ In 10%N (body kv) /\ literals qs None (body kv) = fst kv :: snd kv) ->
  forall d, good d -> read_back qs (flat_map line d ++ tl) = d ++ read_back qs tl.
Proof.
  intros qs line body tl H d G. induction G as [|kv d [G1 G2] G IH]; [reflexivity|]. destruct (H kv G1 G2) as (E & N & Li). cbn [flat_map]. rewrite E, <- !app_assoc, read_line by exact N.
  unfold entry. rewrite Li, IH. destruct kv. reflexivity.
Qed.

(** ** C60 *)
(** Whatever the dictionary: each of the four files, read line by line, gives back
    exactly that dictionary, so that the four libraries get the same one. *)
Theorem C60_files_agree : forall d, Forall (fun kv => word_text (fst kv) /\ Forall word_text (snd kv)) d ->
  read_back python_quotes (py_file d) = d /\ read_back python_quotes (ts_file d) = d
  /\ read_back python_quotes (js_file d) = d /\ read_back rust_quotes (rs_file d) = d.
Proof.
  intros d G. split; [|split; [|split]].
  - unfold py_file. rewrite read_line by nonl. change (entry python_quotes (L "RAFSI_LIST = {")) with (@nil (str * list str)). cbn [app].
    rewrite (read_lines _ _ (fun kv => L "    " ++ quoted 34%N (fst kv) ++ L ": " ++ py_list (snd kv) ++ L ",")); [| |exact G].
    + change (read_back python_quotes (L "}" ++ newline)) with (@nil (str * list str)). apply app_nil_r.
    + intros [w rs] W R. cbn [fst snd] in *. split; [unfold py_line; rewrite <- !app_assoc; reflexivity|]. split.
      * repeat (apply no_nl_app; [first [apply quoted_no_nl; [discriminate|assumption]|apply list_no_nl; assumption|nonl]|]). nonl.
      * skip. rewrite lit_quoted; [|right; left; reflexivity|apply word_no_dq; exact W]. skip. rewrite lit_py_list by exact R. cbn. rewrite app_nil_r. reflexivity.
  - unfold ts_file. rewrite read_line by nonl. change (entry python_quotes (L "const RAFSI_LIST: Map<string, string[]> = new Map([")) with (@nil (str * list str)). cbn [app].
    rewrite (read_lines _ _ (fun kv => L "  [" ++ quoted 34%N (fst kv) ++ L ", " ++ py_list (snd kv) ++ L "],")); [| |exact G].
    + change (read_back python_quotes (L "]);" ++ newline)) with (@nil (str * list str)). apply app_nil_r.
    + intros [w rs] W R. cbn [fst snd] in *. split; [unfold ts_line; rewrite <- !app_assoc; reflexivity|]. split.
      * repeat (apply no_nl_app; [first [apply quoted_no_nl; [discriminate|assumption]|apply list_no_nl; assumption|nonl]|]). nonl.
      * skip. rewrite lit_quoted; [|right; left; reflexivity|apply word_no_dq; exact W]. skip. rewrite lit_py_list by exact R. cbn. rewrite app_nil_r. reflexivity.
  - unfold js_file. rewrite read_line by nonl. change (entry python_quotes (L "const RAFSI_LIST = new Map([")) with (@nil (str * list str)). cbn [app].
    rewrite (read_lines _ _ (fun kv => L "    [" ++ quoted 34%N (fst kv) ++ L ", " ++ py_list (snd kv) ++ L "],")); [| |exact G].
    + change (read_back python_quotes (L "]);" ++ newline)) with (@nil (str * list str)). apply app_nil_r.
    + intros [w rs] W R. cbn [fst snd] in *. split; [unfold js_line; rewrite <- !app_assoc; reflexivity|]. split.
      * repeat (apply no_nl_app; [first [apply quoted_no_nl; [discriminate|assumption]|apply list_no_nl; assumption|nonl]|]). nonl.
      * skip. rewrite lit_quoted; [|right; left; reflexivity|apply word_no_dq; exact W]. skip. rewrite lit_py_list by exact R. cbn. rewrite app_nil_r. reflexivity.
  - unfold rs_file. rewrite !read_line by nonl.
    change (entry rust_quotes (L "//! Contains the static RAFSI, a map from words to their affixes.")) with (@nil (str * list str)).
    change (entry rust_quotes (L "use std::{collections::HashMap, sync::LazyLock};")) with (@nil (str * list str)).
    change (entry rust_quotes (L "/// Big giant rafsi list.")) with (@nil (str * list str)).
    change (entry rust_quotes (L "pub static RAFSI: LazyLock<HashMap<&'static str, Vec<&'static str>>> = LazyLock::new(|| {")) with (@nil (str * list str)).
    change (entry rust_quotes (L "    HashMap::from([")) with (@nil (str * list str)). cbn [app].
    rewrite (read_lines _ _ (fun kv => L "        (" ++ quoted 34%N (fst kv) ++ L ", vec![" ++ rs_quote (snd kv) ++ str_join (L """, """) (snd kv) ++ rs_quote (snd kv) ++ L "]),")); [| |exact G].
    + change (read_back rust_quotes (L "    ])" ++ newline ++ L "});" ++ newline)) with (@nil (str * list str)). apply app_nil_r.
    + intros [w rs] W R. cbn [fst snd] in *. split.
      { unfold rs_line, quoted. cbn [fst snd]. change (L "        (""") with (L "        (" ++ [34%N]). change (L """, vec![") with ([34%N] ++ L ", vec!["). change (L "]),") with (L "]" ++ L "),"). rewrite <- !app_assoc. reflexivity. }
      split.
      * apply no_nl_app; [nonl|]. apply no_nl_app; [apply quoted_no_nl; [discriminate|assumption]|]. apply no_nl_app; [nonl|]. apply no_nl_app; [destruct rs; nonl|].
        apply no_nl_app; [apply join_no_nl; [nonl|eapply Forall_impl; [|exact R]; intros; nonl]|]. apply no_nl_app; [destruct rs; nonl|nonl].
      * skip. rewrite lit_quoted; [|left; reflexivity|apply word_no_dq; exact W]. skip. rewrite lit_rs_list by exact R. cbn. rewrite app_nil_r. reflexivity.
Qed.

(** ** The files for a dictionary export *)
Section Keys.
Variable P : str -> Prop.
Definition all_keys (d : sdict) : Prop := forall x, In x (keys d) -> P x.
Lemma all_add : forall w r d, P w -> all_keys d -> all_keys (dict_add w r d).
Proof. intros w r d Pw H x I. apply keys_add in I as [I| ->]; auto. Qed.
Lemma all_reset : forall w d, P w -> all_keys d -> all_keys (dict_reset w d).
Proof. intros w d Pw H x I. apply keys_reset in I as [I| ->]; auto. Qed.
Definition all_both (g : gstate) : Prop := all_keys (g_raf g) /\ all_keys (g_exp g).
Lemma all_assigned : forall w rs g, P w -> all_both g -> all_both (fold_left (add_assigned w) rs g).
Proof. intros w rs. induction rs as [|r rs IH]; intros g Pw [A B]; [split; assumption|]. cbn [fold_left]. apply IH; [exact Pw|]. split; [apply all_add; assumption|exact B]. Qed.
Lemma all_proposed : forall w rs g, P w -> all_both g -> all_both (fold_left (add_proposed w) rs g).
Proof.
  intros w rs. induction rs as [|r rs IH]; intros g Pw [A B]; [split; assumption|]. cbn [fold_left]. apply IH; [exact Pw|]. unfold add_proposed.
  destruct r as [|c [|d s]]; [split; assumption|split; assumption|]. destruct (_ && _); split; try assumption. cbn [g_exp]. apply all_add; assumption.
Qed.
Lemma all_valsi : forall gim vs g, (forall v, In v vs -> P (v_word v)) -> all_both g -> all_both (fold_left (valsi_step gim) vs g).
Proof.
  intros gim vs. induction vs as [|v vs IH]; intros g F [A B]; [split; assumption|]. cbn [fold_left]. apply IH; [intros x X; apply F; right; exact X|].
  assert (Pv : P (v_word v)) by (apply F; left; reflexivity).
  assert (V : forall g, all_both g -> all_both (add_valsi g v)).
  { intros g' G. unfold add_valsi. cbv zeta. destruct (has_sub _ _); [apply all_proposed; [exact Pv|]|]; apply all_assigned; assumption. }
  unfold valsi_step. cbv zeta. destruct (mems (v_type v) _).
  - destruct (_ && _); [split; assumption|]. apply V. split; [apply all_reset; assumption|exact B].
  - destruct (mems (v_type v) _); [apply V|]; split; assumption.
Qed.
Lemma all_exceptions : forall ex g, (forall kv, In kv ex -> P (fst kv)) -> all_both g -> all_both (fold_left exception_step ex g).
Proof.
  intros ex. induction ex as [|kv ex IH]; intros g F G; [exact G|]. cbn [fold_left]. apply IH; [intros x X; apply F; right; exact X|]. apply all_assigned; [apply F; left; reflexivity|exact G].
Qed.
Lemma all_merge : forall prio ex d, all_keys ex -> all_keys d -> all_keys (fold_left (merge_step prio) ex d).
Proof.
  intros prio ex. induction ex as [|[k rs] ex IH]; intros d F G; [exact G|]. cbn [fold_left]. apply IH; [intros x X; apply F; right; exact X|].
  assert (Pk : P k) by (apply F; left; reflexivity). unfold merge_step. cbn [fst snd]. clear -G Pk. revert d G. induction rs as [|r rs IH]; intros d G; [exact G|]. cbn [fold_left]. apply IH.
  destruct (mems r prio); [exact G|]. apply all_add; assumption.
Qed.
End Keys.
(** If the words and rafsi of the export are made of such characters, the
    four files hold one and the same dictionary: the one C59 is about. *)
Theorem C60_generated : forall order vs, (forall l, Permutation (order l) l) ->
  (forall v, In v vs -> word_text (v_word v) /\ Forall word_text (v_rafsi v)) ->
  read_back python_quotes (py_file (generate order vs)) = generate order vs /\ read_back python_quotes (ts_file (generate order vs)) = generate order vs
  /\ read_back python_quotes (js_file (generate order vs)) = generate order vs /\ read_back rust_quotes (rs_file (generate order vs)) = generate order vs.
Proof.
  intros order vs O H. apply C60_files_agree. apply Forall_forall. intros [w rs] I. cbn [fst snd].
  assert (X : Forall (fun kv => word_text (fst kv) /\ Forall word_text (snd kv)) EXCEPTIONS).
  { assert (K : forallb (fun kv => forallb (fun s => forallb (fun c => text_char c) s) (fst kv :: snd kv)) EXCEPTIONS = true) by (vm_compute; reflexivity).
    apply Forall_forall. intros kv Hk. rewrite forallb_forall in K. apply K in Hk. rewrite forallb_forall in Hk.
    assert (Wt : forall s, In s (fst kv :: snd kv) -> word_text s).
    { intros s Hs. apply Hk in Hs. rewrite forallb_forall in Hs. apply Forall_forall. intros c Hc. apply text_char_spec, Hs, Hc. }
    split; [apply Wt; left; reflexivity|]. apply Forall_forall. intros s Hs. apply Wt. right. exact Hs. }
  rewrite Forall_forall in X. split.
  - unfold generate in I. cbv zeta in I. apply in_map_iff in I as ([k s] & E & I). injection E as -> _.
    assert (B : all_both word_text (collect vs)).
    { unfold collect. apply all_exceptions; [intros kv Hk; apply X; exact Hk|]. apply all_valsi; [intros v Hv; apply H; exact Hv|]. split; intros x []. }
    destruct B as [B1 B2]. apply (all_merge word_text (g_prio (collect vs)) _ _ B2 B1). apply in_map_iff. exists (w, s). auto.
  - apply Forall_forall. intros r Hr. destruct (C59_entries_justified order vs w rs r O I Hr) as [A|[(v & _ & _ & _ & [(c & x & y & Hc & Hx & Hy & T) _] & _) _]].
    + destruct A as [(v & K & _ & Hv)|(l & Hl & Hrl)].
      * destruct K as [K _]. apply H in K as [_ K]. rewrite Forall_forall in K. exact (K r Hv).
      * apply X in Hl as [_ Hl]. cbn [snd] in Hl. rewrite Forall_forall in Hl. exact (Hl r Hrl).
    + assert (Lc : letter c). { apply is_az_letter. apply is_consonant_spec in Hc. clear -Hc. assert (M : forallb is_az (L "bcdfgjklmnprstvxz") = true) by reflexivity. rewrite forallb_forall in M. apply M. apply is_consonant_spec in Hc. exact Hc. }
      unfold word_text. destruct T as [->| ->]; repeat (apply Forall_cons; [first [apply letter_text; assumption|apply apostrophe_text]|]); apply Forall_nil.
Qed.
(** The dictionary in the repository is one to which this applies. *)
Example shipped_words : Forall (fun kv => word_text (fst kv) /\ Forall word_text (snd kv)) RAFSI_LIST.
Proof.
  assert (K : forallb (fun kv => forallb (fun s => forallb (fun c => text_char c) s) (fst kv :: snd kv)) RAFSI_LIST = true) by (vm_compute; reflexivity).
  apply Forall_forall. intros kv Hk. rewrite forallb_forall in K. apply K in Hk. rewrite forallb_forall in Hk.
  assert (Wt : forall s, In s (fst kv :: snd kv) -> word_text s).
  { intros s Hs. apply Hk in Hs. rewrite forallb_forall in Hs. apply Forall_forall. intros c Hc. apply text_char_spec, Hs, Hc. }
  split; [apply Wt; left; reflexivity|]. apply Forall_forall. intros s Hs. apply Wt. right. exact Hs.
Qed.
Example written_case :
  py_file [(L "zei'e", [L "zex"; L "ze'e"]); (L "babda", [])]
  = L "RAFSI_LIST = {" ++ [10%N] ++ L "    ""zei'e"": ['zex', ""ze'e""]," ++ [10%N] ++ L "    ""babda"": []," ++ [10%N] ++ L "}" ++ [10%N].
Proof. vm_compute. reflexivity. Qed.
(** The condition on the characters is needed: nothing is escaped in the words. *)
Example quote_breaks : let d := [(L "a""b", [])] in read_back python_quotes (py_file d) <> d.
Proof. vm_compute. discriminate. Qed.
