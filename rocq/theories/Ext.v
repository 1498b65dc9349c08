(** Words built with zi'evla components: the parts between the letters y, and
    how tools.py reads them one by one. *)
From Verif Require Tosm.
From Verif Require Import Str Data Tarmi Rafsi Core Api Lib Spec Shapes Decomp Basic Vowels Katna Dict Errs Builder Jvokaha Fuel Raises Inv Parts Clusters Zihevla Forms Chain Score Alt Lujvo Slinku Optimal Props1 Props2 Props3 Total Onset Pinned Found Props4 Props5 Props8 Props9 Joint Swap Unique Round.

(** ** The parts of a built word *)
(** the text before and after the first y *)
Fixpoint split_y (g : str) : option (str * str) :=
  match g with
  | [] => None
  | c :: t => if N.eqb c c_y then Some ([], t)
              else match split_y t with Some (a, b) => Some (c :: a, b) | None => None end
  end.
Lemma split_y_some : forall g a b, split_y g = Some (a, b) -> g = a ++ c_y :: b /\ ~ In c_y a.
Proof.
  induction g as [|c t IH]; intros a b H; [discriminate|]. cbn [split_y] in H. destruct (N.eqb_spec c c_y) as [->|Ne].
  - injection H as <- <-. split; [reflexivity|intros []].
  - destruct (split_y t) as [[a' b']|] eqn:E; [|discriminate]. injection H as <- <-. destruct (IH _ _ eq_refl) as [-> I].
    split; [reflexivity|]. intros [X|X]; [congruence|contradiction].
Qed.
Lemma split_y_none : forall g, split_y g = None -> ~ In c_y g.
Proof.
  induction g as [|c t IH]; intros H; [intros []|]. cbn [split_y] in H. destruct (N.eqb_spec c c_y) as [->|Ne]; [discriminate|].
  destruct (split_y t) as [[a' b']|] eqn:E; [discriminate|]. intros [X|X]; [congruence|]. exact (IH eq_refl X).
Qed.

(** a part: an apostrophe or nothing, pieces without y, an apostrophe or nothing *)
Definition part := (str * list str * str)%type.
Definition part_text (x : part) : str := fst (fst x) ++ concat (snd (fst x)) ++ snd x.
Fixpoint parts_of (lead : str) (p : pc) (rest : list (str * pc)) : list part :=
  match rest with
  | [] => [(lead, [p_r p], [])]
  | (g, q) :: r =>
      match split_y (gap_of p g q) with
      | Some (t, l) => (lead, [p_r p], t) :: parts_of l q r
      | None => match parts_of [] q r with
                | (_, ps, t) :: more => (lead, p_r p :: gp (gap_of p g q) ++ ps, t) :: more
                | [] => []
                end
      end
  end.
Lemma parts_ne : forall rest lead p, exists ps t more, parts_of lead p rest = (lead, ps, t) :: more /\ ps <> [].
Proof.
  induction rest as [|[g q] r IH]; intros lead p; cbn [parts_of]; [do 3 eexists; split; [reflexivity|discriminate]|].
  destruct (split_y (gap_of p g q)) as [[t l]|]; [do 3 eexists; split; [reflexivity|discriminate]|].
  destruct (IH [] q) as (ps & t & more & -> & _). do 3 eexists. split; [reflexivity|discriminate].
Qed.

Lemma split_on_before : forall c a s, ~ In c a -> split_on c (a ++ s) = match split_on c s with [] => [a] | x :: l => (a ++ x) :: l end.
Proof.
  induction a as [|x a IH]; intros s H; cbn [app].
  - destruct (split_on c s) eqn:E; [exfalso; exact (split_on_nonnil _ _ E)|reflexivity].
  - cbn [split_on]. destruct (N.eqb_spec c x) as [->|Ne]; [exfalso; apply H; left; reflexivity|].
    rewrite IH by (intros X; apply H; right; exact X). destruct (split_on c s); reflexivity.
Qed.

Lemma concat_gp' : forall g (l : list str), concat (gp g ++ l) = g ++ concat l.
Proof. intros g l. rewrite concat_app, concat_gp. reflexivity. Qed.

Fixpoint gaps_ok (p : pc) (rest : list (str * pc)) : Prop :=
  match rest with [] => True | (g, q) :: r => gap_ok (gap_of p g q) /\ gaps_ok q r end.
Lemma linked_gaps : forall gen st n rest fi p, linked gen st n fi p rest -> gaps_ok p rest.
Proof.
  induction rest as [|[g q] r IH]; intros fi p H; [exact I|]. destruct H as [H H']. split; [exact (l_gap _ _ _ _ _ _ _ H)|exact (IH _ _ H')].
Qed.
(** what stands between two pieces *)
Lemma gap_cases : forall g, gap_ok g -> g = [] \/ g = [c_n] \/ g = [c_r]
  \/ exists t l, split_y g = Some (t, l) /\ g = t ++ c_y :: l /\ (t = [] \/ t = [c_h]) /\ (l = [] \/ l = [c_h]).
Proof.
  intros g [->|H]; [auto|]. right. unfold hyphen in H. cbn in H.
  destruct H as [<-|[<-|[<-|[<-|[<-|[<-|[]]]]]]]; auto; right; right; do 2 eexists; (split; [reflexivity|split; [reflexivity|auto]]).
Qed.
Lemma parts_split : forall rest lead p, Forall (fun q => ~ In c_y (p_r q)) (p :: map snd rest) -> gaps_ok p rest -> ~ In c_y lead ->
  split_on c_y (lead ++ concat (alt p rest)) = map part_text (parts_of lead p rest).
Proof.
  induction rest as [|[g q] r IH]; intros lead p F G Hl.
  - cbn [alt concat parts_of map]. unfold part_text. cbn [fst snd concat]. rewrite !app_nil_r. apply split_on_none.
    intros X. apply in_app_or in X as [X|X]; [exact (Hl X)|]. apply Forall_inv in F. exact (F X).
  - cbn [map snd] in F. pose proof (Forall_inv F) as Fp. pose proof (Forall_inv_tail F) as F'. destruct G as [G G'].
    cbn [alt concat parts_of]. rewrite concat_gp'.
    destruct (split_y (gap_of p g q)) as [[t l]|] eqn:E.
    + destruct (gap_cases _ G) as [X|[X|[X|(t' & l' & E1 & E2 & E3 & E4)]]]; [rewrite X in E; discriminate..|]. rewrite E in E1. injection E1 as <- <-.
      apply split_y_some in E as [E It]. rewrite E.
      replace (lead ++ p_r p ++ (t ++ c_y :: l) ++ concat (alt q r)) with ((lead ++ p_r p ++ t) ++ c_y :: (l ++ concat (alt q r))) by (rewrite <- !app_assoc; reflexivity).
      rewrite split_on_app by (intros X; repeat (apply in_app_or in X as [X|X]; try contradiction)).
      cbn [map]. unfold part_text at 1. cbn [fst snd concat]. rewrite app_nil_r. f_equal.
      apply IH; try assumption. intros X. destruct E4 as [->| ->]; [destruct X|destruct X as [X|[]]; discriminate].
    + apply split_y_none in E.
      replace (lead ++ p_r p ++ gap_of p g q ++ concat (alt q r)) with ((lead ++ p_r p ++ gap_of p g q) ++ ([] ++ concat (alt q r))) by (rewrite <- !app_assoc; reflexivity).
      rewrite split_on_before by (intros X; repeat (apply in_app_or in X as [X|X]; try contradiction)).
      rewrite IH by (try assumption; intros []). destruct (parts_ne r [] q) as (ps & t & more & -> & _). cbn [map]. unfold part_text. cbn [fst snd concat].
      rewrite concat_gp', <- !app_assoc. reflexivity.
Qed.

(** ** Putting the parts back together *)
Definition add_hyphen (acc : list str) (nh : str) : list str := match nh with [] => acc | _ => acc ++ [nh] end.
Fixpoint rejoin (acc : list str) (hy : str) (first : bool) (xs : list part) : list str :=
  match xs with
  | [] => acc
  | (l, ps, t) :: more => rejoin (add_hyphen acc ((if first then hy else hy ++ [c_y]) ++ l) ++ ps) t false more
  end.
Lemma rejoin_alt : forall rest lead p acc hy first,
  rejoin acc hy first (parts_of lead p rest) = add_hyphen acc ((if first then hy else hy ++ [c_y]) ++ lead) ++ alt p rest.
Proof.
  induction rest as [|[g q] r IH]; intros lead p acc hy first; cbn [parts_of alt]; [reflexivity|].
  destruct (split_y (gap_of p g q)) as [[t l]|] eqn:E.
  - cbn [rejoin]. rewrite IH. cbv iota. apply split_y_some in E as [E _].
    replace ((t ++ [c_y]) ++ l) with (gap_of p g q) by (rewrite E, <- app_assoc; reflexivity).
    assert (Ne : gap_of p g q <> []) by (rewrite E; destruct t; discriminate).
    rewrite (gp_cons _ Ne). unfold add_hyphen at 1. destruct (gap_of p g q) eqn:Eg; [congruence|]. rewrite <- !app_assoc. reflexivity.
  - pose proof (IH [] q (add_hyphen acc ((if first then hy else hy ++ [c_y]) ++ lead) ++ p_r p :: gp (gap_of p g q)) [] true) as K.
    destruct (parts_ne r [] q) as (ps & t & more & Ep & _). rewrite Ep in *. cbn [rejoin app add_hyphen] in *.
    rewrite <- !app_assoc in K. cbn [app] in K. exact K.
Qed.

(** ** A word whose first CVC is cut after its vowel *)
Lemma tarmi_cc : forall c d X, is_consonant c = true -> is_consonant d = true ->
  rafsi_tarmi (c :: d :: X) = CCV \/ rafsi_tarmi (c :: d :: X) = CCVC \/ rafsi_tarmi (c :: d :: X) = CCVCV
  \/ tarmi_in (rafsi_tarmi (c :: d :: X)) [CVV; CVhV; CVCC; CCVC; CVCCV; CCVCV; CVC; CCV] = false.
Proof.
  intros c d X Hc Hd. destruct (rafsi_tarmi (c :: d :: X)) eqn:E; auto;
    exfalso; apply rafsi_tarmi_shaped in E; try discriminate; cbn [shape_pat] in E; inv_shaped E; Shapes.clash.
Qed.
Lemma tarmi_CCVC : forall s, rafsi_tarmi s = CCVC -> exists c d v e, s = [c; d; v; e] /\ is_consonant c = true /\ is_consonant d = true /\ is_vowel v = true /\ is_consonant e = true.
Proof.
  intros s E. apply rafsi_tarmi_shaped in E; [|discriminate]. cbn [shape_pat] in E. inv_shaped E. do 4 eexists. split; [reflexivity|auto].
Qed.
Lemma tarmi_CCVCV : forall s, rafsi_tarmi s = CCVCV -> exists c d v e v', s = [c; d; v; e; v'] /\ is_consonant c = true /\ is_consonant d = true /\ is_vowel v = true /\ is_consonant e = true /\ is_vowel v' = true.
Proof.
  intros s E. apply rafsi_tarmi_shaped in E; [|discriminate]. cbn [shape_pat] in E. inv_shaped E. do 5 eexists. split; [reflexivity|auto 6].
Qed.
Definition quiet (prev : option str) : Prop := match prev with None => True | Some q => tarmi_in (rafsi_tarmi q) [CVV; CVhV] = false end.
Lemma hyphen_len_cc : forall yh prev c d X, quiet prev -> is_consonant c = true -> hyphen_len yh prev (c :: d :: X) = Ok None.
Proof.
  intros yh [q|] c d X Q Hc; [|reflexivity]. unfold hyphen_len. destruct (negb (length q =? 1)); [|reflexivity]. cbn in Q. use_facts. cbn [firstn].
  change (L "nr") with [c_n; c_r]. change (L "'y") with [c_h; c_y]. cbn [str_eqb idx nth_error bind]. unfold idx. cbn [nth_error bind]. use_facts.
  unfold tarmi_in in *. cbn [existsb] in *. rewrite Q. cbn [andb]. rewrite !andb_false_r.
  destruct (yset_eqb yh FORCE_Y); [reflexivity|]. destruct (_ && _); [reflexivity|]. destruct (N.eqb c c_r); [|reflexivity]. cbn [bind]. rewrite andb_false_r. reflexivity.
Qed.
Ltac tq := cbn [tarmi_in existsb];
  repeat match goal with |- context [tarmi_eqb ?a ?b] => is_constructor a; let v := eval vm_compute in (tarmi_eqb a b) in change (tarmi_eqb a b) with v end;
  cbn [andb orb negb].
(** no initial pair at the start *)
Lemma j2_cc_bad : forall f yh mz orig acc c d X, quiet (last_opt acc) -> is_consonant c = true -> is_consonant d = true ->
  mems [c; d] INITIAL = false ->
  exists e, jvokaha2_loop (S f) yh mz orig (c :: d :: X) acc = Err e /\ (e = DecompositionError \/ e = InvalidClusterError).
Proof.
  intros f yh mz orig acc c d X Q Hc Hd Hi. cbn [jvokaha2_loop]. rewrite (hyphen_len_cc _ _ _ _ _ Q Hc). cbn [bind].
  change (firstn 3 (c :: d :: X)) with (c :: d :: firstn 1 X). change (firstn 4 (c :: d :: X)) with (c :: d :: firstn 2 X). change (firstn 2 (c :: d :: X)) with [c; d].
  cbn [nth_error]. rewrite Hi. use_facts. cbn [negb].
  destruct (tarmi_cc c d (firstn 1 X) Hc Hd) as [T3|[T3|[T3|T3]]];
    destruct (tarmi_cc c d (firstn 2 X) Hc Hd) as [T4|[T4|[T4|T4]]];
    destruct (tarmi_cc c d X Hc Hd) as [TX|[TX|[TX|TX]]];
    try (apply tarmi_CCVC in T3 as (? & ? & ? & ? & T3 & _); destruct X as [|? [|? ?]]; discriminate T3);
    try (apply tarmi_CCVCV in T3 as (? & ? & ? & ? & ? & T3 & _); destruct X as [|? [|? [|? ?]]]; discriminate T3);
    try (apply tarmi_CCVCV in T4 as (? & ? & ? & ? & ? & T4 & _); destruct X as [|? [|? [|? ?]]]; discriminate T4);
    try (match type of T3 with tarmi_in _ _ = false => destruct (rafsi_tarmi (c :: d :: firstn 1 X)); try discriminate T3 end; clear T3);
    try (match type of T4 with tarmi_in _ _ = false => destruct (rafsi_tarmi (c :: d :: firstn 2 X)) eqn:F4; try discriminate T4 end; clear T4);
    try (match type of TX with tarmi_in _ _ = false => destruct (rafsi_tarmi (c :: d :: X)); try discriminate TX end; clear TX);
    try rewrite T3; try rewrite T4; try rewrite TX; tq; eauto.
  all: exfalso; apply tarmi_CCVCV in TX as (c' & d' & v & e & v' & TX & _ & _ & Hv & He & Hv'); injection TX; intros -> _ _; cbn [firstn] in *;
    assert (K : rafsi_tarmi [c; d; v; e] = CCVC) by (tarmi_compute; reflexivity); congruence.
Qed.
(** CCV is taken off *)
Lemma j2_ccv_step : forall f yh mz orig acc c d v X, quiet (last_opt acc) -> is_consonant c = true -> is_consonant d = true -> is_vowel v = true ->
  mems [c; d] INITIAL = true -> ~ In c_y X -> (forall e, X = [e] -> is_consonant e = false) ->
  (forall e v', X = [e; v'] -> is_consonant e = true -> is_vowel v' = false) ->
  jvokaha2_loop (S f) yh mz orig (c :: d :: v :: X) acc = jvokaha2_loop f yh mz orig X (acc ++ [[c; d; v]]).
Proof.
  intros f yh mz orig acc c d v X Q Hc Hd Hv Hi Hy H1 H2. cbn [jvokaha2_loop]. rewrite (hyphen_len_cc _ _ _ _ _ Q Hc). cbn [bind].
  change (firstn 3 (c :: d :: v :: X)) with [c; d; v]. change (firstn 4 (c :: d :: v :: X)) with (c :: d :: v :: firstn 1 X). change (firstn 2 (c :: d :: v :: X)) with [c; d].
  cbn [nth_error skipn]. rewrite Hi. use_facts. cbn [negb].
  assert (T3 : rafsi_tarmi [c; d; v] = CCV) by (tarmi_compute; reflexivity). rewrite T3.
  assert (T4 : tarmi_eqb (rafsi_tarmi (c :: d :: v :: firstn 1 X)) CVhV = false).
  { destruct (tarmi_eqb _ _) eqn:E; [|reflexivity]. apply tarmi_eqb_eq in E. destruct (tarmi_cc c d (v :: firstn 1 X) Hc Hd) as [T|[T|[T|T]]]; rewrite E in T; discriminate. }
  rewrite T4. tq. rewrite andb_false_r.
  replace ((tarmi_eqb (rafsi_tarmi (c :: d :: v :: firstn 1 X)) CVCC || (tarmi_eqb (rafsi_tarmi (c :: d :: v :: firstn 1 X)) CCVC || false)) && (length (c :: d :: v :: X) =? 4)) with false.
  2:{ symmetry. destruct X as [|e [|e' X]]; cbn [length Nat.eqb]; rewrite ?andb_false_r; try reflexivity. cbn [firstn].
      destruct (tarmi_cc c d [v; e] Hc Hd) as [T|[T|[T|T]]]; [rewrite T; reflexivity| |rewrite T; reflexivity|].
      - apply tarmi_CCVC in T as (? & ? & ? & ? & T & _ & _ & _ & He). injection T as <- <- <- <-. rewrite (H1 e eq_refl) in He. discriminate.
      - destruct (rafsi_tarmi [c; d; v; e]); try discriminate; reflexivity. }
  replace (match X with [] => None | _ :: [] => None | _ :: x :: _ => Some x end) with (nth_error X 1) by (destruct X as [|? [|? ?]]; reflexivity).
  replace (match nth_error X 1 with Some c0 => N.eqb c0 c_y | None => false end) with false.
  2:{ symmetry. destruct (nth_error X 1) eqn:E; [|reflexivity]. apply nth_error_In in E. destruct (N.eqb_spec c0 c_y) as [->|]; [contradiction|reflexivity]. }
  rewrite andb_false_r.
  replace (tarmi_eqb (rafsi_tarmi (c :: d :: v :: X)) CVCCV || (tarmi_eqb (rafsi_tarmi (c :: d :: v :: X)) CCVCV || false)) with false.
  2:{ symmetry. destruct (tarmi_cc c d (v :: X) Hc Hd) as [T|[T|[T|T]]]; [rewrite T; reflexivity|rewrite T; reflexivity| |].
      - apply tarmi_CCVCV in T as (? & ? & ? & ? & ? & T & _ & _ & _ & He & Hv'). injection T as <- <- <- ->. rewrite (H2 _ _ eq_refl He) in Hv'. discriminate.
      - destruct (rafsi_tarmi (c :: d :: v :: X)); try discriminate; reflexivity. }
  replace (str_eqb (slice 3 5 (c :: d :: v :: X)) (L "'y")) with false; [rewrite andb_false_r; reflexivity|].
  symmetry. unfold slice. cbn [skipn]. change (5 - 3) with 2. destruct (str_eqb _ _) eqn:E; [|reflexivity]. apply str_eqb_eq in E. change (L "'y") with [c_h; c_y] in E.
  destruct X as [|x [|y X]]; cbn in E; try discriminate. injection E as -> ->. exfalso. apply Hy. right; left; reflexivity.
Qed.
Lemma j2_none : forall f yh mz orig acc X, X <> [] -> hyphen_len yh (last_opt acc) X = Ok None ->
  tarmi_in (rafsi_tarmi (firstn 3 X)) [CVV; CVC; CCV] = false -> tarmi_in (rafsi_tarmi (firstn 4 X)) [CVhV; CVCC; CCVC] = false ->
  tarmi_in (rafsi_tarmi X) [CVCCV; CCVCV] = false ->
  jvokaha2_loop (S f) yh mz orig X acc = Err DecompositionError.
Proof.
  intros f yh mz orig acc X Hne Hh T3 T4 TX. destruct X as [|x X]; [congruence|]. cbn [jvokaha2_loop]. rewrite Hh. cbn [bind].
  set (A := firstn 3 (x :: X)) in *. set (B := firstn 4 (x :: X)) in *. clearbody A B.
  destruct (rafsi_tarmi A) eqn:EA; try discriminate T3; destruct (rafsi_tarmi B) eqn:EB; try discriminate T4; tq;
    (unfold tarmi_in in TX; cbn [existsb] in TX; rewrite TX; reflexivity).
Qed.
Lemma j2_ccc : forall f yh mz orig acc c d e X, quiet (last_opt acc) -> is_consonant c = true -> is_consonant d = true -> is_consonant e = true ->
  jvokaha2_loop (S f) yh mz orig (c :: d :: e :: X) acc = Err DecompositionError.
Proof.
  intros f yh mz orig acc c d e X Q Hc Hd He. 
  assert (K : forall Y, tarmi_in (rafsi_tarmi (c :: d :: e :: Y)) [CVV; CVhV; CVCC; CCVC; CVCCV; CCVCV; CVC; CCV] = false).
  { intros Y. destruct (tarmi_cc c d (e :: Y) Hc Hd) as [T|[T|[T|T]]]; [exfalso|exfalso|exfalso|exact T].
    - apply tarmi_CCV in T as (? & ? & ? & T & H). injection T as <- <- <- ->. destruct H as (_ & _ & H). Shapes.clash.
    - apply tarmi_CCVC in T as (? & ? & ? & ? & T & _ & _ & H & _). injection T as <- <- <- ->. Shapes.clash.
    - apply tarmi_CCVCV in T as (? & ? & ? & ? & ? & T & _ & _ & H & _). injection T as <- <- <- ->. Shapes.clash. }
  apply j2_none; [discriminate|apply hyphen_len_cc; assumption| | |].
  - cbn [firstn]. specialize (K []). destruct (rafsi_tarmi [c; d; e]); try discriminate; reflexivity.
  - change (firstn 4 (c :: d :: e :: X)) with (c :: d :: e :: firstn 1 X). specialize (K (firstn 1 X)). destruct (rafsi_tarmi (c :: d :: e :: firstn 1 X)); try discriminate; reflexivity.
  - specialize (K X). destruct (rafsi_tarmi (c :: d :: e :: X)); try discriminate; reflexivity.
Qed.
Lemma j2_cc : forall f yh mz orig acc c d, quiet (last_opt acc) -> is_consonant c = true ->
  jvokaha2_loop (S f) yh mz orig [c; d] acc = Err DecompositionError.
Proof.
  intros f yh mz orig acc c d Q Hc. pose proof (rafsi_tarmi_2 c d) as K.
  apply j2_none; [discriminate|apply hyphen_len_cc; assumption| | |]; cbn [firstn]; destruct (rafsi_tarmi [c; d]); try discriminate; reflexivity.
Qed.
Lemma tarmi_h : forall X, tarmi_in (rafsi_tarmi (c_h :: X)) [CVV; CVhV; CVCC; CCVC; CVCCV; CCVCV; CVC; CCV] = false.
Proof.
  intros X. destruct (rafsi_tarmi (c_h :: X)) eqn:E; try reflexivity;
    exfalso; apply rafsi_tarmi_shaped in E; try discriminate; cbn [shape_pat] in E; inv_shaped E; discriminate.
Qed.
Lemma j2_h : forall f yh mz orig acc v X, is_vowel v = true ->
  jvokaha2_loop (S f) yh mz orig (c_h :: v :: X) acc = Err DecompositionError.
Proof.
  intros f yh mz orig acc v X Hv.
  apply j2_none; [discriminate| | | |].
  - unfold hyphen_len. destruct (last_opt acc) as [q|]; [|reflexivity]. destruct (negb (length q =? 1)); [|reflexivity]. cbn [firstn].
    change (L "nr") with [c_n; c_r]. change (L "'y") with [c_h; c_y]. cbn [str_eqb]. change (N.eqb c_h c_y) with false. change (N.eqb c_h c_n) with false. change (N.eqb c_h c_r) with false.
    use_facts. cbn [andb]. rewrite !andb_false_r. destruct (yset_eqb yh FORCE_Y); reflexivity.
  - change (firstn 3 (c_h :: v :: X)) with (c_h :: v :: firstn 1 X). pose proof (tarmi_h (v :: firstn 1 X)) as K. destruct (rafsi_tarmi (c_h :: v :: firstn 1 X)); try discriminate; reflexivity.
  - change (firstn 4 (c_h :: v :: X)) with (c_h :: v :: firstn 2 X). pose proof (tarmi_h (v :: firstn 2 X)) as K. destruct (rafsi_tarmi (c_h :: v :: firstn 2 X)); try discriminate; reflexivity.
  - pose proof (tarmi_h (v :: X)) as K. destruct (rafsi_tarmi (c_h :: v :: X)); try discriminate; reflexivity.
Qed.

(** what may follow a CVC that ends in [c] within a part; [P] are the pieces *)
Fixpoint holds (c : char) (P : list str) : Prop :=
  match P with
  | [] => True
  | p :: P' => mems [c; hd 0%N p] INITIAL = true ->
      (rafsi_tarmi p = CVC -> P' <> [] /\ holds (last p 0%N) P')
      /\ (rafsi_tarmi p = CVCCV -> mems (slice 2 4 p) INITIAL = false)
  end.
Fixpoint short_run (P : list str) : Prop :=
  match P with
  | [] => True
  | p :: P' => (P' <> [] -> tarmi_in (rafsi_tarmi p) [CVC; CVV; CVhV; CCV] = true) /\ short_run P'
  end.
Lemma concat_first : forall mz P, Forall (cll mz) P -> P <> [] -> exists a b t, concat P = a :: b :: t /\ is_consonant a = true.
Proof.
  intros mz [|p P] F H; [congruence|]. apply Forall_inv in F. destruct (cll_first _ _ F) as (a & b & c & t & -> & Ha & _). cbn. eauto.
Qed.
Lemma run_no_y : forall mz P, Forall (cll mz) P -> ~ In c_y (concat P).
Proof.
  intros mz P F X. apply in_concat in X as (p & Hp & X). rewrite Forall_forall in F. apply F in Hp. apply cll_usable in Hp. exact (u_noy _ _ _ Hp X).
Qed.
Lemma walk_fwd : forall mz' P f yh mz orig acc c, Forall (cll mz') P -> short_run P -> P <> [] -> is_consonant c = true -> holds c P ->
  quiet (last_opt acc) -> length (concat P) < f ->
  exists e, jvokaha2_loop (S f) yh mz orig (c :: concat P) acc = Err e /\ (e = DecompositionError \/ e = InvalidClusterError).
Proof.
  intros mz' P. induction P as [|p P IH]; intros f yh mz orig acc c F S Hne Hc Ho Q Hf; [congruence|].
  pose proof (Forall_inv F) as (s & Hs). pose proof (Forall_inv_tail F) as F'. destruct S as [S S']. cbn [concat] in *.
  assert (HP : concat P = [] -> P = []).
  { intros X. destruct P; [reflexivity|]. destruct (concat_first _ _ F') as (? & ? & ? & Y & _); [discriminate|]. congruence. }
  pose proof (run_no_y _ _ F') as Ny.
  assert (Hq : forall a b v, is_consonant a = true -> is_consonant b = true -> is_vowel v = true -> quiet (last_opt (acc ++ [[a; b; v]]))).
  { intros a b v A B V. rewrite last_opt_app. cbn [quiet]. replace (rafsi_tarmi [a; b; v]) with CCV by (symmetry; tarmi_compute; reflexivity). reflexivity. }
  pose proof (cll_tarmi _ _ _ Hs) as Ht.
  inversion Hs; subst s p; bfacts; cbn [app hd] in *;
    match goal with |- context [c :: ?d :: _] => destruct (mems [c; d] INITIAL) eqn:Hi; [|apply j2_cc_bad; assumption] end.
  - (* CVC *) destruct (proj1 (Ho Hi) Ht) as [Pn Hh]. cbn [last] in Hh. destruct (concat_first _ _ F' Pn) as (a & b & t & Ea & Ha).
    rewrite j2_ccv_step; try assumption.
    + destruct f as [|f]; [lia|]. apply IH; auto. cbn in Hf. lia.
    + intros [X|X]; [|contradiction]. subst. discriminate.
    + intros e X. rewrite Ea in X. discriminate.
    + intros e v' X He. rewrite Ea in X. injection X as <- <- _. apply k_f0. exact Ha.
  - (* CVV *) rewrite j2_ccv_step; try assumption.
    + cbn [length] in Hf. destruct f as [|f]; [lia|]. rewrite j2_vowel by assumption. eauto.
    + intros [X|X]; [|contradiction]. subst. discriminate.
    + intros e X. injection X as <- _. apply v_f0. assumption.
    + intros e v' X He. injection X as <- _. Shapes.clash.
  - (* CV'V *) rewrite j2_ccv_step; try assumption.
    + cbn [length] in Hf. destruct f as [|f]; [lia|]. change apostrophe with c_h. rewrite j2_h by assumption. eauto.
    + intros [X|[X|X]]; [discriminate| |contradiction]. subst. discriminate.
    + intros e X. discriminate.
    + intros e v' X He. injection X as <- _. discriminate.
  - (* CCV *) rewrite j2_ccc; eauto.
  - (* CVCC *) assert (P = []) as -> by (destruct P; [reflexivity|]; exfalso; rewrite Ht in S; specialize (S ltac:(discriminate)); discriminate).
    cbn [concat app length] in *. rewrite j2_ccv_step; try assumption.
    + destruct f as [|f]; [lia|]. rewrite j2_cc; eauto.
    + intros [X|[X|[]]]; subst; discriminate.
    + intros e X. discriminate.
    + intros e v' X He. injection X as <- <-. apply k_f0. assumption.
  - (* CCVC *) rewrite j2_ccc; eauto.
  - (* CVCCV *) assert (P = []) as -> by (destruct P; [reflexivity|]; exfalso; rewrite Ht in S; specialize (S ltac:(discriminate)); discriminate).
    cbn [concat app length] in *. pose proof (proj2 (Ho Hi) Ht) as Hb. unfold slice in Hb. cbn [skipn firstn Nat.sub] in Hb. rewrite j2_ccv_step; try assumption.
    + destruct f as [|f]; [lia|]. apply j2_cc_bad; auto.
    + intros [X|[X|[X|[]]]]; subst; discriminate.
    + intros e X. discriminate.
    + intros e w X He. discriminate.
  - (* CCVCV *) rewrite j2_ccc; eauto.
Qed.

(** ** The test tools.py makes on the first part *)
Lemma jvk_of_j2 : forall yh cs gl mz s e, jvokaha_2 yh mz s = Err e -> jvk Bound yh cs gl mz s = Err e.
Proof. intros yh cs gl mz s e H. rewrite jvk_eq, H. reflexivity. Qed.
Lemma tos_pass : forall st y0 part (adda : bool) to sm (s : str), to_smabru part = Ok (to, sm) ->
  s = (if adda then dropl 1 sm else strip_hyphens sm) -> is_valid_rafsi s false = false ->
  (exists e, jvokaha_2 (y_hyphens st) (allow_mz st) s = Err e /\ (e = DecompositionError \/ e = InvalidClusterError)) ->
  tosmabru_check (jvk Bound) st y0 part adda = Ok tt.
Proof.
  intros st y0 part adda to sm s H -> Hv (e & He & Ee). unfold tosmabru_check. rewrite H. cbn [bind]. destruct sm as [|c sm]; [reflexivity|].
  set (s := if adda then dropl 1 (c :: sm) else strip_hyphens (c :: sm)) in *. rewrite Hv. cbn [bind].
  rewrite (jvk_of_j2 _ _ _ _ _ _ He). destruct Ee as [-> | ->]; reflexivity.
Qed.
Lemma valid_tarmi : forall s mz, is_valid_rafsi s mz = true -> tarmi_in (rafsi_tarmi s) [CVV; CVhV; CVCC; CCVC; CVCCV; CCVCV; CVC; CCV] = true.
Proof.
  intros s mz H. destruct (tarmi_eqb (rafsi_tarmi s) CVV) eqn:E; [apply tarmi_eqb_eq in E; rewrite E; reflexivity|].
  destruct (valid_cll mz s H) as (x & Hx); [intros X; rewrite X in E; discriminate|]. rewrite (cll_tarmi _ _ _ Hx). inversion Hx; reflexivity.
Qed.
Lemma valid_cc : forall c d X mz, is_consonant c = true -> is_consonant d = true -> is_valid_rafsi (c :: d :: X) mz = true ->
  mems [c; d] INITIAL = true /\ exists v t, X = v :: t /\ is_vowel v = true.
Proof.
  intros c d X mz Hc Hd H. destruct (valid_cll mz _ H) as (x & Hx).
  { intros T. destruct (tarmi_cc c d X Hc Hd) as [Y|[Y|[Y|Y]]]; rewrite T in Y; discriminate. }
  inversion Hx; subst; bfacts; try clash; split; try assumption; do 2 eexists; split; try reflexivity; assumption.
Qed.

(** where a part of rafsi ends: with 'y after a vowel, or with y after a consonant *)
Inductive part_end : str -> str -> bool -> Prop :=
| end_vowel (s : str) (l : char) : is_vowel l = true -> part_end (s ++ [l]) [c_h] false
| end_consonant (s : str) (l : char) : is_consonant l = true -> part_end (s ++ [l]) [] true.
Definition with_a (s : str) (adda : bool) : str := if adda then s ++ [c_a] else s.

Lemma dropl_snoc : forall (s : str) c, dropl 1 (s ++ [c]) = s.
Proof. intros s c. unfold dropl. rewrite app_length, Nat.add_sub. rewrite firstn_app, firstn_all, Nat.sub_diag. cbn. apply app_nil_r. Qed.
Lemma strip_whole : forall s c t s' l, s = c :: t -> is_consonant c = true -> s = s' ++ [l] -> is_vowel l = true -> strip_hyphens s = s.
Proof.
  intros s c t s' l E Hc E' Hl. pose proof (strip_mid is_hy [] s [] c t l s' eq_refl eq_refl E (k_f7 _ Hc) E' (v_f9 _ Hl)) as K.
  cbn [app] in K. rewrite app_nil_r in K. exact K.
Qed.
(** the rest of the part after its first letters *)
Lemma part_rest : forall (a s t : str) (adda : bool) (c : char) (x : str), part_end (a ++ s) t adda -> s = c :: x -> is_consonant c = true ->
  s = (if adda then dropl 1 (with_a s adda) else strip_hyphens (with_a s adda)) /\ with_a (a ++ s) adda = a ++ with_a s adda.
Proof.
  intros a s t adda c x H E Hc. destruct adda; cbn [with_a].
  - split; [symmetry; apply dropl_snoc|apply app_assoc_reverse].
  - split; [|reflexivity]. inversion H as [s0 l Hl E0|]; subst t. symmetry. destruct (exists_last (l := s)) as (s' & l' & Es); [rewrite E; discriminate|].
    rewrite Es, app_assoc in E0. apply app_inj_tail in E0 as [_ ->]. eapply strip_whole; [exact E|exact Hc|exact Es|exact Hl].
Qed.
Lemma valid_two : forall c d mz, is_valid_rafsi [c; d] mz = false.
Proof.
  intros c d mz. destruct (is_valid_rafsi _ _) eqn:E; [|reflexivity]. apply valid_tarmi in E. rewrite rafsi_tarmi_2 in E. discriminate.
Qed.
Lemma with_a_cons : forall c s adda, with_a (c :: s) adda = c :: with_a s adda.
Proof. intros c s [|]; reflexivity. Qed.
(** the hyphens r and n never start an initial pair *)
Definition rn_before (h c : char) : Prop := (h = c_n /\ c = c_r) \/ (h = c_r /\ is_consonant c = true /\ c <> c_r).
Lemma rn_pair : forall h c, rn_before h c -> is_consonant h = true /\ is_consonant c = true /\ mems [h; c] INITIAL = false.
Proof.
  intros h c [[-> ->]|(-> & H & _)]; (split; [reflexivity|]); (split; [try reflexivity; try assumption|]); apply Tosm.no_initial_rn; auto.
Qed.
Definition heads (ps : list str) (p0 : str) (P : list str) : Prop :=
  ps = p0 :: P \/ exists h c t, ps = p0 :: [h] :: P /\ concat P = c :: t /\ rn_before h c /\ cvv_like p0 = true.
Lemma to_cv : forall c v x X, is_consonant c = true -> is_vowel v = true -> is_consonant x = true -> to_smabru (c :: v :: x :: X) = Ok ([c; v], x :: X).
Proof.
  intros c v x X Hc Hv Hx. unfold to_smabru.
  change (firstn 4 (c :: v :: x :: X)) with (c :: v :: x :: firstn 1 X). change (firstn 3 (c :: v :: x :: X)) with [c; v; x].
  replace (tarmi_eqb (rafsi_tarmi (c :: v :: x :: firstn 1 X)) CVhV) with false.
  2:{ symmetry. destruct (tarmi_eqb _ _) eqn:E; [|reflexivity]. apply tarmi_eqb_eq, rafsi_tarmi_shaped in E; [|discriminate]. cbn [shape_pat] in E. inv_shaped E. subst. discriminate. }
  rewrite shaped3_tarmi by assumption. change (tarmi_eqb CVC CVV) with false. unfold idx. cbn [nth_error bind]. use_facts. reflexivity.
Qed.
Lemma to_cc : forall c d X, is_consonant c = true -> is_consonant d = true -> to_smabru (c :: d :: X) = Ok ([], []).
Proof.
  intros c d X Hc Hd. unfold to_smabru.
  change (firstn 4 (c :: d :: X)) with (c :: d :: firstn 2 X). change (firstn 3 (c :: d :: X)) with (c :: d :: firstn 1 X).
  assert (K : forall Y, tarmi_eqb (rafsi_tarmi (c :: d :: Y)) CVhV = false /\ tarmi_eqb (rafsi_tarmi (c :: d :: Y)) CVV = false).
  { intros Y. destruct (tarmi_cc c d Y Hc Hd) as [T|[T|[T|T]]]; try (rewrite T; split; reflexivity). destruct (rafsi_tarmi (c :: d :: Y)); try discriminate; split; reflexivity. }
  rewrite (proj1 (K _)), (proj2 (K _)). unfold idx. cbn [nth_error bind]. use_facts. reflexivity.
Qed.
Lemma to_cvv : forall mz s p h X, cll_rafsi mz s p -> cvv_like p = true -> is_consonant h = true -> to_smabru (p ++ h :: X) = Ok (p, h :: X).
Proof.
  intros mz s p h X Hs Hc Hh. pose proof (cll_tarmi _ _ _ Hs) as T. unfold cvv_like in Hc. rewrite T in Hc. inversion Hs; subst; try discriminate; bfacts; cbn [app].
  - unfold to_smabru. change (firstn 4 (c :: v1 :: v2 :: h :: X)) with [c; v1; v2; h]. change (firstn 3 (c :: v1 :: v2 :: h :: X)) with [c; v1; v2]. rewrite T.
    replace (tarmi_eqb (rafsi_tarmi [c; v1; v2; h]) CVhV) with false; [reflexivity|].
    symmetry. destruct (tarmi_eqb _ _) eqn:E; [|reflexivity]. apply tarmi_eqb_eq, rafsi_tarmi_shaped in E; [|discriminate]. cbn [shape_pat] in E. inv_shaped E. Shapes.clash.
  - unfold to_smabru. change (firstn 4 (c :: v1 :: apostrophe :: v2 :: h :: X)) with [c; v1; apostrophe; v2]. rewrite T. reflexivity.
Qed.
Lemma to_whole : forall mz s p, cll_rafsi mz s p -> cvv_like p = true -> to_smabru p = Ok (p, []).
Proof.
  intros mz s p Hs Hc. pose proof (cll_tarmi _ _ _ Hs) as T. unfold cvv_like in Hc. rewrite T in Hc. inversion Hs; subst; try discriminate; bfacts; unfold to_smabru.
  - change (firstn 4 [c; v1; v2]) with [c; v1; v2]. change (firstn 3 [c; v1; v2]) with [c; v1; v2]. rewrite T. reflexivity.
  - change (firstn 4 [c; v1; apostrophe; v2]) with [c; v1; apostrophe; v2]. rewrite T. reflexivity.
Qed.
Lemma tos_run : forall st ps p0 P t adda, heads ps p0 P -> Forall (cll (allow_mz st)) (p0 :: P) -> short_run (p0 :: P) ->
  part_end (concat ps) t adda -> rafsi_tarmi (concat ps) <> CVC ->
  (rafsi_tarmi p0 = CVC -> holds (last p0 0%N) P) -> (cvv_like p0 = true -> ps = p0 :: P -> P = []) ->
  tosmabru_check (jvk Bound) st (concat ps ++ t) (with_a (concat ps) adda) adda = Ok tt.
Proof.
  intros st ps p0 P t adda Hd F S He Hn Ht Hc. pose proof (Forall_inv F) as (s & Hs). pose proof (Forall_inv_tail F) as F'. destruct S as [S S'].
  pose proof (cll_tarmi _ _ _ Hs) as Tp.
  destruct Hd as [Eps|(h & c & u & Eps & Ec & Hr & Hcv)].
  - rewrite Eps in *. cbn [concat] in *.
    inversion Hs; subst s p0; bfacts; cbn [last app] in *.
    + (* CVC *) specialize (Ht Tp). assert (Pn : P <> []) by (intros ->; apply Hn; exact Tp).
      destruct (concat_first _ _ F' Pn) as (a & b & x & Ea & Ha).
      assert (Ep : c1 :: v :: c2 :: concat P = [c1; v] ++ c2 :: concat P) by reflexivity. rewrite Ep in *.
      destruct (part_rest _ _ _ _ _ _ He eq_refl H1) as [E1 E2]. rewrite E2.
      apply (tos_pass _ _ _ _ [c1; v] (with_a (c2 :: concat P) adda) (c2 :: concat P)).
      * rewrite with_a_cons. apply to_cv; assumption.
      * exact E1.
      * destruct (is_valid_rafsi _ _) eqn:V; [exfalso|reflexivity]. destruct P as [|p P]; [congruence|].
        pose proof (Forall_inv F') as (s1 & Hs1). pose proof (cll_tarmi _ _ _ Hs1) as T1. cbn [holds] in Ht.
        inversion Hs1; subst s1 p; bfacts; cbn [concat app hd] in *; rewrite Ea in V; injection Ea as <- <- <-;
          (destruct (valid_cc _ _ _ _ H1 Ha V) as (Hi & w & y & Ew & Hw)); try (injection Ew as <- _; Shapes.clash; fail);
          apply valid_tarmi in V.
        -- destruct (proj1 (Ht Hi) T1) as [Pn' _]. destruct (concat_first _ _ (Forall_inv_tail F') Pn') as (a' & b' & x' & Ea' & Ha'). rewrite Ea' in *.
           destruct (tarmi_cc c2 c0 (v0 :: c3 :: a' :: b' :: x') H1 Ha) as [T|[T|[T|T]]]; [| | |congruence].
           ++ apply tarmi_CCV in T as (? & ? & ? & T & _). discriminate.
           ++ apply tarmi_CCVC in T as (? & ? & ? & ? & T & _). discriminate.
           ++ apply tarmi_CCVCV in T as (? & ? & ? & ? & ? & T & _ & _ & _ & _ & Hv'). injection T; intros; subst. Shapes.clash.
        -- destruct (tarmi_cc c2 c (v1 :: v2 :: concat P) H1 Ha) as [T|[T|[T|T]]]; [| | |congruence].
           ++ apply tarmi_CCV in T as (? & ? & ? & T & _). discriminate.
           ++ apply tarmi_CCVC in T as (? & ? & ? & ? & T & _ & _ & _ & X). injection T; intros; subst. Shapes.clash.
           ++ apply tarmi_CCVCV in T as (? & ? & ? & ? & ? & T & _ & _ & _ & X & Hv'). injection T; intros; subst. Shapes.clash.
        -- destruct (tarmi_cc c2 c (v1 :: apostrophe :: v2 :: concat P) H1 Ha) as [T|[T|[T|T]]]; [| | |congruence].
           ++ apply tarmi_CCV in T as (? & ? & ? & T & _). discriminate.
           ++ apply tarmi_CCVC in T as (? & ? & ? & ? & T & _ & _ & _ & X). discriminate.
           ++ apply tarmi_CCVCV in T as (? & ? & ? & ? & ? & T & _ & _ & _ & X & Hv'). injection T; intros; subst. discriminate.
        -- destruct (tarmi_cc c2 c0 (v0 :: c3 :: c4 :: concat P) H1 Ha) as [T|[T|[T|T]]]; [| | |congruence].
           ++ apply tarmi_CCV in T as (? & ? & ? & T & _). discriminate.
           ++ apply tarmi_CCVC in T as (? & ? & ? & ? & T & _). discriminate.
           ++ apply tarmi_CCVCV in T as (? & ? & ? & ? & ? & T & _ & _ & _ & X & Hv'). injection T; intros; subst. Shapes.clash.
        -- destruct (tarmi_cc c2 c0 (v0 :: c3 :: c4 :: v' :: concat P) H1 Ha) as [T|[T|[T|T]]]; [| | |congruence].
           ++ apply tarmi_CCV in T as (? & ? & ? & T & _). discriminate.
           ++ apply tarmi_CCVC in T as (? & ? & ? & ? & T & _). discriminate.
           ++ apply tarmi_CCVCV in T as (? & ? & ? & ? & ? & T & _). discriminate.
      * unfold jvokaha_2. cbn [length]. eapply walk_fwd; try eassumption; [exact I|lia].
    + (* CVV *) rewrite (Hc ltac:(unfold cvv_like; rewrite Tp; reflexivity) eq_refl) in *. cbn [concat] in *.
      inversion He as [s0 l Hl E0 E1|s0 l Hl E0 E1]; subst t adda.
      2:{ exfalso. change [c; v1; v2] with ([c; v1] ++ [v2]) in E0. apply app_inj_tail in E0 as [_ ->]. Shapes.clash. }
      cbn [with_a]. unfold tosmabru_check. rewrite E0. rewrite (to_whole _ _ _ Hs) by (unfold cvv_like; rewrite Tp; reflexivity). reflexivity.
    + (* CV'V *) rewrite (Hc ltac:(unfold cvv_like; rewrite Tp; reflexivity) eq_refl) in *. cbn [concat] in *.
      inversion He as [s0 l Hl E0 E1|s0 l Hl E0 E1]; subst t adda.
      2:{ exfalso. change [c; v1; apostrophe; v2] with ([c; v1; apostrophe] ++ [v2]) in E0. apply app_inj_tail in E0 as [_ ->]. Shapes.clash. }
      cbn [with_a]. unfold tosmabru_check. rewrite E0. rewrite (to_whole _ _ _ Hs) by (unfold cvv_like; rewrite Tp; reflexivity). reflexivity.
    + (* CCV *) unfold tosmabru_check. rewrite with_a_cons, with_a_cons, to_cc by assumption. reflexivity.
    + (* CVCC *) assert (P = []) as -> by (destruct P; [reflexivity|]; exfalso; rewrite Tp in S; specialize (S ltac:(discriminate)); discriminate).
      cbn [concat] in *. assert (Ep : [c1; v; c2; c3] = [c1; v] ++ [c2; c3]) by reflexivity. rewrite Ep in *.
      destruct (part_rest _ _ _ _ _ _ He eq_refl H2) as [E1 E2]. rewrite E2.
      eapply tos_pass; [rewrite with_a_cons; apply to_cv; assumption|rewrite with_a_cons in E1; exact E1|apply valid_two|].
      unfold jvokaha_2. cbn [length]. rewrite j2_cc; [eauto|exact I|assumption].
    + (* CCVC *) unfold tosmabru_check. rewrite with_a_cons, with_a_cons, to_cc by assumption. reflexivity.
    + (* CVCCV *) assert (P = []) as -> by (destruct P; [reflexivity|]; exfalso; rewrite Tp in S; specialize (S ltac:(discriminate)); discriminate).
      cbn [concat] in *. inversion He as [s0 l Hl E0 E1|s0 l Hl E0 E1]; subst t adda.
      2:{ exfalso. change [c1; v; c2; c3; v'] with ([c1; v; c2; c3] ++ [v']) in E0. apply app_inj_tail in E0 as [_ ->]. Shapes.clash. }
      cbn [with_a]. unfold tosmabru_check. rewrite E0. rewrite to_cv by assumption. cbn [bind].
      rewrite (strip_whole [c2; c3; v'] c2 [c3; v'] [c2; c3] v') by (reflexivity || assumption).
      destruct (mems [c2; c3] INITIAL) eqn:Hi.
      * assert (T3 : rafsi_tarmi [c2; c3; v'] = CCV) by (tarmi_compute; reflexivity). rewrite T3.
        assert (B : forall A (k : bool -> res A), bind (if is_valid_rafsi [c2; c3; v'] false then Ok false else Ok false) k = k false) by (intros; destruct (is_valid_rafsi _ _); reflexivity).
        change (tarmi_eqb CCV CCV) with true. unfold idx. cbn [length nth_error app Nat.add bind]. change (negb (N.eqb c_h c_h)) with false. rewrite B.
        rewrite jvk_eq. assert (J : jvokaha_2 (y_hyphens st) (allow_mz st) [c2; c3; v'] = Ok [[c2; c3; v']]).
        { apply jvokaha_2_spec. split; [reflexivity|]. split; [|exact I]. left. exists "CCV"%string. split; [|intros _ ? X; discriminate].
          constructor; [apply initial_spec; exact Hi|apply is_vowel_spec; assumption]. }
        rewrite J. reflexivity.
      * replace (is_valid_rafsi [c2; c3; v'] false) with false.
        2:{ symmetry. destruct (is_valid_rafsi _ _) eqn:V; [|reflexivity]. apply valid_cc in V as [V _]; [congruence|assumption|assumption]. }
        cbn [bind]. destruct (j2_cc_bad 3 (y_hyphens st) (allow_mz st) [c2; c3; v'] [] c2 c3 [v'] I ltac:(assumption) ltac:(assumption) Hi) as (e & Ee & Ke).
        rewrite (jvk_of_j2 (y_hyphens st) CLUSTER false (allow_mz st) [c2; c3; v'] e Ee). destruct Ke as [-> | ->]; reflexivity.
    + (* CCVCV *) unfold tosmabru_check. rewrite with_a_cons, with_a_cons, to_cc by assumption. reflexivity.
  - destruct (rn_pair _ _ Hr) as (Hh & Hcc & Hi). rewrite Eps in *. cbn [concat] in *. rewrite Ec in *. cbn [app] in *.
    destruct (part_rest _ _ _ _ _ _ He eq_refl Hh) as [E1 E2]. rewrite E2.
    eapply tos_pass; [rewrite with_a_cons; eapply to_cvv; eassumption|rewrite <- with_a_cons; exact E1| |].
    + destruct (is_valid_rafsi _ _) eqn:V; [|reflexivity]. apply valid_cc in V as [V _]; [congruence|assumption|assumption].
    + unfold jvokaha_2. apply j2_cc_bad; auto. exact I.
Qed.
