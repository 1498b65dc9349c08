(** One iteration of the loop over y-parts in analyse_brivla, case by case. *)
From Verif Require Import Str Data Tarmi Rafsi Core Api Lib Spec Shapes Decomp Basic Vowels Katna Dict Errs Builder Jvokaha Fuel Raises Inv.

Definition start_hyphen (i : nat) (a : astate) : str := if i =? 0 then a_hyphen a else a_hyphen a ++ [c_y].
Definition with_hyphen (a : astate) (nh : str) : list str :=
  match nh with [] => a_parts a | _ => a_parts a ++ [nh] end.
Definition cluster_before (st : settings) (part : str) (a : astate) : bool :=
  if a_break a && (is_consonant (hd 0%N part) || (glides st && is_glide part)) then true else a_cluster a.
Definition mahor_after (i : nat) (part : str) (a : astate) : bool :=
  if (0 <? i) && (is_consonant (hd 0%N part) || is_glide part) then false else a_mahor a.

Inductive part_case (ana : ana_t) (jvk : jvk_t) (st : settings) (cm : bool) (ys : list str) (i : nat)
    (p0 : str) (a : astate) : astate -> Prop :=
| part_cvc h part : p0 = h ++ part -> part_head i p0 (start_hyphen i a) = Ok (part, start_hyphen i a ++ h) ->
    rafsi_tarmi part = CVC ->
    part_case ana jvk st cm ys i p0 a
      (mkA (with_hyphen a (start_hyphen i a ++ h) ++ [part]) [] (a_cluster a) (a_mahor a) true (a_cons a + 2))
| part_cll h part p found num cl : p0 = h ++ part ->
    part_head i p0 (start_hyphen i a) = Ok (part, start_hyphen i a ++ h) ->
    rafsi_tarmi part <> CVC -> part <> [] ->
    part_tail st cm ys i part (cluster_before st part a) = Ok p ->
    p_can p = true ->
    part_kaha ana st (part ++ [c_a]) p (a_cons a) (cluster_before st part a) = Ok (true, found, num, cl) ->
    jvokaha_2 (y_hyphens st) (allow_mz st) (p_copy p) = Ok found ->
    found <> [] -> (2 <= length found \/ is_valid_rafsi (hd [] found) (allow_mz st) = true) ->
    count_found found (a_cons a) (cluster_before st part a) = (num, cl) ->
    (i = 0 -> tosmabru_check jvk st p0 (p_part p) (p_adda p) = Ok tt) ->
    (tarmi_in (rafsi_tarmi (p_part p)) [CVV; CVhV] = true -> p_req p = true -> cl = false -> cm = false ->
       y_hyphens st <> STANDARD) ->
    part_case ana jvk st cm ys i p0 a
      (mkA (with_hyphen a (start_hyphen i a ++ h) ++ found) (p_hyphen p) cl (mahor_after i part a) false num)
| part_zihevla h part p num cl t : p0 = h ++ part ->
    part_head i p0 (start_hyphen i a) = Ok (part, start_hyphen i a ++ h) ->
    rafsi_tarmi part <> CVC -> part <> [] ->
    part_tail st cm ys i part (cluster_before st part a) = Ok p ->
    (if p_can p then part_kaha ana st (part ++ [c_a]) p (a_cons a) (cluster_before st part a)
     else Ok (false, [], a_cons a, cluster_before st part a)) = Ok (false, [], num, cl) ->
    check_zihevla_or_rafsi ana jvk (p_req p || negb (exp_rafsi_shapes st)) (y_hyphens st)
      (exp_rafsi_shapes st) (allow_mz st) (p_part p) = Ok t ->
    part_case ana jvk st cm ys i p0 a
      (mkA (with_hyphen a (start_hyphen i a ++ h) ++ [p_copy p]) (p_hyphen p)
           (if wtype_eqb t ZIhEVLA then true else cl) (mahor_after i part a) false
           (if is_consonant (hd 0%N (p_part p)) || (glides st && is_glide (p_part p)) then num + 1 else num)).

Lemma part_kaha_true : forall ana st pa p num cl found num' cl',
  part_kaha ana st pa p num cl = Ok (true, found, num', cl') ->
  jvokaha_2 (y_hyphens st) (allow_mz st) (p_copy p) = Ok found /\ found <> []
  /\ (2 <= length found \/ is_valid_rafsi (hd [] found) (allow_mz st) = true)
  /\ count_found found num cl = (num', cl').
Proof.
  intros ana st pa p num cl found num' cl' H. unfold part_kaha in H. inv_bind H.
  destruct (jvokaha_2 _ _ _) as [[|f0 fs]|e] eqn:Ej; [discriminate| |].
  - destruct ((length (f0 :: fs) <? 2) && negb (is_valid_rafsi f0 (allow_mz st))) eqn:E1 in H; [discriminate|].
    destruct (count_found _ _ _) eqn:E2 in H. injection H as <- <- <-.
    split; [reflexivity|]. split; [discriminate|]. split; [|exact E2].
    apply andb_false_iff in E1 as [E1|E1]; [left; apply Nat.ltb_ge in E1; exact E1|right; apply negb_false_iff in E1; exact E1].
  - destruct e; try discriminate; destruct (count_found _ _ _) in H; discriminate.
Qed.

Lemma analyse_part_inv : forall ana jvk st cm ys i p0 a a',
  analyse_part ana jvk st cm ys i p0 a = Ok a' -> part_case ana jvk st cm ys i p0 a a'.
Proof.
  intros ana jvk st cm ys i p0 a a' H. unfold analyse_part in H. cbv zeta in H.
  fold (start_hyphen i a) in H. inv_bind H. destruct x as [part nh].
  destruct (part_head_eq _ _ _ _ _ E) as (_ & Hne & _ & (h & -> & E0)).
  fold (with_hyphen a (start_hyphen i a ++ h)) in H.
  destruct (tarmi_eqb (rafsi_tarmi part) CVC) eqn:Ec.
  { injection H as <-. apply tarmi_eqb_eq in Ec. econstructor; eassumption. }
  assert (Ec' : rafsi_tarmi part <> CVC) by (intro G; rewrite G in Ec; discriminate).
  inv_bind H. apply idx0_ok in E1 as [r Er]. 
  assert (Eh : x = hd 0%N part) by (rewrite Er; reflexivity). subst x.
  fold (cluster_before st part a) in H. fold (mahor_after i part a) in H.
  inv_bind H. rename x into p. inv_bind H. destruct x as [[[did found] num] cl].
  destruct did.
  - inv_bind H. inv_bind H. injection H as <-.
    destruct (p_can p) eqn:Epc; [|discriminate].
    destruct (part_kaha_true _ _ _ _ _ _ _ _ _ E2) as (K1 & K2 & K3 & K4).
    econstructor; try eassumption.
    + intros ->. cbn in E4. destruct x0. exact E4.
    + intros G1 G2 G3 G4. rewrite G1, G2, G3, G4 in E3. cbn [andb negb] in E3. inv_bind E3.
      destruct (y_hyphens st); [discriminate|discriminate|discriminate].
  - assert (F : found = []).
    { destruct (p_can p); [|congruence]. eapply part_kaha_found; [exact E2|reflexivity]. }
    subst found. inv_bind H. inv_bind H. inv_bind H. injection H as <-.
    apply idx0_ok in E5 as [r' Er']. 
    assert (Eh : x1 = hd 0%N (p_part p)) by (rewrite Er'; reflexivity). subst x1.
    eapply part_zihevla; try eassumption.
    destruct (check_zihevla_or_rafsi _ _ _ _ _ _ _) as [t|e]; [congruence|destruct e; discriminate].
Qed.
