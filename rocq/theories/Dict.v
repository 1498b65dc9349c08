(** Facts about the dictionary of rafsi and its lookup. *)
From Verif Require Import Str Data Tarmi Rafsi Core Api Lib Spec Shapes.

(** ** Duplicate-free lists, checked bucket by bucket (first letter) *)
Fixpoint nodupb (l : list str) : bool :=
  match l with
  | [] => true
  | x :: r => negb (mems x r) && nodupb r
  end.
Lemma nodupb_NoDup : forall l, nodupb l = true -> NoDup l.
Proof.
  induction l as [|x l IH]; cbn; intro H; constructor.
  - apply andb_t in H as [H _]. apply negb_true_iff in H. intro F. apply mems_In in F. congruence.
  - apply andb_t in H as [_ H]. auto.
Qed.
Definition starts (c : char) (s : str) : bool := match s with x :: _ => N.eqb c x | [] => false end.
(** "P" is the initial of the one capitalised entry, "Pingo" (rafsi.py). *)
Definition bucket_letters : str := CONSONANTS ++ VOWELS ++ L "P".
Definition buckets (l : list str) : bool :=
  forallb (fun s => match s with c :: _ => memc c bucket_letters | [] => false end) l
  && forallb (fun c => nodupb (filter (starts c) l)) bucket_letters.
Lemma NoDup_split : forall (p : str -> bool) l x, NoDup (filter p l) -> p x = true ->
  forall a b, l = a ++ x :: b -> ~ In x (a ++ b).
Proof.
  intros p l x H Hx a b -> F. rewrite filter_app in H. cbn in H. rewrite Hx in H.
  apply NoDup_remove_2 in H. apply H. rewrite <- filter_app. apply filter_In. auto.
Qed.
Lemma buckets_NoDup : forall l, buckets l = true -> NoDup l.
Proof.
  intros l H. apply andb_t in H as [H1 H2].
  assert (G : forall x a b, l = a ++ x :: b -> ~ In x (a ++ b)).
  { intros x a b E. assert (Hx : In x l) by (rewrite E; apply in_elt).
    eapply forallb_forall in H1; [|exact Hx]. destruct x as [|c x]; [discriminate|].
    eapply (NoDup_split (starts c) l); [|cbn; apply N.eqb_refl|exact E].
    eapply forallb_forall in H2; [apply nodupb_NoDup; exact H2|].
    apply memc_In. exact H1. }
  clear H1 H2. induction l as [|x l IH]; constructor.
  - exact (G x [] l eq_refl).
  - apply IH. intros y a b E F. apply (G y (x :: a) b).
    + rewrite E. reflexivity.
    + right. assumption.
Qed.

Lemma short_NoDup : NoDup (flat_map snd RAFSI_LIST).
Proof. apply buckets_NoDup. vm_compute. reflexivity. Qed.
Lemma words_NoDup : NoDup (map fst RAFSI_LIST).
Proof. apply buckets_NoDup. vm_compute. reflexivity. Qed.

Lemma short_shapes : forall w rs r, In (w, rs) RAFSI_LIST -> In r rs ->
  shaped "CVC" r \/ shaped "CVV" r \/ shaped "CV'V" r \/ shaped "CCV" r.
Proof.
  intros w rs r Hw Hr.
  assert (G : forallb (fun kv => forallb (fun r => tarmi_in (rafsi_tarmi r) [CVC; CVV; CVhV; CCV]) (snd kv)) RAFSI_LIST = true)
    by (vm_compute; reflexivity).
  eapply forallb_forall in G; [|exact Hw]. eapply forallb_forall in G; [|exact Hr].
  cbn in G. rewrite !orb_true_iff, !tarmi_eqb_eq in G.
  decompose [or] G; try discriminate;
    match goal with E : rafsi_tarmi _ = _ |- _ => apply rafsi_tarmi_shaped in E; try discriminate; auto end.
Qed.

(** ** dict_get *)
Local Opaque RAFSI_LIST.
Lemma NoDup_fst_inj : forall (l : list (str * list str)) w a b,
  NoDup (map fst l) -> In (w, a) l -> In (w, b) l -> a = b.
Proof.
  induction l as [|[k v] l IH]; intros w a b Hd Ha Hb; [contradiction|].
  inversion Hd; subst. destruct Ha as [Ha|Ha], Hb as [Hb|Hb].
  - congruence.
  - injection Ha as -> ->. exfalso. apply H1. change w with (fst (w, b)). apply in_map. assumption.
  - injection Hb as -> ->. exfalso. apply H1. change w with (fst (w, a)). apply in_map. assumption.
  - eauto.
Qed.

Lemma dict_get_spec : forall w rs, dict_get w = Some rs <-> In (w, rs) RAFSI_LIST.
Proof.
  intros w rs. unfold dict_get. split.
  - destruct (find _ RAFSI_LIST) as [[k v]|] eqn:E; [|discriminate]. intro H. injection H as <-.
    apply find_some in E as [E1 E2]. apply str_eqb_eq in E2. cbn in E2. subst k. exact E1.
  - intro H. destruct (find _ RAFSI_LIST) as [[k v]|] eqn:E.
    + apply find_some in E as [E1 E2]. apply str_eqb_eq in E2. cbn in E2. subst k. cbn.
      f_equal. eapply NoDup_fst_inj; [apply words_NoDup|exact E1|exact H].
    + eapply find_none in E; [|exact H]. cbn in E. rewrite str_eqb_refl in E. discriminate.
Qed.

(** ** Search *)
Lemma short_unique : forall (l : list (str * list str)) w rs w' rs' r, NoDup (flat_map snd l) ->
  In (w, rs) l -> In (w', rs') l -> In r rs -> In r rs' -> (w, rs) = (w', rs').
Proof.
  induction l as [|[k v] l IH]; intros w rs w' rs' r Hd H1 H2 Hr Hr'; [contradiction|].
  cbn in Hd.
  assert (app_l : forall (a b : list str), NoDup (a ++ b) -> NoDup b /\ forall x, In x a -> ~ In x b).
  { induction a as [|x a IHa]; intros b Hn; cbn in *; [auto|]. inversion Hn; subst.
    destruct (IHa b H4) as [G1 G2]. split; [assumption|]. intros y [<-|Hy].
    - intro F. apply H3. apply in_or_app. auto.
    - auto. }
  destruct (app_l _ _ Hd) as [Hd1 Hd2].
  destruct H1 as [H1|H1], H2 as [H2|H2].
  - congruence.
  - injection H1 as -> ->. exfalso. apply (Hd2 r Hr). apply in_flat_map. exists (w', rs'). auto.
  - injection H2 as -> ->. exfalso. apply (Hd2 r Hr'). apply in_flat_map. exists (w, rs). auto.
  - eauto.
Qed.

Lemma dict_find_spec : forall r w, dict_find r = Some w <-> exists rs, In (w, rs) RAFSI_LIST /\ In r rs.
Proof.
  intros r w. unfold dict_find. split.
  - destruct (find _ RAFSI_LIST) as [[k v]|] eqn:E; [|discriminate]. intro H. injection H as <-.
    apply find_some in E as [E1 E2]. apply mems_In in E2. eauto.
  - intros (rs & H1 & H2). destruct (find _ RAFSI_LIST) as [[k v]|] eqn:E.
    + apply find_some in E as [E1 E2]. apply mems_In in E2. cbn [snd] in E2.
      assert (F := short_unique _ _ _ _ _ _ short_NoDup E1 H1 E2 H2). injection F as -> ->. reflexivity.
    + eapply find_none in E; [|exact H1]. cbn [snd] in E. apply mems_In in H2. rewrite H2 in E. discriminate.
Qed.

Lemma gismu_of_four_some : forall r w, gismu_of_four r = Some w ->
  exists v rs, w = r ++ [v] /\ vowel v /\ In (w, rs) RAFSI_LIST.
Proof.
  intros r w H. unfold gismu_of_four in H. destruct (find _ _) as [v|] eqn:E; [|discriminate].
  injection H as <-. apply find_some in E as [E1 E2].
  destruct (dict_get (r ++ [v])) as [rs|] eqn:F; [|discriminate].
  exists v, rs. split; [reflexivity|]. split; [exact E1|]. apply dict_get_spec. assumption.
Qed.

Lemma search_sound : forall r w, search_selrafsi_from_rafsi r = Some w ->
  (exists rs, In (w, rs) RAFSI_LIST /\ In r rs)
  \/ (length r = 4 /\ exists v rs, vowel v /\ w = r ++ [v] /\ In (w, rs) RAFSI_LIST).
Proof.
  intros r w H. unfold search_selrafsi_from_rafsi in H.
  destruct (negb _ && _ && _) eqn:E.
  - apply andb_t in E as [E _]. apply andb_t in E as [_ E]. apply Nat.eqb_eq in E.
    destruct (gismu_of_four r) as [g|] eqn:F.
    + injection H as <-. right. split; [assumption|].
      destruct (gismu_of_four_some _ _ F) as (v & rs & H1 & H2 & H3). eauto.
    + left. apply dict_find_spec. assumption.
  - left. apply dict_find_spec. assumption.
Qed.

Lemma search_complete : forall r w rs, In (w, rs) RAFSI_LIST -> In r rs ->
  search_selrafsi_from_rafsi r = Some w.
Proof.
  intros r w rs Hw Hr. unfold search_selrafsi_from_rafsi.
  assert (E : (length r =? 4) && negb (memc c_h r) = false).
  { destruct (short_shapes _ _ _ Hw Hr) as [H|[H|[H|H]]]; inv_shaped H; try reflexivity.
    unfold apostrophe in *. subst.
    cbn [length Nat.eqb andb]. apply negb_false_iff. apply memc_In. cbn. tauto. }
  rewrite <- andb_assoc, E, andb_false_r. apply dict_find_spec. eauto.
Qed.

Lemma search_gismu : forall r v rs, In (r ++ [v], rs) RAFSI_LIST -> length r = 4 -> vowel v ->
  ~ In apostrophe r -> r <> L "brod" ->
  exists v' rs', vowel v' /\ In (r ++ [v'], rs') RAFSI_LIST /\ search_selrafsi_from_rafsi r = Some (r ++ [v']).
Proof.
  intros r v rs Hd Hl Hv Hh Hb. unfold search_selrafsi_from_rafsi.
  assert (E : negb (str_eqb r (L "brod")) && (length r =? 4) && negb (memc c_h r) = true).
  { rewrite Hl. cbn [Nat.eqb]. rewrite andb_true_r. apply andb_true_iff. split; apply negb_true_iff.
    - apply str_eqb_neq. assumption.
    - destruct (memc c_h r) eqn:F; [|reflexivity]. apply memc_In in F. contradiction. }
  rewrite E. destruct (gismu_of_four r) as [g|] eqn:F.
  - destruct (gismu_of_four_some _ _ F) as (v' & rs' & -> & H2 & H3). eauto.
  - exfalso. unfold gismu_of_four in F. destruct (find _ VOWELS) eqn:G; [discriminate|].
    eapply find_none in G; [|exact Hv]. cbn in G. apply dict_get_spec in Hd. rewrite Hd in G. discriminate.
Qed.
