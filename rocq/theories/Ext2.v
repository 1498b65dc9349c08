(** Words built with zi'evla components: what the parts between the letters y
    look like. *)
From Verif Require Tosm.
From Verif Require Import Str Data Tarmi Rafsi Core Api Lib Spec Shapes Decomp Basic Vowels Katna Dict Errs Builder Jvokaha Fuel Raises Inv Parts Clusters Zihevla Forms Chain Score Alt Lujvo Slinku Optimal Props1 Props2 Props3 Total Onset Pinned Found Props4 Props5 Props8 Props9 Joint Swap Unique Round Ext.

(** ** Components *)
Record zi (st : settings) (r : str) : Prop := {
  z_check : check_zihevla_or_rafsi (analyse_brivla Bound) (jvk Bound) true (y_hyphens st) (exp_rafsi_shapes st) (allow_mz st) r = Ok ZIhEVLA;
  z_other : rafsi_tarmi r = OTHER_RAFSI;
  z_letters : Forall (fun c => is_lojban_letter c = true) r;
  z_end : exists s l, r = s ++ [l] /\ is_vowel l = true;
  z_nocut : forall arr, jvokaha_2 (y_hyphens st) (allow_mz st) r <> Ok arr
}.
Definition cpiece (st : settings) (p : pc) : Prop := cll (allow_mz st) (p_r p) /\ kind_of (p_r p) (p_t p).
Definition zpiece (st : settings) (p : pc) : Prop := p_t p = LONG_BRIVLA /\ zi st (p_r p).

(** ** Runs of CLL rafsi *)
Fixpoint run (mz : bool) (P : list str) : Prop :=
  match P with
  | [] => False
  | r :: P' => cll mz r /\
      match P' with
      | [] => True
      | q :: _ => tarmi_in (rafsi_tarmi r) [CVC; CVV; CVhV; CCV] = true
          /\ (rafsi_tarmi r = CVC -> permissible mz (last r 0%N) (hd 0%N q) /\ ~ forbidden_triple (last r 0%N) (hd 0%N q) (nth 1 q 0%N))
          /\ run mz P'
      end
  end.
Lemma run_cll : forall mz P, run mz P -> Forall (cll mz) P.
Proof.
  induction P as [|r P IH]; intros H; [constructor|]. destruct H as [H H']. constructor; [exact H|]. destruct P as [|q P]; [constructor|].
  apply IH, H'.
Qed.
Lemma run_short : forall mz P, run mz P -> short_run P.
Proof.
  induction P as [|r P IH]; intros H; [exact I|]. destruct H as [H H']. cbn [short_run]. destruct P as [|q P]; [split; [congruence|exact I]|].
  split; [intros _; apply H'|]. apply IH, H'.
Qed.
Lemma run_ne : forall mz P, run mz P -> P <> [].
Proof. intros mz [|r P] H; [destruct H|discriminate]. Qed.
Lemma cll_three : forall mz r X, cll mz r -> exists b t, r ++ X = hd 0%N r :: b :: t /\ b = nth 1 r 0%N.
Proof. intros mz r X H. destruct (cll_first _ _ H) as (a & b & c & t & -> & _). do 2 eexists. split; reflexivity. Qed.
Lemma run_cut : forall rn hy mz P prev, run mz P -> cut rn hy mz prev P.
Proof.
  induction P as [|r P IH]; intros prev H; [exact I|]. destruct H as [(s & Hs) H']. split.
  - left. exists s. split; [exact Hs|]. pose proof (cll_tarmi _ _ _ Hs) as T. destruct P as [|q P].
    + inversion Hs; subst; auto; try (intros; discriminate). intros c1' v' c2' E. split; intros; discriminate.
    + destruct H' as (K & J & R). pose proof (Forall_inv (run_cll _ _ R)) as Cq. destruct (cll_three _ _ (concat P) Cq) as (b & t & Eq & Eb).
      inversion Hs; subst s r; rewrite T in *; try discriminate; auto.
      * intros a1 a2 a3 E. injection E as <- <- <-. destruct (J eq_refl) as [J1 J2]. cbn [last] in *. cbn [concat]. rewrite Eq. split.
        -- intros c t' E Hc. injection E as <- _. exact J1.
        -- intros c d t' E. injection E as <- <- _. rewrite Eb. exact J2.
      * intros _ t' E. injection E as -> _. destruct (cll_first _ _ Cq) as (a & b' & c' & t'' & E & _). discriminate.
  - destruct P as [|q P]; [exact I|]. apply IH, H'.
Qed.

(** ** One link *)
Lemma kind_tarmi : forall mz r x, usable mz r (Tar x) -> rafsi_tarmi r = x.
Proof. intros mz r x U. exact (proj1 (u_tarmi _ _ _ U x eq_refl)). Qed.
Lemma bare_cll : forall gen st n fi p g q, link gen st n fi p g q -> p_suf p = [] -> cpiece st p \/ zpiece st p ->
  cpiece st p /\ tarmi_in (rafsi_tarmi (p_r p)) [CVC; CVV; CVhV; CCV] = true.
Proof.
  intros gen st n fi p g q L S K. pose proof (l_suf _ _ _ _ _ _ _ L) as Sf. rewrite S in Sf. apply bare_cases in Sf as (x & Et & Hx).
  pose proof (l_usable _ _ _ _ _ _ _ L) as U. rewrite Et in U. apply kind_tarmi in U. rewrite U. split.
  - destruct K as [K|[K _]]; [exact K|congruence].
  - destruct Hx as [->|[->|[->| ->]]]; reflexivity.
Qed.
Lemma vowel_part : forall (r s : str) l, r = s ++ [l] -> is_vowel l = true -> part_end r [c_h] false.
Proof. intros r s l -> H. constructor. exact H. Qed.
Lemma cons_part : forall (r s : str) l, r = s ++ [l] -> is_consonant l = true -> part_end r [] true.
Proof. intros r s l -> H. constructor. exact H. Qed.
Lemma vowel_tarmi_end : forall mz r, cll mz r -> tarmi_in (rafsi_tarmi r) [CVV; CVhV; CCV; CVCCV; CCVCV] = true -> part_end r [c_h] false.
Proof.
  intros mz r (s & H) T. rewrite (cll_tarmi _ _ _ H) in T. inversion H; subst; try discriminate; bfacts.
  - apply (vowel_part _ [c; v1] v2); [reflexivity|assumption].
  - apply (vowel_part _ [c; v1; apostrophe] v2); [reflexivity|assumption].
  - apply (vowel_part _ [c1; c2] v); [reflexivity|assumption].
  - apply (vowel_part _ [c1; v; c2; c3] v'); [reflexivity|assumption].
  - apply (vowel_part _ [c1; c2; v; c3] v'); [reflexivity|assumption].
Qed.
Lemma cons_tarmi_end : forall mz r, cll mz r -> tarmi_in (rafsi_tarmi r) [CVC; CVCC; CCVC] = true -> part_end r [] true.
Proof.
  intros mz r (s & H) T. rewrite (cll_tarmi _ _ _ H) in T. inversion H; subst; try discriminate; bfacts.
  - apply (cons_part _ [c1; v] c2); [reflexivity|assumption].
  - apply (cons_part _ [c1; v; c2] c3); [reflexivity|assumption].
  - apply (cons_part _ [c1; c2; v] c3); [reflexivity|assumption].
Qed.
Lemma split_here : forall t l, t = [] \/ t = [c_h] -> split_y (t ++ c_y :: l) = Some (t, l).
Proof. intros t l [->| ->]; reflexivity. Qed.
Lemma link_kinds : forall st n fi p g q, link false st n fi p g q -> cpiece st p \/ zpiece st p -> cpiece st q \/ zpiece st q ->
  (gap_of p g q = [] /\ p_suf p = [] /\ g = [] /\ cpiece st p /\ cpiece st q /\ tarmi_in (rafsi_tarmi (p_r p)) [CVC; CVV; CVhV; CCV] = true
     /\ prefix_of false (p_r q) = [] /\ (fi = true -> cvv_like (p_r p) = true -> n = 2))
  \/ (exists h, gap_of p g q = [h] /\ h <> c_y /\ rn_before h (hd 0%N (p_r q)) /\ fi = true /\ cvv_like (p_r p) = true /\ y_hyphens st <> FORCE_Y
        /\ cpiece st p /\ cpiece st q /\ prefix_of false (p_r q) = [])
  \/ (exists t adda, split_y (gap_of p g q) = Some (t, prefix_of false (p_r q)) /\ part_end (p_r p) t adda
        /\ (fi = true -> y_hyphens st = STANDARD -> cvv_like (p_r p) = true -> prefix_of false (p_r q) = [c_h])).
Proof.
  intros st n fi p g q L Kp Kq. pose proof (l_glued _ _ _ _ _ _ _ L) as G. pose proof (l_suf _ _ _ _ _ _ _ L) as Sf. unfold gap_of.
  destruct (p_suf p) as [|c0 sf] eqn:Es.
  - destruct (bare_cll _ _ _ _ _ _ _ L Es Kp) as [Cp Tp]. destruct (l_bare _ _ _ _ _ _ _ L Es) as [Pq Oq].
    assert (Cq : cpiece st q) by (destruct Kq as [K|[_ K]]; [exact K|exfalso; apply Oq, (z_other _ _ K)]).
    assert (Hq : is_consonant (hd 0%N (p_r q)) = true) by (destruct (cll_first _ _ (proj1 Cq)) as (a & b & c & t & -> & Ha & _); exact Ha).
    rewrite Pq in *. inversion G as [G1 G2 G3|G1 G2|G1 G2 G3 G4 G5 G6|G1 G2 G3 G4 G5 G6 G7|G1 G2 G3 G4 G5 G6 G7]; subst g; try discriminate.
    + left. repeat split; try assumption; try apply Cp; try apply Cq. intros -> Hc. apply (G3 eq_refl Hc eq_refl).
    + right. right. exists [c_h], false. split; [reflexivity|]. split; [|congruence]. apply andb_t in G2 as [_ G2].
      eapply vowel_tarmi_end; [exact (proj1 Cp)|]. unfold cvv_like in G2. destruct (rafsi_tarmi (p_r p)); try discriminate; reflexivity.
    + right. left. exists c_n. apply andb_t in G2 as [Gf G2]. repeat split; try assumption; try discriminate; try apply Cp; try apply Cq. left. auto.
    + right. left. exists c_r. apply andb_t in G2 as [Gf G2]. repeat split; try assumption; try discriminate; try apply Cp; try apply Cq. right. auto.
  - right. right. pose proof (l_usable _ _ _ _ _ _ _ L) as U. rewrite <- Es in *.
    assert (Long : p_t p = LONG_BRIVLA \/ p_t p = Tar CCVCV \/ p_t p = Tar CVCCV -> part_end (p_r p) [c_h] false).
    { intros X. destruct Kp as [[C K]|[_ K]].
      - eapply vowel_tarmi_end; [exact C|]. destruct X as [X|[X|X]]; [|rewrite X in U; apply kind_tarmi in U; rewrite U; reflexivity..].
        destruct K as [K|[[K _]|[_ [K|K]]]]; try congruence; rewrite K; reflexivity.
      - destruct (z_end _ _ K) as (s & l & E & Hl). eapply vowel_part; eassumption. }
    assert (Nz : (exists x, p_t p = Tar x) \/ p_t p = SHORT_BRIVLA -> cpiece st p) by (intros X; destruct Kp as [K|[K _]]; [exact K|destruct X as [[x X]|X]; congruence]).
    inversion Sf as [t La X E1 E2|t La X E1 E2|t La X E1 E2|t La X E1 E2|La E1 E2|La Hf E1 E2|La Hf E1 E2|t X E1 E2|t Hf X E1 E2|t Hf La X E1 E2|E1 E2|E1 E2|E1 E2|La E1 E2];
      rewrite <- ?E1, <- ?E2 in *; try discriminate;
      (inversion G as [G1 G2 G3|G1 G2|G1 G2 G3 G4 G5 G6|G1 G2 G3 G4 G5 G6 G7|G1 G2 G3 G4 G5 G6 G7]; subst g; try discriminate; try congruence).
    + (* short, y *) assert (C : cpiece st p) by (apply Nz; destruct X as [->|[->| ->]]; eauto).
      assert (T : rafsi_tarmi (p_r p) = CVCC \/ rafsi_tarmi (p_r p) = CCVC).
      { destruct X as [X|[X|X]]; rewrite X in *; [|apply kind_tarmi in U; auto..].
        destruct C as [_ [K|[[_ K]|[K _]]]]; try rewrite <- E1 in K; try discriminate. destruct K; auto. }
      exists [], true. split; [reflexivity|]. split; [eapply cons_tarmi_end; [exact (proj1 C)|destruct T as [-> | ->]; reflexivity]|].
      intros _ _ Hc. unfold cvv_like in Hc. destruct T as [T|T]; rewrite T in Hc; discriminate.
    + (* long *) exists [c_h], false. split; [reflexivity|]. split; [exact (Long X)|]. intros _ _ Hc. unfold cvv_like in Hc. exfalso.
      destruct Kp as [[C K]|[_ K]]; [|rewrite (z_other _ _ K) in Hc; discriminate].
      destruct X as [X|[X|X]]; rewrite X in *; [|apply kind_tarmi in U; rewrite U in Hc; discriminate..].
      rewrite <- E1 in K. destruct K as [K|[[K _]|[_ [K|K]]]]; try discriminate; rewrite K in Hc; discriminate.
    + exfalso. destruct Kp as [[_ [K|[[K _]|[K _]]]]|[K _]]; rewrite <- E1 in K; discriminate.
    + exfalso. destruct Kp as [[_ [K|[[K _]|[K _]]]]|[K _]]; rewrite <- E1 in K; discriminate.
    + (* CVV' *) assert (C : cpiece st p) by (apply Nz; destruct X as [->| ->]; eauto).
      exists [c_h], false. split; [reflexivity|]. split.
      * eapply vowel_tarmi_end; [exact (proj1 C)|]. destruct X as [X|X]; rewrite X in *; apply kind_tarmi in U; rewrite U; reflexivity.
      * intros _ St _. destruct (l_std _ _ _ _ _ _ _ L (eq_sym E2)) as [K|K]; [exact K|contradiction].
    + assert (C : cpiece st p) by (apply Nz; destruct X as [->| ->]; eauto).
      exists [c_h], false. split; [reflexivity|]. split; [|congruence].
      eapply vowel_tarmi_end; [exact (proj1 C)|]. destruct X as [X|X]; rewrite X in *; apply kind_tarmi in U; rewrite U; reflexivity.
    + assert (C : cpiece st p) by (apply Nz; eauto). apply kind_tarmi in U.
      exists [c_h], false. split; [reflexivity|]. split; [|intros _ _ Hc; unfold cvv_like in Hc; rewrite U in Hc; discriminate].
      eapply vowel_tarmi_end; [exact (proj1 C)|]. rewrite U; reflexivity.
    + assert (C : cpiece st p) by (apply Nz; eauto). apply kind_tarmi in U.
      exists [], true. split; [reflexivity|]. split; [|intros _ _ Hc; unfold cvv_like in Hc; rewrite U in Hc; discriminate].
      eapply cons_tarmi_end; [exact (proj1 C)|]. rewrite U; reflexivity.
Qed.

(** ** Parts *)
Definition crun (st : settings) (fi : bool) (ps : list str) : Prop :=
  run (allow_mz st) ps
  \/ (fi = true /\ y_hyphens st <> FORCE_Y /\ exists p0 h P, ps = p0 :: [h] :: P /\ cll (allow_mz st) p0 /\ cvv_like p0 = true
        /\ run (allow_mz st) P /\ rn_before h (hd 0%N (concat P))).
Inductive part_ok (st : settings) (fi la : bool) : part -> Prop :=
| po_zi r t : zi st r -> t = (if la then [] else [c_h]) -> part_ok st fi la (prefix_of fi r, [r], t)
| po_cll ps t adda : crun st fi ps -> (la = true -> t = [] /\ exists s l, concat ps = s ++ [l] /\ is_vowel l = true) ->
    (la = false -> part_end (concat ps) t adda) -> part_ok st fi la ([], ps, t).
Definition std_ok (st : settings) (fi : bool) (x : part) (l : str) : Prop :=
  fi = true -> y_hyphens st = STANDARD -> forall p0, snd (fst x) = [p0] -> cvv_like p0 = true -> l = [c_h].
Fixpoint good_parts (st : settings) (fi : bool) (xs : list part) : Prop :=
  match xs with
  | [] => False
  | x :: more =>
      match more with
      | [] => part_ok st fi true x
      | y :: _ => part_ok st fi false x /\ std_ok st fi x (fst (fst y)) /\ good_parts st false more
      end
  end.
Lemma parts_head : forall rest lead p, exists ps t more, parts_of lead p rest = (lead, p_r p :: ps, t) :: more.
Proof.
  intros rest lead p. destruct rest as [|[g q] r]; cbn [parts_of]; [do 3 eexists; reflexivity|].
  destruct (split_y (gap_of p g q)) as [[t l]|]; [do 3 eexists; reflexivity|].
  destruct (parts_ne r [] q) as (ps & t & more & -> & _). do 3 eexists. reflexivity.
Qed.
Lemma part_end_app : forall (x s t : str) adda, part_end s t adda -> part_end (x ++ s) t adda.
Proof. intros x s t adda H. inversion H; subst; rewrite app_assoc; constructor; assumption. Qed.
Lemma part_ok_more : forall st fi la ps t x ps', part_ok st false la ([], ps, t) -> run (allow_mz st) ps -> concat ps' = x ++ concat ps -> crun st fi ps' ->
  part_ok st fi la ([], ps', t).
Proof.
  intros st fi la ps t x ps' H R E C. inversion H as [r t' Hz Et E1|ps0 t' adda R' E1 E2 E3]; subst.
  - exfalso. destruct R as [R _]. apply cll_tarmi_ne in R as [R _]. apply R, (z_other _ _ Hz).
  - eapply po_cll; [exact C| |].
    + intros La. destruct (E1 La) as (-> & s & l & Es & Hl). split; [reflexivity|]. exists (x ++ s), l. split; [rewrite E, Es, app_assoc; reflexivity|exact Hl].
    + intros La. rewrite E. apply part_end_app, E2, La.
Qed.
Lemma part_run : forall st la q ps t, part_ok st false la ([], q :: ps, t) -> cll (allow_mz st) q -> run (allow_mz st) (q :: ps).
Proof.
  intros st la q ps t H C. inversion H as [r t' Hz Et E1|ps0 t' adda R' E1 E2 E3]; subst.
  - exfalso. apply cll_tarmi_ne in C as [C _]. apply C, (z_other _ _ Hz).
  - destruct R' as [R|[R _]]; [exact R|discriminate].
Qed.
Lemma good_first : forall st fi fi' x x' more, good_parts st fi (x :: more) -> (forall la, part_ok st fi la x -> part_ok st fi' la x') ->
  (forall l, std_ok st fi' x' l) -> good_parts st fi' (x' :: more).
Proof.
  intros st fi fi' x x' more H H1 H2. destruct more as [|y more]; cbn [good_parts] in *; [apply H1, H|].
  destruct H as (A & _ & B). split; [apply H1, A|]. split; [apply H2|exact B].
Qed.
Lemma parts_good : forall st n rest fi p lead, linked false st n fi p rest -> Forall (fun q => cpiece st q \/ zpiece st q) (p :: map snd rest) ->
  (exists s l, p_r (last (map snd rest) p) = s ++ [l] /\ is_vowel l = true) -> lead = prefix_of fi (p_r p) ->
  good_parts st fi (parts_of lead p rest).
Proof.
  intros st n. induction rest as [|[g q] r IH]; intros fi p lead Hl F He ->.
  - cbn [parts_of good_parts]. apply Forall_inv in F. destruct F as [[C K]|[K Z]].
    + rewrite (cll_prefix _ _ _ C). destruct He as (s & l & E & Hv). eapply (po_cll _ _ _ _ _ true).
      * left. split; [exact C|exact I].
      * intros _. split; [reflexivity|]. exists s, l. split; [|exact Hv]. cbn [concat]. rewrite app_nil_r. exact E.
      * discriminate.
    + constructor; [exact Z|reflexivity].
  - destruct Hl as [L Hl]. cbn [map snd] in F. pose proof (Forall_inv F) as Kp. pose proof (Forall_inv_tail F) as F'. pose proof (Forall_inv F') as Kq.
    assert (He' : exists s l, p_r (last (map snd r) q) = s ++ [l] /\ is_vowel l = true) by (rewrite last_snd in He; exact He).
    cbn [parts_of]. destruct (link_kinds _ _ _ _ _ _ L Kp Kq) as [(G & S & Eg & Cp & Cq & T & Pq & _)|[(h & G & Hy & Hr & -> & Hc & Hf & Cp & Cq & Pq)|(t & adda & G & Pe & St)]].
    + rewrite G. cbn [split_y]. pose proof (IH false q [] Hl F' He' (eq_sym Pq)) as B. destruct (parts_head r [] q) as (ps & t & more & Ep). rewrite Ep in *.
      rewrite (cll_prefix _ _ _ (proj1 Cp)). cbn [gp app].
      eapply good_first; [exact B| |intros l _ _ p0 E; discriminate].
      intros la H. pose proof (part_run _ _ _ _ _ H (proj1 Cq)) as R.
      apply (part_ok_more st fi la (p_r q :: ps) t (p_r p) (p_r p :: p_r q :: ps) H R); [reflexivity|]. left. split; [exact (proj1 Cp)|].
      split; [exact T|]. split; [|exact R]. intros Tc. destruct (l_pair _ _ _ _ _ _ _ L S Eg _ _ eq_refl eq_refl) as [J1 J2].
      destruct (cll_three _ _ (p_suf q) (proj1 Cq)) as (b & tt & Eq & Eb). apply tarmi_CVC in Tc as (c1 & v & c2 & Ec & _ & _ & Hc2). rewrite Ec in *. cbn [last] in *. split.
      * apply J1; [exact Hc2|]. destruct (cll_first _ _ (proj1 Cq)) as (a & b' & c' & t' & -> & Ha & _). exact Ha.
      * rewrite <- Eb. eapply J2. exact Eq.
    + rewrite G. cbn [split_y]. destruct (N.eqb_spec h c_y) as [X|_]; [contradiction|].
      pose proof (IH false q [] Hl F' He' (eq_sym Pq)) as B. destruct (parts_head r [] q) as (ps & t & more & Ep). rewrite Ep in *.
      rewrite (cll_prefix _ _ _ (proj1 Cp)). cbn [gp app].
      eapply good_first; [exact B| |intros l _ _ p0 E; discriminate].
      intros la H. pose proof (part_run _ _ _ _ _ H (proj1 Cq)) as R.
      apply (part_ok_more st true la (p_r q :: ps) t (p_r p ++ [h]) (p_r p :: [h] :: p_r q :: ps) H R).
      * cbn [concat]. rewrite <- !app_assoc. reflexivity.
      * right. split; [reflexivity|]. split; [exact Hf|]. exists (p_r p), h, (p_r q :: ps). split; [reflexivity|]. split; [exact (proj1 Cp)|]. split; [exact Hc|]. split; [exact R|].
        cbn [concat]. destruct (cll_first _ _ (proj1 Cq)) as (a & b' & c' & t' & E & Ha & _). rewrite E in *. exact Hr.
    + rewrite G. destruct (parts_head r (prefix_of false (p_r q)) q) as (ps & t' & more & Ep).
      pose proof (IH false q _ Hl F' He' eq_refl) as B. rewrite Ep in *.
      assert (Pk : part_ok st fi false (prefix_of fi (p_r p), [p_r p], t)).
      { destruct Kp as [[C K]|[K Z]].
        - rewrite (cll_prefix _ _ _ C). eapply po_cll; [left; split; [exact C|exact I]|discriminate|]. intros _. cbn [concat]. rewrite app_nil_r. exact Pe.
        - constructor; [exact Z|]. destruct (z_end _ _ Z) as (s & l & E & Hv). inversion Pe as [s' l' Hv' E' E2|s' l' Hv' E' E2]; [reflexivity|]. exfalso.
          rewrite E in E'. apply app_inj_tail in E' as [_ ->]. rewrite (v_f0 _ Hv) in Hv'. discriminate. }
      split; [exact Pk|]. split; [|exact B]. intros Ef Es p0 E Hc. cbn [fst snd] in *. injection E as <-. exact (St Ef Es Hc).
Qed.

(** ** The first part *)
Definition form (fi : bool) (p : pc) : str := prefix_of fi (p_r p) ++ p_r p ++ p_suf p.
Lemma pieces_forms : forall st n ch ps, pieces st n ch ps -> exists p rest, ps = p :: rest /\ map fst ch = form true p :: map (form false) rest.
Proof.
  induction 1 as [x [[r t] suf] H|l ps x [[r t] suf] H IH Hp].
  - exists (r, t, suf), []. split; [reflexivity|]. destruct H as (_ & E & _). cbn [map]. rewrite E. reflexivity.
  - destruct IH as (p & rest & -> & E). exists p, (rest ++ [(r, t, suf)]). split; [reflexivity|]. destruct Hp as (_ & Ex & _).
    rewrite !map_app, E. cbn [map app]. rewrite Ex. reflexivity.
Qed.
Lemma cvc_kind : forall (r : str) t, kind_of r t -> rafsi_tarmi r = CVC -> t = Tar CVC.
Proof. intros r t [K|[[_ [K|K]]|[_ [K|K]]]] T; congruence. Qed.
Lemma form_cll : forall mz fi p, cll mz (p_r p) -> form fi p = p_r p ++ p_suf p.
Proof. intros mz fi p C. unfold form. rewrite (cll_prefix _ _ _ C). reflexivity. Qed.
Lemma suffixed_hys : forall fi la t suf, suffixed fi la t suf -> forallb is_hy suf = true.
Proof. intros fi la t suf H. inversion H; reflexivity. Qed.
Ltac use_initial Ht Hi := match type of Ht with context [negb (mems ?x INITIAL)] => replace (mems x INITIAL) with true in Ht by (symmetry; exact Hi) end.
Lemma tos_holds : forall st n r q prev ps t more, linked false st n false q r -> Forall (fun q => cpiece st q \/ zpiece st q) (q :: map snd r) ->
  cpiece st q -> p_suf (last (map snd r) q) = [] ->
  tosrun TOSMABRU prev (map (form false) (q :: map snd r)) = Some 0 -> parts_of [] q r = ([], ps, t) :: more -> holds (last prev 0%N) ps.
Proof.
  intros st n. induction r as [|[g q'] r IH]; intros q prev ps t more Hl F Cq Hs Ht Ep.
  - cbn in Ep. injection Ep as <- <- <-. cbn [map last] in *. cbn [tosrun] in Ht. rewrite (form_cll _ _ _ (proj1 Cq)), Hs in Ht.
    destruct (cll_other _ _ [] (proj1 Cq) eq_refl) as [T1 _]. rewrite T1 in Ht. cbn [holds]. rewrite app_nil_r in *. intros Hi.
    unfold next_tosmabru in Ht. cbn [Nat.eqb TOSMABRU] in Ht. use_initial Ht Hi. cbn [negb] in Ht. split; intros T; rewrite T in Ht; tq.
    + exfalso. destruct (cll_last _ _ (proj1 Cq)) as (s & d & E & Hd). change (tarmi_eqb CVC CVCCV) with false in Ht. change (tarmi_eqb CVC CVC) with true in Ht. cbv iota in Ht.
      rewrite E, last_opt_app in Ht. apply vc_not_hy in Hd. destruct (N.eqb d c_y) eqn:Ed; [apply N.eqb_eq in Ed; rewrite Ed in Hd; discriminate|]. discriminate.
    + change (tarmi_eqb CVCCV CVCCV) with true in Ht. cbv iota in Ht. destruct (mems (slice 2 4 (p_r q)) INITIAL); [discriminate|reflexivity].
  - destruct Hl as [L Hl]. pose proof (Forall_inv_tail F) as F'. pose proof (Forall_inv F') as Kq'. cbn [map snd] in Ht, F', Kq'.
    pose proof (l_suf _ _ _ _ _ _ _ L) as Sf. pose proof (suffixed_hys _ _ _ _ Sf) as Sh.
    cbn [map tosrun] in Ht. rewrite (form_cll _ _ _ (proj1 Cq)) in Ht. destruct (cll_other _ _ _ (proj1 Cq) Sh) as [T1 _]. rewrite T1 in Ht.
    destruct (parts_head ((g, q') :: r) [] q) as (ps' & t' & more' & Ep'). rewrite Ep' in Ep. injection Ep as <- <- <-.
    cbn [holds]. intros Hi. destruct (cll_hd _ _ (p_suf q) (proj1 Cq)) as (Hd & _ & _ & _).
    unfold next_tosmabru in Ht. rewrite Hd in Ht. cbn [Nat.eqb TOSMABRU] in Ht. use_initial Ht Hi. cbn [negb] in Ht. split; intros T; rewrite T in Ht.
    + change (tarmi_eqb CVC CVCCV) with false in Ht. change (tarmi_eqb CVC CVC) with true in Ht. cbv iota in Ht.
      assert (Sq : p_suf q = []).
      { rewrite (cvc_kind _ _ (proj2 Cq) T) in Sf. inversion Sf as [a b X|a b X|a b X|a b X| | | |a X|a b X|a b c X| | | |X]; try (repeat destruct X as [X|X]; discriminate); [reflexivity|].
        exfalso. replace (p_suf q) with [c_y] in Ht by assumption. rewrite last_opt_app, N.eqb_refl in Ht. discriminate. }
      assert (Gq : gap_of q g q' = [] /\ prefix_of false (p_r q') = [] /\ cpiece st q').
      { destruct (l_bare _ _ _ _ _ _ _ L Sq) as [Pq Oq]. pose proof (l_glued _ _ _ _ _ _ _ L) as G. rewrite Sq in G. cbn [andb] in G.
        unfold gap_of. rewrite Pq, Sq. split; [|split; [reflexivity|destruct Kq' as [K|[_ K]]; [exact K|exfalso; apply Oq, (z_other _ _ K)]]].
        inversion G; subst; try discriminate; reflexivity. }
      destruct Gq as (Gq & Pq & Cq'). rewrite Sq, app_nil_r in Ht. cbn [parts_of] in Ep'. rewrite Gq in Ep'. cbn [split_y gp app] in Ep'.
      destruct (parts_head r [] q') as (ps2 & t2 & more2 & E2). rewrite E2 in Ep'. injection Ep' as <- <- <-.
      split; [discriminate|]. destruct (cll_last _ _ (proj1 Cq)) as (s & d & E & Hdd). rewrite E, last_opt_app in Ht.
      destruct (N.eqb d c_y) eqn:Ed; [apply N.eqb_eq in Ed; rewrite Ed in Hdd; discriminate|]. rewrite <- E in Ht.
      eapply (IH q' (p_r q) _ _ _ Hl F' Cq'); [|exact Ht|exact E2]. rewrite last_snd in Hs. exact Hs.
    + change (tarmi_eqb CVCCV CVCCV) with true in Ht. cbv iota in Ht. 
      replace (slice 2 4 (p_r q ++ p_suf q)) with (slice 2 4 (p_r q)) in Ht.
      * destruct (mems (slice 2 4 (p_r q)) INITIAL); [discriminate|reflexivity].
      * apply rafsi_tarmi_shaped in T; [|discriminate]. cbn [shape_pat] in T. inv_shaped T. reflexivity.
Qed.
Record opening (st : settings) (ps : list str) (p0 : str) (P : list str) : Prop := {
  o_heads : heads ps p0 P;
  o_cll : Forall (cll (allow_mz st)) (p0 :: P);
  o_short : short_run (p0 :: P);
  o_tos : rafsi_tarmi p0 = CVC -> holds (last p0 0%N) P;
  o_cvv : cvv_like p0 = true -> ps = p0 :: P -> P = []
}.
Lemma hyphen_not_cll : forall mz h, ~ cll mz [h].
Proof. intros mz h H. apply cll_len in H. cbn in H. lia. Qed.
Lemma cvv_short : forall r, cvv_like r = true -> tarmi_in (rafsi_tarmi r) [CVC; CVV; CVhV; CCV] = true /\ rafsi_tarmi r <> CVC.
Proof. intros r H. unfold cvv_like in H. destruct (rafsi_tarmi r); try discriminate; split; (reflexivity || discriminate). Qed.
Lemma first_facts : forall st n p rest tos lead ps t more, linked false st n true p rest -> Forall (fun q => cpiece st q \/ zpiece st q) (p :: map snd rest) ->
  p_suf (last (map snd rest) p) = [] -> first_tos (form true p) false = Ok tos ->
  tosrun tos (form true p) (map (form false) (map snd rest)) = Some 0 ->
  n = S (length rest) -> (exists q, In q (p :: map snd rest) /\ zpiece st q) ->
  parts_of lead p rest = (lead, ps, t) :: more -> crun st true ps -> exists P, opening st ps (p_r p) P.
Proof.
  intros st n p rest tos lead ps t more Hl F Hs Hf Ht Hn (z & Iz & Hz) Ep C.
  destruct (parts_head rest lead p) as (ps' & t' & more' & Ep'). rewrite Ep' in Ep. injection Ep as <- <- <-.
  assert (Cp : cll (allow_mz st) (p_r p)).
  { destruct C as [[C _]|(_ & _ & p0 & h & P & E & C & _)]; [exact C|]. injection E as E _. rewrite E. exact C. }
  assert (Kp : cpiece st p).
  { pose proof (Forall_inv F) as [K|[_ K]]; [exact K|]. exfalso. apply cll_tarmi_ne in Cp as [X _]. apply X, (z_other _ _ K). }
  destruct C as [C|(_ & Hy & p0 & h & P & E & C & Hc & R & Hr)].
  - exists ps'. split.
    + left. reflexivity.
    + apply run_cll, C.
    + eapply run_short, C.
    + intros T. destruct rest as [|[g q] r]; [cbn in Ep'; injection Ep' as <- _ _; exact I|].
      destruct Hl as [L Hl]. pose proof (l_suf _ _ _ _ _ _ _ L) as Sf. rewrite (cvc_kind _ _ (proj2 Kp) T) in Sf.
      pose proof (Forall_inv_tail F) as F'. pose proof (Forall_inv F') as Kq. cbn [map snd] in F', Kq, Ht.
      assert (Sq : p_suf p = [] \/ p_suf p = [c_y]).
      { inversion Sf as [a b X|a b X|a b X|a b X| | | |a X|a b X|a b c X| | | |X]; try (repeat destruct X as [X|X]; discriminate); auto. }
      destruct Sq as [Sq|Sq].
      * destruct (l_bare _ _ _ _ _ _ _ L Sq) as [Pq Oq]. pose proof (l_glued _ _ _ _ _ _ _ L) as G. rewrite Sq in G.
        assert (Hcv : cvv_like (p_r p) = false) by (unfold cvv_like; rewrite T; reflexivity). rewrite Hcv in G. cbn [andb] in G.
        assert (Cq : cpiece st q) by (destruct Kq as [K|[_ K]]; [exact K|exfalso; apply Oq, (z_other _ _ K)]).
        assert (Gq : gap_of p g q = []) by (unfold gap_of; rewrite Pq, Sq; inversion G; subst; try discriminate; reflexivity).
        cbn [parts_of] in Ep'. rewrite Gq in Ep'. cbn [split_y gp app] in Ep'. destruct (parts_head r [] q) as (ps2 & t2 & more2 & E2). rewrite E2 in Ep'. injection Ep' as <- <- <-.
        rewrite (form_cll _ _ _ Cp), Sq, app_nil_r in Hf, Ht. unfold first_tos in Hf.
        destruct (cll_other _ _ [] Cp eq_refl) as [T1 _]. rewrite app_nil_r in T1. rewrite T1, T in Hf. change (tarmi_eqb CVC CVC) with true in Hf. cbn [negb orb] in Hf.
        destruct (cll_last _ _ Cp) as (s & d & Ed & Hd). unfold idx_last in Hf. rewrite Ed, last_opt_app in Hf. cbn [bind] in Hf.
        destruct (N.eqb d c_y) eqn:X; [apply N.eqb_eq in X; rewrite X in Hd; discriminate|]. injection Hf as <-.
        eapply (tos_holds st n r q (p_r p)); try eassumption. rewrite last_snd in Hs. exact Hs.
      * cbn [parts_of] in Ep'. pose proof (l_gap _ _ _ _ _ _ _ L) as G. unfold gap_of in Ep'. rewrite Sq in *. cbn [app split_y] in Ep'.
        rewrite N.eqb_refl in Ep'. injection Ep' as <- _ _. exact I.
    + intros Hc _. destruct ps' as [|x ps']; [reflexivity|]. exfalso. destruct rest as [|[g q] r]; [cbn in Ep'; discriminate|].
      destruct Hl as [L Hl]. pose proof (Forall_inv_tail F) as F'. pose proof (Forall_inv F') as Kq. cbn [map snd] in F', Kq.
      cbn [parts_of] in Ep'. destruct (link_kinds _ _ _ _ _ _ L (or_introl Kp) Kq) as [(G & S & Eg & _ & Cq & T & Pq & N2)|[(h & G & Hy & Hr & _)|(t2 & adda & G & _)]].
      * specialize (N2 eq_refl Hc). subst n. destruct r; [|discriminate]. cbn in Iz. destruct Iz as [<-|[<-|[]]]; destruct Hz as [_ Z].
        -- apply cll_tarmi_ne in Cp as [X _]. apply X, (z_other _ _ Z).
        -- destruct Cq as [X _]. apply cll_tarmi_ne in X as [X _]. apply X, (z_other _ _ Z).
      * rewrite G in Ep'. cbn [split_y] in Ep'. destruct (N.eqb_spec h c_y) as [|_]; [contradiction|]. destruct (parts_head r [] q) as (ps2 & t2 & more2 & E2).
        rewrite E2 in Ep'. cbn [gp app] in Ep'. injection Ep' as <- <- _ _. apply run_cll, Forall_inv_tail, Forall_inv in C. exact (hyphen_not_cll _ _ C).
      * rewrite G in Ep'. discriminate.
  - injection E as <- E. subst ps'. exists P. split.
    + right. pose proof (run_ne _ _ R) as Pn. destruct (concat_first _ _ (run_cll _ _ R) Pn) as (a & b & x & Ea & Ha). exists h, a, (b :: x). rewrite Ea in *. auto.
    + constructor; [exact C|apply run_cll, R].
    + split; [intros _; apply (cvv_short _ Hc)|eapply run_short, R].
    + intros T. destruct (cvv_short _ Hc) as [_ X]. contradiction.
    + intros _ E. exfalso. injection E as E. assert (X : length ([h] :: P) = length P) by congruence. cbn in X. lia.
Qed.
