(** C37: every accepted brivla has two consonants in a row, y and ' ignored *)
From Verif Require Import Str Data Tarmi Rafsi Core Api Lib Spec Shapes Basic Joint.

(** C37, rafsi of experimental shapes off *)
Theorem C37_brivla_has_cluster : forall lk st w t pieces,
  analyse_brivla lk st w = Ok (t, pieces) -> t <> CMEVLA ->
  consonants st = CLUSTER -> glides st = false -> exp_rafsi_shapes st = false ->
  exists x c g d z, concat pieces = x ++ [c] ++ g ++ [d] ++ z /\ consonant c /\ consonant d
    /\ Forall (fun e => [e] = L "y" \/ [e] = L "'") g.
Proof.
  intros lk st w t ps H Ht H1 H2 H3. pose proof (accepted_joint _ _ _ _ _ H Ht H1 H3 H2) as (x & c & g & d & z & E & Hc & Hd & G).
  rewrite (Props1.C01_decomposition_lossless _ _ _ _ _ H). exists x, c, g, d, z. split; [exact E|]. split; [exact Hc|]. split; [exact Hd|].
  eapply Forall_impl; [|exact G]. intros e [-> | ->]; [left|right]; reflexivity.
Qed.
(** "bacymau" has its two consonants on either side of a y; the same rafsi
    without the first consonant pair, "bau'ymau", is refused *)
Example C37_example :
  (exists ps, analyse_brivla Unbound (mkSettings FORCE_Y false CLUSTER false false) (L "spageti'ybacyzdani") = Ok (EXTENDED_LUJVO, ps))
  /\ (exists ps, analyse_brivla Bound (mkSettings STANDARD false CLUSTER false false) (L "bacymau") = Ok (EXTENDED_LUJVO, ps))
  /\ (exists ps, analyse_brivla Bound (mkSettings STANDARD false CLUSTER false false) (L "maurmau") = Ok (LUJVO, ps))
  /\ (exists e, analyse_brivla Bound (mkSettings FORCE_Y false CLUSTER false false) (L "bau'ymau") = Err e)
  /\ (exists ps, analyse_brivla Bound (mkSettings FORCE_Y false TWO_CONSONANTS false false) (L "bau'ymau") = Ok (LUJVO, ps)).
Proof. repeat split; eexists; vm_compute; reflexivity. Qed.
Print Assumptions C37_brivla_has_cluster.

(** C37 with rafsi of experimental shapes: false.  In this word, accepted as an
    EXTENDED_LUJVO, no two consonants follow each other even when y and ' are left out. *)
Theorem C37_exp_refuted : exists st w ps,
  consonants st = CLUSTER /\ glides st = false /\ analyse_brivla Unbound st w = Ok (EXTENDED_LUJVO, ps)
  /\ ~ exists x c g d z, concat ps = x ++ [c] ++ g ++ [d] ++ z /\ consonant c /\ consonant d
       /\ Forall (fun e => [e] = L "y" \/ [e] = L "'") g.
Proof.
  exists (mkSettings ALLOW_Y true CLUSTER false false), (L "bau'ybaubacy'a'i"). eexists. split; [reflexivity|]. split; [reflexivity|]. split; [vm_compute; reflexivity|].
  intros (x & c & g & d & z & E & Hc & Hd & G).
  assert (E0 : L "bau'ybaubacy'a'i" = x ++ [c] ++ g ++ [d] ++ z) by exact E. clear E.
  set (f := fun w i => match skipn i w with
     | a :: t => is_consonant a && match drop_while is_hy t with b :: _ => is_consonant b | [] => false end | [] => false end).
  assert (K : existsb (f (L "bau'ybaubacy'a'i")) (seq 0 (length (L "bau'ybaubacy'a'i"))) = false) by reflexivity.
  rewrite E0 in K.
  assert (X : existsb (f (x ++ [c] ++ g ++ [d] ++ z)) (seq 0 (length (x ++ [c] ++ g ++ [d] ++ z))) = true).
  { apply existsb_exists. exists (length x). split.
    - apply in_seq. rewrite !app_length. cbn [length]. lia.
    - unfold f. rewrite skipn_app, skipn_all, Nat.sub_diag. cbn [skipn app].
      assert (D : drop_while is_hy (g ++ d :: z) = d :: z).
      { clear -G Hd. induction G as [|e g He G IH]; cbn [app drop_while].
        - apply is_consonant_spec in Hd. destruct (is_hy d) eqn:Eh; [|reflexivity]. unfold is_hy in Eh. apply orb_true_iff in Eh as [Eh|Eh]; apply N.eqb_eq in Eh; subst; discriminate.
        - destruct He as [He|He]; injection He as ->; exact IH. }
      rewrite D. apply is_consonant_spec in Hc. apply is_consonant_spec in Hd. rewrite Hc, Hd. reflexivity. }
  rewrite K in X. discriminate.
Qed.
