(** Property C14: no choice of rafsi gives a better word than the one returned. *)
From Verif Require Import Str Data Tarmi Rafsi Core Api Lib Spec Shapes Decomp Basic Vowels Katna Dict Errs Builder Jvokaha Fuel Raises Inv Parts Clusters Zihevla Forms Chain Score Alt Lujvo Slinku Optimal Props2 Props4 Props5 Pinned.

Lemma analytics_best : forall lk gen st t ws w sc ix, words_of t ws ->
  get_lujvo_with_analytics lk gen st t = Ok (w, sc, ix) ->
  exists rll, get_rafsi_list_list (analyse_brivla lk) (jvk lk) st (map standard_spelling ws) = Ok rll
    /\ best_word gen st rll = Ok (w, sc, ix).
Proof.
  intros lk gen st t ws w sc ix Hw H. unfold get_lujvo_with_analytics in H. inv_bind H. apply process_ok in E.
  rewrite (words_raw _ _ Hw) in E. subst x. rewrite lujvo_from_list_eq in H. inv_bind H. rename x into rll, E into Er. exists rll.
  split; [exact Er|]. inv_bind H. rename x into e, E into Eb. destruct e as [[w' sc'] ix']. rewrite Eb. clear -H. destruct gen; [exact H|].
  destruct lk; [discriminate|]. inv_bind H. destruct x; [discriminate|exact H].
Qed.

(** Whatever components are replaced by literal rafsi of theirs, the word built is
    not better. *)
Theorem C14_optimal : forall lk gen st t ws us w sc ix w' sc' ix',
  exp_rafsi_shapes st = false -> words_of t ws -> Forall2 (pinned (allow_mz st)) ws us ->
  get_lujvo_with_analytics lk gen st t = Ok (w, sc, ix) ->
  get_lujvo_with_analytics lk gen st (TList us) = Ok (w', sc', ix') ->
  (sc <= sc')%Z.
Proof.
  intros lk gen st t ws us w sc ix w' sc' ix' Hx Hw Hp H1 H2.
  apply (analytics_best _ _ _ _ _ _ _ _ Hw) in H1 as (rv & Ev & Hv).
  apply (analytics_best _ _ _ _ us) in H2 as (ru & Eu & Hu); [|reflexivity].
  destruct (pinned_best _ _ _ _ _ _ _ _ _ _ Hx Hp Ev Eu Hu) as [(w2 & sc2 & ix2 & E & L)|[E _]]; rewrite E in Hv; [|discriminate].
  injection Hv as <- <- <-. exact L.
Qed.

(** luv, zbas and bangu are rafsi of lujvo, zbasu and bangu; the word they give is
    no better than jvozbabau *)
Example C14_example :
  let ws := map L ["lujvo"; "zbasu"; "bangu"]%string in
  let us := map L ["-luv-"; "-zbas-"; "-bangu-"]%string in
  exp_rafsi_shapes default_settings = false /\ words_of (TList ws) ws /\ Forall2 (pinned false) ws us
  /\ get_lujvo_with_analytics Bound false default_settings (TList ws) = Ok (L "jvozbabau", 8776%Z, [(0, 3); (3, 6); (6, 9)])
  /\ get_lujvo_with_analytics Bound false default_settings (TList us) = Ok (L "luvzbasybangu", 12996%Z, [(0, 3); (3, 7); (8, 13)]).
Proof.
  cbv zeta. split; [reflexivity|]. split; [reflexivity|]. split; [|split; vm_compute; reflexivity].
  apply Forall2_cons; [|apply Forall2_cons; [|apply Forall2_cons; [|apply Forall2_nil]]]; right;
    [exists (L "luv")|exists (L "zbas")|exists (L "bangu")]; (split; [reflexivity|]).
  - left. exists [L "luv"; L "jvo"]. split; [apply dict_get_spec; vm_compute; reflexivity|vm_compute; auto].
  - right. split; [apply is_gismu_spec; vm_compute; reflexivity|]. right. exists c_u. split; [apply is_vowel_spec; reflexivity|reflexivity].
  - right. split; [apply is_gismu_spec; vm_compute; reflexivity|]. left. reflexivity.
Qed.
Print Assumptions C14_optimal.
