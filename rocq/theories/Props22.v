(** Property C31 once more: zi'evla, with an exact description of their clusters. *)
From Verif Require Import Str Data Tarmi Rafsi Core Api Lib Spec Shapes Decomp Basic Vowels Katna Dict Errs Builder Jvokaha Fuel Raises Inv Parts Clusters Zihevla Forms Chain Score Alt Lujvo Compound Whole Props5 Props6 Middle.

Lemma zi_text_exact : forall mz pre s syl, zi_text middle_ok mz pre s syl <-> zi_text zi_middle_exact mz pre s syl.
Proof.
  intros mz pre s syl.
  assert (G : forall r w, run_of consonant r w -> clusters_ok mz r -> (middle_ok r <-> zi_middle_exact r)).
  { intros r w (Hr & F & _) C. apply (middle_exact mz); [exact Hr| |exact C]. eapply Forall_impl; [|exact F]. intros c Hc. apply is_consonant_spec. exact Hc. }
  split; (induction 1 as [pre|pre r w syl Hr Hcl Hi Hm T IH|pre r w l syl Hr El Sl Hn T IH|pre w syl Hb Ha T IH]; [apply zi_end|apply zi_consonants|apply zi_vowels|apply zi_apostrophe]; auto).
  all: intro Hp; apply (G _ _ Hr Hcl); auto.
Qed.

(** A string is accepted as a zi'evla exactly if it has at least four letters, ends
    in a vowel, is no gismu and no lujvo, has legal letters, clusters and vowels
    in at least two syllables, does not fall apart into a cmavo and a brivla, and
    passes the slinku'i test. *)
Theorem C31_zihevla_exact : forall lk st w ps,
  let v := standard_spelling w in
  analyse_brivla lk st w <> Err NameError ->
  analyse_brivla lk st w = Ok (ZIhEVLA, ps) <->
  ps = [v] /\ 4 <= length v /\ ends_in vowel v
  /\ (forall q, analyse_brivla lk st w <> Ok (GISMU, q)) /\ (forall q, analyse_brivla lk st w <> Ok (LUJVO, q))
  /\ exists syl, zihevla_letters zi_middle_exact (allow_mz st) v syl /\ 2 <= length syl
     /\ (2 < length syl -> forall s, falls_apart_into v s -> is_brivla lk (mkSettings (y_hyphens st) false CLUSTER false false) s = Ok false)
     /\ is_slinkuhi lk (y_hyphens st) (allow_mz st) v = Ok false.
Proof.
  intros lk st w ps v NN. unfold v. rewrite (C31_zihevla_characterised lk st w ps NN). fold v. cbv zeta.
  split; intros (A & B & C & D & E & syl & [T K] & R); (split; [exact A|]; split; [exact B|]; split; [exact C|]; split; [exact D|]; split; [exact E|]; exists syl; split; [|exact R]; constructor; [|exact K]; apply zi_text_exact; exact T).
Qed.
(** ml at the end of a long cluster belongs together; three consonants do not begin
    with mz even where it is allowed *)
Example C31_exact_example :
  let mz := mkSettings STANDARD false CLUSTER false true in
  analyse_brivla Bound default_settings (L "iabdmni") = Ok (ZIhEVLA, [L "iabdmni"])
  /\ analyse_brivla Bound default_settings (L "iabdmli") = Err NotBrivlaError
  /\ analyse_brivla Bound mz (L "amzbri") = Ok (ZIhEVLA, [L "amzbri"])
  /\ analyse_brivla Bound mz (L "amzbi") = Err NotBrivlaError.
Proof. cbv zeta. repeat split; vm_compute; reflexivity. Qed.
Print Assumptions C31_zihevla_exact.
