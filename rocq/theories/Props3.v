(** Properties C04 C18 C34 (analyser half). *)
From Verif Require Import Str Data Tarmi Rafsi Core Api Lib Spec Shapes Decomp Basic Vowels Katna Dict Errs Builder Jvokaha Fuel Raises Inv Parts Clusters.

(** ** C04: accepted words use only the Lojban alphabet *)
Theorem C04_lojban_letters : forall lk st w t pieces,
  analyse_brivla lk st w = Ok (t, pieces) -> Forall lojban_letter (standard_spelling w).
Proof. intros lk st w t ps H. apply accepted_good in H as [[H _] _]. exact H. Qed.
Example C04_example : exists p, analyse_brivla Bound default_settings (L "Spageti,") = Ok (ZIhEVLA, p)
  /\ standard_spelling (L "Spageti,") = L "spageti"
  /\ analyse_brivla Bound default_settings (L "spaqeti") = Err NotBrivlaError.
Proof. exists [L "spageti"]. repeat split; vm_compute; reflexivity. Qed.
Print Assumptions C04_lojban_letters.

(** ** C18: accepted words contain no forbidden cluster *)
Theorem C18_clusters : forall lk st w t pieces,
  analyse_brivla lk st w = Ok (t, pieces) -> clusters_ok (allow_mz st) (standard_spelling w).
Proof. intros lk st w t ps H. apply accepted_good in H as [[_ H] _]. exact H. Qed.
Theorem C18_initial_pair : forall lk st w t pieces a b rest,
  analyse_brivla lk st w = Ok (t, pieces) -> standard_spelling w = a :: b :: rest ->
  consonant a -> consonant b -> initial_pair a b.
Proof. intros lk st w t ps a b r H E. apply accepted_good in H as [_ H]. exact (H a b r E). Qed.
Example C18_example :
  analyse_brivla Bound default_settings (L "brivlatengo'u") = Ok (LUJVO, map L ["bri"; "vla"; "ten"; "go'u"]%string)
  /\ analyse_brivla Bound default_settings (L "tandjuki") = Err NotBrivlaError
  /\ analyse_brivla Bound default_settings (L "mlkame") = Err NotBrivlaError.
Proof. repeat split; vm_compute; reflexivity. Qed.
Print Assumptions C18_clusters.
Print Assumptions C18_initial_pair.

(** ** C34: mz needs the option (words accepted by the analyser) *)
Theorem C34_accepted_words : forall lk st w t pieces,
  analyse_brivla lk st w = Ok (t, pieces) -> allow_mz st = false -> ~ contains (standard_spelling w) (L "mz").
Proof.
  intros lk st w t ps H Hm C. apply accepted_good in H as [[_ [H _]] _].
  assert (P : permissible (allow_mz st) 109%N 122%N) by (apply H; [exact C|apply is_consonant_spec; reflexivity..]).
  destruct P as (_ & _ & _ & _ & _ & _ & _ & P). rewrite P in Hm by reflexivity. discriminate.
Qed.
Example C34_example : exists p,
  analyse_brivla Bound (mkSettings STANDARD false CLUSTER false true) (L "jamzbabau") = Ok (LUJVO, p)
  /\ analyse_brivla Bound default_settings (L "jamzbabau") = Err NotBrivlaError.
Proof. exists (map L ["jam"; "zba"; "bau"]%string). split; vm_compute; reflexivity. Qed.
Print Assumptions C34_accepted_words.
