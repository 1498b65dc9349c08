(** The rules for hyphens in names made of rafsi (words ending in a consonant),
    stated on lists of rafsi, without any of the model's functions: y where it is
    needed, and nothing against the tosmabru pattern or after a first CVV. *)
From Coq Require Import List Bool Arith NArith String.
From Verif Require Import Str Data Tarmi Rafsi Core Api Lib Spec RuleSpec.
Import ListNotations.
Open Scope list_scope.

(** The hyphen (none or one) that stands between [r] and [g]; [first] tells
    whether [r] starts the name.  [opt] allows an r or n after CVV or CV'V, which
    is never needed; after the first rafsi only before a CCV or CCVC. *)
Inductive name_link (yh : yset) (mz opt first : bool) (r g : str) : list str -> Prop :=
| name_y : needs_y mz r g -> name_link yh mz opt first r g [L "y"]
| name_none : ~ needs_y mz r g -> name_link yh mz opt first r g []
| name_rn o : opt = true -> vowel_pair mz r -> yh <> FORCE_Y -> rn_before g o ->
    (first = true -> cll_rafsi mz "CCV" g \/ cll_rafsi mz "CCVC" g) ->
    name_link yh mz opt first r g [o].

(** Rafsi and the pieces (rafsi and hyphens) of a name made of them: five-letter
    rafsi nowhere, a consonant at the end. *)
Inductive named (yh : yset) (mz opt : bool) : bool -> list str -> list str -> Prop :=
| named_last first r : ends_in consonant r -> named yh mz opt first [r] [r]
| named_more first r g rest h ps : length r < 5 -> name_link yh mz opt first r g h ->
    named yh mz opt false (g :: rest) ps -> named yh mz opt first (r :: g :: rest) (r :: h ++ ps).
