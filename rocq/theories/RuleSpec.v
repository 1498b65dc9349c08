(** The rules of CLL 4.6 for hyphens in lujvo, stated on lists of rafsi, without
    any of the model's functions: where y is needed, the tosmabru pattern, where
    n and r (or 'y) go. *)
From Coq Require Import List Bool Arith NArith String.
From Verif Require Import Str Data Tarmi Rafsi Core Api Lib Spec.
Import ListNotations.
Open Scope list_scope.

(** the end of [r] and the start of [g] may not touch *)
Definition clash (mz : bool) (r g : str) : Prop :=
  exists s a b t, r = s ++ [a] /\ g = b :: t
    /\ (~ permissible mz a b \/ exists c u, t = c :: u /\ forbidden_triple a b c).
(** the end of [r] and the start of [g] are a pair that can start a word *)
Definition initial_joint (r g : str) : Prop :=
  exists s a b t, r = s ++ [a] /\ g = b :: t /\ initial_pair a b.
(** rafsi after which y is always needed *)
Definition needs_y (mz : bool) (r g : str) : Prop :=
  cll_rafsi mz "CVCC" r \/ cll_rafsi mz "CCVC" r \/ (cll_rafsi mz "CVC" r /\ clash mz r g).

(** The tosmabru pattern: a run of CVC rafsi in which every joint is a pair that
    can start a word, up to a rafsi CVCCV with such a pair in its middle, or up to
    a CVC followed by y. *)
Inductive tosmabru (mz : bool) : str -> list str -> Prop :=
| tos_gismu r c1 v c2 c3 v' rest :
    cll_rafsi mz "CVC" r -> initial_joint r [c1; v; c2; c3; v'] -> cll_rafsi mz "CVCCV" [c1; v; c2; c3; v'] ->
    initial_pair c2 c3 -> tosmabru mz r ([c1; v; c2; c3; v'] :: rest)
| tos_y r g k rest :
    cll_rafsi mz "CVC" r -> initial_joint r g -> cll_rafsi mz "CVC" g -> clash mz g k ->
    tosmabru mz r (g :: k :: rest)
| tos_more r g k rest :
    cll_rafsi mz "CVC" r -> initial_joint r g -> tosmabru mz g (k :: rest) ->
    tosmabru mz r (g :: k :: rest).

(** rafsi CVV and CV'V *)
Definition vowel_pair (mz : bool) (r : str) : Prop := cll_rafsi mz "CVV" r \/ cll_rafsi mz "CV'V" r.
(** r, or n when the next letter is r *)
Definition rn_before (g o : str) : Prop :=
  (o = L "n" /\ exists t, g = L "r" ++ t) \/ (o = L "r" /\ ~ exists t, g = L "r" ++ t).

(** The hyphen [h] (none or one) that stands between [r] and [g]; [rest] are the
    rafsi after [g]; [first] tells whether [r] starts the word.  [opt] allows an r
    or n that is not needed. *)
Inductive link (yh : yset) (mz opt first : bool) (r g : str) (rest : list str) : list str -> Prop :=
| link_y : needs_y mz r g \/ (first = true /\ tosmabru mz r (g :: rest)) ->
    link yh mz opt first r g rest [L "y"]
| link_none : ~ needs_y mz r g -> ~ (first = true /\ tosmabru mz r (g :: rest)) ->
    (vowel_pair mz r -> first = true -> rest = [] /\ cll_rafsi mz "CCV" g) ->
    link yh mz opt first r g rest []
| link_rn o : vowel_pair mz r -> yh <> FORCE_Y -> rn_before g o ->
    opt = true \/ (first = true /\ ~ (rest = [] /\ cll_rafsi mz "CCV" g)) ->
    link yh mz opt first r g rest [o]
| link_hy : vowel_pair mz r -> yh = FORCE_Y -> first = true -> ~ (rest = [] /\ cll_rafsi mz "CCV" g) ->
    link yh mz opt first r g rest [L "'y"].

(** Rafsi and the pieces (rafsi and hyphens) of a word made of them: five-letter
    rafsi only at the end, a vowel at the end. *)
Inductive hyphenated (yh : yset) (mz opt : bool) : bool -> list str -> list str -> Prop :=
| hyph_last first r : ends_in vowel r -> hyphenated yh mz opt first [r] [r]
| hyph_more first r g rest h ps : length r < 5 -> link yh mz opt first r g rest h ->
    hyphenated yh mz opt false (g :: rest) ps -> hyphenated yh mz opt first (r :: g :: rest) (r :: h ++ ps).
