(** Specification vocabulary for the theorems: what a Lojbanist means by letters,
    permissible clusters, shapes and hyphens.  Nothing here uses the model's
    helpers or tables (only the string type and Python's str.lower of Str.v). *)
From Verif Require Import Str.

(** ** Letters *)
Definition vowel (c : char) : Prop := In c (L "aeiou").
Definition consonant (c : char) : Prop := In c (L "bcdfgjklmnprstvxz").
Definition apostrophe : char := 39%N.
Definition letter_y : char := 121%N.
(** the Lojban alphabet, with the apostrophe *)
Definition lojban_letter (c : char) : Prop :=
  vowel c \/ consonant c \/ c = apostrophe \/ c = letter_y.

(** ** Standard spelling: one leading period dropped, lower case, h written ',
    commas removed. *)
Definition standard_spelling (w : str) : str :=
  let w := match w with c :: r => if N.eqb c 46%N then r else w | [] => [] end in
  filter (fun c => negb (N.eqb c 44%N))
    (map (fun c => if N.eqb c 104%N then apostrophe else c) (lower w)).

(** ** Consonant clusters (CLL 3.6, 3.7) *)
Definition voiced (c : char) : Prop := In c (L "bdgjvz").
Definition unvoiced (c : char) : Prop := In c (L "cfkpstx").
Definition sibilant (c : char) : Prop := In c (L "cjsz").

(** Rules 1-4 of CLL 3.6.  [mz] tells whether the pair mz is allowed. *)
Definition permissible (mz : bool) (a b : char) : Prop :=
  consonant a /\ consonant b
  /\ a <> b
  /\ ~ (voiced a /\ unvoiced b) /\ ~ (unvoiced a /\ voiced b)
  /\ ~ (sibilant a /\ sibilant b)
  /\ ~ In [a; b] (map L ["cx"; "kx"; "xc"; "xk"]%string)
  /\ ([a; b] = L "mz" -> mz = true).

(** the 48 initial pairs of CLL 3.7 *)
Definition initial_pair (a b : char) : Prop :=
  In [a; b] (map L ["bl"; "br"; "cf"; "ck"; "cl"; "cm"; "cn"; "cp"; "cr"; "ct"; "dj"; "dr"; "dz";
    "fl"; "fr"; "gl"; "gr"; "jb"; "jd"; "jg"; "jm"; "jv"; "kl"; "kr"; "ml"; "mr"; "pl"; "pr";
    "sf"; "sk"; "sl"; "sm"; "sn"; "sp"; "sr"; "st"; "tc"; "tr"; "ts"; "vl"; "vr"; "xl"; "xr";
    "zb"; "zd"; "zg"; "zm"; "zv"]%string).

(** rule 5 of CLL 3.7 *)
Definition forbidden_triple (a b c : char) : Prop :=
  In [a; b; c] (map L ["ndj"; "ndz"; "ntc"; "nts"]%string).

(** [w] contains [s] as a block of adjacent letters *)
Definition contains (w s : str) : Prop := exists u v, w = u ++ s ++ v.

(** every two adjacent consonants are permissible, no forbidden triple *)
Definition clusters_ok (mz : bool) (w : str) : Prop :=
  (forall a b, contains w [a; b] -> consonant a -> consonant b -> permissible mz a b)
  /\ (forall a b c, contains w [a; b; c] -> ~ forbidden_triple a b c).

(** ** Shapes: a pattern such as "CVC" or "CV'V" *)
Definition fits (p : ascii) (c : char) : Prop :=
  match p with
  | "C"%char => consonant c
  | "V"%char => vowel c
  | "'"%char => c = apostrophe
  | _ => False
  end.
Definition shaped (p : string) (s : str) : Prop := Forall2 fits (list_ascii_of_string p) s.

(** ** Hyphens *)
Definition hyphen (s : str) : Prop := In s (map L ["y"; "n"; "r"; "'y"; "y'"; "'y'"]%string).

(** the last letter of a word *)
Definition ends_in (P : char -> Prop) (w : str) : Prop := exists u c, w = u ++ [c] /\ P c.

(** ** CLL rafsi and lujvo (CLL 4.5, 4.6) *)
Definition diphthong (s : str) : Prop := In s (map L ["ai"; "ei"; "oi"; "au"]%string).

(** The eight shapes of rafsi, with their clusters permissible. *)
Inductive cll_rafsi (mz : bool) : string -> str -> Prop :=
| r_cvc c1 v c2 : consonant c1 -> vowel v -> consonant c2 -> cll_rafsi mz "CVC" [c1; v; c2]
| r_cvv c v1 v2 : consonant c -> diphthong [v1; v2] -> cll_rafsi mz "CVV" [c; v1; v2]
| r_cvhv c v1 v2 : consonant c -> vowel v1 -> vowel v2 -> cll_rafsi mz "CV'V" [c; v1; apostrophe; v2]
| r_ccv c1 c2 v : initial_pair c1 c2 -> vowel v -> cll_rafsi mz "CCV" [c1; c2; v]
| r_cvcc c1 v c2 c3 : consonant c1 -> vowel v -> permissible mz c2 c3 ->
    cll_rafsi mz "CVCC" [c1; v; c2; c3]
| r_ccvc c1 c2 v c3 : initial_pair c1 c2 -> vowel v -> consonant c3 ->
    cll_rafsi mz "CCVC" [c1; c2; v; c3]
| r_cvccv c1 v c2 c3 v' : consonant c1 -> vowel v -> permissible mz c2 c3 -> vowel v' ->
    cll_rafsi mz "CVCCV" [c1; v; c2; c3; v']
| r_ccvcv c1 c2 v c3 v' : initial_pair c1 c2 -> vowel v -> consonant c3 -> vowel v' ->
    cll_rafsi mz "CCVCV" [c1; c2; v; c3; v'].

(** Where a rafsi may stand: [next] are the pieces after it, [first] tells
    whether it starts the word. *)
Definition placed_rafsi (mz first : bool) (p : str) (next : list str) : Prop :=
  exists shape, cll_rafsi mz shape p /\
  match shape with
  | "CVC"%string =>
      forall c1 v c2, p = [c1; v; c2] ->
        (* a consonant straight after it must make a permissible pair, and no bad triple *)
        (forall c t, concat next = c :: t -> consonant c -> permissible mz c2 c)
        /\ (forall c d t, concat next = c :: d :: t -> ~ forbidden_triple c2 c d)
  | "CCV"%string => first = true -> forall t, next <> L "'y" :: t
  | "CVCC"%string | "CCVC"%string => next = [] \/ exists t, next = L "y" :: t
  | "CVCCV"%string | "CCVCV"%string => next = []
  | _ => True
  end.

(** Where a hyphen may stand; [q] is the piece before it.  [rn] allows the
    hyphens n and r, [hy] allows the hyphen 'y. *)
Definition placed_hyphen (rn hy : bool) (q p : str) (next : list str) : Prop :=
  length q <> 1 /\
  (p = L "y"
   \/ (hy = true /\ p = L "'y")
   \/ (rn = true /\ (shaped "CVV" q \/ shaped "CV'V" q)
       /\ ((p = L "n" /\ exists t, concat next = L "r" ++ t)
           \/ (p = L "r" /\ exists c t, concat next = c :: t /\ consonant c /\ [c] <> L "r")))).

(** [ps] is a way to cut a word into rafsi and hyphens; [prev] is the piece
    before. *)
Fixpoint cut (rn hy mz : bool) (prev : option str) (ps : list str) : Prop :=
  match ps with
  | [] => True
  | p :: next =>
      (placed_rafsi mz (match prev with None => true | _ => false end) p next
       \/ exists q, prev = Some q /\ placed_hyphen rn hy q p next)
      /\ cut rn hy mz (Some p) next
  end.

(** ** White space: words separated by runs of white space *)
Inductive spaced (space : char -> Prop) : list str -> str -> Prop :=
| spaced_end s : Forall space s -> spaced space [] s
| spaced_word sep w ws rest :
    Forall space sep -> w <> [] -> Forall (fun c => ~ space c) w ->
    spaced space ws rest ->
    (rest = [] \/ exists c r, rest = c :: r /\ space c) ->
    spaced space (w :: ws) (sep ++ w ++ rest).

(** ** Syllables of a vowel run (CLL 3.4) *)
Definition nucleus (s : str) : Prop := (exists v, s = [v] /\ vowel v) \/ diphthong s.
Definition glide_syllable (s : str) : Prop :=
  exists g n, s = g :: n /\ In g (L "iu") /\ nucleus n.
(** a diphthong in i cannot be followed by a glide i, nor au by a glide u *)
Definition syllable_junction (s t : str) : Prop :=
  forall v d g u, s = v ++ d -> diphthong d -> t = g :: u -> last d 0%N <> g.
(** first syllable, then glide syllables *)
Fixpoint junctions (l : list str) : Prop :=
  match l with
  | s :: ((t :: _) as r) => syllable_junction s t /\ junctions r
  | _ => True
  end.
Definition syllables (l : list str) : Prop :=
  exists s r, l = s :: r /\ (nucleus s \/ glide_syllable s) /\ Forall glide_syllable r /\ junctions l.

(** ** Index ranges *)
(** the ranges lie in order, without overlap, between [lo] and [hi] *)
Fixpoint ranges (lo hi : nat) (l : list (nat * nat)) : Prop :=
  match l with
  | [] => lo <= hi
  | (i, j) :: r => lo <= i /\ i <= j /\ ranges j hi r
  end.
Definition str_dec : forall a b : str, {a = b} + {a <> b} := list_eq_dec N.eq_dec.
Definition is_hyphen (s : str) : bool :=
  if in_dec str_dec s (map L ["y"; "n"; "r"; "'y"; "y'"; "'y'"]%string) then true else false.
(** word[i:j] *)
Definition substring (w : str) (r : nat * nat) : str := firstn (snd r - fst r) (skipn (fst r) w).

(** ** Lujvo score (CLL 4.12) *)
(** the shapes with their rank *)
Definition ranked : list (string * Z) :=
  [("CVCCV", 1); ("CVCC", 2); ("CCVCV", 3); ("CCVC", 4); ("CVC", 5); ("CV'V", 6); ("CCV", 7); ("CVV", 8)]%string%Z.
(** the rank of a rafsi; 0 when it has none of the shapes *)
Definition rank (s : str) (k : Z) : Prop :=
  (exists p, In (p, k) ranked /\ shaped p s)
  \/ (k = 0%Z /\ forall p j, In (p, j) ranked -> ~ shaped p s).
(** occurrences of a letter, of any vowel *)
Definition occurrences (c : char) (w : str) : Z := Z.of_nat (count_occ N.eq_dec w c).
Definition vowels_in (w : str) : Z := fold_right Z.add 0%Z (map (fun c => occurrences c w) (L "aeiou")).
Definition total (l : list Z) : Z := fold_right Z.add 0%Z l.
(** a CVV rafsi first, and the letters from its end to the end of the second
    rafsi (with a hyphen r or n) shaped CCV, CVC, CCVC or CVCC, with no hyphen
    after them *)
Definition tie (w : str) (ix : list (nat * nat)) : Prop :=
  exists i e rest p, ix = (0, 3) :: (i, e) :: rest
  /\ shaped "CVV" (substring w (0, 3))
  /\ In p ["CCV"; "CVC"; "CCVC"; "CVCC"]%string /\ shaped p (substring w (3, e))
  /\ (rest = [] \/ exists m r, rest = (e, m) :: r).

(** ** Zi'evla (CLL 4.7, in the stricter form of the dictionary's "slots") *)
(** a run of letters [P], up to the text [rest] *)
Definition run_of (P : char -> Prop) (r rest : str) : Prop :=
  r <> [] /\ Forall P r /\ forall c t, rest = c :: t -> ~ P c.
(** consonants at the start of a zi'evla: one, an initial pair, or an initial
    pair whose second consonant makes an initial pair with l or r *)
Definition zi_initial (r : str) : Prop :=
  match r with
  | [] | [_] => True
  | [a; b] => initial_pair a b
  | [a; b; c] => initial_pair a b /\ initial_pair b c /\ In c (L "lr") /\ ~ In b (L "csx")
  | _ => False
  end.
(** [zi_text middle mz before w syl]: the text [w], standing after [before],
    has no y, its apostrophes stand between vowels, its vowel runs are legal
    ([syl] are the syllables), its consonant clusters too; [middle] says which
    clusters may stand inside a word *)
Inductive zi_text (middle : str -> Prop) (mz : bool) : str -> str -> list str -> Prop :=
| zi_end before : zi_text middle mz before [] []
| zi_consonants before r w syl : run_of consonant r w -> clusters_ok mz r ->
    (before = [] -> zi_initial r) -> (before <> [] -> middle r) ->
    zi_text middle mz (before ++ r) w syl -> zi_text middle mz before (r ++ w) syl
| zi_vowels before r w l syl : run_of vowel r w -> concat l = r -> syllables l ->
    (before <> [] -> nucleus (hd [] l)) ->
    zi_text middle mz (before ++ r) w syl -> zi_text middle mz before (r ++ w) (l ++ syl)
| zi_apostrophe before w syl : ends_in vowel before -> (exists b v, w = b :: v /\ vowel b) ->
    zi_text middle mz (before ++ [apostrophe]) w syl -> zi_text middle mz before (apostrophe :: w) syl.

(** [w] is [u ++ v], [v] starting with the first two adjacent consonants of [w] *)
Definition first_cluster (w u v : str) : Prop :=
  w = u ++ v
  /\ (exists a b t, v = a :: b :: t /\ consonant a /\ consonant b)
  /\ forall a b, contains (u ++ firstn 1 v) [a; b] -> ~ (consonant a /\ consonant b).
Definition no_cluster (w : str) : Prop := forall a b, contains w [a; b] -> ~ (consonant a /\ consonant b).
Definition at_most_one_consonant (u : str) : Prop :=
  forall a x b y c, u = a ++ x :: b ++ y :: c -> consonant x -> consonant y -> False.
(** a word without a cluster may not end in two or more syllables that no
    apostrophe separates from the letter before them *)
Definition smooth_end (w : str) : Prop :=
  no_cluster w -> forall u r l, w = u ++ r -> r <> [] -> Forall vowel r -> ~ ends_in vowel u -> ~ ends_in (eq apostrophe) u ->
  concat l = r -> syllables l -> length l <= 1.
Definition starts_with_glide (w : str) : Prop := exists a b t, w = a :: b :: t /\ In a (L "iu") /\ vowel b.
(** [v] is [u ++ s ++ v'] with [v'] at the first cluster: [s ++ v'] is what is left
    when the leading [u] is taken for a cmavo *)
Definition falls_apart_into (w s : str) : Prop :=
  exists u u2 v, first_cluster w (u ++ u2) v /\ u <> [] /\ s = u2 ++ v
  /\ ((exists c t, s = c :: t /\ consonant c) \/ starts_with_glide s).
(** a zi'evla, as far as its letters are concerned *)
Record zihevla_letters (middle : str -> Prop) (mz : bool) (w : str) (syl : list str) : Prop := {
  zl_text : zi_text middle mz [] w syl;
  zl_cluster : exists u v, first_cluster w u v /\ at_most_one_consonant u }.
(** an experimental rafsi: no cluster, no consonant but the first letter *)
Record exp_rafsi_letters (mz : bool) (w : str) (syl : list str) : Prop := {
  xl_text : zi_text (fun _ => True) mz [] w syl;
  xl_nonempty : w <> [];
  xl_consonant : forall u c t, w = u ++ c :: t -> consonant c -> u = [];
  xl_end : smooth_end w }.
(** consonants between vowels of a zi'evla: at most one that closes a syllable,
    then syllabic sonorants, each with its consonant, then a legal start *)
Definition zi_middle (r : str) : Prop :=
  exists coda pairs onset, r = coda ++ concat pairs ++ onset /\ length coda <= 1
  /\ Forall (fun p => exists c s, p = [c; s] /\ In s (L "lmnr")) pairs /\ zi_initial onset /\ onset <> [].

(** ** What the pieces of a decomposition may be *)
Inductive lujvo_piece (exp mz : bool) (p : str) : Prop :=
| lp_hyphen : hyphen p -> lujvo_piece exp mz p
| lp_rafsi shape : cll_rafsi mz shape p -> lujvo_piece exp mz p
(* a zi'evla, or one without its final a *)
| lp_zihevla q syl : q = p \/ q = p ++ L "a" -> zihevla_letters zi_middle mz q syl ->
    (exp = false -> 4 <= length q /\ 2 <= length syl) -> lujvo_piece exp mz p
(* an experimental rafsi, or one without its final a *)
| lp_experimental q syl : exp = true -> q = p \/ q = p ++ L "a" -> exp_rafsi_letters mz q syl ->
    lujvo_piece exp mz p.
