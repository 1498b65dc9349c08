# A Rocq model of latkerlo_jvotci

## What is modelled

The Python package `py/latkerlo_jvotci` at the pinned commit: all of `tarmi.py`,
`tools.py`, `jvozba.py`, `katna.py`, `exceptions.py`, and the data of `data.py`
and `rafsi.py`.

| file | models |
|---|---|
| `Str.v` | Python strings (lists of code points), exceptions as values, `split`, `strip`, `lower`, slices |
| `Data.v`, `Rafsi.v` | the tables of `data.py` and `rafsi.py`, generated by `tools/gen_data.py` from the text of those files |
| `Tarmi.v` | `tarmi.py`: letters, shapes, `is_gismu`, vowel runs, cluster regexes, `SettingsIterator` |
| `Core.v` | `tools.py`, `jvozba.py` and the splitter of `katna.py`, which are mutually recursive |
| `Api.v` | the public functions, and `search_selrafsi`, `get_veljvo`, `score_lujvo` |
| `Cli.v` | the interactive loops (`jvozba.py:571-623`, `katna.py:301-346`) as functions of the lines typed |
| `Genlist.v` | `make_rafsi_list.py`, from the parsed export to the text of the four files |

Not modelled: exception messages, the text form of printed values, the `TypeError`
for a tanru that is neither `str` nor `list` (`jvozba.py:60`), the Rust and
TypeScript ports, the download and XML
parsing of `make_rafsi_list.py`, and the other helper scripts of the repository root.

The other files hold proofs:

| file | content |
|---|---|
| `Lib.v`, `Spec.v` | lemmas on lists; the specification vocabulary of the theorems |
| `Shapes.v`, `Basic.v`, `Decomp.v`, `Vowels.v` | letters and shapes against the specification; small facts; pieces join to the word; vowel runs |
| `Katna.v`, `Jvokaha.v`, `Slinku.v`, `Lujvo.v`, `Alt.v` | the splitter finds exactly the cuts; what jvokaha accepts; assembled CLL words are cut back into their rafsi |
| `Errs.v`, `Raises.v`, `Fuel.v`, `Total.v` | exceptions; recursion depth; totality on words without y |
| `Inv.v`, `Parts.v`, `Clusters.v`, `Zihevla.v`, `Compound.v`, `Whole.v`, `Joint.v` | the ways a word can be accepted; one y-part; letters, clusters, zi'evla rules |
| `Dict.v`, `Builder.v`, `Forms.v`, `Chain.v`, `Score.v`, `Optimal.v`, `Pinned.v`, `Found.v` | dictionary lookup; the table search; forms of components; layout and score of built words; optimality; existence |
| `ZiCut.v` | zi'evla and strings of rafsi (C46) |
| `Names.v` | names (generate_cmevla) are analysed the way they were built (C47, C48) |
| `NameSpec.v` | the rules for hyphens in names (specification for C49, C50) |
| `NameRules.v`, `NameCut.v` | the cheapest name of given rafsi; names by the rules and their cuts |
| `Middle.v` | clusters inside a zi'evla: the regular expressions of `tarmi.py:231-237` against a declarative description (C31) |
| `Mixed.v` | tanru of gismu and zi'evla: forms of the components, the built word stays one word (C51) |
| `RuleSpec.v`, `Rules.v`, `Rules2.v` | the hyphen rules of CLL 4.6 on lists of rafsi, and the proof that the builder and the recogniser follow them |
| `Onset.v`, `Tosm.v`, `Recast.v`, `Glides.v` | slinku'i and tosmabru; the first consonant and vowel of a lujvo can be exchanged; the glides option |
| `Ext.v`, `Ext2.v`, `Ext3.v`, `Ext4.v` | compounds with zi'evla components are read the way they were joined |
| `Safe.v` | words with y: when the analyser raises nothing but NotBrivlaError |
| `Swap.v`, `Unique.v`, `Round.v` | exchanging parts of two constructions; the cheapest choice of forms for given rafsi spells one word; so the analyser finds the built word again |
| `Props1.v` ... | the theorems `Cnn_...`, each with an example and `Print Assumptions` |

### Simplifications

* Exceptions are values (`res A`).  Only their class is kept: no code reads the
  message.
* `str.lower()` is exact on ASCII and on the two other code points whose lower
  case contains an ASCII letter (U+0130, U+212A).  Any other code point is left
  alone.  Python would map some of those to other non-ASCII code points; neither
  is a Lojban letter.
* `strip_hyphens` ignores that `$` matches before a final newline.  No caller can
  pass a newline: all arguments have passed `is_only_lojban_characters` or are
  parts of words built from such.
* The 3x3 array of dictionaries in the builder is one association list keyed by
  (tosmabru type, consonant count, last letter), in insertion order.  The entries
  of one dictionary then occur in that dictionary's own order.
* Mutual recursion: every cycle of the call graph goes through `analyse_brivla`
  or `jvokaha`.  The other functions take these two as arguments.  The knot is
  tied by a mutual `Fixpoint` on fuel.  `OutOfFuel` is a value no Python program
  produces; C07 proves that the API never returns it and that adding fuel never
  changes a result.

### The missing import

`jvozba.py:501` calls `is_slinkuhi`, which `jvozba.py` neither defines nor
imports.  So at the pinned commit, Python raises `NameError` whenever the builder
has found a word and `generate_cmevla` is off.  The model has a parameter
`lk : binding`.  `Unbound` is the pinned code.  `Bound` is the code with
`is_slinkuhi` added to the import list.  Theorems quantify over `lk` where they
can.  Where the property is about what the builder or the splitter compute once
the name resolves, they are stated for `Bound` and the `Unbound` behaviour is
proved separately (C10).

### Validation of the model

The model was extracted to OCaml in a scratch directory and run with
`lk = Bound` on the expected results in `/repo/tests` (read as data):

* `basic_test_list.tsv`: 10720 checks, all agree;
* `jvozba_test_list.tsv` under all 72 option combinations: 32544 checks, all agree but
  the rows `klingon- gugde`, `bangu -i'e-`, `bangu -ie'o-` and `-ban- -ie'o-`.
  The last three are due to `jvozba.py:329`, where the slice `[a:a]` is always
  empty and switches off the test of line 330.  The first is due to the slinku'i
  test accepting `klingonygu'e` (`toklingonygu'e` is rejected because its y-hyphen
  is superfluous);
* `katna_test_list.tsv` under all 72 option combinations: 89712 checks, all agree but
  the row `klingonygu'e` and the empty string (IndexError);
* `jvs_words.json`: 25770 words, all agree but the two words the Python test skips.

The TypeScript source, read for comparison, has the same intent for these
rows; the disagreements are defects of the pinned Python code, and the model
reproduces them.

## Trusted base

* Coq's kernel (8.16.1), including its `vm_compute`, and `coqchk`.
* `Print Assumptions` prints "Closed under the global context" for every theorem
  named `Cnn_...` (the command stands after each theorem in `Props*.v`).  No axiom
  is declared in this development and none of the standard library is used.
  `coqchk` lists seven constants `Coq.ssr.ssrunder.*` as axioms of the loaded
  libraries (module parameters of a functor argument); no theorem depends on them.
* `tools/gen_data.py`, which transcribes the two data files, and the
  hand-written transcription of the other Python files in `Tarmi.v`, `Core.v` and
  `Api.v`.
* The specifications in `Spec.v`, in terms of which the theorems are stated.

## Plan per property

`Spec.v` defines letters, permissible pairs (the phonological rule of CLL 3.6, not
the table), shapes, cuts and scores without using the model's helpers.

| id | modelled by | proof idea |
|---|---|---|
| C01 | `analyse_brivla` | loop invariants of `jvokaha_2` and of the y-part loop: pieces + pending hyphen + unread parts = word |
| C02 | `get_rafsi_indices` | induction on the list |
| C03 | `analyse_brivla` | case analysis on the last letter |
| C04 | `analyse_brivla` | `jvokaha_2` only consumes shapes; the zi'evla loop only consumes letters; y only as separator |
| C05 | `analyse_brivla`, `VALID` | table = phonological rule, by computation over all 17x17 pairs; then case analysis |
| C06 | `normalise` first | results depend on the normalised word only; needs C07 because fuel depends on the spelling |
| C07 | fuel | measure: length of the word; recursive calls are on strictly shorter words, the `jvokaha` chain has depth 3 because `totoC...` does not split |
| C08 | exceptions | refuted (witnesses); then the exact set of exceptions and the inputs that can cause each |
| C09 | exceptions | as C08 |
| C10 | builder | `Unbound`: never returns; `Bound`: the dynamic programme always has the all-y candidate, and no CLL lujvo is slinku'i |
| C11, C12, C13, C16 | builder | invariant of the table: every entry is an assembly of one form per component |
| C14, C15 | builder | exchange argument: the state (tosmabru type, consonants, last letter) determines how a candidate continues |
| C17 | builder | junction tests of `combine` + shape of forms |
| C18, C34 | analyser | junctions inside `jvokaha_2`; the zi'evla loop |
| C19, C20 | both | unique readability (C23) plus optimality for fixed rafsi; with zi'evla: the parts between the letters y are read back one by one (`Ext.v` to `Ext4.v`) |
| C21, C22, C38 | `get_veljvo` | induction over pieces; computation over the dictionary |
| C23 | `jvokaha_2` | the greedy splitter recovers every cut |
| C24 | `split_vowel_cluster` | induction on the loop |
| C25 | `SettingsIterator` | mixed radix arithmetic |
| C26 | scores | refuted; exact difference and exact condition for agreement proved |
| C27, C28 | tanru | induction |
| C29 | both | relational induction over the two runs |
| C30 | slinku'i | the test is made, except for LUJVO, where the tosmabru rule excludes it |
| C31 | zi'evla loop | loop invariant |
| C32 | tosmabru | a suffix that is a lujvo contradicts the tosmabru state of the builder; for any other word: with "to" for the first two letters the word is still a lujvo, so the rest is slinku'i |
| C33 | `rafsi_tarmi` | case analysis on length |
| C35, C36, C37, C40 | decomposition | loop invariants |
| C41 | `jvokaha` | C23 and the comparison of pieces, both directions |
| C42 | analyser | refuted (witnesses); an EXTENDED_LUJVO contains y, gismu and zi'evla do not |
| C43 | `get_veljvo`, `score_lujvo` | pieces that are not hyphens contain no y, and classifying a word without y never raises |
| C44 | `analyse_brivla` (LUJVO), `jvokaha` | RuleSpec.v states the hyphen rules on lists of rafsi; the cheapest chain of the builder is shown to be the one the rules give (Rules.v), every cut accepted is that one up to optional r/n (Rules2.v) |
| C45 | `get_lujvo` on literal rafsi | same; existence of the chain and its minimality, no search |
| C46 | `analyse_brivla` (ZIhEVLA) | ZiCut.v: a cut without y is joined by the rules but for its start; so the word is a lujvo (C44), or what follows its first syllable is one, or a gismu (C31) |
| C47 | `get_lujvo_with_analytics` (generate_cmevla), `analyse_brivla` (CMEVLA) | Names.v: `Unique.v`/`Round.v` hold for both kinds of words; the name is the cheapest chain of its own rafsi, so the analysis finds it again. Refuted with zi'evla components |
| C48 | the same and `get_veljvo` | Names.v and the dictionary facts of C20 |
| C49 | `jvokaha`, `compare_lujvo_pieces`, `combine` (generate_cmevla), `analyse_brivla` (CMEVLA) | NameRules.v: with generate_cmevla the tosmabru state stays 0 and no r or n is added; NameCut.v: cuts by the rules |
| C50 | `get_lujvo` (generate_cmevla) of literal rafsi | the same |
| C51 | `get_lujvo` on tanru of gismu and zi'evla | Mixed.v: every component has a form that can be joined, every table entry stays filled, and the word passes the fall-apart test |
| C52 | `analyse_brivla` (ZIhEVLA) | C31 (description of zi'evla), C05 and C44 for both option sets |
| C53 | builder | C52 and C05: what the builder asks about a component has the same answer; the rafsi of dictionary words are CLL rafsi |
| C54 | the interactive loops | induction over the lines; the options in force are specified by the last word for each option in the whole history |
| C55 | the interactive loops | refuted; C54 with C08, C38, C39, C43 for regular words (`Safe.v`) and for every line of two or more components that C39_exceptions covers |
| C56 | `is_gismu_or_lujvo` | True: C05 and C44; exceptions: exact condition for the NotBrivlaError of the splitter; always answering is refuted |
| C57 | analyser | C44 in both directions; the rules of `RuleSpec.v` do not mention the other options; induction over the rafsi for mz |
| C58 | `get_veljvo`, `score_lujvo` | C38 and C43; C08_regular for the exceptions |
| C59 | `make_rafsi_list.py` | invariant of its loops over the entries; permutations for the order of sets |
| C60 | `make_rafsi_list.py`, the files | a reader of string literals, by lines, inverts the writers |
| C39 | builder exceptions | refuted (`ctelair- klama`), then exact set; C39_exceptions: the documented exceptions only, unless a component is empty or ends in VVr- or 'Vr- |
