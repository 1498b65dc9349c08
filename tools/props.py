#!/usr/bin/env python3
"""Writes /verif/properties.jsonl (one JSON object per line)."""
import json, os
P = []
T, J, K, R = ("py/latkerlo_jvotci/tools.py", "py/latkerlo_jvotci/jvozba.py",
              "py/latkerlo_jvotci/katna.py", "py/latkerlo_jvotci/tarmi.py")
def p(id, title, statement, quantifier, why, *anchors):
    P.append(dict(id=id, title=title, statement=statement, quantifier=quantifier,
                  why_tests_cant=why, anchors=list(anchors)))

p("C01", "Decomposition loses and invents no letters",
  "Whenever analyse_brivla returns a list of pieces, the pieces joined together are exactly the word in its standard spelling (one leading period dropped, lower case, h written as ', commas removed).",
  "every string and every combination of the five options for which analyse_brivla returns",
  "there are infinitely many words; the pieces come out of two different decomposition algorithms with hyphen bookkeeping across y-parts, and a test only sees the words someone thought of",
  T+":analyse_brivla", K+":jvokaha", K+":jvokaha_2", T+":normalise")
p("C02", "Index ranges point at the rafsi",
  "For any list of pieces, get_rafsi_indices returns one (start, end) pair per piece that is not a hyphen, in order; slicing the joined word with each pair gives back that piece, the ranges lie inside the word and do not overlap. Applied to the pieces of analyse_brivla, the slices of the standard spelling are the rafsi.",
  "every list of pieces; every word accepted by analyse_brivla",
  "a running position over an arbitrary long list can only be checked at sampled lists by a test",
  T+":get_rafsi_indices", T+":analyse_brivla")
p("C03", "Word type agrees with the last letter",
  "analyse_brivla returns CMEVLA exactly for accepted words whose last letter is a consonant; every other type it returns is GISMU, ZIhEVLA, LUJVO or EXTENDED_LUJVO and then the last letter is a vowel. It never returns RAFSI.",
  "every string and every option combination", "quantifies over all accepted words and all 72 option combinations",
  T+":analyse_brivla")
p("C04", "Accepted words use only the Lojban alphabet",
  "If analyse_brivla accepts a word, its standard spelling is made only of the letters a e i o u y, the apostrophe and the 17 consonants.",
  "every string of Unicode characters and every option combination",
  "one stray character accepted somewhere deep in a long word would be enough to break it; tests cannot enumerate positions and characters",
  T+":analyse_brivla", T+":check_zihevla_or_rafsi", K+":jvokaha_2")
p("C05", "GISMU means exactly the five-letter root shape",
  "analyse_brivla returns GISMU if and only if the standard spelling is CVCCV with a permissible consonant pair in the middle or CCVCV with a permissible initial pair; the decomposition is then the word itself. Permissible is the CLL rule (no doubled consonant, no voiced/unvoiced mix except with l m n r, no two of c j s z, none of cx kx xc xk, and mz only with allow_mz).",
  "every string and every option combination", "an if-and-only-if over all strings",
  R+":is_gismu", R+":is_gismu_shape", T+":analyse_brivla", "py/latkerlo_jvotci/data.py:VALID")
p("C06", "Spelling variants are the same word",
  "Two non-empty spellings with the same standard form (upper/lower case, h or ', extra commas, a leading period) get the same result from analyse_brivla, is_brivla, get_veljvo and, component by component, get_lujvo and get_lujvo_with_analytics.",
  "every pair of spellings, every option combination", "relates pairs of arbitrary inputs",
  T+":normalise", J+":process_tanru")
p("C07", "Every API call terminates",
  "analyse_brivla, is_brivla, get_veljvo, score_lujvo, get_lujvo and get_lujvo_with_analytics return or raise on every input: the mutual recursion between the analyser, the lujvo splitter and the lujvo builder has depth bounded by the length of the word.",
  "every input string, tanru and option combination", "non-termination cannot be observed by a test, and the recursion goes through three modules",
  T+":analyse_brivla", T+":check_zihevla_or_rafsi", T+":is_slinkuhi", K+":jvokaha", J+":get_lujvo_from_list")
p("C08", "analyse_brivla raises only NotBrivlaError",
  "The documented contract: on every string analyse_brivla either returns or raises NotBrivlaError.",
  "every string and every option combination", "exception escapes depend on rare combinations (double y after an apostrophe, bad vowel runs after y')",
  T+":analyse_brivla")
p("C09", "is_brivla always answers",
  "is_brivla returns True or False for every string; it never raises.",
  "every string and every option combination", "same as C08", T+":is_brivla")
p("C10", "get_lujvo can build a lujvo for root words",
  "get_lujvo (generate_cmevla off) returns a lujvo for every tanru of two or more gismu under default options.",
  "every list of at least two gismu, in the dictionary or not", "infinitely many tanru; tests only exercise dictionary words",
  J+":get_lujvo", J+":get_lujvo_from_list")
p("C11", "Each component contributes one of its own rafsi",
  "In the result of get_lujvo_with_analytics, the i-th index range of the word spells a form that belongs to the i-th tanru component: a short rafsi listed for it, the gismu without its last vowel, the whole word, or the rafsi given literally with hyphens.",
  "every tanru, option combination and generate_cmevla value for which a result is returned",
  "the dynamic programme mixes forms of all components; tests cannot cover all mixes", J+":get_lujvo_with_analytics", J+":get_rafsi_list_list", J+":combine")
p("C12", "Index list of a built lujvo is well formed",
  "get_lujvo_with_analytics returns exactly one index range per tanru component; the ranges are in increasing order, do not overlap, start at 0, end inside the word, and what lies between two ranges (and after the last) is only hyphen letters y, ', r, n.",
  "every tanru, option combination and generate_cmevla value for which a result is returned",
  "unbounded number of components", J+":get_lujvo_with_analytics", J+":combine")
p("C13", "Returned score is the lujvo score of the returned word",
  "The score of get_lujvo_with_analytics equals 1000 per letter + 100 per y - 10 per shape rank of each rafsi - 1 per vowel, minus 1 when the first component is a CVV rafsi and the letters from its end to the end of the second component (an r or n hyphen included) have the shape CCV, CVC, CCVC or CVCC, with no hyphen after them.",
  "every tanru, option combination and generate_cmevla value for which a result is returned",
  "the score is accumulated piecewise over an unbounded number of components", J+":score", J+":tiebreak", J+":combine")
p("C14", "The returned lujvo is optimal",
  "No other way of choosing one form per component and assembling them left to right under the same joining rules gives an acceptable word with a lower score (experimental shapes off).",
  "every tanru and every choice of one form per component",
  "exponentially many choices, unbounded number of components; the implementation keeps only one candidate per state, so optimality needs an exchange argument", J+":get_lujvo_from_list", J+":update_current_best", J+":combine")
p("C15", "NoLujvoFoundError from the search means there is none",
  "If the builder reports that no lujvo exists although every component has rafsi forms, then no choice of one form per component can be assembled into an acceptable word (experimental shapes off), except when the best word fails the slinku'i test.",
  "every tanru and every choice of one form per component", "as C14", J+":get_lujvo_from_list")
p("C16", "Ending of the built word",
  "get_lujvo returns a word ending in a vowel when generate_cmevla is off and in a consonant when it is on.",
  "every tanru and option combination for which a result is returned", "all tanru", J+":get_lujvo_from_list")
p("C17", "Built words contain no forbidden cluster",
  "Every pair of adjacent consonants in a word returned by get_lujvo is permissible and no forbidden triple (ndj ndz ntc nts) occurs, when the components are gismu, cmavo or rafsi from the dictionary or literal CLL-shaped rafsi (and likewise for zi'evla components).",
  "every tanru and option combination for which a result is returned", "cluster problems appear only at junctions of particular rafsi", J+":combine", J+":get_rafsi_list_list")
p("C18", "Accepted words contain no forbidden cluster",
  "In every word accepted by analyse_brivla, every two adjacent consonants form a permissible pair (CLL rule; mz only with allow_mz), no forbidden triple occurs, and a word starting with two consonants starts with a permissible initial pair.",
  "every string and every option combination", "one bad junction at any position of an arbitrarily long word would break it",
  T+":analyse_brivla", K+":jvokaha_2", T+":check_zihevla_or_rafsi")
p("C19", "Built lujvo are accepted, with the same boundaries",
  "With experimental shapes off and generate_cmevla off, every word returned by get_lujvo_with_analytics is accepted by analyse_brivla under the same options as LUJVO or EXTENDED_LUJVO, and get_rafsi_indices of its decomposition is the returned index list.",
  "every tanru and option combination for which a result is returned", "relates the builder to two independent analysers on unbounded inputs",
  J+":get_lujvo_with_analytics", T+":analyse_brivla", K+":jvokaha")
p("C20", "Decomposing a built lujvo gives back its components",
  "get_veljvo applied to a word built from dictionary components returns the same components, whenever the form used for each component belongs to no other dictionary word.",
  "every tanru of dictionary words for which a lujvo is built", "as C19", K+":get_veljvo", J+":get_lujvo")
p("C21", "get_veljvo returns one entry per rafsi, each justified",
  "get_veljvo returns exactly one entry for every non-hyphen piece of the decomposition, in order; each entry is a dictionary word that has that piece as rafsi (or is a gismu consisting of that piece plus a vowel), or the piece itself, or the piece marked with hyphens.",
  "every word for which get_veljvo returns", "unbounded number of pieces", K+":get_veljvo", K+":selrafsi_list_from_rafsi_list", K+":search_selrafsi_from_rafsi")
p("C22", "Dictionary lookup is sound, complete and inverse",
  "Looking up a rafsi returns a word only if the dictionary lists that rafsi for it or it is a four-letter piece of a dictionary gismu; every short rafsi listed in the dictionary is looked up to the word listing it; no short rafsi belongs to two words.",
  "every string; every dictionary entry", "ranges over all strings and the whole dictionary", K+":search_selrafsi_from_rafsi", "py/latkerlo_jvotci/rafsi.py:RAFSI_LIST")
p("C23", "CLL lujvo are uniquely readable",
  "A word can be cut in at most one way into CLL rafsi and hyphens following the hyphen rules, and the splitter finds that cut whenever it exists.",
  "every string and every pair of cuts", "uniqueness over all cuts of all strings", K+":jvokaha_2")
p("C24", "Vowel runs are split into legal syllables, losslessly and uniquely",
  "Splitting a vowel run either fails or returns syllables whose concatenation is the run; the first is a plain vowel, a diphthong ai ei oi au or an on-glide syllable, all later ones are on-glide syllables.",
  "every string", "unbounded runs", R+":split_vowel_cluster")
p("C25", "The settings iterator enumerates every combination exactly once",
  "Iterating SettingsIterator over any list of option lists yields every element of the cartesian product exactly once and nothing else, and its length is the product of the lengths.",
  "every list of option lists", "all lists", R+":SettingsIterator")
p("C26", "score_lujvo agrees with the builder",
  "score_lujvo of a word built by get_lujvo_with_analytics equals the score returned with it.",
  "every tanru and option combination for which a result is returned", "relates two independent scoring routines", K+":score_lujvo", J+":get_lujvo_with_analytics")
p("C27", "A tanru string and its word list are interchangeable",
  "Passing words joined by any amount of white space is the same as passing the list of those words.",
  "every list of words without white space, every spacing", "all spacings", J+":process_tanru")
p("C28", "get_lujvo is the first component of get_lujvo_with_analytics",
  "Both functions raise the same exception or agree on the word, for every tanru and options.",
  "every tanru and option combination", "all inputs", J+":get_lujvo", J+":get_lujvo_with_analytics")
p("C29", "The glides option only matters with experimental shapes",
  "With exp_rafsi_shapes off, switching glides on or off changes no result of analyse_brivla, get_veljvo, get_lujvo or get_lujvo_with_analytics.",
  "every input and every setting of the other options", "relates two runs on arbitrary inputs", T+":analyse_brivla", J+":combine")
p("C30", "No accepted word is a slinku'i",
  "If analyse_brivla accepts a word that starts with a consonant as a brivla (any type but CMEVLA), prefixing the cmavo 'to' does not give a CLL lujvo under the same hyphen and mz options.",
  "every accepted word", "relates two words, over all words", T+":is_slinkuhi", T+":analyse_brivla")
p("C31", "Accepted zi'evla satisfy the zi'evla rules",
  "A word classified ZIhEVLA has at least four letters, no y, at least two syllables, a consonant cluster with at most one consonant before it, only legal vowel runs, every apostrophe between vowels, a legal initial cluster, and neither is a CLL lujvo nor falls apart into a shorter brivla at or before its first cluster.",
  "every word classified ZIhEVLA", "all words", T+":check_zihevla_or_rafsi")
p("C32", "No accepted CLL lujvo falls apart (tosmabru)",
  "If analyse_brivla classifies a word as LUJVO, then removing a leading cmavo (CV, or the consonant and vowels before the second consonant) never leaves a gismu or a CLL lujvo. If what is left begins with a consonant, it is not accepted as a word of any type under the same y_hyphens and allow_mz, so a listener cannot break the lujvo into a cmavo and a content word.",
  "every word classified LUJVO", "relates a word and its suffixes, over all words", J+":combine", K+":jvokaha")
p("C33", "Rafsi shapes are classified exactly",
  "The shape assigned to a string is CVC, CVV, CV'V, CCV, CVCC, CCVC, CVCCV or CCVCV exactly when its letters follow that pattern; the dictionary contains only short rafsi of shape CVC, CVV, CV'V or CCV.",
  "every string", "all strings", R+":rafsi_tarmi", R+":is_valid_rafsi")
p("C34", "mz needs the option",
  "Without allow_mz no accepted word and no word built by get_lujvo contains the letters mz next to each other.",
  "every word, every tanru", "all words", T+":analyse_brivla", J+":combine")
p("C35", "Pieces of a decomposition are rafsi and hyphens",
  "In a LUJVO decomposition every piece is a valid CLL rafsi or a hyphen (y, n, r, or 'y), and there are at least two rafsi; in an EXTENDED_LUJVO or CMEVLA decomposition every non-hyphen piece is a CLL rafsi, a zi'evla-like piece or (only with the option) an experimental rafsi.",
  "every accepted word", "all words", K+":jvokaha_2", T+":analyse_brivla")
p("C36", "Hyphens are never first, last or doubled",
  "In the decomposition of an accepted word no hyphen is the first or last piece and no two hyphens are adjacent.",
  "every accepted word", "all words", K+":jvokaha_2", T+":analyse_brivla")
p("C37", "A brivla has a consonant cluster",
  "With the CLUSTER rule and glides off, every accepted word that is not a CMEVLA has two consonants in a row when y and ' are ignored.",
  "every accepted word", "all words", T+":analyse_brivla", J+":combine")
p("C38", "get_veljvo accepts exactly the compound words",
  "get_veljvo raises DecompositionError on every word analyse_brivla classifies as GISMU or ZIhEVLA, and passes on the exception of analyse_brivla when there is one.",
  "every string and option combination", "all strings", K+":get_veljvo")
p("C39", "Exceptions of the builder",
  "get_lujvo raises only NoLujvoFoundError, NonLojbanCharacterError, NotZihevlaError or InvalidClusterError on every tanru of at least two words; internal assertions never fail.",
  "every tanru and option combination", "all tanru", J+":get_lujvo_from_list", J+":get_rafsi_for_rafsi")
p("C40", "The spelling 'y between CLL rafsi needs the option",
  "With standard y-hyphen rules no LUJVO decomposition contains the hyphen 'y; with FORCE_Y it contains no n or r hyphen, and the accepted CLL lujvo is exactly the one the builder makes from its rafsi.",
  "every word classified LUJVO", "all words", K+":jvokaha_2", K+":jvokaha", J+":combine")
p("C41", "CLL lujvo are exactly the words cut into rafsi with the hyphens the rules require",
  "analyse_brivla classifies a word as LUJVO with given pieces if and only if the word is no gismu, ends in a vowel, the pieces are a cut of the word into at least two CLL rafsi and hyphens, and the pieces are those of the lujvo the builder makes from exactly these rafsi, up to optional r and n hyphens.",
  "every string, every list of pieces and every option combination", "an if-and-only-if over all strings and cuts",
  K+":jvokaha", K+":jvokaha_2", K+":compare_lujvo_pieces", T+":analyse_brivla")
p("C42", "No accepted compound with y falls apart",
  "No word accepted as EXTENDED_LUJVO is a cmavo followed by another accepted brivla.",
  "every word classified EXTENDED_LUJVO", "all words", T+":analyse_brivla", K+":jvokaha")
p("C43", "Every accepted compound can be decomposed and scored",
  "Whenever analyse_brivla classifies a word as LUJVO, EXTENDED_LUJVO or CMEVLA, get_veljvo returns a list with one entry per piece that is not a hyphen, and score_lujvo returns a number; neither raises an exception.",
  "every string and option combination for which analyse_brivla gives one of the three classes", "all words; get_veljvo classifies pieces and pieces with an a added, which could raise",
  K+":get_veljvo", K+":selrafsi_list_from_rafsi_list", K+":score_lujvo", T+":is_brivla")
p("C44", "CLL lujvo are exactly the rafsi strings hyphenated by the CLL rules",
  "analyse_brivla classifies a word as LUJVO with given pieces if and only if the pieces are at least two CLL rafsi with the hyphens of CLL 4.6 between them: y after four-letter consonant-final rafsi, where consonants may not touch, and after the first rafsi when the word has the tosmabru pattern; r or n after a first CVV or CV'V unless a single CCV follows, optional after later ones; 'y instead with FORCE_Y; nothing elsewhere.",
  "every string of at most 10^96 letters, every list of pieces and every option combination", "an if-and-only-if over all strings; the accepting code rebuilds the word by a cost search and compares",
  K+":jvokaha", K+":compare_lujvo_pieces", J+":combine", T+":analyse_brivla")
p("C45", "The lujvo built from given rafsi is the one with just the needed hyphens",
  "Given at least two CLL rafsi in literal form (-raf-), five-letter ones only at the end, get_lujvo returns the rafsi joined by exactly the hyphens the rules of CLL 4.6 require, and no word exactly when the last rafsi ends in a consonant or, with FORCE_Y and the cluster rule, no rafsi has a cluster.",
  "every list of CLL rafsi and every option combination", "all lists of rafsi of any length; the result comes from a dynamic-programming search",
  J+":get_lujvo_from_list", J+":combine", J+":get_rafsi_for_rafsi")
p("C46", "A zi'evla is never a string of rafsi",
  "If analyse_brivla calls a word without mz a zi'evla, then the word cannot be cut into CLL rafsi with the hyphens r and n (or y, 'y) between them, even if the hyphens are not those the rules require; so no lujvo or would-be lujvo passes for a zi'evla.",
  "every word that is a zi'evla under some options, and every way to cut it", "unbounded words and all their cuts; the analyser only tries the one cut it finds and a few suffixes",
  T+":check_zihevla_or_rafsi", T+":analyse_brivla", K+":jvokaha_2")
p("C47", "Names the builder makes are names the analyser accepts",
  "Whenever get_lujvo_with_analytics with generate_cmevla returns a name, analyse_brivla accepts it under the same options as CMEVLA, with pieces that spell the name and whose rafsi are at the returned ranges.",
  "every tanru and option combination", "all tanru; acceptance is decided by other code (a recursive decomposition) than the building", J+":get_lujvo_with_analytics", J+":get_lujvo_from_list", T+":analyse_brivla", K+":jvokaha")
p("C48", "Names give their tanru back",
  "get_veljvo of a name built from dictionary words (no zi'evla among them) returns exactly these words, whatever the options, provided every piece of the name is a form of its word only.",
  "every list of dictionary words of any length and every option combination", "all tanru of all lengths", J+":get_lujvo_with_analytics", K+":get_veljvo", K+":selrafsi_list_from_rafsi_list")
p("C49", "Names made of rafsi obey rules of their own",
  "Every string of at least two CLL rafsi that ends in a consonant and has the hyphen y exactly where it is needed (four-letter rafsi before others, consonants that may not touch), and possibly r or n after CVV and CV'V (after a first one only before CCV or CCVC), is classified CMEVLA with these pieces. A name without y is classified CMEVLA only if it is such a string. There is no rule against tosmabru and no hyphen required after a first CVV.",
  "every string of at most 10^96 letters, every list of pieces and every option combination", "an if-and-only-if over all strings; the accepting code rebuilds the name by a cost search and compares",
  K+":jvokaha", K+":compare_lujvo_pieces", J+":combine", T+":analyse_brivla")
p("C50", "The name built from given rafsi is the one with just the needed y",
  "Given at least two CLL rafsi in literal form (-raf-), five-letter ones only at the end, get_lujvo with generate_cmevla returns the rafsi joined by y exactly where it is needed and by nothing elsewhere, and no name exactly when the last rafsi ends in a vowel.",
  "every list of CLL rafsi and every option combination", "all lists of rafsi of any length; the result comes from a dynamic-programming search",
  J+":get_lujvo_from_list", J+":combine", J+":get_rafsi_for_rafsi")
p("C51", "Every tanru of gismu and zi'evla has a lujvo",
  "Every tanru of at least two words, each a gismu or a zi'evla (in the dictionary or not), gives a lujvo under every combination of options, and a name too when its last word is a gismu. A tanru whose last word is a zi'evla without rafsi of its own never gives a name.",
  "every tanru of gismu and zi'evla and every option combination", "the words form an infinite set and the search must succeed for every combination of their forms",
  J+":get_lujvo", J+":get_rafsi_list_list", J+":get_lujvo_from_list")
p("C52", "Whether a word is a zi'evla depends on two options only",
  "A word is accepted as a zi'evla, with the same pieces, whatever the options on experimental shapes, consonants and glides; only y_hyphens and allow_mz can matter.",
  "every string and every pair of option combinations with the same y_hyphens and allow_mz", "all strings; the classification recurses on suffixes of the word under changed options",
  T+":analyse_brivla", R+":is_zihevla_initial_cluster")
p("C53", "Experimental shapes matter only for literal rafsi",
  "For a tanru of words, starts of words (brod-), CLL rafsi and zi'evla between dashes, get_lujvo and get_lujvo_with_analytics give the same result, or raise the same exception, whether or not experimental rafsi shapes are allowed.",
  "every such tanru, every other option, with and without generate_cmevla", "all tanru; the option is read in several places of builder and recogniser",
  J+":get_lujvo_with_analytics", J+":get_rafsi_list_list", T+":analyse_brivla")
p("C54", "An interactive session answers with the options last given",
  "In a session of jvozba.py or katna.py run as a program, every turn uses, for each option, the value named by the last word of a /command typed so far that concerns the option (the default if there is none), and shows it in the prompt; other words of commands are ignored. A line that is no command is answered by exactly what get_lujvo_with_analytics, or analyse_brivla and get_veljvo, return for it under these options, independently of earlier queries. The session ends at an empty line, at the end of the input, or with the first exception that is not among the caught ones.",
  "every sequence of lines", "sessions are unboundedly long histories of commands and queries",
  J+":get_lujvo_with_analytics", K+":get_veljvo", T+":analyse_brivla")
p("C55", "No query ends an interactive session",
  "Whatever tanru or words are typed, the session of jvozba.py or katna.py goes on until an empty line or the end of the input.",
  "every sequence of lines", "every history of lines, and every string as a line",
  J+":get_lujvo_with_analytics", K+":get_veljvo", T+":analyse_brivla")
p("C56", "is_gismu_or_lujvo tells gismu and lujvo from all other strings",
  "is_gismu_or_lujvo returns True exactly for the strings in standard spelling (lower case, apostrophes, no commas) that analyse_brivla classifies GISMU or LUJVO under the same y_hyphens and allow_mz and default consonants, and False for every other string.",
  "every string, every y_hyphens and allow_mz", "all strings; the two functions share only part of their code, and the exceptions one of them catches must cover every string",
  T+":is_gismu_or_lujvo", T+":analyse_brivla", K+":jvokaha", K+":jvokaha_2")
p("C57", "Being a CLL lujvo depends on few options",
  "Whether a word is classified LUJVO, and its pieces, do not depend on glides and experimental shapes, nor on the choice between STANDARD and ALLOW_Y; they depend on consonants only under FORCE_Y; and on allow_mz only if m and z touch or have just y between them.",
  "every word and every pair of option combinations", "all strings; the recogniser rebuilds the word by a cost search that reads all these options",
  T+":analyse_brivla", K+":jvokaha", J+":get_lujvo_from_list")
p("C58", "get_veljvo and score_lujvo answer together with analyse_brivla",
  "For every string: if analyse_brivla classifies it LUJVO, EXTENDED_LUJVO or CMEVLA then get_veljvo returns one component per rafsi and score_lujvo returns a number; if it is a GISMU or ZIhEVLA both raise DecompositionError; otherwise both raise what analyse_brivla raises.",
  "every string and option combination", "all strings; one word whose pieces cannot be expanded again would break it",
  K+":get_veljvo", K+":score_lujvo", T+":analyse_brivla")
p("C59", "The generated dictionary is justified, complete and ordered",
  "Whatever dictionary export make_rafsi_list.py reads: every rafsi it writes for a word was assigned to that word (in the export or in the by-hand list), or is proposed in the notes of that word and assigned to no word at all; if no word is listed twice, no assigned rafsi of a used word is lost and every gismu has an entry; every word has one entry, without repetitions, ordered by shape; the enumeration order of Python sets changes only the order of rafsi of the same shape.",
  "every list of dictionary entries and every enumeration order of sets", "all exports and all hash seeds; the script has no tests and its input is on the network",
  "make_rafsi_list.py", "py/latkerlo_jvotci/rafsi.py:RAFSI_LIST")
p("C60", "The four generated files hold the same dictionary",
  "Reading back any of the four files make_rafsi_list.py writes (Python, TypeScript, JavaScript, Rust) gives exactly the dictionary it computed, with the same words, rafsi and order, provided the words and rafsi are printable ASCII without double quotes and backslashes.",
  "every dictionary, hence every dictionary export", "all dictionaries; apostrophes in rafsi change the quotation marks, and empty entries are special in the Rust file",
  "make_rafsi_list.py", "py/latkerlo_jvotci/rafsi.py:RAFSI_LIST", "js/src/rafsi.ts", "rs/src/rafsi.rs")
out = os.path.join(os.path.dirname(os.path.abspath(__file__)), "..", "properties.jsonl")
with open(out, "w") as f:
    for x in P: f.write(json.dumps(x) + "\n")
print(len(P))
