{"id": "C01", "title": "Decomposition loses and invents no letters", "statement": "Whenever analyse_brivla returns a list of pieces, the pieces joined together are exactly the word in its standard spelling (one leading period dropped, lower case, h written as ', commas removed).", "quantifier": "every string and every combination of the five options for which analyse_brivla returns", "why_tests_cant": "there are infinitely many words; the pieces come out of two different decomposition algorithms with hyphen bookkeeping across y-parts, and a test only sees the words someone thought of", "anchors": ["py/latkerlo_jvotci/tools.py:analyse_brivla", "py/latkerlo_jvotci/katna.py:jvokaha", "py/latkerlo_jvotci/katna.py:jvokaha_2", "py/latkerlo_jvotci/tools.py:normalise"]}
{"id": "C02", "title": "Index ranges point at the rafsi", "statement": "For any list of pieces, get_rafsi_indices returns one (start, end) pair per piece that is not a hyphen, in order; slicing the joined word with each pair gives back that piece, the ranges lie inside the word and do not overlap. Applied to the pieces of analyse_brivla, the slices of the standard spelling are the rafsi.", "quantifier": "every list of pieces; every word accepted by analyse_brivla", "why_tests_cant": "a running position over an arbitrary long list can only be checked at sampled lists by a test", "anchors": ["py/latkerlo_jvotci/tools.py:get_rafsi_indices", "py/latkerlo_jvotci/tools.py:analyse_brivla"]}
{"id": "C03", "title": "Word type agrees with the last letter", "statement": "analyse_brivla returns CMEVLA exactly for accepted words whose last letter is a consonant; every other type it returns is GISMU, ZIhEVLA, LUJVO or EXTENDED_LUJVO and then the last letter is a vowel. It never returns RAFSI.", "quantifier": "every string and every option combination", "why_tests_cant": "quantifies over all accepted words and all 72 option combinations", "anchors": ["py/latkerlo_jvotci/tools.py:analyse_brivla"]}
{"id": "C04", "title": "Accepted words use only the Lojban alphabet", "statement": "If analyse_brivla accepts a word, its standard spelling is made only of the letters a e i o u y, the apostrophe and the 17 consonants.", "quantifier": "every string of Unicode characters and every option combination", "why_tests_cant": "one stray character accepted somewhere deep in a long word would be enough to break it; tests cannot enumerate positions and characters", "anchors": ["py/latkerlo_jvotci/tools.py:analyse_brivla", "py/latkerlo_jvotci/tools.py:check_zihevla_or_rafsi", "py/latkerlo_jvotci/katna.py:jvokaha_2"]}
{"id": "C05", "title": "GISMU means exactly the five-letter root shape", "statement": "analyse_brivla returns GISMU if and only if the standard spelling is CVCCV with a permissible consonant pair in the middle or CCVCV with a permissible initial pair; the decomposition is then the word itself. Permissible is the CLL rule (no doubled consonant, no voiced/unvoiced mix except with l m n r, no two of c j s z, none of cx kx xc xk, and mz only with allow_mz).", "quantifier": "every string and every option combination", "why_tests_cant": "an if-and-only-if over all strings", "anchors": ["py/latkerlo_jvotci/tarmi.py:is_gismu", "py/latkerlo_jvotci/tarmi.py:is_gismu_shape", "py/latkerlo_jvotci/tools.py:analyse_brivla", "py/latkerlo_jvotci/data.py:VALID"]}
{"id": "C06", "title": "Spelling variants are the same word", "statement": "Two non-empty spellings with the same standard form (upper/lower case, h or ', extra commas, a leading period) get the same result from analyse_brivla, is_brivla, get_veljvo and, component by component, get_lujvo and get_lujvo_with_analytics.", "quantifier": "every pair of spellings, every option combination", "why_tests_cant": "relates pairs of arbitrary inputs", "anchors": ["py/latkerlo_jvotci/tools.py:normalise", "py/latkerlo_jvotci/jvozba.py:process_tanru"]}
{"id": "C07", "title": "Every API call terminates", "statement": "analyse_brivla, is_brivla, get_veljvo, score_lujvo, get_lujvo and get_lujvo_with_analytics return or raise on every input: the mutual recursion between the analyser, the lujvo splitter and the lujvo builder has depth bounded by the length of the word.", "quantifier": "every input string, tanru and option combination", "why_tests_cant": "non-termination cannot be observed by a test, and the recursion goes through three modules", "anchors": ["py/latkerlo_jvotci/tools.py:analyse_brivla", "py/latkerlo_jvotci/tools.py:check_zihevla_or_rafsi", "py/latkerlo_jvotci/tools.py:is_slinkuhi", "py/latkerlo_jvotci/katna.py:jvokaha", "py/latkerlo_jvotci/jvozba.py:get_lujvo_from_list"]}
{"id": "C08", "title": "analyse_brivla raises only NotBrivlaError", "statement": "The documented contract: on every string analyse_brivla either returns or raises NotBrivlaError.", "quantifier": "every string and every option combination", "why_tests_cant": "exception escapes depend on rare combinations (double y after an apostrophe, bad vowel runs after y')", "anchors": ["py/latkerlo_jvotci/tools.py:analyse_brivla"]}
{"id": "C09", "title": "is_brivla always answers", "statement": "is_brivla returns True or False for every string; it never raises.", "quantifier": "every string and every option combination", "why_tests_cant": "same as C08", "anchors": ["py/latkerlo_jvotci/tools.py:is_brivla"]}
{"id": "C10", "title": "get_lujvo can build a lujvo for root words", "statement": "get_lujvo (generate_cmevla off) returns a lujvo for every tanru of two or more gismu under default options.", "quantifier": "every list of at least two gismu, in the dictionary or not", "why_tests_cant": "infinitely many tanru; tests only exercise dictionary words", "anchors": ["py/latkerlo_jvotci/jvozba.py:get_lujvo", "py/latkerlo_jvotci/jvozba.py:get_lujvo_from_list"]}
{"id": "C11", "title": "Each component contributes one of its own rafsi", "statement": "In the result of get_lujvo_with_analytics, the i-th index range of the word spells a form that belongs to the i-th tanru component: a short rafsi listed for it, the gismu without its last vowel, the whole word, or the rafsi given literally with hyphens.", "quantifier": "every tanru, option combination and generate_cmevla value for which a result is returned", "why_tests_cant": "the dynamic programme mixes forms of all components; tests cannot cover all mixes", "anchors": ["py/latkerlo_jvotci/jvozba.py:get_lujvo_with_analytics", "py/latkerlo_jvotci/jvozba.py:get_rafsi_list_list", "py/latkerlo_jvotci/jvozba.py:combine"]}
{"id": "C12", "title": "Index list of a built lujvo is well formed", "statement": "get_lujvo_with_analytics returns exactly one index range per tanru component; the ranges are in increasing order, do not overlap, start at 0, end inside the word, and what lies between two ranges (and after the last) is only hyphen letters y, ', r, n.", "quantifier": "every tanru, option combination and generate_cmevla value for which a result is returned", "why_tests_cant": "unbounded number of components", "anchors": ["py/latkerlo_jvotci/jvozba.py:get_lujvo_with_analytics", "py/latkerlo_jvotci/jvozba.py:combine"]}
{"id": "C13", "title": "Returned score is the lujvo score of the returned word", "statement": "The score of get_lujvo_with_analytics equals 1000 per letter + 100 per y - 10 per shape rank of each rafsi - 1 per vowel, minus 1 when the first component is a CVV rafsi and the letters from its end to the end of the second component (an r or n hyphen included) have the shape CCV, CVC, CCVC or CVCC, with no hyphen after them.", "quantifier": "every tanru, option combination and generate_cmevla value for which a result is returned", "why_tests_cant": "the score is accumulated piecewise over an unbounded number of components", "anchors": ["py/latkerlo_jvotci/jvozba.py:score", "py/latkerlo_jvotci/jvozba.py:tiebreak", "py/latkerlo_jvotci/jvozba.py:combine"]}
{"id": "C14", "title": "The returned lujvo is optimal", "statement": "No other way of choosing one form per component and assembling them left to right under the same joining rules gives an acceptable word with a lower score (experimental shapes off).", "quantifier": "every tanru and every choice of one form per component", "why_tests_cant": "exponentially many choices, unbounded number of components; the implementation keeps only one candidate per state, so optimality needs an exchange argument", "anchors": ["py/latkerlo_jvotci/jvozba.py:get_lujvo_from_list", "py/latkerlo_jvotci/jvozba.py:update_current_best", "py/latkerlo_jvotci/jvozba.py:combine"]}
{"id": "C15", "title": "NoLujvoFoundError from the search means there is none", "statement": "If the builder reports that no lujvo exists although every component has rafsi forms, then no choice of one form per component can be assembled into an acceptable word (experimental shapes off), except when the best word fails the slinku'i test.", "quantifier": "every tanru and every choice of one form per component", "why_tests_cant": "as C14", "anchors": ["py/latkerlo_jvotci/jvozba.py:get_lujvo_from_list"]}
{"id": "C16", "title": "Ending of the built word", "statement": "get_lujvo returns a word ending in a vowel when generate_cmevla is off and in a consonant when it is on.", "quantifier": "every tanru and option combination for which a result is returned", "why_tests_cant": "all tanru", "anchors": ["py/latkerlo_jvotci/jvozba.py:get_lujvo_from_list"]}
{"id": "C17", "title": "Built words contain no forbidden cluster", "statement": "Every pair of adjacent consonants in a word returned by get_lujvo is permissible and no forbidden triple (ndj ndz ntc nts) occurs, when the components are gismu, cmavo or rafsi from the dictionary or literal CLL-shaped rafsi (and likewise for zi'evla components).", "quantifier": "every tanru and option combination for which a result is returned", "why_tests_cant": "cluster problems appear only at junctions of particular rafsi", "anchors": ["py/latkerlo_jvotci/jvozba.py:combine", "py/latkerlo_jvotci/jvozba.py:get_rafsi_list_list"]}
{"id": "C18", "title": "Accepted words contain no forbidden cluster", "statement": "In every word accepted by analyse_brivla, every two adjacent consonants form a permissible pair (CLL rule; mz only with allow_mz), no forbidden triple occurs, and a word starting with two consonants starts with a permissible initial pair.", "quantifier": "every string and every option combination", "why_tests_cant": "one bad junction at any position of an arbitrarily long word would break it", "anchors": ["py/latkerlo_jvotci/tools.py:analyse_brivla", "py/latkerlo_jvotci/katna.py:jvokaha_2", "py/latkerlo_jvotci/tools.py:check_zihevla_or_rafsi"]}
{"id": "C19", "title": "Built lujvo are accepted, with the same boundaries", "statement": "With experimental shapes off and generate_cmevla off, every word returned by get_lujvo_with_analytics is accepted by analyse_brivla under the same options as LUJVO or EXTENDED_LUJVO, and get_rafsi_indices of its decomposition is the returned index list.", "quantifier": "every tanru and option combination for which a result is returned", "why_tests_cant": "relates the builder to two independent analysers on unbounded inputs", "anchors": ["py/latkerlo_jvotci/jvozba.py:get_lujvo_with_analytics", "py/latkerlo_jvotci/tools.py:analyse_brivla", "py/latkerlo_jvotci/katna.py:jvokaha"]}
{"id": "C20", "title": "Decomposing a built lujvo gives back its components", "statement": "get_veljvo applied to a word built from dictionary components returns the same components, whenever the form used for each component belongs to no other dictionary word.", "quantifier": "every tanru of dictionary words for which a lujvo is built", "why_tests_cant": "as C19", "anchors": ["py/latkerlo_jvotci/katna.py:get_veljvo", "py/latkerlo_jvotci/jvozba.py:get_lujvo"]}
{"id": "C21", "title": "get_veljvo returns one entry per rafsi, each justified", "statement": "get_veljvo returns exactly one entry for every non-hyphen piece of the decomposition, in order; each entry is a dictionary word that has that piece as rafsi (or is a gismu consisting of that piece plus a vowel), or the piece itself, or the piece marked with hyphens.", "quantifier": "every word for which get_veljvo returns", "why_tests_cant": "unbounded number of pieces", "anchors": ["py/latkerlo_jvotci/katna.py:get_veljvo", "py/latkerlo_jvotci/katna.py:selrafsi_list_from_rafsi_list", "py/latkerlo_jvotci/katna.py:search_selrafsi_from_rafsi"]}
{"id": "C22", "title": "Dictionary lookup is sound, complete and inverse", "statement": "Looking up a rafsi returns a word only if the dictionary lists that rafsi for it or it is a four-letter piece of a dictionary gismu; every short rafsi listed in the dictionary is looked up to the word listing it; no short rafsi belongs to two words.", "quantifier": "every string; every dictionary entry", "why_tests_cant": "ranges over all strings and the whole dictionary", "anchors": ["py/latkerlo_jvotci/katna.py:search_selrafsi_from_rafsi", "py/latkerlo_jvotci/rafsi.py:RAFSI_LIST"]}
{"id": "C23", "title": "CLL lujvo are uniquely readable", "statement": "A word can be cut in at most one way into CLL rafsi and hyphens following the hyphen rules, and the splitter finds that cut whenever it exists.", "quantifier": "every string and every pair of cuts", "why_tests_cant": "uniqueness over all cuts of all strings", "anchors": ["py/latkerlo_jvotci/katna.py:jvokaha_2"]}
{"id": "C24", "title": "Vowel runs are split into legal syllables, losslessly and uniquely", "statement": "Splitting a vowel run either fails or returns syllables whose concatenation is the run; the first is a plain vowel, a diphthong ai ei oi au or an on-glide syllable, all later ones are on-glide syllables.", "quantifier": "every string", "why_tests_cant": "unbounded runs", "anchors": ["py/latkerlo_jvotci/tarmi.py:split_vowel_cluster"]}
{"id": "C25", "title": "The settings iterator enumerates every combination exactly once", "statement": "Iterating SettingsIterator over any list of option lists yields every element of the cartesian product exactly once and nothing else, and its length is the product of the lengths.", "quantifier": "every list of option lists", "why_tests_cant": "all lists", "anchors": ["py/latkerlo_jvotci/tarmi.py:SettingsIterator"]}
{"id": "C26", "title": "score_lujvo agrees with the builder", "statement": "score_lujvo of a word built by get_lujvo_with_analytics equals the score returned with it.", "quantifier": "every tanru and option combination for which a result is returned", "why_tests_cant": "relates two independent scoring routines", "anchors": ["py/latkerlo_jvotci/katna.py:score_lujvo", "py/latkerlo_jvotci/jvozba.py:get_lujvo_with_analytics"]}
{"id": "C27", "title": "A tanru string and its word list are interchangeable", "statement": "Passing words joined by any amount of white space is the same as passing the list of those words.", "quantifier": "every list of words without white space, every spacing", "why_tests_cant": "all spacings", "anchors": ["py/latkerlo_jvotci/jvozba.py:process_tanru"]}
{"id": "C28", "title": "get_lujvo is the first component of get_lujvo_with_analytics", "statement": "Both functions raise the same exception or agree on the word, for every tanru and options.", "quantifier": "every tanru and option combination", "why_tests_cant": "all inputs", "anchors": ["py/latkerlo_jvotci/jvozba.py:get_lujvo", "py/latkerlo_jvotci/jvozba.py:get_lujvo_with_analytics"]}
{"id": "C29", "title": "The glides option only matters with experimental shapes", "statement": "With exp_rafsi_shapes off, switching glides on or off changes no result of analyse_brivla, get_veljvo, get_lujvo or get_lujvo_with_analytics.", "quantifier": "every input and every setting of the other options", "why_tests_cant": "relates two runs on arbitrary inputs", "anchors": ["py/latkerlo_jvotci/tools.py:analyse_brivla", "py/latkerlo_jvotci/jvozba.py:combine"]}
{"id": "C30", "title": "No accepted word is a slinku'i", "statement": "If analyse_brivla accepts a word that starts with a consonant as a brivla (any type but CMEVLA), prefixing the cmavo 'to' does not give a CLL lujvo under the same hyphen and mz options.", "quantifier": "every accepted word", "why_tests_cant": "relates two words, over all words", "anchors": ["py/latkerlo_jvotci/tools.py:is_slinkuhi", "py/latkerlo_jvotci/tools.py:analyse_brivla"]}
{"id": "C31", "title": "Accepted zi'evla satisfy the zi'evla rules", "statement": "A word classified ZIhEVLA has at least four letters, no y, at least two syllables, a consonant cluster with at most one consonant before it, only legal vowel runs, every apostrophe between vowels, a legal initial cluster, and neither is a CLL lujvo nor falls apart into a shorter brivla at or before its first cluster.", "quantifier": "every word classified ZIhEVLA", "why_tests_cant": "all words", "anchors": ["py/latkerlo_jvotci/tools.py:check_zihevla_or_rafsi"]}
{"id": "C32", "title": "No accepted CLL lujvo falls apart (tosmabru)", "statement": "If analyse_brivla classifies a word as LUJVO, then removing a leading cmavo (CV, or the consonant and vowels before the second consonant) never leaves a gismu or a CLL lujvo. If what is left begins with a consonant, it is not accepted as a word of any type under the same y_hyphens and allow_mz, so a listener cannot break the lujvo into a cmavo and a content word.", "quantifier": "every word classified LUJVO", "why_tests_cant": "relates a word and its suffixes, over all words", "anchors": ["py/latkerlo_jvotci/jvozba.py:combine", "py/latkerlo_jvotci/katna.py:jvokaha"]}
{"id": "C33", "title": "Rafsi shapes are classified exactly", "statement": "The shape assigned to a string is CVC, CVV, CV'V, CCV, CVCC, CCVC, CVCCV or CCVCV exactly when its letters follow that pattern; the dictionary contains only short rafsi of shape CVC, CVV, CV'V or CCV.", "quantifier": "every string", "why_tests_cant": "all strings", "anchors": ["py/latkerlo_jvotci/tarmi.py:rafsi_tarmi", "py/latkerlo_jvotci/tarmi.py:is_valid_rafsi"]}
{"id": "C34", "title": "mz needs the option", "statement": "Without allow_mz no accepted word and no word built by get_lujvo contains the letters mz next to each other.", "quantifier": "every word, every tanru", "why_tests_cant": "all words", "anchors": ["py/latkerlo_jvotci/tools.py:analyse_brivla", "py/latkerlo_jvotci/jvozba.py:combine"]}
{"id": "C35", "title": "Pieces of a decomposition are rafsi and hyphens", "statement": "In a LUJVO decomposition every piece is a valid CLL rafsi or a hyphen (y, n, r, or 'y), and there are at least two rafsi; in an EXTENDED_LUJVO or CMEVLA decomposition every non-hyphen piece is a CLL rafsi, a zi'evla-like piece or (only with the option) an experimental rafsi.", "quantifier": "every accepted word", "why_tests_cant": "all words", "anchors": ["py/latkerlo_jvotci/katna.py:jvokaha_2", "py/latkerlo_jvotci/tools.py:analyse_brivla"]}
{"id": "C36", "title": "Hyphens are never first, last or doubled", "statement": "In the decomposition of an accepted word no hyphen is the first or last piece and no two hyphens are adjacent.", "quantifier": "every accepted word", "why_tests_cant": "all words", "anchors": ["py/latkerlo_jvotci/katna.py:jvokaha_2", "py/latkerlo_jvotci/tools.py:analyse_brivla"]}
{"id": "C37", "title": "A brivla has a consonant cluster", "statement": "With the CLUSTER rule and glides off, every accepted word that is not a CMEVLA has two consonants in a row when y and ' are ignored.", "quantifier": "every accepted word", "why_tests_cant": "all words", "anchors": ["py/latkerlo_jvotci/tools.py:analyse_brivla", "py/latkerlo_jvotci/jvozba.py:combine"]}
{"id": "C38", "title": "get_veljvo accepts exactly the compound words", "statement": "get_veljvo raises DecompositionError on every word analyse_brivla classifies as GISMU or ZIhEVLA, and passes on the exception of analyse_brivla when there is one.", "quantifier": "every string and option combination", "why_tests_cant": "all strings", "anchors": ["py/latkerlo_jvotci/katna.py:get_veljvo"]}
{"id": "C39", "title": "Exceptions of the builder", "statement": "get_lujvo raises only NoLujvoFoundError, NonLojbanCharacterError, NotZihevlaError or InvalidClusterError on every tanru of at least two words; internal assertions never fail.", "quantifier": "every tanru and option combination", "why_tests_cant": "all tanru", "anchors": ["py/latkerlo_jvotci/jvozba.py:get_lujvo_from_list", "py/latkerlo_jvotci/jvozba.py:get_rafsi_for_rafsi"]}
{"id": "C40", "title": "The spelling 'y between CLL rafsi needs the option", "statement": "With standard y-hyphen rules no LUJVO decomposition contains the hyphen 'y; with FORCE_Y it contains no n or r hyphen, and the accepted CLL lujvo is exactly the one the builder makes from its rafsi.", "quantifier": "every word classified LUJVO", "why_tests_cant": "all words", "anchors": ["py/latkerlo_jvotci/katna.py:jvokaha_2", "py/latkerlo_jvotci/katna.py:jvokaha", "py/latkerlo_jvotci/jvozba.py:combine"]}
{"id": "C41", "title": "CLL lujvo are exactly the words cut into rafsi with the hyphens the rules require", "statement": "analyse_brivla classifies a word as LUJVO with given pieces if and only if the word is no gismu, ends in a vowel, the pieces are a cut of the word into at least two CLL rafsi and hyphens, and the pieces are those of the lujvo the builder makes from exactly these rafsi, up to optional r and n hyphens.", "quantifier": "every string, every list of pieces and every option combination", "why_tests_cant": "an if-and-only-if over all strings and cuts", "anchors": ["py/latkerlo_jvotci/katna.py:jvokaha", "py/latkerlo_jvotci/katna.py:jvokaha_2", "py/latkerlo_jvotci/katna.py:compare_lujvo_pieces", "py/latkerlo_jvotci/tools.py:analyse_brivla"]}
{"id": "C42", "title": "No accepted compound with y falls apart", "statement": "No word accepted as EXTENDED_LUJVO is a cmavo followed by another accepted brivla.", "quantifier": "every word classified EXTENDED_LUJVO", "why_tests_cant": "all words", "anchors": ["py/latkerlo_jvotci/tools.py:analyse_brivla", "py/latkerlo_jvotci/katna.py:jvokaha"]}
{"id": "C43", "title": "Every accepted compound can be decomposed and scored", "statement": "Whenever analyse_brivla classifies a word as LUJVO, EXTENDED_LUJVO or CMEVLA, get_veljvo returns a list with one entry per piece that is not a hyphen, and score_lujvo returns a number; neither raises an exception.", "quantifier": "every string and option combination for which analyse_brivla gives one of the three classes", "why_tests_cant": "all words; get_veljvo classifies pieces and pieces with an a added, which could raise", "anchors": ["py/latkerlo_jvotci/katna.py:get_veljvo", "py/latkerlo_jvotci/katna.py:selrafsi_list_from_rafsi_list", "py/latkerlo_jvotci/katna.py:score_lujvo", "py/latkerlo_jvotci/tools.py:is_brivla"]}
{"id": "C44", "title": "CLL lujvo are exactly the rafsi strings hyphenated by the CLL rules", "statement": "analyse_brivla classifies a word as LUJVO with given pieces if and only if the pieces are at least two CLL rafsi with the hyphens of CLL 4.6 between them: y after four-letter consonant-final rafsi, where consonants may not touch, and after the first rafsi when the word has the tosmabru pattern; r or n after a first CVV or CV'V unless a single CCV follows, optional after later ones; 'y instead with FORCE_Y; nothing elsewhere.", "quantifier": "every string of at most 10^96 letters, every list of pieces and every option combination", "why_tests_cant": "an if-and-only-if over all strings; the accepting code rebuilds the word by a cost search and compares", "anchors": ["py/latkerlo_jvotci/katna.py:jvokaha", "py/latkerlo_jvotci/katna.py:compare_lujvo_pieces", "py/latkerlo_jvotci/jvozba.py:combine", "py/latkerlo_jvotci/tools.py:analyse_brivla"]}
{"id": "C45", "title": "The lujvo built from given rafsi is the one with just the needed hyphens", "statement": "Given at least two CLL rafsi in literal form (-raf-), five-letter ones only at the end, get_lujvo returns the rafsi joined by exactly the hyphens the rules of CLL 4.6 require, and no word exactly when the last rafsi ends in a consonant or, with FORCE_Y and the cluster rule, no rafsi has a cluster.", "quantifier": "every list of CLL rafsi and every option combination", "why_tests_cant": "all lists of rafsi of any length; the result comes from a dynamic-programming search", "anchors": ["py/latkerlo_jvotci/jvozba.py:get_lujvo_from_list", "py/latkerlo_jvotci/jvozba.py:combine", "py/latkerlo_jvotci/jvozba.py:get_rafsi_for_rafsi"]}
{"id": "C46", "title": "A zi'evla is never a string of rafsi", "statement": "If analyse_brivla calls a word without mz a zi'evla, then the word cannot be cut into CLL rafsi with the hyphens r and n (or y, 'y) between them, even if the hyphens are not those the rules require; so no lujvo or would-be lujvo passes for a zi'evla.", "quantifier": "every word that is a zi'evla under some options, and every way to cut it", "why_tests_cant": "unbounded words and all their cuts; the analyser only tries the one cut it finds and a few suffixes", "anchors": ["py/latkerlo_jvotci/tools.py:check_zihevla_or_rafsi", "py/latkerlo_jvotci/tools.py:analyse_brivla", "py/latkerlo_jvotci/katna.py:jvokaha_2"]}
{"id": "C47", "title": "Names the builder makes are names the analyser accepts", "statement": "Whenever get_lujvo_with_analytics with generate_cmevla returns a name, analyse_brivla accepts it under the same options as CMEVLA, with pieces that spell the name and whose rafsi are at the returned ranges.", "quantifier": "every tanru and option combination", "why_tests_cant": "all tanru; acceptance is decided by other code (a recursive decomposition) than the building", "anchors": ["py/latkerlo_jvotci/jvozba.py:get_lujvo_with_analytics", "py/latkerlo_jvotci/jvozba.py:get_lujvo_from_list", "py/latkerlo_jvotci/tools.py:analyse_brivla", "py/latkerlo_jvotci/katna.py:jvokaha"]}
{"id": "C48", "title": "Names give their tanru back", "statement": "get_veljvo of a name built from dictionary words (no zi'evla among them) returns exactly these words, whatever the options, provided every piece of the name is a form of its word only.", "quantifier": "every list of dictionary words of any length and every option combination", "why_tests_cant": "all tanru of all lengths", "anchors": ["py/latkerlo_jvotci/jvozba.py:get_lujvo_with_analytics", "py/latkerlo_jvotci/katna.py:get_veljvo", "py/latkerlo_jvotci/katna.py:selrafsi_list_from_rafsi_list"]}
{"id": "C49", "title": "Names made of rafsi obey rules of their own", "statement": "Every string of at least two CLL rafsi that ends in a consonant and has the hyphen y exactly where it is needed (four-letter rafsi before others, consonants that may not touch), and possibly r or n after CVV and CV'V (after a first one only before CCV or CCVC), is classified CMEVLA with these pieces. A name without y is classified CMEVLA only if it is such a string. There is no rule against tosmabru and no hyphen required after a first CVV.", "quantifier": "every string of at most 10^96 letters, every list of pieces and every option combination", "why_tests_cant": "an if-and-only-if over all strings; the accepting code rebuilds the name by a cost search and compares", "anchors": ["py/latkerlo_jvotci/katna.py:jvokaha", "py/latkerlo_jvotci/katna.py:compare_lujvo_pieces", "py/latkerlo_jvotci/jvozba.py:combine", "py/latkerlo_jvotci/tools.py:analyse_brivla"]}
{"id": "C50", "title": "The name built from given rafsi is the one with just the needed y", "statement": "Given at least two CLL rafsi in literal form (-raf-), five-letter ones only at the end, get_lujvo with generate_cmevla returns the rafsi joined by y exactly where it is needed and by nothing elsewhere, and no name exactly when the last rafsi ends in a vowel.", "quantifier": "every list of CLL rafsi and every option combination", "why_tests_cant": "all lists of rafsi of any length; the result comes from a dynamic-programming search", "anchors": ["py/latkerlo_jvotci/jvozba.py:get_lujvo_from_list", "py/latkerlo_jvotci/jvozba.py:combine", "py/latkerlo_jvotci/jvozba.py:get_rafsi_for_rafsi"]}
{"id": "C51", "title": "Every tanru of gismu and zi'evla has a lujvo", "statement": "Every tanru of at least two words, each a gismu or a zi'evla (in the dictionary or not), gives a lujvo under every combination of options, and a name too when its last word is a gismu. A tanru whose last word is a zi'evla without rafsi of its own never gives a name.", "quantifier": "every tanru of gismu and zi'evla and every option combination", "why_tests_cant": "the words form an infinite set and the search must succeed for every combination of their forms", "anchors": ["py/latkerlo_jvotci/jvozba.py:get_lujvo", "py/latkerlo_jvotci/jvozba.py:get_rafsi_list_list", "py/latkerlo_jvotci/jvozba.py:get_lujvo_from_list"]}
{"id": "C52", "title": "Whether a word is a zi'evla depends on two options only", "statement": "A word is accepted as a zi'evla, with the same pieces, whatever the options on experimental shapes, consonants and glides; only y_hyphens and allow_mz can matter.", "quantifier": "every string and every pair of option combinations with the same y_hyphens and allow_mz", "why_tests_cant": "all strings; the classification recurses on suffixes of the word under changed options", "anchors": ["py/latkerlo_jvotci/tools.py:analyse_brivla", "py/latkerlo_jvotci/tarmi.py:is_zihevla_initial_cluster"]}
{"id": "C53", "title": "Experimental shapes matter only for literal rafsi", "statement": "For a tanru of words, starts of words (brod-), CLL rafsi and zi'evla between dashes, get_lujvo and get_lujvo_with_analytics give the same result, or raise the same exception, whether or not experimental rafsi shapes are allowed.", "quantifier": "every such tanru, every other option, with and without generate_cmevla", "why_tests_cant": "all tanru; the option is read in several places of builder and recogniser", "anchors": ["py/latkerlo_jvotci/jvozba.py:get_lujvo_with_analytics", "py/latkerlo_jvotci/jvozba.py:get_rafsi_list_list", "py/latkerlo_jvotci/tools.py:analyse_brivla"]}
{"id": "C54", "title": "An interactive session answers with the options last given", "statement": "In a session of jvozba.py or katna.py run as a program, every turn uses, for each option, the value named by the last word of a /command typed so far that concerns the option (the default if there is none), and shows it in the prompt; other words of commands are ignored. A line that is no command is answered by exactly what get_lujvo_with_analytics, or analyse_brivla and get_veljvo, return for it under these options, independently of earlier queries. The session ends at an empty line, at the end of the input, or with the first exception that is not among the caught ones.", "quantifier": "every sequence of lines", "why_tests_cant": "sessions are unboundedly long histories of commands and queries", "anchors": ["py/latkerlo_jvotci/jvozba.py:get_lujvo_with_analytics", "py/latkerlo_jvotci/katna.py:get_veljvo", "py/latkerlo_jvotci/tools.py:analyse_brivla"]}
{"id": "C55", "title": "No query ends an interactive session", "statement": "Whatever tanru or words are typed, the session of jvozba.py or katna.py goes on until an empty line or the end of the input.", "quantifier": "every sequence of lines", "why_tests_cant": "every history of lines, and every string as a line", "anchors": ["py/latkerlo_jvotci/jvozba.py:get_lujvo_with_analytics", "py/latkerlo_jvotci/katna.py:get_veljvo", "py/latkerlo_jvotci/tools.py:analyse_brivla"]}
{"id": "C56", "title": "is_gismu_or_lujvo tells gismu and lujvo from all other strings", "statement": "is_gismu_or_lujvo returns True exactly for the strings in standard spelling (lower case, apostrophes, no commas) that analyse_brivla classifies GISMU or LUJVO under the same y_hyphens and allow_mz and default consonants, and False for every other string.", "quantifier": "every string, every y_hyphens and allow_mz", "why_tests_cant": "all strings; the two functions share only part of their code, and the exceptions one of them catches must cover every string", "anchors": ["py/latkerlo_jvotci/tools.py:is_gismu_or_lujvo", "py/latkerlo_jvotci/tools.py:analyse_brivla", "py/latkerlo_jvotci/katna.py:jvokaha", "py/latkerlo_jvotci/katna.py:jvokaha_2"]}
{"id": "C57", "title": "Being a CLL lujvo depends on few options", "statement": "Whether a word is classified LUJVO, and its pieces, do not depend on glides and experimental shapes, nor on the choice between STANDARD and ALLOW_Y; they depend on consonants only under FORCE_Y; and on allow_mz only if m and z touch or have just y between them.", "quantifier": "every word and every pair of option combinations", "why_tests_cant": "all strings; the recogniser rebuilds the word by a cost search that reads all these options", "anchors": ["py/latkerlo_jvotci/tools.py:analyse_brivla", "py/latkerlo_jvotci/katna.py:jvokaha", "py/latkerlo_jvotci/jvozba.py:get_lujvo_from_list"]}
{"id": "C58", "title": "get_veljvo and score_lujvo answer together with analyse_brivla", "statement": "For every string: if analyse_brivla classifies it LUJVO, EXTENDED_LUJVO or CMEVLA then get_veljvo returns one component per rafsi and score_lujvo returns a number; if it is a GISMU or ZIhEVLA both raise DecompositionError; otherwise both raise what analyse_brivla raises.", "quantifier": "every string and option combination", "why_tests_cant": "all strings; one word whose pieces cannot be expanded again would break it", "anchors": ["py/latkerlo_jvotci/katna.py:get_veljvo", "py/latkerlo_jvotci/katna.py:score_lujvo", "py/latkerlo_jvotci/tools.py:analyse_brivla"]}
{"id": "C59", "title": "The generated dictionary is justified, complete and ordered", "statement": "Whatever dictionary export make_rafsi_list.py reads: every rafsi it writes for a word was assigned to that word (in the export or in the by-hand list), or is proposed in the notes of that word and assigned to no word at all; if no word is listed twice, no assigned rafsi of a used word is lost and every gismu has an entry; every word has one entry, without repetitions, ordered by shape; the enumeration order of Python sets changes only the order of rafsi of the same shape.", "quantifier": "every list of dictionary entries and every enumeration order of sets", "why_tests_cant": "all exports and all hash seeds; the script has no tests and its input is on the network", "anchors": ["make_rafsi_list.py", "py/latkerlo_jvotci/rafsi.py:RAFSI_LIST"]}
{"id": "C60", "title": "The four generated files hold the same dictionary", "statement": "Reading back any of the four files make_rafsi_list.py writes (Python, TypeScript, JavaScript, Rust) gives exactly the dictionary it computed, with the same words, rafsi and order, provided the words and rafsi are printable ASCII without double quotes and backslashes.", "quantifier": "every dictionary, hence every dictionary export", "why_tests_cant": "all dictionaries; apostrophes in rafsi change the quotation marks, and empty entries are special in the Rust file", "anchors": ["make_rafsi_list.py", "py/latkerlo_jvotci/rafsi.py:RAFSI_LIST", "js/src/rafsi.ts", "rs/src/rafsi.rs"]}
