{
 "claims": [
  {
   "property": "C01",
   "status": "proved",
   "theorems": [
    "C01_decomposition_lossless"
   ],
   "note": ""
  },
  {
   "property": "C02",
   "status": "proved",
   "theorems": [
    "C02_indices_point_at_rafsi",
    "C02_indices_of_analysis"
   ],
   "note": "Any list of pieces, and the pieces of analyse_brivla."
  },
  {
   "property": "C03",
   "status": "proved",
   "theorems": [
    "C03_type_last_letter"
   ],
   "note": ""
  },
  {
   "property": "C04",
   "status": "proved",
   "theorems": [
    "C04_lojban_letters"
   ],
   "note": ""
  },
  {
   "property": "C05",
   "status": "proved",
   "theorems": [
    "C05_gismu_shape",
    "C05_gismu_pieces"
   ],
   "note": ""
  },
  {
   "property": "C06",
   "status": "proved",
   "theorems": [
    "C06_analyser_spelling",
    "C06_builder_spelling"
   ],
   "note": ""
  },
  {
   "property": "C07",
   "status": "proved",
   "theorems": [
    "C07_recursion_depth",
    "C07_splitter_depth",
    "C07_builder_depth",
    "C07_api_terminates",
    "C07_recursion_equation"
   ],
   "note": "Depth of recursion bounded by 2*length+8 for the analyser, 3 for the splitter, and never exceeded by any API call."
  },
  {
   "property": "C08",
   "status": "partial",
   "theorems": [
    "C08_only_NotBrivlaError_refuted",
    "C08_nonempty_refuted",
    "C08_exceptions_partial",
    "C08_regular",
    "C08_without_y"
   ],
   "note": "REFUTED for the code: the empty string and words such as i'yyn raise IndexError, taly'ee raises DecompositionError, and NameError comes from the name is_slinkuhi that jvozba.py never imports. Proved residual: no exception other than these. Proved in full for words (or components) without y: C08_without_y. C08_regular: proved for words with y as well, provided the word has no yy, every vowel run after y' divides into syllables, and it does not end in r after VV, 'V or 'y; C08_conditions_needed shows each condition is needed."
  },
  {
   "property": "C09",
   "status": "partial",
   "theorems": [
    "C09_always_answers_refuted",
    "C09_nonempty_refuted",
    "C09_exceptions_partial",
    "C09_meaning",
    "C09_regular",
    "C09_without_y"
   ],
   "note": "REFUTED for the code (same witnesses as C08). Proved: the exact set of exceptions that escape and the meaning of the answer. Proved in full for words (or components) without y: C09_without_y. C09_regular: the same words with y."
  },
  {
   "property": "C10",
   "status": "partial",
   "theorems": [
    "C10_gismu_tanru",
    "C10_pinned_refuted"
   ],
   "note": "With is_slinkuhi bound: every tanru of 2 to 10^96 gismu, under every option combination, gives a lujvo (C10_gismu_tanru). The bound comes from the initial best score 10^100 in the code. REFUTED for the pinned code (NameError), C10_pinned_refuted."
  },
  {
   "property": "C11",
   "status": "proved",
   "theorems": [
    "C11_own_rafsi"
   ],
   "note": ""
  },
  {
   "property": "C12",
   "status": "proved",
   "theorems": [
    "C12_index_list"
   ],
   "note": ""
  },
  {
   "property": "C13",
   "status": "proved",
   "theorems": [
    "C13_score"
   ],
   "note": ""
  },
  {
   "property": "C14",
   "status": "proved",
   "theorems": [
    "C14_optimal"
   ],
   "note": "C14_optimal: whatever components are replaced by literal rafsi of theirs, the word then built never scores less. With C15_accepted: no accepted LUJVO made of rafsi of the components beats the returned word. Experimental shapes off."
  },
  {
   "property": "C15",
   "status": "proved",
   "theorems": [
    "C15_found",
    "C15_accepted"
   ],
   "note": "C15_found (and the corollary C15_none): if any way of pinning components to their rafsi gives a word, the tanru gives one. C15_accepted: if analyse_brivla accepts any LUJVO made of one rafsi per component, get_lujvo finds a word at least as good. Words of at most 10^96 letters, because of the initial best score 10^100 in the code."
  },
  {
   "property": "C16",
   "status": "proved",
   "theorems": [
    "C16_ending"
   ],
   "note": ""
  },
  {
   "property": "C17",
   "status": "proved",
   "theorems": [
    "C17_clusters",
    "C17_initial_pair"
   ],
   "note": ""
  },
  {
   "property": "C18",
   "status": "proved",
   "theorems": [
    "C18_clusters",
    "C18_initial_pair"
   ],
   "note": ""
  },
  {
   "property": "C19",
   "status": "partial",
   "theorems": [
    "C19_accepted_partial",
    "C19_refuted",
    "C19_zihevla_accepted_partial",
    "C19_mz_refuted",
    "C19_words_accepted_partial",
    "C19_options_accepted_partial"
   ],
   "note": "Proved (C19_words_accepted_partial) for all tanru whose components are words of any kind without a trailing dash (and, where allow_mz is on, without mz), rafsi of up to four letters between dashes, zi'evla between dashes, and gismu without the last vowel followed by a dash; components of at most 10^96 letters. C19_options_accepted_partial: the same under every option, experimental shapes included. REFUTED in general: '-tua- klama' gives tuakla, which is no brivla (C19_refuted); with mz allowed the zi'evla geisnoxaipemzo and klama give a word that is no brivla, because the fall-apart test does not pass allow_mz on (C19_mz_refuted). Missing: zi'evla without their last vowel as components ('spaget-'), and other literal rafsi that are no CLL rafsi."
  },
  {
   "property": "C20",
   "status": "proved",
   "theorems": [
    "C20_shared_form",
    "C20_zihevla_round_trip",
    "C20_round_trip",
    "C20_words_round_trip",
    "C20_options_round_trip"
   ],
   "note": "C20_round_trip: all dictionary words, all options. C20_words_round_trip adds zi'evla that are not in the dictionary. C20_options_round_trip: those too under every option. C20_shared_form shows that the condition on shared forms is needed."
  },
  {
   "property": "C21",
   "status": "proved",
   "theorems": [
    "C21_one_entry_per_piece"
   ],
   "note": ""
  },
  {
   "property": "C22",
   "status": "proved",
   "theorems": [
    "C22_lookup_sound",
    "C22_lookup_complete",
    "C22_rafsi_owner_unique",
    "C22_four_letter_lookup"
   ],
   "note": "Four-letter lookup is complete except for the deliberate exception brod."
  },
  {
   "property": "C23",
   "status": "proved",
   "theorems": [
    "C23_splitter_finds_the_cut",
    "C23_unique_cut"
   ],
   "note": "Both directions: the splitter succeeds exactly on the specified cuts."
  },
  {
   "property": "C24",
   "status": "proved",
   "theorems": [
    "C24_vowel_run_split",
    "C24_vowel_run_unique",
    "C24_vowel_run_failure"
   ],
   "note": ""
  },
  {
   "property": "C25",
   "status": "proved",
   "theorems": [
    "C25_settings_iterator"
   ],
   "note": ""
  },
  {
   "property": "C26",
   "status": "partial",
   "theorems": [
    "C26_score_lujvo",
    "C26_difference_partial",
    "C26_agrees_partial",
    "C26_refuted",
    "C26_score_compound",
    "C26_difference",
    "C26_agrees_exactly",
    "C26_components_partial"
   ],
   "note": "REFUTED ('pa sufti': 6978 against 6878). Closed form of score_lujvo for every compound and name the analyser accepts (C26_score_compound); exact difference and exact condition for equality for every built word, of any kind, accepted with the returned boundaries (C26_difference, C26_agrees_exactly; C19 and C47 say which words these are, C26_components_partial combines it with C19)."
  },
  {
   "property": "C27",
   "status": "proved",
   "theorems": [
    "C27_string_or_list"
   ],
   "note": ""
  },
  {
   "property": "C28",
   "status": "proved",
   "theorems": [
    "C28_get_lujvo_first_component"
   ],
   "note": ""
  },
  {
   "property": "C29",
   "status": "partial",
   "theorems": [
    "C29_regular",
    "C29_builder",
    "C29_analysis_partial",
    "C29_exception_refuted"
   ],
   "note": "Builder: full equality. Analyser: acceptance, type, pieces, components and score agree. REFUTED for the kind of exception: bacyiaspa'yyba raises NotBrivlaError with glides on and IndexError with glides off. C29_regular: for the words of C08_regular every result and exception of the analysis is the same."
  },
  {
   "property": "C30",
   "status": "proved",
   "theorems": [
    "C30_no_slinkuhi"
   ],
   "note": "For every accepted word that is not a CMEVLA."
  },
  {
   "property": "C31",
   "status": "proved",
   "theorems": [
    "C31_zihevla_exact",
    "C31_zihevla_rules",
    "C31_zihevla_characterised"
   ],
   "note": "C31_zihevla_exact describes the words completely, the clusters inside a word by zi_middle_exact (Middle.v), which is independent of the regular expressions of the code."
  },
  {
   "property": "C32",
   "status": "proved",
   "theorems": [
    "C32_no_tosmabru",
    "C32_no_brivla"
   ],
   "note": "For LUJVO: gismu and CLL lujvo after the cmavo under any options; any word at all that begins with a consonant under the same y_hyphens and allow_mz. A rest that begins with a vowel can be a word (ba'ardupli, ardupli). The same statement for EXTENDED_LUJVO is false: C42."
  },
  {
   "property": "C33",
   "status": "proved",
   "theorems": [
    "C33_shapes_exact",
    "C33_dictionary_shapes"
   ],
   "note": ""
  },
  {
   "property": "C34",
   "status": "proved",
   "theorems": [
    "C34_accepted_words",
    "C34_built_words"
   ],
   "note": ""
  },
  {
   "property": "C35",
   "status": "proved",
   "theorems": [
    "C35_pieces",
    "C35_lujvo_pieces"
   ],
   "note": "Spec: lujvo_piece in Spec.v."
  },
  {
   "property": "C36",
   "status": "proved",
   "theorems": [
    "C36_hyphens_separate_rafsi"
   ],
   "note": ""
  },
  {
   "property": "C37",
   "status": "partial",
   "theorems": [
    "C37_brivla_has_cluster",
    "C37_exp_refuted"
   ],
   "note": "Proved with experimental shapes off; REFUTED with them on (bau'ybaubacy'a'i)."
  },
  {
   "property": "C38",
   "status": "proved",
   "theorems": [
    "C38_get_veljvo_compounds_only"
   ],
   "note": "The exceptions; that compounds do get an answer is C21."
  },
  {
   "property": "C39",
   "status": "partial",
   "theorems": [
    "C39_builder_exceptions_refuted",
    "C39_builder_exceptions_partial",
    "C39_options_without_y",
    "C39_exceptions",
    "C39_plain",
    "C39_without_y"
   ],
   "note": "REFUTED for the code: 'ctelair- klama' raises IndexError. Proved residual: the exact list of exceptions, assertions never fail. Proved in full for words (or components) without y: C39_without_y. C39_options_without_y: under every option. C39_exceptions: for every tanru of two or more non-empty components, under every option, unless one is of the form ...VVr- or ...'Vr- (beginning with a dash or not if exp_rafsi_shapes is on, not beginning with a dash otherwise); InvalidClusterError only if a literal -abc- has a rafsi shape with a bad cluster; C39_plain: every tanru of plain words under every option, and then NonLojbanCharacterError only if a word has a foreign character."
  },
  {
   "property": "C40",
   "status": "proved",
   "theorems": [
    "C40_standard_no_hy",
    "C40_force_y"
   ],
   "note": ""
  },
  {
   "property": "C41",
   "status": "proved",
   "theorems": [
    "C41_cll_lujvo_characterised"
   ],
   "note": ""
  },
  {
   "property": "C42",
   "status": "partial",
   "theorems": [
    "C42_extended_refuted",
    "C42_gismu_zihevla_partial",
    "C42_cll_refuted"
   ],
   "note": "REFUTED: da+snirvibydukti (C42_extended_refuted) and mau+geirsugycau, where geirsugycau is even a CLL lujvo (C42_cll_refuted); both words are accepted. Proved (C42_gismu_zihevla_partial): the second word is then a compound, never a gismu or zi'evla, for words in standard spelling."
  },
  {
   "property": "C43",
   "status": "proved",
   "theorems": [
    "C43_decomposed"
   ],
   "note": ""
  },
  {
   "property": "C44",
   "status": "proved",
   "theorems": [
    "C44_lujvo_obey",
    "C44_rules_suffice",
    "C44_lujvo_rules"
   ],
   "note": ""
  },
  {
   "property": "C45",
   "status": "proved",
   "theorems": [
    "C45_literal_rafsi"
   ],
   "note": ""
  },
  {
   "property": "C46",
   "status": "proved",
   "theorems": [
    "C46_zihevla_uncut",
    "C46_mz_exception"
   ],
   "note": "Words of at most 10^96 letters (a longer lujvo is not found, since its score exceeds the initial best of 10^100). C46_mz_exception: with mz allowed, geisnoxaipemzo is a zi'evla that is cut into gei, sno, xai, pemzo."
  },
  {
   "property": "C47",
   "status": "partial",
   "theorems": [
    "C47_names_accepted_partial",
    "C47_refuted"
   ],
   "note": "Proved (C47_names_accepted_partial) for tanru none of whose components is a zi'evla. REFUTED in general: 'sanmi bakni spageti ckule' gives the name saibakyspageti'ykul, which the analyser rejects; the builder puts no hyphen after a first CVV in names, but the analysis of a stretch between zi'evla asks for one."
  },
  {
   "property": "C48",
   "status": "proved",
   "theorems": [
    "C48_names_round_trip"
   ],
   "note": "All options. The condition on shared forms is the one of C20 (needed there by C20_shared_form)."
  },
  {
   "property": "C49",
   "status": "proved",
   "theorems": [
    "C49_rules_suffice",
    "C49_names_obey",
    "C49_names_rules",
    "C49_with_y"
   ],
   "note": "C49_with_y: names with y that break these rules can be accepted too (sairbakykul, but not sairbakkul), because the part before y is analysed as a lujvo."
  },
  {
   "property": "C50",
   "status": "proved",
   "theorems": [
    "C50_literal_names"
   ],
   "note": "Words of at most 10^96 letters, options without experimental shapes."
  },
  {
   "property": "C51",
   "status": "proved",
   "theorems": [
    "C51_brivla_tanru",
    "C51_no_name"
   ],
   "note": "Tanru of at most 10^96 letters."
  },
  {
   "property": "C52",
   "status": "proved",
   "theorems": [
    "C52_zihevla_options"
   ],
   "note": "Words of at most 10^96 letters."
  },
  {
   "property": "C53",
   "status": "proved",
   "theorems": [
    "C53_words_only"
   ],
   "note": "Components of fewer than 10^96 letters. The example shows a literal rafsi for which the option does matter."
  },
  {
   "property": "C54",
   "status": "proved",
   "theorems": [
    "C54_jvozba_session",
    "C54_katna_session",
    "C54_options_unique"
   ],
   "note": ""
  },
  {
   "property": "C55",
   "status": "partial",
   "theorems": [
    "C55_survives_refuted",
    "C55_jvozba_partial",
    "C55_katna_partial",
    "C55_katna_regular_partial",
    "C55_jvozba_words_partial"
   ],
   "note": "REFUTED: 'klama' (a tanru of one word) ends a jvozba.py session with IndexError, 'barda -tko- klama' with InvalidClusterError, i'yyn a katna.py session with IndexError; in the pinned code every tanru that has a lujvo ends it with NameError. Proved for queries without y (in jvozba.py: tanru of two or more words made of Lojban letters). C55_katna_regular_partial: the words of C08_regular; C55_jvozba_words_partial: every line of two or more components that are not empty, not of the kind excluded in C39_exceptions and not a literal with a bad cluster."
  },
  {
   "property": "C56",
   "status": "partial",
   "theorems": [
    "C56_true",
    "C56_raises",
    "C56_always_answers_refuted"
   ],
   "note": "REFUTED for strings that begin with CCV'y and end in a vowel (bla'yzdani): NotBrivlaError escapes. C56_raises shows that these are the only strings for which anything is raised, C56_true characterises True; so False is returned in all remaining cases. Stated for the code with the import repaired; at the pinned commit lujvo raise NameError (C56_example)."
  },
  {
   "property": "C57",
   "status": "proved",
   "theorems": [
    "C57_options",
    "C57_mz"
   ],
   "note": "Words of at most 10^96 letters. C57_example shows that the stated dependencies on consonants and allow_mz are real."
  },
  {
   "property": "C58",
   "status": "proved",
   "theorems": [
    "C58_with_the_analyser",
    "C58_regular_exceptions"
   ],
   "note": "C58_regular_exceptions: for the words of C08_regular the only exceptions are NotBrivlaError and DecompositionError. Stated for the code with the import repaired."
  },
  {
   "property": "C59",
   "status": "proved",
   "theorems": [
    "C59_entries_justified",
    "C59_nothing_lost",
    "C59_sorted",
    "C59_any_order",
    "C59_first_proposal_kept",
    "C59_proposed_complete_refuted",
    "C59_listed_twice_refuted",
    "C59_shipped"
   ],
   "note": "The export is a list of records (word, type, rafsi, notes); XML parsing and the download are not modelled. C59_first_proposal_kept: the first rafsi the notes propose is used if free; C59_proposed_complete_refuted: a second one that follows after a single character is not found. C59_listed_twice_refuted: a gismu listed twice loses rafsi, so the hypothesis of C59_nothing_lost is needed. C59_shipped: rafsi.py has the proved form. The two _refuted theorems refute stronger claims than the property, not the property."
  },
  {
   "property": "C60",
   "status": "proved",
   "theorems": [
    "C60_files_agree",
    "C60_generated"
   ],
   "note": "The reader is a specification of its own: the string literals of each line, with the quotation marks of the language. It is not a parser of Python, TypeScript or Rust."
  }
 ]
}