{
 "C02": {
  "note": "Any list of pieces, and the pieces of analyse_brivla."
 },
 "C22": {
  "note": "Four-letter lookup is complete except for the deliberate exception brod."
 },
 "C23": {
  "note": "Both directions: the splitter succeeds exactly on the specified cuts."
 },
 "C38": {
  "note": "The exceptions; that compounds do get an answer is C21."
 },
 "C07": {
  "note": "Depth of recursion bounded by 2*length+8 for the analyser, 3 for the splitter, and never exceeded by any API call."
 },
 "C08": {
  "note": "REFUTED for the code: the empty string and words such as i'yyn raise IndexError, taly'ee raises DecompositionError, and NameError comes from the name is_slinkuhi that jvozba.py never imports. Proved residual: no exception other than these. Proved in full for words (or components) without y: C08_without_y. C08_regular: proved for words with y as well, provided the word has no yy, every vowel run after y' divides into syllables, and it does not end in r after VV, 'V or 'y; C08_conditions_needed shows each condition is needed."
 },
 "C09": {
  "note": "REFUTED for the code (same witnesses as C08). Proved: the exact set of exceptions that escape and the meaning of the answer. Proved in full for words (or components) without y: C09_without_y. C09_regular: the same words with y."
 },
 "C39": {
  "note": "REFUTED for the code: 'ctelair- klama' raises IndexError. Proved residual: the exact list of exceptions, assertions never fail. Proved in full for words (or components) without y: C39_without_y. C39_options_without_y: under every option. C39_exceptions: for every tanru of two or more non-empty components, under every option, unless one is of the form ...VVr- or ...'Vr- (beginning with a dash or not if exp_rafsi_shapes is on, not beginning with a dash otherwise); InvalidClusterError only if a literal -abc- has a rafsi shape with a bad cluster; C39_plain: every tanru of plain words under every option, and then NonLojbanCharacterError only if a word has a foreign character."
 },
 "C29": {
  "note": "Builder: full equality. Analyser: acceptance, type, pieces, components and score agree. REFUTED for the kind of exception: bacyiaspa'yyba raises NotBrivlaError with glides on and IndexError with glides off. C29_regular: for the words of C08_regular every result and exception of the analysis is the same."
 },
 "C30": {
  "note": "For every accepted word that is not a CMEVLA."
 },
 "C35": {
  "note": "Spec: lujvo_piece in Spec.v."
 },
 "C10": {
  "note": "With is_slinkuhi bound: every tanru of 2 to 10^96 gismu, under every option combination, gives a lujvo (C10_gismu_tanru). The bound comes from the initial best score 10^100 in the code. REFUTED for the pinned code (NameError), C10_pinned_refuted."
 },
 "C14": {
  "note": "C14_optimal: whatever components are replaced by literal rafsi of theirs, the word then built never scores less. With C15_accepted: no accepted LUJVO made of rafsi of the components beats the returned word. Experimental shapes off."
 },
 "C15": {
  "note": "C15_found (and the corollary C15_none): if any way of pinning components to their rafsi gives a word, the tanru gives one. C15_accepted: if analyse_brivla accepts any LUJVO made of one rafsi per component, get_lujvo finds a word at least as good. Words of at most 10^96 letters, because of the initial best score 10^100 in the code."
 },
 "C32": {
  "note": "For LUJVO: gismu and CLL lujvo after the cmavo under any options; any word at all that begins with a consonant under the same y_hyphens and allow_mz. A rest that begins with a vowel can be a word (ba'ardupli, ardupli). The same statement for EXTENDED_LUJVO is false: C42."
 },
 "C37": {
  "note": "Proved with experimental shapes off; REFUTED with them on (bau'ybaubacy'a'i)."
 },
 "C42": {
  "note": "REFUTED: da+snirvibydukti (C42_extended_refuted) and mau+geirsugycau, where geirsugycau is even a CLL lujvo (C42_cll_refuted); both words are accepted. Proved (C42_gismu_zihevla_partial): the second word is then a compound, never a gismu or zi'evla, for words in standard spelling."
 },
 "C19": {
  "note": "Proved (C19_words_accepted_partial) for all tanru whose components are words of any kind without a trailing dash (and, where allow_mz is on, without mz), rafsi of up to four letters between dashes, zi'evla between dashes, and gismu without the last vowel followed by a dash; components of at most 10^96 letters. C19_options_accepted_partial: the same under every option, experimental shapes included. REFUTED in general: '-tua- klama' gives tuakla, which is no brivla (C19_refuted); with mz allowed the zi'evla geisnoxaipemzo and klama give a word that is no brivla, because the fall-apart test does not pass allow_mz on (C19_mz_refuted). Missing: zi'evla without their last vowel as components ('spaget-'), and other literal rafsi that are no CLL rafsi."
 },
 "C20": {
  "note": "C20_round_trip: all dictionary words, all options. C20_words_round_trip adds zi'evla that are not in the dictionary. C20_options_round_trip: those too under every option. C20_shared_form shows that the condition on shared forms is needed."
 },
 "C26": {
  "note": "REFUTED ('pa sufti': 6978 against 6878). Closed form of score_lujvo for every compound and name the analyser accepts (C26_score_compound); exact difference and exact condition for equality for every built word, of any kind, accepted with the returned boundaries (C26_difference, C26_agrees_exactly; C19 and C47 say which words these are, C26_components_partial combines it with C19)."
 },
 "C46": {
  "note": "Words of at most 10^96 letters (a longer lujvo is not found, since its score exceeds the initial best of 10^100). C46_mz_exception: with mz allowed, geisnoxaipemzo is a zi'evla that is cut into gei, sno, xai, pemzo."
 },
 "C47": {
  "note": "Proved (C47_names_accepted_partial) for tanru none of whose components is a zi'evla. REFUTED in general: 'sanmi bakni spageti ckule' gives the name saibakyspageti'ykul, which the analyser rejects; the builder puts no hyphen after a first CVV in names, but the analysis of a stretch between zi'evla asks for one."
 },
 "C48": {
  "note": "All options. The condition on shared forms is the one of C20 (needed there by C20_shared_form)."
 },
 "C49": {
  "note": "C49_with_y: names with y that break these rules can be accepted too (sairbakykul, but not sairbakkul), because the part before y is analysed as a lujvo."
 },
 "C50": {
  "note": "Words of at most 10^96 letters, options without experimental shapes."
 },
 "C51": {
  "note": "Tanru of at most 10^96 letters."
 },
 "C52": {
  "note": "Words of at most 10^96 letters."
 },
 "C53": {
  "note": "Components of fewer than 10^96 letters. The example shows a literal rafsi for which the option does matter."
 },
 "C31": {
  "note": "C31_zihevla_exact describes the words completely, the clusters inside a word by zi_middle_exact (Middle.v), which is independent of the regular expressions of the code."
 },
 "C55": {
  "note": "REFUTED: 'klama' (a tanru of one word) ends a jvozba.py session with IndexError, 'barda -tko- klama' with InvalidClusterError, i'yyn a katna.py session with IndexError; in the pinned code every tanru that has a lujvo ends it with NameError. Proved for queries without y (in jvozba.py: tanru of two or more words made of Lojban letters). C55_katna_regular_partial: the words of C08_regular; C55_jvozba_words_partial: every line of two or more components that are not empty, not of the kind excluded in C39_exceptions and not a literal with a bad cluster."
 },
 "C56": {
  "note": "REFUTED for strings that begin with CCV'y and end in a vowel (bla'yzdani): NotBrivlaError escapes. C56_raises shows that these are the only strings for which anything is raised, C56_true characterises True; so False is returned in all remaining cases. Stated for the code with the import repaired; at the pinned commit lujvo raise NameError (C56_example)."
 },
 "C57": {
  "note": "Words of at most 10^96 letters. C57_example shows that the stated dependencies on consonants and allow_mz are real."
 },
 "C58": {
  "note": "C58_regular_exceptions: for the words of C08_regular the only exceptions are NotBrivlaError and DecompositionError. Stated for the code with the import repaired."
 },
 "C59": {
  "note": "The export is a list of records (word, type, rafsi, notes); XML parsing and the download are not modelled. C59_first_proposal_kept: the first rafsi the notes propose is used if free; C59_proposed_complete_refuted: a second one that follows after a single character is not found. C59_listed_twice_refuted: a gismu listed twice loses rafsi, so the hypothesis of C59_nothing_lost is needed. C59_shipped: rafsi.py has the proved form. The two _refuted theorems refute stronger claims than the property, not the property.",
  "status": "proved"
 },
 "C60": {
  "note": "The reader is a specification of its own: the string literals of each line, with the quotation marks of the language. It is not a parser of Python, TypeScript or Rust."
 }
}