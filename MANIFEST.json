{
 "claims": [
  {
   "property": "C01",
   "status": "proved",
   "theorems": [
    "C01_integers_read_back",
    "C01_words_read_back"
   ],
   "note": ""
  },
  {
   "property": "C02",
   "status": "partial",
   "theorems": [
    "C02_keys_injective",
    "C02_compiler_key_agrees_partial",
    "C02_compiler_key_agrees_refuted"
   ],
   "note": "Injectivity proved in full; agreement of the two key functions proved for ids below 2^24 and refuted above (the compiler drops a byte of 4-byte ids)."
  },
  {
   "property": "C03",
   "status": "proved",
   "theorems": [
    "C03_tree_is_map"
   ],
   "note": ""
  },
  {
   "property": "C04",
   "status": "partial",
   "theorems": [
    "C04_search_refuted"
   ],
   "note": "False of the code: the exit test of wordtree::Search is inverted; refuted in the strongest form (never finds any non-empty key). Search has no caller in the repo."
  },
  {
   "property": "C05",
   "status": "proved",
   "theorems": [
    "C05_announced_length",
    "C05_skip_child",
    "C05_stem_tree_length"
   ],
   "note": ""
  },
  {
   "property": "C06",
   "status": "proved",
   "theorems": [
    "C06_scan_visits_prefixes",
    "C06_explicit_stack"
   ],
   "note": "Stored keys contain no NUL byte (hypothesis nonzero): the walk looks for byte 0 after the end of the word."
  },
  {
   "property": "C07",
   "status": "partial",
   "theorems": [
    "C07_id_lookup_partial",
    "C07_id_lookup_refuted"
   ],
   "note": "Proved for compiled ids below 2^24; refuted for wider ids (finding of C02)."
  },
  {
   "property": "C08",
   "status": "proved",
   "theorems": [
    "C08_track_to_record",
    "C08_positions"
   ],
   "note": ""
  },
  {
   "property": "C09",
   "status": "partial",
   "theorems": [
    "C09_word_class_partial",
    "C09_unknown_id"
   ],
   "note": "Ids below 2^24 (finding of C02); when an id has several records their types must agree, the last one filed answers."
  },
  {
   "property": "C10",
   "status": "proved",
   "theorems": [
    "C10_reported_stems_fit"
   ],
   "note": ""
  },
  {
   "property": "C11",
   "status": "partial",
   "theorems": [
    "C11_no_stem_skipped_partial",
    "C11_no_stem_skipped_refuted"
   ],
   "note": "Proved except when the postfix takes the whole non-empty rest of the word and starts with a letter above the greatest first letter of the changing parts; that case is refuted on a list the compiler produces."
  },
  {
   "property": "C12",
   "status": "partial",
   "theorems": [
    "C12_canonical_form_partial",
    "C12_buffer_bounds"
   ],
   "note": "Exact and defined up to 16 parts; bounds for all words whenever the outcome is defined; with 17 or more parts the code shifts by 32 bits (C14_length_exact: undefined exactly then)."
  },
  {
   "property": "C13",
   "status": "proved",
   "theorems": [
    "C13_classified",
    "C13_unclassified"
   ],
   "note": "Up to four parts when all parts have a class (from five parts on the two-bit fields run into the part count, C14)."
  },
  {
   "property": "C14",
   "status": "partial",
   "theorems": [
    "C14_length_partial",
    "C14_length_exact",
    "C14_length_refuted"
   ],
   "note": "Exactly when the length comes back is proved for every word that fits (C14_length_exact); as a general claim it is refuted: undefined shift at 17 parts, wrong length from 9."
  },
  {
   "property": "C15",
   "status": "proved",
   "theorems": [
    "C15_fewer_capitals",
    "C15_all_capitals",
    "C15_accepted_exactly",
    "C15_many_parts"
   ],
   "note": ""
  },
  {
   "property": "C16",
   "status": "partial",
   "theorems": [
    "C16_changes_only_case",
    "C16_acceptable_partial",
    "C16_acceptable_refuted"
   ],
   "note": "Case-only change proved in full; acceptability refuted for capitalised compound words with a one-letter part, proved otherwise."
  },
  {
   "property": "C17",
   "status": "proved",
   "theorems": [
    "C17_lemmatize_case_blind",
    "C17_check_word_case_blind"
   ],
   "note": "Words of at most eight parts (C14)."
  },
  {
   "property": "C18",
   "status": "proved",
   "theorems": [
    "C18_identifier_round_trip",
    "C18_descriptions_differ",
    "C18_alias_refuted"
   ],
   "note": "For the proper identifiers of each part of speech; beyond them adjectives alias (refutation included)."
  },
  {
   "property": "C19",
   "status": "partial",
   "theorems": [
    "C19_check_word_exact_partial",
    "C19_check_word_sound",
    "C19_check_word_complete",
    "C19_check_word_degenerate",
    "C19_check_word_refuted",
    "C19_many_parts_refuted"
   ],
   "note": "Sound for every dictionary and word of at most eight parts; complete except when a postfix takes the whole rest of the word and starts above the bound of the record, which is refuted on a concrete dictionary (finding of C11); from 17 parts on behaviour is undefined (C14)."
  },
  {
   "property": "C20",
   "status": "proved",
   "theorems": [
    "C20_agree",
    "C20_number_of_matches",
    "C20_degenerate"
   ],
   "note": "Words of at most eight parts (C14)."
  },
  {
   "property": "C21",
   "status": "partial",
   "theorems": [
    "C21_stays_inside_partial",
    "C21_full_array_refuted",
    "C21_dictionary_form_refuted"
   ],
   "note": "Proved when every lexeme has a dictionary form and the lexeme filling the array has a single reading (safe_call); both cases outside are refuted on a concrete dictionary (undefined behaviour)."
  },
  {
   "property": "C22",
   "status": "partial",
   "theorems": [
    "C22_well_formed_partial",
    "C22_merged_uncounted_refuted"
   ],
   "note": "Proved for safe calls (C21). A lexeme with several readings gets the slice of its first reading only: the others are stored behind it but not counted (refuted)."
  },
  {
   "property": "C23",
   "status": "proved",
   "theorems": [
    "C23_build_form_exact",
    "C23_build_form_shared",
    "C23_build_form_unknown",
    "C23_build_form_no_buffer"
   ],
   "note": "Lexeme ids below 2^24 (finding of C02, hypothesis indexed). Strings are delivered each with a terminator plus one more byte; the internal limit of 256 bytes is part of the statement."
  },
  {
   "property": "C24",
   "status": "proved",
   "theorems": [
    "C24_find_forms_exact",
    "C24_degenerate",
    "C24_preposition_refuted"
   ],
   "note": "Words of at most eight parts (C14); readings with a postfix above the bound directly after the stem may be missed (C11), the rest are listed exactly. The disagreement with BuildForm about prepositions is refuted separately."
  },
  {
   "property": "C25",
   "status": "partial",
   "theorems": [
    "C25_built_recognised_partial",
    "C25_postfix_refuted",
    "C25_initial_refuted"
   ],
   "note": "Proved for dictionaries meeting [recognisable] and spellings that are casable or checked with capitals ignored; refuted for a postfix above the bound directly after the stem and for one-letter parts of names."
  },
  {
   "property": "C26",
   "status": "partial",
   "theorems": [
    "C26_find_match_partial",
    "C26_degenerate",
    "C26_fixed_postfix_refuted",
    "C26_postfix_refuted"
   ],
   "note": "Proved for every dictionary in which uninflected words have no postfix and no form exceeds 47 letters, with at least one byte behind the stem tree; completeness except for postfixes outside the bounds directly after the stem. Both gaps are refuted on concrete dictionaries."
  },
  {
   "property": "C27",
   "status": "partial",
   "theorems": [
    "C27_defined_partial",
    "C27_repeated_refuted",
    "C27_overrun_refuted",
    "C27_read_past_refuted",
    "C27_lexeme_zero_refuted"
   ],
   "note": "False of the code: matches are repeated (d*a) and nothing bounds the match arrays (overrun by a letter and six asterisks), the pattern ? reads one byte past the stem tree, lexeme id 0 uses an uninitialised pointer. Proved: the search is defined exactly when every call fits the arrays."
  },
  {
   "property": "C28",
   "status": "partial",
   "theorems": [
    "C28_class_table",
    "C28_later_additions",
    "C28_large_offset_refuted"
   ],
   "note": "Proved for every sequence of additions; but offsets above 0x7fff are accepted although stem records keep 15 bits of them (refuted)."
  },
  {
   "property": "C29",
   "status": "partial",
   "theorems": [
    "C29_round_trip",
    "C29_no_cases_refuted",
    "C29_marked_preposition_refuted"
   ],
   "note": "Proved for every describable class; refuted for prepositions without cases (the compiler produces them) and prepositions with style marks."
  },
  {
   "property": "C30",
   "status": "partial",
   "theorems": [
    "C30_bounds_partial",
    "C30_empty_alternation_refuted",
    "C30_empty_option_refuted"
   ],
   "note": "Proved when no optional element is empty and every alternation has a letter, or the endings used with it have suitable ones (mixed_letters: true of the shipped alternation with an empty string); both exceptions refuted, one end to end (a form of a compiled dictionary is not found)."
  },
  {
   "property": "C31",
   "status": "proved",
   "theorems": [
    "C31_append",
    "C31_append_sequence"
   ],
   "note": "Equal codepages (the dictionary and the caller use windows-1251)."
  },
  {
   "property": "C32",
   "status": "partial",
   "theorems": [
    "C32_scan_partial",
    "C32_guesses",
    "C32_edge_refuted"
   ],
   "note": "Proved for all index trees, words and collectors, provided there is memory to read before the word or no longer ending continues the whole word: otherwise the code reads before its array (refuted, end to end). The tree structure of mtc::patricia is taken as a specification (mtc is not in the repository)."
  },
  {
   "property": "C33",
   "status": "partial",
   "theorems": [
    "C33_build_form_partial",
    "C33_degenerate",
    "C33_unterminated_refuted",
    "C33_length_refuted",
    "C33_order_refuted"
   ],
   "note": "Proved when the uninitialised array happens to hold a terminator, forms have at most 63 characters and inflexions are listed by form; each condition is shown necessary by a refutation."
  },
  {
   "property": "C34",
   "status": "proved",
   "theorems": [
    "C34_endings_exact",
    "C34_unsorted_refuted",
    "C34_many_refuted"
   ],
   "note": "For tables the compiler produces: sorted by ending, at most 64 forms with one ending; both conditions shown necessary by refutations."
  },
  {
   "property": "C35",
   "status": "partial",
   "theorems": [
    "C35_get_api_exact",
    "C35_names_unique",
    "C35_load_cp_exact",
    "C35_missing",
    "C35_other_key",
    "C35_not_cleared_refuted",
    "C35_short_key_refuted",
    "C35_fuzzy_wide_refuted",
    "C35_english",
    "C35_english_other_refuted"
   ],
   "note": "Exact for keys carrying the magic and for LoadCpAPI by name. Refuted: a wrong magic leaves the result pointer uncleared; a key shorter than the magic (the samples pass utf-8) is read beyond its end; the guesser LoadCpAPI returns the wide instance as a narrow one; the English library accepts any name."
  },
  {
   "property": "C36",
   "status": "proved",
   "theorems": [
    "C36_tables_consistent",
    "C36_rus_letters"
   ],
   "note": "Exceptions: comma (all languages) and apostrophe (English) are regular characters without capitals."
  },
  {
   "property": "C37",
   "status": "proved",
   "theorems": [
    "C37_lists_sorted"
   ],
   "note": "Ids below 2^31 (above, the comparison is cyclic)."
  },
  {
   "property": "C38",
   "status": "proved",
   "theorems": [
    "C38_inflexion_lookup_exact"
   ],
   "note": ""
  },
  {
   "property": "C39",
   "status": "partial",
   "theorems": [
    "C39_lemmatize_exact_partial"
   ],
   "note": "Proved for safe calls (C21) and words of at most eight parts; with several readings of a lexeme the element behind the last lexeme is left unspecified."
  },
  {
   "property": "C40",
   "status": "partial",
   "theorems": [
    "C40_compiled_lexicon",
    "C40_compiled_check_partial",
    "C40_postfix_refuted"
   ],
   "note": "Compiler from resolved lexemes to arrays is proved to produce a lexicon with exactly the source forms; CheckWord on it is exact for sound bounds (C30), up to eight parts (C14), and no postfix above the bound directly after the stem (refuted). The text of the articles is in C79, C91 and C92."
  },
  {
   "property": "C41",
   "status": "partial",
   "theorems": [
    "C41_headword_partial",
    "C41_continued_refuted",
    "C41_plural_refuted",
    "C41_headword_continued_partial"
   ],
   "note": "Proved for verbs and continued tables under the conditions of C80 (C41_headword_continued_partial); refuted for continued elements and for plural-only words with alternation."
  },
  {
   "property": "C42",
   "status": "proved",
   "theorems": [
    "C42_lemmatize",
    "C42_degenerate",
    "C42_long_refuted",
    "C42_form_refuted"
   ],
   "note": "For the arrays described by guesser (endings of 2 to 16 characters, known forms), words up to eight parts (C14) and, if normal forms are wanted, an array that held a terminator (C33). What the compiler accepts beyond that is refuted (out-of-bounds reads). The floating-point weight is an arbitrary function of its five inputs."
  },
  {
   "property": "C43",
   "status": "proved",
   "theorems": [
    "C43_compiled"
   ],
   "note": "mtc::patricia is taken as a map; JSON parsing is not modelled."
  },
  {
   "property": "C44",
   "status": "proved",
   "theorems": [
    "C44_word_back"
   ],
   "note": "Inflexions listed by form, words of at most 49 characters, array holding a terminator (see C33)."
  },
  {
   "property": "C45",
   "status": "proved",
   "theorems": [
    "C45_models",
    "C45_unknown"
   ],
   "note": ""
  },
  {
   "property": "C46",
   "status": "partial",
   "theorems": [
    "C46_check_word_exact_partial",
    "C46_check_word_sound",
    "C46_check_word_complete",
    "C46_check_word_degenerate",
    "C46_case_blind",
    "C46_check_word_refuted",
    "C46_many_parts_refuted"
   ],
   "note": "Sound for every dictionary and word of at most eight parts; complete except when a postfix above the record bound takes the whole rest of the word (refuted); from 17 parts on behaviour is undefined (C14)."
  },
  {
   "property": "C47",
   "status": "partial",
   "theorems": [
    "C47_word_class",
    "C47_unknown_class",
    "C47_build_form_exact",
    "C47_build_form_shared",
    "C47_build_form_unknown",
    "C47_build_form_no_buffer",
    "C47_fixed_postfix_refuted"
   ],
   "note": "Lexeme ids below 2^24 (finding of C02, hypothesis eindexed). A fixed word with a postfix loses the postfix (refuted)."
  },
  {
   "property": "C48",
   "status": "proved",
   "theorems": [
    "C48_find_forms_exact",
    "C48_find_degenerate"
   ],
   "note": "Words of at most eight parts (C14); fixed words have no postfix (C47); readings with a postfix above the bound directly after the stem may be missed (C46), the rest are listed exactly."
  },
  {
   "property": "C49",
   "status": "partial",
   "theorems": [
    "C49_built_recognised_partial",
    "C49_possessive_refuted"
   ],
   "note": "Proved for dictionaries meeting erecognisable and spellings that are casable or checked with capitals ignored; refuted for possessives of abbreviations."
  },
  {
   "property": "C50",
   "status": "partial",
   "theorems": [
    "C50_lemmatize_exact_partial",
    "C50_agree",
    "C50_case_blind",
    "C50_degenerate",
    "C50_full_array_refuted",
    "C50_no_normal_form_refuted"
   ],
   "note": "Proved for safe calls (esafe_call) and words of at most eight parts (C14). Outside: the lexeme filling the array with several readings is undefined behaviour, and a lexeme without forms of ids below 16 is skipped silently; both refuted on concrete dictionaries."
  },
  {
   "property": "C51",
   "status": "partial",
   "theorems": [
    "C51_compiles",
    "C51_check_word_exact_partial",
    "C51_check_word_sound",
    "C51_order_free",
    "C51_capital_postfix_refuted",
    "C51_bare_postfix_refuted",
    "C51_many_endings_refuted"
   ],
   "note": "Exact for sources whose compiled arrays fit the 16-bit references (the compiler does not check, hypothesis earrays_fit), whose postfixes are in small letters, with at most 64 equal endings in an article, and unless a postfix is met directly behind the stem while all endings begin lower (C46); the last three conditions are shown necessary. Words of at most eight parts (C14). Codepage conversion of the files (mtc) is taken as the identity, on ASCII."
  },
  {
   "property": "C52",
   "status": "partial",
   "theorems": [
    "C52_build_form",
    "C52_word_class",
    "C52_unknown",
    "C52_built_recognised_partial"
   ],
   "note": "Lexeme ids below 2^24 (C02) that one article only has; a fixed word has no postfix (C47). Built forms are proved recognised for words of letters, hyphens, apostrophes and commas in casable spellings (C49)."
  },
  {
   "property": "C53",
   "status": "partial",
   "theorems": [
    "C53_no_crash_partial",
    "C53_wrong_postfix_refuted",
    "C53_overrun_refuted"
   ],
   "note": "Proved for lines shorter than 256 characters without words of 64 characters and without a postfix clause; refuted otherwise: a postfix longer than the word, a tag of 64 characters and a line of 256 overrun arrays, and a postfix that does not end the word replaces its end."
  },
  {
   "property": "C54",
   "status": "partial",
   "theorems": [
    "C54_find_match_partial",
    "C54_forms_fit",
    "C54_compiled_partial",
    "C54_degenerate",
    "C54_fixed_postfix_refuted",
    "C54_postfix_refuted",
    "C54_repeated_refuted",
    "C54_read_past_refuted",
    "C54_lexeme_zero_refuted",
    "C54_overrun_refuted"
   ],
   "note": "Exact up to repetition for dictionaries with a byte behind the tree or a record for the empty stem, non-zero lexeme ids, at most 256 forms of a lexeme, forms of at most 47 characters and no fixed words with a postfix, except forms with a postfix directly after the stem outside the record bounds; every condition is shown necessary. A lexeme can be delivered in several calls with the same match (refuted). Also proved end to end on compiled source files."
  },
  {
   "property": "C55",
   "status": "proved",
   "theorems": [
    "C55_build_form",
    "C55_build_form_unknown",
    "C55_find_forms",
    "C55_english_build_form",
    "C55_english_build_form_unknown",
    "C55_english_find_forms",
    "C55_guesser_build_form",
    "C55_models",
    "C55_word_class",
    "C55_all_forms_refuted"
   ],
   "note": "Under the conditions of the interface calls (C09, C23, C24, C33, C45, C47, C48). Strings that do not fit the local array are an empty vector, indistinguishable from no forms: the wish that every form be returned is refuted."
  },
  {
   "property": "C56",
   "status": "partial",
   "theorems": [
    "C56_lemmatize_partial",
    "C56_english_lemmatize_partial",
    "C56_guesser_lemmatize",
    "C56_word_back",
    "C56_degenerate"
   ],
   "note": "Under the conditions of the interface calls: words of at most eight parts (C14), dictionary forms exist and the 32nd lexeme has one reading (C21, C50); the guesser needs an array that held a terminator (C33). The word-back theorem is for words of letters and hyphens of at most 49 characters."
  },
  {
   "property": "C57",
   "status": "partial",
   "theorems": [
    "C57_balanced",
    "C57_alive",
    "C57_self_assignment_refuted"
   ],
   "note": "The balance is proved for every sequence; freedom from use after free for programs that never assign a handle to itself: self-assignment of the last handle detaches before it attaches (refuted)."
  },
  {
   "property": "C58",
   "status": "partial",
   "theorems": [
    "C58_same_answer",
    "C58_check_word_exact_partial",
    "C58_degenerate",
    "C58_every_text"
   ],
   "note": "Equal to the windows-1251 instance for every text of at most 16 parts (C14: more is undefined behaviour); exact as C19, with its conditions. The converters of moonycode are parameters: a decoding function, and whether room for a terminator is demanded."
  },
  {
   "property": "C59",
   "status": "partial",
   "theorems": [
    "C59_build_form_exact",
    "C59_build_form_shared",
    "C59_build_form_unknown",
    "C59_find_forms_exact",
    "C59_degenerate",
    "C59_built_recognised_partial"
   ],
   "note": "Exact for converters that write every text without loss, NUL as a zero byte and nothing else with zero bytes (UTF-8 is shown to be one); words of at most eight parts (C14). Built forms are proved recognised under the conditions of C25."
  },
  {
   "property": "C60",
   "status": "partial",
   "theorems": [
    "C60_lemmatize_partial",
    "C60_degenerate"
   ],
   "note": "For safe calls (C21) and words of at most eight parts (C14); the same converters."
  },
  {
   "property": "C61",
   "status": "partial",
   "theorems": [
    "C61_find_match_partial",
    "C61_degenerate",
    "C61_long_pattern_refuted"
   ],
   "note": "Under the conditions of C26 and for patterns shorter than 48 bytes in the code page: the length is checked before the conversion, so 24 Cyrillic letters in UTF-8 are refused (refuted). A match whose conversion fails is undefined behaviour; the theorem says exactly when."
  },
  {
   "property": "C62",
   "status": "partial",
   "theorems": [
    "C62_same_answer",
    "C62_eng_same_answer",
    "C62_check_word_exact_partial",
    "C62_eng_check_word_exact_partial",
    "C62_degenerate"
   ],
   "note": "Equal to the narrow interface for every text of at most 16 parts (C14); exact as C19 and C46, with their conditions. The converters of moonycode are parameters: one byte per wide character, lossless, and whether room for a terminator is demanded."
  },
  {
   "property": "C63",
   "status": "partial",
   "theorems": [
    "C63_build_form_exact",
    "C63_build_unknown",
    "C63_eng_build_form_exact",
    "C63_eng_build_unknown",
    "C63_find_forms_partial",
    "C63_eng_find_forms_partial",
    "C63_find_refused",
    "C63_counted_refused_refuted",
    "C63_built_recognised_partial"
   ],
   "note": "BuildForm exact; two characters more than needed are demanded and never more than 96 characters are delivered, whatever the buffer (both stated in wide_fit). FindForms is exact when the converter accepts the word; refuted for counted words if the converter wants room for a terminator. Built forms recognised under the conditions of C25."
  },
  {
   "property": "C64",
   "status": "partial",
   "theorems": [
    "C64_lemmatize_partial",
    "C64_eng_lemmatize_partial",
    "C64_degenerate",
    "C64_eng_degenerate"
   ],
   "note": "For safe calls (C21, C50) and words of at most eight parts (C14); at most 32 lexemes and 240 characters of normal forms fit, whatever the caller's arrays."
  },
  {
   "property": "C65",
   "status": "partial",
   "theorems": [
    "C65_find_match_partial",
    "C65_eng_find_match_partial",
    "C65_degenerate",
    "C65_eng_degenerate"
   ],
   "note": "Under the conditions of C26 and C54; defined exactly when the narrow search is."
  },
  {
   "property": "C66",
   "status": "partial",
   "theorems": [
    "C66_build_form",
    "C66_word_class",
    "C66_unknown",
    "C66_built_recognised_partial"
   ],
   "note": "BuildForm, GetWdInfo and unknown ids exact for sources within the limits of the formats (lexeme_buildable); built forms recognised under the conditions of C25 in terms of the sources."
  },
  {
   "property": "C67",
   "status": "partial",
   "theorems": [
    "C67_find_forms_partial",
    "C67_lemmatize_partial",
    "C67_stored_partial"
   ],
   "note": "Sound always; complete when the letter bounds cover the endings (C30) and no postfix starts above them (C11); safe calls (C21) and words of at most eight parts (C14)."
  },
  {
   "property": "C68",
   "status": "partial",
   "theorems": [
    "C68_find_match_partial"
   ],
   "note": "Conditions of C26 and C27 in terms of the sources: strings of at most 47 bytes, ids not 0, fixed words without postfix, a byte behind the tree of stems or a lexeme with empty stem; postfixes directly after the stem may be missed."
  },
  {
   "property": "C69",
   "status": "partial",
   "theorems": [
    "C69_build_form_partial",
    "C69_same_program",
    "C69_degenerate",
    "C69_no_stem"
   ],
   "note": "Exact for forms of at most 63 (Russian) or 64 (English) characters and inflexions listed by form; in Russian the uninitialised local array must end in a terminator or hyphen, as for C33 (refuted there). The converters of moonycode are parameters."
  },
  {
   "property": "C70",
   "status": "proved",
   "theorems": [
    "C70_lemmatize",
    "C70_same_program",
    "C70_degenerate",
    "C70_stem_length_refuted"
   ],
   "note": "For words of at most eight parts in which the scan stays inside the word (readable, as C32); in Russian with normal forms under C33's condition on the uninitialised array. The length of the stem in UTF-8 is refuted to be in one unit: bytes if normal forms are asked for, characters otherwise."
  },
  {
   "property": "C71",
   "status": "partial",
   "theorems": [
    "C71_models_partial",
    "C71_unknown",
    "C71_full_refuted"
   ],
   "note": "For converters that ask for room for a terminator; refuted for those that do not: a sample that fills the array makes the next one be written beyond it."
  },
  {
   "property": "C72",
   "status": "proved",
   "theorems": [
    "C72_word_back",
    "C72_utf8"
   ],
   "note": "For code pages counted as the program counts them (UTF-8 proved to be); words of at most 49 characters, inflexions listed by form."
  },
  {
   "property": "C73",
   "status": "proved",
   "theorems": [
    "C73_compiled"
   ],
   "note": "Patricia trees as in C43."
  },
  {
   "property": "C74",
   "status": "partial",
   "theorems": [
    "C74_build_form_partial",
    "C74_word_back",
    "C74_degenerate",
    "C74_full_stem_refuted"
   ],
   "note": "Conditions of C69. One character more than needed is demanded and never more than 95 are delivered, whatever the buffer (stated in guess_fit). A terminated stem of 64 characters is read beyond the local array if the converter needs no room for a terminator (refuted)."
  },
  {
   "property": "C75",
   "status": "proved",
   "theorems": [
    "C75_lemmatize",
    "C75_degenerate"
   ],
   "note": "Conditions of C70; at most 32 stems and 240 characters of normal forms fit, whatever the caller's arrays (wide_room)."
  },
  {
   "property": "C76",
   "status": "proved",
   "theorems": [
    "C76_models",
    "C76_unknown"
   ],
   "note": "Samples without NUL; at most 1024 characters are delivered (wide_samples)."
  },
  {
   "property": "C77",
   "status": "proved",
   "theorems": [
    "C77_article_read",
    "C77_other_lines",
    "C77_long_field_refuted",
    "C77_postfix_refuted",
    "C77_marks_refuted"
   ],
   "note": "Fields within the compiler's arrays (256, 32, 32, 32), notes without colon or brace, at most one hyphen in a postfix; beyond that refuted (long fields undefined, postfix not compared with the word, a postfix with two hyphens read as a remark). Table references are 16-bit numbers above 0 (tables_ok)."
  },
  {
   "property": "C78",
   "status": "proved",
   "theorems": [
    "C78_files_compiled",
    "C78_lexemes",
    "C78_long_line_refuted"
   ],
   "note": "Lines of at most 1022 characters; longer lines are refuted to be read as one. The conversion of the codepage is a parameter, character by character."
  },
  {
   "property": "C79",
   "status": "partial",
   "theorems": [
    "C79_text_to_words_partial",
    "C79_valid_sources"
   ],
   "note": "Conditions of C40: postfixes not above the letter bounds, at most eight parts; valid tables and articles (tables_valid, rarticle_valid)."
  },
  {
   "property": "C80",
   "status": "proved",
   "theorems": [
    "C80_stem_search"
   ],
   "note": "For tables with less than 128 elements of less than 16 letters (tidy_links), continuations whose element is there too (continued_whole, needed: C41_continued_refuted) and existing alternations."
  },
  {
   "property": "C81",
   "status": "partial",
   "theorems": [
    "C81_headword_accepted_partial"
   ],
   "note": "Conditions of C79 and C80; plural-only words must not alternate (refuted in C41); reflexive elements of verbs end the word (reflexive_last)."
  },
  {
   "property": "C82",
   "status": "proved",
   "theorems": [
    "C82_text_compiled",
    "C82_text_compiled_case"
   ],
   "note": "Endings below 128 bytes, at most 255 different elements per table (C86), at most 128 KB. How the mtc library writes the index of names is not modelled."
  },
  {
   "property": "C83",
   "status": "proved",
   "theorems": [
    "C83_accepted",
    "C83_dangling_refused",
    "C83_accepted_case",
    "C83_dangling_case"
   ],
   "note": "Lines of at most 4095 characters (readable); the conversion of the code page is a parameter that keeps white space."
  },
  {
   "property": "C84",
   "status": "proved",
   "theorems": [
    "C84_order",
    "C84_shared",
    "C84_shared_case"
   ],
   "note": ""
  },
  {
   "property": "C85",
   "status": "partial",
   "theorems": [
    "C85_first_definition_wins",
    "C85_redefinition_reported_refuted"
   ],
   "note": "False of the code: std::map::emplace keeps the first definition silently (refuted by a text of two tables); proved that the first definition always stays in force."
  },
  {
   "property": "C86",
   "status": "partial",
   "theorems": [
    "C86_count_checked_refuted"
   ],
   "note": "False of the code: the count is cut to a byte; a table of 256 elements compiles to an empty one (refuted)."
  },
  {
   "property": "C87",
   "status": "partial",
   "theorems": [
    "C87_tokens",
    "C87_tokens_case",
    "C87_spaced_token_refuted",
    "C87_spaced_token_case"
   ],
   "note": "Effect of all token lists and refusal of unknown tokens proved in both directions; tokens with a space in their names cannot be used in an element: the rest is taken for a link (refuted)."
  },
  {
   "property": "C88",
   "status": "proved",
   "theorems": [
    "C88_text_compiled",
    "C88_text_compiled_case"
   ],
   "note": "Strings below 16 bytes, at most four of them in a line, at most 64 KB (C90); names of definitions equal or disjoint (otherwise C89). How the mtc library writes the index of names is not modelled."
  },
  {
   "property": "C89",
   "status": "proved",
   "theorems": [
    "C89_accepted",
    "C89_accepted_case"
   ],
   "note": "Lines of at most 4095 characters (readable); the conversion of the code page is a parameter that keeps white space; the meaning of the result for texts within the format (C90)."
  },
  {
   "property": "C90",
   "status": "partial",
   "theorems": [
    "C90_own_alternations_refuted",
    "C90_refused",
    "C90_length_checked_refuted"
   ],
   "note": "False of the code: a definition 'A, C' after one of 'A' gives C the alternations of the first (refuted), while names of two earlier definitions are refused; a string of 16 bytes is stored with length 0 (refuted). Offsets beyond 64 KB wrap as well; not shown by a concrete text."
  },
  {
   "property": "C91",
   "status": "proved",
   "theorems": [
    "C91_texts_compiled"
   ],
   "note": "Meaning of the texts as in C82 and C88; conditions in texts_valid (format, links defined, sizes, alphabets, letters of alternations)."
  },
  {
   "property": "C92",
   "status": "partial",
   "theorems": [
    "C92_texts_to_words_partial"
   ],
   "note": "End to end from the three texts. Words below 48 letters (C14: at most eight parts); postfixes that do not start above the changing parts (refuted otherwise, C11); texts that satisfy dictionary_valid, which includes that the search for the stem meets no ending split over continued tables (search_told); arrays within the offsets (arrays_fit)."
  },
  {
   "property": "C93",
   "status": "partial",
   "theorems": [
    "C93_headwords_accepted_partial"
   ],
   "note": "Conditions of C92; no stem mark and no colon in the index; plural-only words must not alternate (refuted in C41); reflexive elements of verbs end the word (reflexive_end)."
  },
  {
   "property": "C94",
   "status": "partial",
   "theorems": [
    "C94_russian",
    "C94_english",
    "C94_every_argument",
    "C94_narrow_is_narrow_refuted"
   ],
   "note": "Exact for all names (a name ends at its first NUL). 'A narrow class has a narrow dictionary' is false: mlmaruMb('utf-16') holds the wide one (refuted); English constructors accept any name."
  },
  {
   "property": "C95",
   "status": "partial",
   "theorems": [
    "C95_lemmatize_partial",
    "C95_english_lemmatize_partial",
    "C95_wide_lemmatize_partial",
    "C95_wide_english_lemmatize_partial",
    "C95_empty_means_unknown_refuted"
   ],
   "note": "All code pages and the wide classes, both languages; words of at most eight parts (C14), conditions of C21 and C22 on the dictionary. 'An empty list means an unknown word' is false: 33 lexemes (refuted)."
  },
  {
   "property": "C96",
   "status": "partial",
   "theorems": [
    "C96_check_word_partial",
    "C96_english_check_word_partial",
    "C96_wide_check_word_partial",
    "C96_wide_english_check_word_partial",
    "C96_build_form",
    "C96_english_build_form",
    "C96_wide_build_form",
    "C96_wide_english_build_form",
    "C96_part_of_sp"
   ],
   "note": "build_form and part_of_sp exact; check_word under the conditions of C19, C46, C58, C62."
  },
  {
   "property": "C97",
   "status": "partial",
   "theorems": [
    "C97_find_match_partial",
    "C97_english_find_match_partial",
    "C97_stops_refuted",
    "C97_never_stops",
    "C97_exception_refuted",
    "C97_no_result_refuted",
    "C97_kept_match_refuted"
   ],
   "note": "Narrow classes. Exact sequence of calls and returned value for every callback that reads its matches during the call, under the conditions of C26, C54 and C61. False of the code (refuted): a non-zero result does not stop the search; exceptions are lost; a function without result is called once; kept matches change their text."
  },
  {
   "property": "C98",
   "status": "partial",
   "theorems": [
    "C98_utf8_lemma",
    "C98_rows_readable",
    "C98_other_pages_refuted"
   ],
   "note": "Proved for UTF-8; false for the other code pages: UnicodeDecodeError (refuted for every Cyrillic word in windows-1251)."
  },
  {
   "property": "C99",
   "status": "partial",
   "theorems": [
    "C99_lemmatize_partial",
    "C99_wide_lemmatize_partial",
    "C99_build_form_partial",
    "C99_wide_build_form_partial"
   ],
   "note": "All code pages and wide, both languages, under the conditions of C71, C74 and C75; the order of equal weights is any the sort gives."
  },
  {
   "property": "C100",
   "status": "partial",
   "theorems": [
    "C100_build_form_partial",
    "C100_class_partial",
    "C100_absent_partial",
    "C100_built_recognised_partial"
   ],
   "note": "For texts that satisfy dictionary_valid. Missing: two articles with one number, articles that tell of two words (a//b) in BuildForm, stems over 48 letters, numbers of 2^24 and more."
  },
  {
   "property": "C101",
   "status": "partial",
   "theorems": [
    "C101_find_forms_partial",
    "C101_lemmatize_partial"
   ],
   "note": "As C92; Lemmatize as read off the arrays when each word has a dictionary form and the array is longer than the number of lexemes. Missing: words of 48 letters and more or more than eight parts."
  },
  {
   "property": "C102",
   "status": "partial",
   "theorems": [
    "C102_find_match_partial"
   ],
   "note": "Soundness and completeness of the matches delivered. Missing: see C26, C27 (buffers, repeated delivery)."
  },
  {
   "property": "C103",
   "status": "partial",
   "theorems": [
    "C103_reads",
    "C103_pieces",
    "C103_refused",
    "C103_empty_refuted",
    "C103_wraps_refuted"
   ],
   "note": "Objects of 1 to 2^32 bytes. False of the code (refuted): the empty object gives an initialiser without values, and behind 2^32 bytes a comma is missing."
  },
  {
   "property": "C104",
   "status": "proved",
   "theorems": [
    "C104_makerus",
    "C104_dictionary_missing",
    "C104_makeeng",
    "C104_compile_dict"
   ],
   "note": "All command lines of makerus and makeeng; the file system is any function from names to contents. Strings hold no byte 0."
  },
  {
   "property": "C105",
   "status": "partial",
   "theorems": [
    "C105_makerus",
    "C105_fails"
   ],
   "note": "For runs whose output files can be created and whose arrays have 1 to 2^32 bytes. Missing: output names that coincide with inputs or with each other, the index files of mtc (the loaders are parameters)."
  },
  {
   "property": "C106",
   "status": "partial",
   "theorems": [
    "C106_makeeng",
    "C106_fails"
   ],
   "note": "As C105. A failing run ends by an exception that is never caught (abort), not by an error code."
  },
  {
   "property": "C107",
   "status": "partial",
   "theorems": [
    "C107_arrays",
    "C107_writes",
    "C107_empty_output_refuted",
    "C107_help_refuted"
   ],
   "note": "mtc::json and mtc::patricia are parameters. False of the code (refuted): an empty output name and the help without a slash in argv[0] are undefined behaviour."
  },
  {
   "property": "C108",
   "status": "partial",
   "theorems": [
    "C108_holes_partial",
    "C108_articles",
    "C108_articles_case",
    "C108_least_refuted",
    "C108_holes_case",
    "C108_last_hole_refuted",
    "C108_end_refuted"
   ],
   "note": "Positive result for dictionaries whose least id is a multiple of 32. False of the code (refuted): with any other least id it prints that there are no lexemes; a hole behind the greatest id is printed if the greatest two ids are neighbours; a last line that ends in LID: is read beyond its end. Ids below 2^32-2. Ids of comments are counted as well."
  },
  {
   "property": "C109",
   "status": "partial",
   "theorems": [
    "C109_report",
    "C109_nothing_reported",
    "C109_ends_partial",
    "C109_ends_refuted",
    "C109_difference_partial",
    "C109_difference_refuted"
   ],
   "note": "Whenever it ends the report is an edit script and empty exactly for equal lists; it ends on lists ascending in a key (dumps do). False of the code (refuted): two lines in different order make it loop for ever; with more than 1024 new lines a common line is reported. Exact difference for at most 1024 different lines. When one list ends first, empty lines are reported besides."
  },
  {
   "property": "C110",
   "status": "proved",
   "theorems": [
    "C110_dump",
    "C110_dictionary"
   ],
   "note": "For every interface that answers (answers), and for the dictionaries of C23 whose lexemes have one record each; forms of one number that do not fit 256 bytes together count as none (BuildForm refuses them). The legacy program includes a header that is not in the repository; BuildForm and GetWdInfo are those of libmorphrus."
  },
  {
   "property": "C111",
   "status": "partial",
   "theorems": [
    "C111_same_dictionary",
    "C111_other_file",
    "C111_changed_forms_refuted"
   ],
   "note": "The dump of the same dictionary gives an empty report, and any ascending file is checked to the end with an edit script. False of the code (refuted): different forms may have one dump (abc, abcd and abc, abd), and only the first of several forms of one number is dumped."
  },
  {
   "property": "C112",
   "status": "partial",
   "theorems": [
    "C112_lemmatize_partial",
    "C112_english_lemmatize_partial",
    "C112_ordinary_words",
    "C112_empty_means_unknown_refuted",
    "C112_always_json_refuted"
   ],
   "note": "Positive result for normal forms that need no escapes (letters, hyphen and apostrophe do not, C112_ordinary_words) and dictionaries that meet the conditions of C21/C22 for 16 lexemes. False of the code (refuted): a known word of 17 lexemes prints an empty list; a quote in a normal form is not escaped."
  },
  {
   "property": "C113",
   "status": "proved",
   "theorems": [
    "C113_code_page",
    "C113_default_utf8",
    "C113_english",
    "C113_errors",
    "C113_guessers_refuted",
    "C113_narrow_refuted"
   ],
   "note": "Loader and lookup of symbols are parameters. Two surprises are stated as theorems: lemmatize reports a wrong code page for every guesser (its key differs), and utf-16 makes it call the narrow interface of the wide object."
  },
  {
   "property": "C114",
   "status": "partial",
   "theorems": [
    "C114_russian_words",
    "C114_english_words",
    "C114_plain_line",
    "C114_capital_a_refuted",
    "C114_long_line_refuted"
   ],
   "note": "Proved for all lines of both languages. False of the code (refuted): a capital A at the front of a word is taken off (0xC0 is skipped), so Anna and Alla are not counted; a word across the end of the 16383-byte buffer is cut in two."
  },
  {
   "property": "C115",
   "status": "partial",
   "theorems": [
    "C115_russian_table",
    "C115_english_table",
    "C115_dictionary_partial",
    "C115_english_dictionary_partial",
    "C115_russian_forms",
    "C115_russian_parts",
    "C115_english_parts",
    "C115_one_row_refuted"
   ],
   "note": "Exact over rational numbers: rounding of double is not modelled, nor the printed table. The answers of the dictionaries under the conditions of C21 (words of at most 47 characters and 8 parts; the 32nd lexeme has one reading). False of the code (refuted): the parts of speech 38-46 keep their flags, so one may have several rows."
  },
  {
   "property": "C116",
   "status": "partial",
   "theorems": [
    "C116_stematize_partial",
    "C116_empty_means_no_guess_refuted"
   ],
   "note": "Weights are opaque: what \"%.4f\" prints for them has to be a number with a point (the logarithm of a power of 0 gives -inf, which is no JSON), and the normal forms need no escapes. False of the code (refuted): an empty list also comes out for a word of 65 letters that has guesses, as the normal form is too long."
  },
  {
   "property": "C117",
   "status": "partial",
   "theorems": [
    "C117_over_wide_search",
    "C117_letters_game",
    "C117_shipped_constants_refuted",
    "C117_unused_forgotten_refuted",
    "C117_yo_refuted"
   ],
   "note": "The exactness of FindMatch for patterns of letters and question marks is a hypothesis of C117_letters_game; C117_over_wide_search discharges it for the wide interface over Russian dictionaries, as far as the search is defined (C65; that it is for every such pattern remains a hypothesis); words of other lengths are not compared. False of the code (refuted): with the program's own constants its word does not fit its pattern and is not guessed; letters ruled out at first are forgotten after a guess; a noun with the letter yo is shifted by 33 bits, undefined."
  },
  {
   "property": "C118",
   "status": "partial",
   "theorems": [
    "C118_search_exact",
    "C118_new_task",
    "C118_yo_refuted"
   ],
   "note": "CheckHelp is not in the current api.h (only in legacy lang-ukr), so the file does not compile as it stands; what it hands over is a parameter. Exactness of FindMatch (shown for the wide interface by C118_search_exact where the search is defined) and completeness of CheckHelp (no next letter of a word missed, at most 64 characters) are hypotheses here; the quotient of doubles in SelectChar is exact. False of the code (refuted): a next letter yo is looked up past the end of the table of ranks."
  },
  {
   "property": "C119",
   "status": "partial",
   "theorems": [
    "C119_wildcards",
    "C119_every_match_refuted",
    "C119_long_line_refuted"
   ],
   "note": "Lines of at most 254 bytes without a byte 0; the search is a parameter that answers each pattern asked for, with at least one match for each lexeme (C26, C65). False of the code (refuted): a longer line is asked for in pieces; only the first match of a lexeme is shown."
  }
 ]
}