CLAIMS = {
'C01': ('proved', ''),
'C02': ('partial', 'Injectivity proved in full; agreement of the two key functions proved for ids below 2^24 and refuted above (the compiler drops a byte of 4-byte ids).'),
'C03': ('proved', ''),
'C04': ('partial', 'False of the code: the exit test of wordtree::Search is inverted; refuted in the strongest form (never finds any non-empty key). Search has no caller in the repo.'),
'C05': ('proved', ''),
'C06': ('proved', 'Stored keys contain no NUL byte (hypothesis nonzero): the walk looks for byte 0 after the end of the word.'),
'C07': ('partial', 'Proved for compiled ids below 2^24; refuted for wider ids (finding of C02).'),
'C08': ('proved', ''),
'C10': ('proved', ''),
'C11': ('partial', 'Proved except when the postfix takes the whole non-empty rest of the word and starts with a letter above the greatest first letter of the changing parts; that case is refuted on a list the compiler produces.'),
'C37': ('proved', 'Ids below 2^31 (above, the comparison is cyclic).'),
'C12': ('partial', 'Exact and defined up to 16 parts; bounds for all words whenever the outcome is defined; with 17 or more parts the code shifts by 32 bits (C14_length_exact: undefined exactly then).'),
'C13': ('proved', 'Up to four parts when all parts have a class (from five parts on the two-bit fields run into the part count, C14).'),
'C14': ('partial', 'Exactly when the length comes back is proved for every word that fits (C14_length_exact); as a general claim it is refuted: undefined shift at 17 parts, wrong length from 9.'),
'C15': ('proved', ''),
'C16': ('partial', 'Case-only change proved in full; acceptability refuted for capitalised compound words with a one-letter part, proved otherwise.'),
'C36': ('proved', 'Exceptions: comma (all languages) and apostrophe (English) are regular characters without capitals.'),
'C09': ('partial', 'Ids below 2^24 (finding of C02); when an id has several records their types must agree, the last one filed answers.'),
'C17': ('proved', 'Words of at most eight parts (C14).'),
'C18': ('proved', 'For the proper identifiers of each part of speech; beyond them adjectives alias (refutation included).'),
'C19': ('partial', 'Sound for every dictionary and word of at most eight parts; complete except when a postfix takes the whole rest of the word and starts above the bound of the record, which is refuted on a concrete dictionary (finding of C11); from 17 parts on behaviour is undefined (C14).'),
'C38': ('proved', ''),
'C23': ('proved', 'Lexeme ids below 2^24 (finding of C02, hypothesis indexed). Strings are delivered each with a terminator plus one more byte; the internal limit of 256 bytes is part of the statement.'),
'C24': ('proved', 'Words of at most eight parts (C14); readings with a postfix above the bound directly after the stem may be missed (C11), the rest are listed exactly. The disagreement with BuildForm about prepositions is refuted separately.'),
'C25': ('partial', 'Proved for dictionaries meeting [recognisable] and spellings that are casable or checked with capitals ignored; refuted for a postfix above the bound directly after the stem and for one-letter parts of names.'),
'C31': ('proved', 'Equal codepages (the dictionary and the caller use windows-1251).'),
'C20': ('proved', 'Words of at most eight parts (C14).'),
'C21': ('partial', 'Proved when every lexeme has a dictionary form and the lexeme filling the array has a single reading (safe_call); both cases outside are refuted on a concrete dictionary (undefined behaviour).'),
'C22': ('partial', 'Proved for safe calls (C21). A lexeme with several readings gets the slice of its first reading only: the others are stored behind it but not counted (refuted).'),
'C39': ('partial', 'Proved for safe calls (C21) and words of at most eight parts; with several readings of a lexeme the element behind the last lexeme is left unspecified.'),
'C26': ('partial', 'Proved for every dictionary in which uninflected words have no postfix and no form exceeds 47 letters, with at least one byte behind the stem tree; completeness except for postfixes outside the bounds directly after the stem. Both gaps are refuted on concrete dictionaries.'),
'C27': ('partial', 'False of the code: matches are repeated (d*a) and nothing bounds the match arrays (overrun by a letter and six asterisks), the pattern ? reads one byte past the stem tree, lexeme id 0 uses an uninitialised pointer. Proved: the search is defined exactly when every call fits the arrays.'),
'C28': ('partial', 'Proved for every sequence of additions; but offsets above 0x7fff are accepted although stem records keep 15 bits of them (refuted).'),
'C29': ('partial', 'Proved for every describable class; refuted for prepositions without cases (the compiler produces them) and prepositions with style marks.'),
'C30': ('partial', 'Proved when no optional element is empty and every alternation has a letter, or the endings used with it have suitable ones (mixed_letters: true of the shipped alternation with an empty string); both exceptions refuted, one end to end (a form of a compiled dictionary is not found).'),
'C40': ('partial', 'Compiler from resolved lexemes to arrays is proved to produce a lexicon with exactly the source forms; CheckWord on it is exact for sound bounds (C30), up to eight parts (C14), and no postfix above the bound directly after the stem (refuted). The text of the articles is in C79, C91 and C92.'),
'C41': ('partial', 'Proved for verbs and continued tables under the conditions of C80 (C41_headword_continued_partial); refuted for continued elements and for plural-only words with alternation.'),
'C32': ('partial', 'Proved for all index trees, words and collectors, provided there is memory to read before the word or no longer ending continues the whole word: otherwise the code reads before its array (refuted, end to end). The tree structure of mtc::patricia is taken as a specification (mtc is not in the repository).'),
'C33': ('partial', 'Proved when the uninitialised array happens to hold a terminator, forms have at most 63 characters and inflexions are listed by form; each condition is shown necessary by a refutation.'),
'C42': ('proved', 'For the arrays described by guesser (endings of 2 to 16 characters, known forms), words up to eight parts (C14) and, if normal forms are wanted, an array that held a terminator (C33). What the compiler accepts beyond that is refuted (out-of-bounds reads). The floating-point weight is an arbitrary function of its five inputs.'),
'C43': ('proved', 'mtc::patricia is taken as a map; JSON parsing is not modelled.'),
'C44': ('proved', 'Inflexions listed by form, words of at most 49 characters, array holding a terminator (see C33).'),
'C45': ('proved', ''),
"C34": ("proved", "For tables the compiler produces: sorted by ending, at most 64 forms with one ending; both conditions shown necessary by refutations."),
"C46": ("partial", "Sound for every dictionary and word of at most eight parts; complete except when a postfix above the record bound takes the whole rest of the word (refuted); from 17 parts on behaviour is undefined (C14)."),
"C47": ("partial", "Lexeme ids below 2^24 (finding of C02, hypothesis eindexed). A fixed word with a postfix loses the postfix (refuted)."),
"C48": ("proved", "Words of at most eight parts (C14); fixed words have no postfix (C47); readings with a postfix above the bound directly after the stem may be missed (C46), the rest are listed exactly."),
"C49": ("partial", "Proved for dictionaries meeting erecognisable and spellings that are casable or checked with capitals ignored; refuted for possessives of abbreviations."),
"C50": ("partial", "Proved for safe calls (esafe_call) and words of at most eight parts (C14). Outside: the lexeme filling the array with several readings is undefined behaviour, and a lexeme without forms of ids below 16 is skipped silently; both refuted on concrete dictionaries."),
"C35": ("partial", "Exact for keys carrying the magic and for LoadCpAPI by name. Refuted: a wrong magic leaves the result pointer uncleared; a key shorter than the magic (the samples pass utf-8) is read beyond its end; the guesser LoadCpAPI returns the wide instance as a narrow one; the English library accepts any name."),
"C51": ("partial", "Exact for sources whose compiled arrays fit the 16-bit references (the compiler does not check, hypothesis earrays_fit), whose postfixes are in small letters, with at most 64 equal endings in an article, and unless a postfix is met directly behind the stem while all endings begin lower (C46); the last three conditions are shown necessary. Words of at most eight parts (C14). Codepage conversion of the files (mtc) is taken as the identity, on ASCII."),
"C52": ("partial", "Lexeme ids below 2^24 (C02) that one article only has; a fixed word has no postfix (C47). Built forms are proved recognised for words of letters, hyphens, apostrophes and commas in casable spellings (C49)."),
"C53": ("partial", "Proved for lines shorter than 256 characters without words of 64 characters and without a postfix clause; refuted otherwise: a postfix longer than the word, a tag of 64 characters and a line of 256 overrun arrays, and a postfix that does not end the word replaces its end."),
"C54": ("partial", "Exact up to repetition for dictionaries with a byte behind the tree or a record for the empty stem, non-zero lexeme ids, at most 256 forms of a lexeme, forms of at most 47 characters and no fixed words with a postfix, except forms with a postfix directly after the stem outside the record bounds; every condition is shown necessary. A lexeme can be delivered in several calls with the same match (refuted). Also proved end to end on compiled source files."),
"C55": ("proved", "Under the conditions of the interface calls (C09, C23, C24, C33, C45, C47, C48). Strings that do not fit the local array are an empty vector, indistinguishable from no forms: the wish that every form be returned is refuted."),
"C56": ("partial", "Under the conditions of the interface calls: words of at most eight parts (C14), dictionary forms exist and the 32nd lexeme has one reading (C21, C50); the guesser needs an array that held a terminator (C33). The word-back theorem is for words of letters and hyphens of at most 49 characters."),
"C57": ("partial", "The balance is proved for every sequence; freedom from use after free for programs that never assign a handle to itself: self-assignment of the last handle detaches before it attaches (refuted)."),
"C58": ("partial", "Equal to the windows-1251 instance for every text of at most 16 parts (C14: more is undefined behaviour); exact as C19, with its conditions. The converters of moonycode are parameters: a decoding function, and whether room for a terminator is demanded."),
"C59": ("partial", "Exact for converters that write every text without loss, NUL as a zero byte and nothing else with zero bytes (UTF-8 is shown to be one); words of at most eight parts (C14). Built forms are proved recognised under the conditions of C25."),
"C60": ("partial", "For safe calls (C21) and words of at most eight parts (C14); the same converters."),
"C61": ("partial", "Under the conditions of C26 and for patterns shorter than 48 bytes in the code page: the length is checked before the conversion, so 24 Cyrillic letters in UTF-8 are refused (refuted). A match whose conversion fails is undefined behaviour; the theorem says exactly when."),
"C62": ("partial", "Equal to the narrow interface for every text of at most 16 parts (C14); exact as C19 and C46, with their conditions. The converters of moonycode are parameters: one byte per wide character, lossless, and whether room for a terminator is demanded."),
"C63": ("partial", "BuildForm exact; two characters more than needed are demanded and never more than 96 characters are delivered, whatever the buffer (both stated in wide_fit). FindForms is exact when the converter accepts the word; refuted for counted words if the converter wants room for a terminator. Built forms recognised under the conditions of C25."),
"C64": ("partial", "For safe calls (C21, C50) and words of at most eight parts (C14); at most 32 lexemes and 240 characters of normal forms fit, whatever the caller's arrays."),
"C65": ("partial", "Under the conditions of C26 and C54; defined exactly when the narrow search is."),
"C66": ("partial", "BuildForm, GetWdInfo and unknown ids exact for sources within the limits of the formats (lexeme_buildable); built forms recognised under the conditions of C25 in terms of the sources."),
"C67": ("partial", "Sound always; complete when the letter bounds cover the endings (C30) and no postfix starts above them (C11); safe calls (C21) and words of at most eight parts (C14)."),
"C68": ("partial", "Conditions of C26 and C27 in terms of the sources: strings of at most 47 bytes, ids not 0, fixed words without postfix, a byte behind the tree of stems or a lexeme with empty stem; postfixes directly after the stem may be missed."),
"C69": ("partial", "Exact for forms of at most 63 (Russian) or 64 (English) characters and inflexions listed by form; in Russian the uninitialised local array must end in a terminator or hyphen, as for C33 (refuted there). The converters of moonycode are parameters."),
"C70": ("proved", "For words of at most eight parts in which the scan stays inside the word (readable, as C32); in Russian with normal forms under C33's condition on the uninitialised array. The length of the stem in UTF-8 is refuted to be in one unit: bytes if normal forms are asked for, characters otherwise."),
"C71": ("partial", "For converters that ask for room for a terminator; refuted for those that do not: a sample that fills the array makes the next one be written beyond it."),
"C72": ("proved", "For code pages counted as the program counts them (UTF-8 proved to be); words of at most 49 characters, inflexions listed by form."),
"C73": ("proved", "Patricia trees as in C43."),
"C74": ("partial", "Conditions of C69. One character more than needed is demanded and never more than 95 are delivered, whatever the buffer (stated in guess_fit). A terminated stem of 64 characters is read beyond the local array if the converter needs no room for a terminator (refuted)."),
"C75": ("proved", "Conditions of C70; at most 32 stems and 240 characters of normal forms fit, whatever the caller's arrays (wide_room)."),
"C76": ("proved", "Samples without NUL; at most 1024 characters are delivered (wide_samples)."),
"C77": ("proved", "Fields within the compiler's arrays (256, 32, 32, 32), notes without colon or brace, at most one hyphen in a postfix; beyond that refuted (long fields undefined, postfix not compared with the word, a postfix with two hyphens read as a remark). Table references are 16-bit numbers above 0 (tables_ok)."),
"C78": ("proved", "Lines of at most 1022 characters; longer lines are refuted to be read as one. The conversion of the codepage is a parameter, character by character."),
"C79": ("partial", "Conditions of C40: postfixes not above the letter bounds, at most eight parts; valid tables and articles (tables_valid, rarticle_valid)."),
"C80": ("proved", "For tables with less than 128 elements of less than 16 letters (tidy_links), continuations whose element is there too (continued_whole, needed: C41_continued_refuted) and existing alternations."),
"C81": ("partial", "Conditions of C79 and C80; plural-only words must not alternate (refuted in C41); reflexive elements of verbs end the word (reflexive_last)."),
"C82": ("proved", "Endings below 128 bytes, at most 255 different elements per table (C86), at most 128 KB. How the mtc library writes the index of names is not modelled."),
"C83": ("proved", "Lines of at most 4095 characters (readable); the conversion of the code page is a parameter that keeps white space."),
"C84": ("proved", ""),
"C85": ("partial", "False of the code: std::map::emplace keeps the first definition silently (refuted by a text of two tables); proved that the first definition always stays in force."),
"C86": ("partial", "False of the code: the count is cut to a byte; a table of 256 elements compiles to an empty one (refuted)."),
"C87": ("partial", "Effect of all token lists and refusal of unknown tokens proved in both directions; tokens with a space in their names cannot be used in an element: the rest is taken for a link (refuted)."),
"C88": ("proved", "Strings below 16 bytes, at most four of them in a line, at most 64 KB (C90); names of definitions equal or disjoint (otherwise C89). How the mtc library writes the index of names is not modelled."),
"C89": ("proved", "Lines of at most 4095 characters (readable); the conversion of the code page is a parameter that keeps white space; the meaning of the result for texts within the format (C90)."),
"C90": ("partial", "False of the code: a definition 'A, C' after one of 'A' gives C the alternations of the first (refuted), while names of two earlier definitions are refused; a string of 16 bytes is stored with length 0 (refuted). Offsets beyond 64 KB wrap as well; not shown by a concrete text."),
"C91": ("proved", "Meaning of the texts as in C82 and C88; conditions in texts_valid (format, links defined, sizes, alphabets, letters of alternations)."),
"C92": ("partial", "End to end from the three texts. Words below 48 letters (C14: at most eight parts); postfixes that do not start above the changing parts (refuted otherwise, C11); texts that satisfy dictionary_valid, which includes that the search for the stem meets no ending split over continued tables (search_told); arrays within the offsets (arrays_fit)."),
"C93": ("partial", "Conditions of C92; no stem mark and no colon in the index; plural-only words must not alternate (refuted in C41); reflexive elements of verbs end the word (reflexive_end)."),
"C94": ("partial", "Exact for all names (a name ends at its first NUL). 'A narrow class has a narrow dictionary' is false: mlmaruMb('utf-16') holds the wide one (refuted); English constructors accept any name."),
"C95": ("partial", "All code pages and the wide classes, both languages; words of at most eight parts (C14), conditions of C21 and C22 on the dictionary. 'An empty list means an unknown word' is false: 33 lexemes (refuted)."),
"C96": ("partial", "build_form and part_of_sp exact; check_word under the conditions of C19, C46, C58, C62."),
"C97": ("partial", "Narrow classes. Exact sequence of calls and returned value for every callback that reads its matches during the call, under the conditions of C26, C54 and C61. False of the code (refuted): a non-zero result does not stop the search; exceptions are lost; a function without result is called once; kept matches change their text."),
"C98": ("partial", "Proved for UTF-8; false for the other code pages: UnicodeDecodeError (refuted for every Cyrillic word in windows-1251)."),
"C99": ("partial", "All code pages and wide, both languages, under the conditions of C71, C74 and C75; the order of equal weights is any the sort gives."),
"C100": ("partial", "For texts that satisfy dictionary_valid. Missing: two articles with one number, articles that tell of two words (a//b) in BuildForm, stems over 48 letters, numbers of 2^24 and more."),
"C101": ("partial", "As C92; Lemmatize as read off the arrays when each word has a dictionary form and the array is longer than the number of lexemes. Missing: words of 48 letters and more or more than eight parts."),
"C102": ("partial", "Soundness and completeness of the matches delivered. Missing: see C26, C27 (buffers, repeated delivery)."),
"C103": ("partial", "Objects of 1 to 2^32 bytes. False of the code (refuted): the empty object gives an initialiser without values, and behind 2^32 bytes a comma is missing."),
"C104": ("proved", "All command lines of makerus and makeeng; the file system is any function from names to contents. Strings hold no byte 0."),
"C105": ("partial", "For runs whose output files can be created and whose arrays have 1 to 2^32 bytes. Missing: output names that coincide with inputs or with each other, the index files of mtc (the loaders are parameters)."),
"C106": ("partial", "As C105. A failing run ends by an exception that is never caught (abort), not by an error code."),
"C107": ("partial", "mtc::json and mtc::patricia are parameters. False of the code (refuted): an empty output name and the help without a slash in argv[0] are undefined behaviour."),
"C108": ("partial", "Positive result for dictionaries whose least id is a multiple of 32. False of the code (refuted): with any other least id it prints that there are no lexemes; a hole behind the greatest id is printed if the greatest two ids are neighbours; a last line that ends in LID: is read beyond its end. Ids below 2^32-2. Ids of comments are counted as well."),
"C109": ("partial", "Whenever it ends the report is an edit script and empty exactly for equal lists; it ends on lists ascending in a key (dumps do). False of the code (refuted): two lines in different order make it loop for ever; with more than 1024 new lines a common line is reported. Exact difference for at most 1024 different lines. When one list ends first, empty lines are reported besides."),
"C110": ("proved", "For every interface that answers (answers), and for the dictionaries of C23 whose lexemes have one record each; forms of one number that do not fit 256 bytes together count as none (BuildForm refuses them). The legacy program includes a header that is not in the repository; BuildForm and GetWdInfo are those of libmorphrus."),
"C111": ("partial", "The dump of the same dictionary gives an empty report, and any ascending file is checked to the end with an edit script. False of the code (refuted): different forms may have one dump (abc, abcd and abc, abd), and only the first of several forms of one number is dumped."),
"C112": ("partial", "Positive result for normal forms that need no escapes (letters, hyphen and apostrophe do not, C112_ordinary_words) and dictionaries that meet the conditions of C21/C22 for 16 lexemes. False of the code (refuted): a known word of 17 lexemes prints an empty list; a quote in a normal form is not escaped."),
"C113": ("proved", "Loader and lookup of symbols are parameters. Two surprises are stated as theorems: lemmatize reports a wrong code page for every guesser (its key differs), and utf-16 makes it call the narrow interface of the wide object."),
"C114": ("partial", "Proved for all lines of both languages. False of the code (refuted): a capital A at the front of a word is taken off (0xC0 is skipped), so Anna and Alla are not counted; a word across the end of the 16383-byte buffer is cut in two."),
"C115": ("partial", "Exact over rational numbers: rounding of double is not modelled, nor the printed table. The answers of the dictionaries under the conditions of C21 (words of at most 47 characters and 8 parts; the 32nd lexeme has one reading). False of the code (refuted): the parts of speech 38-46 keep their flags, so one may have several rows."),
"C116": ("partial", "Weights are opaque: what \"%.4f\" prints for them has to be a number with a point (the logarithm of a power of 0 gives -inf, which is no JSON), and the normal forms need no escapes. False of the code (refuted): an empty list also comes out for a word of 65 letters that has guesses, as the normal form is too long."),
"C117": ("partial", "The exactness of FindMatch for patterns of letters and question marks is a hypothesis of C117_letters_game; C117_over_wide_search discharges it for the wide interface over Russian dictionaries, as far as the search is defined (C65; that it is for every such pattern remains a hypothesis); words of other lengths are not compared. False of the code (refuted): with the program's own constants its word does not fit its pattern and is not guessed; letters ruled out at first are forgotten after a guess; a noun with the letter yo is shifted by 33 bits, undefined."),
"C118": ("partial", "CheckHelp is not in the current api.h (only in legacy lang-ukr), so the file does not compile as it stands; what it hands over is a parameter. Exactness of FindMatch (shown for the wide interface by C118_search_exact where the search is defined) and completeness of CheckHelp (no next letter of a word missed, at most 64 characters) are hypotheses here; the quotient of doubles in SelectChar is exact. False of the code (refuted): a next letter yo is looked up past the end of the table of ranks."),
"C119": ("partial", "Lines of at most 254 bytes without a byte 0; the search is a parameter that answers each pattern asked for, with at least one match for each lexeme (C26, C65). False of the code (refuted): a longer line is asked for in pieces; only the first match of a lexeme is shown."),
}
