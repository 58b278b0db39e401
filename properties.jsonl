{"id": "C01", "title": "Dictionary integers read back as written", "statement": "Every unsigned 32-bit number the dictionary compiler stores in a compiled table is read back by the analyser as the same number, and the reader stops exactly at the first byte after it; likewise for 16-bit little-endian words.", "quantifier": "all numbers below 2^32 (resp. 2^16) and all bytes following them", "why_tests_cant": "2^32 values times arbitrary following bytes; the failure mode is a wrong shift or mask at one width.", "anchors": ["xmorph/typedefs.h:getserial", "xmorph/typedefs.h:getword16", "tools/wordtree.h:Serialize"]}
{"id": "C02", "title": "Lexeme ids have unambiguous keys, and the compiler and the analyser agree on them", "statement": "Two different lexeme identifiers never share a lookup key, and the key under which the dictionary compiler files a lexeme is the key the analyser later computes from the identifier.", "quantifier": "all pairs of 32-bit lexeme identifiers", "why_tests_cant": "The space is 2^64 pairs; the shipped dictionaries only use small ids so tests never meet the wide case.", "anchors": ["xmorph/typedefs.h:lexkeylen", "tools/buildmorph.h:lexkeybuf"]}
{"id": "C03", "title": "The dictionary tree under construction is a finite map", "statement": "After any sequence of insertions the tree holds for every inserted key exactly what was stored under that key and nothing for other keys, with siblings kept in strictly descending byte order, regardless of insertion order.", "quantifier": "all finite sequences of (key, update) insertions over arbitrary byte strings", "why_tests_cant": "Unbounded histories of insertions; only a few orders can be tried.", "anchors": ["tools/wordtree.h:wordtree::Insert", "tools/buildmorph.h:DictReader"]}
{"id": "C04", "title": "Tree search finds what was inserted", "statement": "Looking a key up in the dictionary tree under construction returns the element inserted under it and null for keys never inserted.", "quantifier": "all trees and keys", "why_tests_cant": "Requires the lookup be right for every tree shape; the function has no caller, so no test exercises it.", "anchors": ["tools/wordtree.h:wordtree::Search"]}
{"id": "C05", "title": "Announced length equals written length", "statement": "For every tree the length computed before dumping is exactly the number of bytes dumped, for the whole tree and for every nested subtree, so skipping a subtree by its stored length lands exactly on the next sibling.", "quantifier": "all trees, both counter widths, any payload type with a correct length function", "why_tests_cant": "One wrong subtree length corrupts every later sibling; tests only see the one shipped tree.", "anchors": ["tools/wordtree.h:GetBufLen", "tools/wordtree.h:Serialize"]}
{"id": "C06", "title": "Scanning a compiled tree visits exactly the stored prefixes of the word, longest first", "statement": "Given a compiled tree and a word, the scanner calls its handler exactly once for each stored key that is a prefix of the word, longest first, each time with that key's data and the rest of the word; it stops at the first non-zero answer and returns it, and never reads outside the compiled tree.", "quantifier": "all well-formed trees, all words, all handlers", "why_tests_cant": "Universally quantified over trees and words, including pathological shapes (keys that are prefixes of each other, missing data nodes).", "anchors": ["xmorph/scandict.h:Flat::ScanTree", "xmorph/scandict.h:scan_stack::findchar", "tools/wordtree.h:Serialize"]}
{"id": "C07", "title": "Lookup by lexeme id returns that lexeme's record", "statement": "Looking up an id in the compiled id index returns the offset that was stored for this very id, returns nothing for ids not in the index, and does not depend on the uninitialised bytes that follow the key in the key buffer.", "quantifier": "all indexes, all ids below 2^24, all contents of the key buffer after the key", "why_tests_cant": "The scanner really reads past the key when the key is a prefix of others ending in zero bytes; only a proof shows that the garbage cannot influence the result.", "anchors": ["lang-rus/libdict/mlmamain.cpp:GetWdInfo", "lang-rus/libdict/mlmamain.cpp:BuildForm", "xmorph/scandict.h:Flat::ScanTree"]}
{"id": "C08", "title": "Recovering a stem from its position in the dictionary", "statement": "Walking the compiled tree towards a byte offset delivers the complete stem string leading to the stem list that contains this offset, and delivers no other stem's record.", "quantifier": "all compiled stem trees and all offsets of stem records in them", "why_tests_cant": "Depends on every ancestor's stored subtree length; a boundary off by one only shows for neighbours at particular offsets.", "anchors": ["xmorph/scandict.h:Flat::GetTrack", "xmorph/scandict.h:Flat::SelectView", "tools/wordtree.h:Enumerate"]}
{"id": "C09", "title": "GetWdInfo reports the word's own class", "statement": "For every lexeme id in a compiled dictionary GetWdInfo returns 1 and the part-of-speech byte of that lexeme's class; for every other id it returns 0 and stores nothing.", "quantifier": "all dictionaries, all lexeme ids below 2^24", "why_tests_cant": "All dictionaries and all ids; involves three compiled tables agreeing with one another.", "anchors": ["lang-rus/libdict/mlmamain.cpp:GetWdInfo", "tools/buildmorph.h:CreateDict"]}
{"id": "C10", "title": "Every reported stem really fits the word", "statement": "Whenever the stem-list scanner hands a stem to the analyser, the rest of the word is the reported inflexion followed by the stem's postfix, and the reported id, class and postfix are those of a stored stem.", "quantifier": "all stem lists and all word rests", "why_tests_cant": "Soundness over all stored lists and inputs.", "anchors": ["xmorph/scandict.h:Flat::LookupList"]}
{"id": "C11", "title": "No fitting stem is skipped by the first-letter bounds", "statement": "Every stored stem whose postfix ends the word and whose first-letter bounds admit the inflexion is handed to the analyser.", "quantifier": "all lists sorted the way the compiler sorts them, all word rests", "why_tests_cant": "The scanner stops early at the first stem whose upper bound is too small; whether this is safe depends on the order of the whole list and interacts with postfixes.", "anchors": ["xmorph/scandict.h:Flat::LookupList", "lang-rus/libdict/tools/buildic/makerus.cpp:entry_type"]}
{"id": "C12", "title": "Canonicalisation is exact and bounded", "statement": "Bringing a word to canonical form yields exactly the per-letter lower-case image of the word with its length unchanged, reports an error exactly when the word does not fit the fixed buffer with its terminator, and never writes outside that buffer.", "quantifier": "all byte strings, all buffer sizes", "why_tests_cant": "All strings and lengths, including the exact-fit boundary.", "anchors": ["xmorph/capsheme.cpp:CapScheme::Get"]}
{"id": "C13", "title": "Capitalisation class of a word", "statement": "A word without delimiters is classified lower-case, capitalised or all-capitals exactly when its letters are, a mixed-case or foreign-character word is classified invalid; a word of two or three hyphenated parts is classified by its parts.", "quantifier": "all strings up to three parts of any length", "why_tests_cant": "All strings; the automaton has states whose misclassification only shows on particular letter sequences.", "anchors": ["xmorph/capsheme.cpp:capStateMatrix", "xmorph/capsheme.cpp:CapScheme::Get"]}
{"id": "C14", "title": "Words of many parts do not corrupt the result", "statement": "For every word accepted by the length check the reported length is the word's length and the behaviour is defined, no matter how many delimiters it contains.", "quantifier": "all strings shorter than the buffer", "why_tests_cant": "Needs words with five to fifty delimiters, which no natural test corpus has.", "anchors": ["xmorph/capsheme.cpp:CapScheme::Get"]}
{"id": "C15", "title": "Acceptable capitalisation is monotone", "statement": "If a word with a given capitalisation is acceptable for a lexeme requiring more capitals, it is acceptable for any lexeme requiring fewer; and the all-capitals spelling of a one- to three-part word is always acceptable.", "quantifier": "all scheme values and all requirement levels", "why_tests_cant": "Exhaustive over 2^16 schemes and all words.", "anchors": ["xmorph/capsheme.h:IsGoodSheme"]}
{"id": "C16", "title": "Restored capitalisation is acceptable and changes only case", "statement": "Putting a lower-case word into the capitalisation its lexeme requires changes only the case of letters, keeps the length, canonicalises back to the same word, and yields a word acceptable for that lexeme.", "quantifier": "all canonical words of one to three parts, all requirement levels", "why_tests_cant": "All words; the property links two independently written tables and an automaton.", "anchors": ["xmorph/capsheme.cpp:CapScheme::Set", "xmorph/capsheme.cpp:CapScheme::Get", "lang-rus/chartype.cpp"]}
{"id": "C17", "title": "Ignoring capitals makes the analysis case-blind", "statement": "With sfIgnoreCapitals two spellings of a word with the same letters in different case give identical CheckWord and Lemmatize results.", "quantifier": "all dictionaries, all pairs of words equal up to letter case", "why_tests_cant": "Relational property over pairs of words and all dictionaries.", "anchors": ["lang-rus/libdict/mlmamain.cpp:CheckWord", "lang-rus/libdict/mlmamain.cpp:Lemmatize", "lang-rus/libdict/scanClass.hpp:MatchClass"]}
{"id": "C18", "title": "Form identifiers and grammatical descriptions correspond", "statement": "For every part of speech, converting a proper form identifier to its grammatical description and back gives the identifier again, and different proper identifiers have different descriptions.", "quantifier": "all 64 word types and all form identifiers", "why_tests_cant": "A table-driven bijection over every type and identifier.", "anchors": ["lang-rus/libdict/grammap.h:GetGramInfo", "lang-rus/libdict/grammap.h:MapWordInfo"]}
{"id": "C19", "title": "CheckWord accepts exactly the words of the dictionary", "statement": "CheckWord answers 1 exactly when the word can be split into a dictionary stem, one of its alternations, an inflexion of its class admitted at that alternation, and its postfix, with acceptable capitalisation; otherwise 0.", "quantifier": "all compiled dictionaries and all words that fit the buffer", "why_tests_cant": "Equivalence between a pruned search over three compiled tables and the mathematical definition of the language.", "anchors": ["lang-rus/libdict/mlmamain.cpp:CheckWord", "lang-rus/libdict/scanClass.hpp:MatchClass", "xmorph/scandict.h:Flat::ScanTree"]}
{"id": "C20", "title": "CheckWord and Lemmatize agree", "statement": "With no output buffers Lemmatize returns a positive number exactly when CheckWord returns 1, and the number of lexemes is the number of matches found.", "quantifier": "all dictionaries, words and settings", "why_tests_cant": "Relational, over all dictionaries.", "anchors": ["lang-rus/libdict/mlmamain.cpp:Lemmatize", "lang-rus/libdict/mlmamain.cpp:CheckWord"]}
{"id": "C21", "title": "Lemmatize stays inside its buffers", "statement": "Lemmatize never writes outside the lexeme, string and grammar buffers it is given, whatever their sizes, and reports a failure code when one is too small.", "quantifier": "all dictionaries, words, and buffer sizes", "why_tests_cant": "All buffer sizes against all result shapes, including merged homonyms at exact-fit boundaries.", "anchors": ["lang-rus/libdict/lemmatize.cpp:Lemmatizer::operator()"]}
{"id": "C22", "title": "Lemmatize results are well formed", "statement": "Every lexeme returned points at a terminated string and a grammar slice inside the given buffers; slices of different lexemes do not overlap and the number returned is the number of filled entries.", "quantifier": "all dictionaries, words, and buffer sizes", "why_tests_cant": "Structural invariant over all histories of matches.", "anchors": ["lang-rus/libdict/lemmatize.cpp:Lemmatizer::operator()"]}
{"id": "C23", "title": "BuildForm produces exactly the paradigm's forms", "statement": "BuildForm returns, in dictionary order, exactly the strings made of the stem, the alternation selected for the requested form, an inflexion listed for that form, and the postfix, in the lexeme's capitalisation; their number is returned; their strings beyond 256 bytes in total, or too small a buffer, yield a failure code and no overrun.", "quantifier": "all dictionaries, lexeme ids, form ids and buffer sizes", "why_tests_cant": "All paradigms and all buffer sizes.", "anchors": ["lang-rus/libdict/mlmamain.cpp:BuildForm", "lang-rus/libdict/buildform.cpp:FormBuild", "xmorph/buildforms.cpp:GetFlexForms"]}
{"id": "C24", "title": "FindForms produces the forms of every analysis of the word", "statement": "FindForms concatenates, over the analyses of the word in search order, the forms each matched lexeme has for the requested identifier, with the same failures as BuildForm.", "quantifier": "all dictionaries, words, form ids and buffer sizes", "why_tests_cant": "All dictionaries and words.", "anchors": ["lang-rus/libdict/mlmamain.cpp:FindForms", "lang-rus/libdict/buildform.cpp:FormBuild"]}
{"id": "C25", "title": "A built form is recognised", "statement": "Every string BuildForm produces for a lexeme is accepted by CheckWord.", "quantifier": "all dictionaries whose first-letter bounds are sound, all lexemes and form ids", "why_tests_cant": "Synthesis and analysis are separate code paths over the same tables.", "anchors": ["lang-rus/libdict/buildform.cpp:GetWordForms", "lang-rus/libdict/scanClass.hpp:MatchClass"]}
{"id": "C26", "title": "Wildcards have glob meaning", "statement": "'?' matches exactly one letter and '*' any possibly empty sequence: the matcher reports a string for a stem, alternation, inflexion and postfix exactly when their concatenation matches the pattern.", "quantifier": "all patterns, trees and inflexion tables", "why_tests_cant": "Backtracking search over three nested structures; infinitely many patterns.", "anchors": ["xmorph/wildscan.h:Wild::ScanTree", "lang-rus/libdict/wildClass.hpp:FlexSearch", "lang-rus/libdict/wildClass.hpp:SwapSearch", "lang-rus/libdict/wildClass.hpp:ScanSuffix"]}
{"id": "C27", "title": "FindMatch reports every match once and stays inside its buffers", "statement": "FindMatch reports each matching form of a lexeme once and does not overrun its internal match arrays.", "quantifier": "all patterns and dictionaries", "why_tests_cant": "The arrays are sized for the number of forms, while the search can report a form several times for patterns with asterisks.", "anchors": ["lang-rus/libdict/mlmamain.cpp:FindMatch"]}
{"id": "C28", "title": "The class table stores each class once and retrievably", "statement": "Adding a class description returns an offset at which the description can be read back, equal descriptions get equal offsets, and offsets already returned stay valid as the table grows.", "quantifier": "all sequences of additions", "why_tests_cant": "Invariant over all histories.", "anchors": ["tools/classtable.h:AddClass"]}
{"id": "C29", "title": "Class descriptions round-trip", "statement": "The word-class description written by the compiler is read by the analyser as the same type, inflexion table and alternation table.", "quantifier": "all class descriptions the compiler can produce", "why_tests_cant": "All combinations of flags and table offsets.", "anchors": ["lang-rus/libdict/tools/buildic/lresolve.h:morphclass", "lang-rus/libdict/mlmadefs.h:steminfo::Load"]}
{"id": "C30", "title": "First-letter bounds computed by the compiler are sound", "statement": "For every class, the minimum and maximum first letters the compiler stores for a stem bound the first letter of every alternation-plus-inflexion the stem can take.", "quantifier": "all inflexion tables and alternation tables", "why_tests_cant": "All tables, including empty inflexions and empty alternations.", "anchors": ["tools/ftables.h:GetMinMaxChar", "lang-rus/libdict/tools/buildic/mtables.cpp:GetMinMaxChar"]}
{"id": "C31", "title": "Output never exceeds the caller's buffer", "statement": "Appending strings to an output buffer in the dictionary's own codepage succeeds exactly when the string and its terminator fit, leaves the buffer terminated, and never writes outside it.", "quantifier": "all buffers and append sequences", "why_tests_cant": "All sequences of appends at all fill levels.", "anchors": ["xmorph/codepages.hpp:MbcsCoder::append", "xmorph/codepages.hpp:ToCodepage", "xmorph/buildforms.hpp:Collector"]}
{"id": "C32", "title": "Suffix prediction finds every known ending of an unknown word", "statement": "Scanning the reversed-suffix index with an unknown word visits exactly the stored endings that the word ends with.", "quantifier": "all patricia indexes and all words", "why_tests_cant": "Compressed-edge tree; partial edge matches at every split point.", "anchors": ["lang-rus/libprob/scandict.hpp:ScanTree", "lang-rus/libprob/scandict.hpp:JumpOver"]}
{"id": "C33", "title": "Predicted paradigms build all variants of a form", "statement": "For a class of the guesser, building a form returns every inflexion listed for the form id, in order, each appended to the given stem, and reports overflow without overrun.", "quantifier": "all class tables, stems, form ids and buffer sizes", "why_tests_cant": "All tables and buffer sizes.", "anchors": ["lang-rus/libprob/buildforms.hpp:Buildform"]}
{"id": "C34", "title": "English inflexion lookup is exact", "statement": "For the English analyser the inflexion table scan accepts exactly the inflexions listed in the (sorted) table with a grammatical description passing the filter.", "quantifier": "all sorted tables and all inflexions", "why_tests_cant": "Early exit on sorted order; all tables.", "anchors": ["lang-eng/libdict/scanClass.hpp:ScanTables"]}
{"id": "C35", "title": "API selection by key", "statement": "Requesting an interface by key gives the documented instance for each listed codepage name in any letter case and fails with EINVAL, clearing the result, for any other key.", "quantifier": "all key strings", "why_tests_cant": "All strings and letter cases.", "anchors": ["lang-rus/libdict/mlmamain.cpp:mlmaruGetAPI", "lang-rus/libdict/mlmamain.cpp:mlmaruLoadCpAPI"]}
{"id": "C36", "title": "Character classes are consistent with case tables", "statement": "Every capital letter has a lower-case image that is a regular letter, lower-casing is idempotent and leaves delimiters unchanged, and upper-casing a dictionary letter gives a capital whose lower-case image is that letter.", "quantifier": "all 256 byte values of each language's tables", "why_tests_cant": "Exhaustive over three tables of 256 entries.", "anchors": ["lang-rus/chartype.cpp", "lang-eng/chartype.cpp"]}
{"id": "C37", "title": "Sorted stem lists", "statement": "However the dictionary source is ordered, the compiler keeps each stem list sorted by its comparison, and loses and invents no record.", "quantifier": "all sequences of records", "why_tests_cant": "All histories of insertions.", "anchors": ["tools/buildmorph.h:DictReader", "lang-rus/libdict/tools/buildic/makerus.cpp:entry_type"]}
{"id": "C38", "title": "Inflexion trees answer exactly the table", "statement": "Looking an inflexion up in a compiled inflexion tree returns exactly the grammatical descriptions of that inflexion that pass the filter, in stored order, and 0 for an inflexion not in the table.", "quantifier": "all inflexion tables, inflexions and filters", "why_tests_cant": "All tables, including inflexions that are prefixes of one another.", "anchors": ["lang-rus/libdict/scanClass.hpp:ScanTables", "lang-rus/libdict/scanClass.hpp:Grammar::list", "tools/plaintable.h:CreateTree"]}
{"id": "C39", "title": "Normal forms and descriptions of Lemmatize are exact", "statement": "Lemmatize stores, for every lexeme found and in the order found, the lexeme id, the least dictionary form (infinitive, nominative singular, full masculine adjective; the plural for plural-only words) in the lexeme's capitalisation, and the grammatical descriptions of the inflexion matched; each array too small yields its failure code.", "quantifier": "all dictionaries, words, settings and combinations of null and given buffers of any size", "why_tests_cant": "All dictionaries, words, and buffer sizes; merging of readings depends on history.", "anchors": ["lang-rus/libdict/lemmatize.cpp:Lemmatizer::operator()", "lang-rus/libdict/buildform.cpp:GetDictForms", "lang-rus/libdict/mlmadefs.h:FindDictForm"]}
{"id": "C40", "title": "A compiled dictionary recognises exactly its sources", "statement": "After the dictionary articles are compiled, the analyser's spelling check accepts exactly the words that the articles' stems, alternations, endings and postfixes spell, in the capitalisation their type asks for.", "quantifier": "all sets of articles and tables the formats can hold, all words", "why_tests_cant": "Composition of the whole compiler and the whole analyser, over all dictionaries and words.", "anchors": ["lang-rus/libdict/tools/buildic/makerus.cpp:ResolveRus", "tools/buildmorph.h:buildmorph", "tools/plaintable.h:CreatePlainTable", "lang-rus/libdict/mlmamain.cpp:CheckWord"]}
{"id": "C41", "title": "The headword of an article is one of its forms", "statement": "When the compiler accepts an article, the headword spelled in it is a form of the lexeme it stores.", "quantifier": "all articles and tables", "why_tests_cant": "All endings, continuations, alternations and postfixes.", "anchors": ["lang-rus/libdict/tools/buildic/lresolve.cpp:ResolveClassInfo", "tools/ftables.h:StripStr", "lang-rus/libdict/tools/buildic/mtables.cpp:Find"]}
{"id": "C42", "title": "Guesses for an unknown word are reported exactly", "statement": "Lemmatize of the guesser reports the acceptable guesses grouped by stem and class: their number, the stems in order of decreasing weight, each with its normal form and the descriptions of its readings; if an array is too small it returns a negative code and does not touch the array of stems.", "quantifier": "all guesser arrays, words, settings, capitalisations and combinations of null and given buffers of any size", "why_tests_cant": "All indexes, words and buffer sizes; grouping depends on the history of the scan.", "anchors": ["lang-rus/libprob/lemmatizer.hpp:Lemmatizer::operator()", "lang-rus/libprob/mlfamain.cpp:Lemmatize"]}
{"id": "C43", "title": "The guesser guesses exactly the classes a word looks like", "statement": "After compilation of class descriptions, a word is guessed to belong to a class in a form exactly if it ends with the suffix of one of the class's models followed by an inflexion of that form.", "quantifier": "all sets of class descriptions and all words", "why_tests_cant": "Composition of the index compiler and the scanner, over all sources and words.", "anchors": ["lang-rus/libprob/tools/compile-dict.cpp", "lang-rus/libprob/scandict.hpp:ScanTree"]}
{"id": "C44", "title": "A guess gives the word back", "statement": "For every stem, class and form that Lemmatize of the guesser reports for a word, BuildForm of that stem, class and form returns a list that contains the word itself.", "quantifier": "all class descriptions and all words", "why_tests_cant": "Relates two API functions over all sources and words.", "anchors": ["lang-rus/libprob/mlfamain.cpp:BuildForm", "lang-rus/libprob/mlfamain.cpp:Lemmatize", "lang-rus/libprob/buildforms.hpp:Buildform"]}
{"id": "C45", "title": "Samples of a class", "statement": "GetModels writes as many sample words of a class as fit the array, in order, each terminated, leaves the rest of the array alone and returns their number, -1 if not even the first fits, and the argument error for an unknown class; GetWdInfo gives the class's part of speech.", "quantifier": "all class tables, class numbers and buffer sizes", "why_tests_cant": "All tables and buffer sizes.", "anchors": ["lang-rus/libprob/mlfamain.cpp:GetModels", "lang-rus/libprob/mlfamain.cpp:GetWdInfo"]}
{"id": "C46", "title": "English spelling check is exact", "statement": "The English analyser's spelling check accepts exactly the words that the dictionary's stems, endings and postfixes spell in the capitalisation their type asks for; with capitals ignored the answer does not depend on case; a null or empty word gives 0 and one of 48 bytes or more the word-too-long code.", "quantifier": "all dictionaries, words and settings", "why_tests_cant": "All dictionaries and words.", "anchors": ["lang-eng/libdict/mlmamain.cpp:CheckWord", "lang-eng/libdict/scanClass.hpp:ScanTables", "lang-eng/libdict/mlmadefs.h"]}
{"id": "C47", "title": "English part of speech and forms by lexeme id", "statement": "For every lexeme id in the dictionary, GetWdInfo gives its part of speech and BuildForm exactly the requested forms (stem, ending, postfix, in the lexeme's capitalisation); an unknown id gives 0; a missing or empty buffer the argument error; a buffer too small a negative code.", "quantifier": "all dictionaries, lexeme ids, form ids and buffer sizes", "why_tests_cant": "All dictionaries, ids and buffer sizes.", "anchors": ["lang-eng/libdict/mlmamain.cpp:GetWdInfo", "lang-eng/libdict/mlmamain.cpp:BuildForm", "lang-eng/libdict/buildform.cpp"]}
{"id": "C48", "title": "English forms of a word's lexemes are exact", "statement": "FindForms of the English analyser returns exactly the requested forms of each lexeme the given word is a form of, in the order the readings are found.", "quantifier": "all dictionaries, words, form ids, settings and buffer sizes", "why_tests_cant": "All dictionaries, words and buffer sizes.", "anchors": ["lang-eng/libdict/mlmamain.cpp:FindForms", "lang-eng/libdict/buildform.cpp"]}
{"id": "C49", "title": "English built forms are recognised", "statement": "Every form that BuildForm of the English analyser returns is accepted by its spelling check.", "quantifier": "all dictionaries, lexeme ids and form ids", "why_tests_cant": "Relates two API functions over all dictionaries.", "anchors": ["lang-eng/libdict/mlmamain.cpp:BuildForm", "lang-eng/libdict/mlmamain.cpp:CheckWord", "lang-eng/libdict/buildform.cpp"]}
{"id": "C50", "title": "English Lemmatize is exact", "statement": "Lemmatize of the English analyser stores, for every lexeme found and in the order found, the lexeme id, its dictionary form in the lexeme's capitalisation and the descriptions of the ending matched; it returns the number of lexemes, and each array too small yields its failure code; FindForms and Lemmatize agree on the lexemes.", "quantifier": "all dictionaries, words, settings and combinations of null and given buffers of any size", "why_tests_cant": "All dictionaries, words and buffer sizes; merging of readings depends on history.", "anchors": ["lang-eng/libdict/lemmatize.cpp:Lemmatizer::operator()", "lang-eng/libdict/mlmamain.cpp:Lemmatize", "lang-eng/libdict/buildform.cpp:GetDictForms"]}
{"id": "C51", "title": "A compiled English dictionary recognises exactly its sources", "statement": "After the English compiler has read source files made of well-formed articles, comments and empty lines, the spelling check on the compiled arrays accepts exactly the spellings that some article gives (beginning, one of its endings, postfix; letter case folded; capitals as the article is written), whatever the order of the articles and whatever stands between them.", "quantifier": "all source files, words and settings", "why_tests_cant": "All dictionaries: unit tests see one dictionary and a few words.", "anchors": ["lang-eng/libdict/buildic/makeeng.cpp:ResolveEng", "lang-eng/libdict/buildic/flexbox.h:CFlexBox", "tools/buildmorph.h:DictReader", "lang-eng/libdict/mlmamain.cpp:CheckWord"]}
{"id": "C52", "title": "Forms by id are those of the English article", "statement": "On the compiled arrays BuildForm of an article's lexeme id gives the alternatives the article lists for the requested form, in alphabetical order of endings and in the article's capitalisation, GetWdInfo its part of speech, an id no article has gives 0, and every form built is accepted by the spelling check.", "quantifier": "all source files, articles, form ids and buffer sizes", "why_tests_cant": "All dictionaries, ids and buffer sizes.", "anchors": ["lang-eng/libdict/buildic/makeeng.cpp:ResolveEng", "lang-eng/libdict/buildic/flexbox.h:CFlexBox::AddInflex", "lang-eng/libdict/mlmamain.cpp:BuildForm", "lang-eng/libdict/mlmamain.cpp:GetWdInfo"]}
{"id": "C53", "title": "The English compiler survives bad lines", "statement": "Whatever a line of the source files contains, the compiler either compiles it, ignores it or refuses it with an error; it never reads or writes outside its arrays and never compiles an article into another word.", "quantifier": "all lines of text", "why_tests_cant": "All inputs.", "anchors": ["lang-eng/libdict/buildic/makeeng.cpp:ResolveEng", "tools/buildmorph.h:DictReader"]}
{"id": "C54", "title": "English search by pattern is exact", "statement": "FindMatch of the English analyser calls the collector with exactly the forms, lexeme ids and form numbers whose spelling the pattern describes ('?' one letter, '*' any letters, letter case folded), every match of a lexeme once, and returns the collector's answer; without a pattern or with one of 48 bytes or more it calls nothing.", "quantifier": "all dictionaries (also all compiled source files), patterns and collectors", "why_tests_cant": "All dictionaries and patterns: recursion over the tree, tables and postfixes with a shared array.", "anchors": ["lang-eng/libdict/mlmamain.cpp:FindMatch", "lang-eng/libdict/wildClass.hpp:MatchModel", "xmorph/wildscan.h:ScanTree"]}
{"id": "C55", "title": "The C++ wrappers return exactly the strings of the interface", "statement": "BuildForm and FindForms of the C++ classes return a vector of exactly the forms the interface has to deliver, in order, whatever the local array held before, when they fit its 256 bytes; GetModels as many samples as fit 1024 bytes; GetWdInfo the part of speech, 0 for an unknown lexeme or class; an unknown lexeme gives an empty vector.", "quantifier": "all dictionaries, words, lexeme ids, classes, form ids and contents of the uninitialised arrays", "why_tests_cant": "All dictionaries and all previous contents of uninitialised memory.", "anchors": ["api.hpp:BuildForm", "api.hpp:FindForms", "api.hpp:GetModels", "api.hpp:GetWdInfo"]}
{"id": "C56", "title": "The C++ wrappers return self-contained lexemes", "statement": "Lemmatize of the C++ classes returns one object per lexeme (or guess) with its identifier, normal form and descriptions, all owned by the object - no pointer into the function's local arrays survives, also after the vector has moved its elements - and throws if the local arrays are too small or the word too long; a guess passed back to BuildForm with a form it describes yields the word again.", "quantifier": "all dictionaries, class tables, words, settings, contents of the uninitialised arrays and growth policies of the vector", "why_tests_cant": "Dangling pointers show only for some histories of memory; all dictionaries and words.", "anchors": ["api.hpp:Lemmatize", "api.hpp:lexeme", "api.hpp:BuildForm"]}
{"id": "C57", "title": "Handles balance their references", "statement": "Whatever sequence of constructions, copies, assignments and destructions of Morpho handles is executed, every interface is attached as often as it is detached plus once for each handle holding it; no interface is used after it freed itself, and none survives its last holder.", "quantifier": "all sequences of operations on any number of handles and interfaces", "why_tests_cant": "Quantifies over all histories.", "anchors": ["api.hpp:Morpho", "api.hpp:Morpho::Assign", "lang-ukr/libdict/mlmamain.cpp:CMlmaCp::Detach"]}
{"id": "C58", "title": "The spelling check does not depend on the code page", "statement": "CheckWord of the instances for other code pages (UTF-8, KOI8-R, ...) answers for a word exactly what the windows-1251 instance answers for the same text, whatever number of bytes the word has in the code page; a text too long for the analyser is refused with WORDBUFF_FAILED, no text is no word.", "quantifier": "all code pages that write texts without loss, dictionaries, words and settings", "why_tests_cant": "All dictionaries and words in all code pages.", "anchors": ["lang-rus/libdict/mlmamain.cpp:CMlmaMb", "lang-rus/libdict/mlmamain.cpp:ToCanonic", "xmorph/codepages.hpp"]}
{"id": "C59", "title": "Forms in other code pages", "statement": "BuildForm and FindForms of the instances for other code pages write exactly the forms of the windows-1251 instance, in order, each in the code page with its terminator, if they fit the buffer in that code page, and report LEMMBUFF_FAILED without leaving the buffer otherwise; forms written are recognised by the same instance.", "quantifier": "all code pages, dictionaries, lexemes, words, form ids, buffer sizes", "why_tests_cant": "All buffer sizes and code pages: off-by-one errors of the output coder show only at exact boundaries.", "anchors": ["lang-rus/libdict/mlmamain.cpp:BuildForm", "lang-rus/libdict/mlmamain.cpp:FindForms", "xmorph/codepages.hpp:MbcsCoder", "lang-rus/libdict/buildform.cpp"]}
{"id": "C60", "title": "Lemmas in other code pages", "statement": "Lemmatize of the instances for other code pages stores the lexemes of the text as the windows-1251 instance does, with the normal forms in the code page, the pointers of the lexemes at their beginnings, and reports a failure code when an array is too small.", "quantifier": "all code pages, dictionaries, words, settings and combinations of null and given buffers of any size", "why_tests_cant": "All dictionaries, words, buffer sizes and code pages.", "anchors": ["lang-rus/libdict/mlmamain.cpp:Lemmatize", "lang-rus/libdict/lemmatize.cpp:Lemmatizer", "xmorph/codepages.hpp:MbcsCoder"]}
{"id": "C61", "title": "Search by pattern in other code pages", "statement": "FindMatch of the instances for other code pages delivers exactly the matches of the windows-1251 instance for the same pattern, the strings in the code page.", "quantifier": "all code pages, dictionaries, patterns and collectors", "why_tests_cant": "All dictionaries, patterns and code pages.", "anchors": ["lang-rus/libdict/mlmamain.cpp:FindMatch", "xmorph/codepages.hpp:ToCodepage", "xmorph/wildscan.h:ScanTree"]}
{"id": "C62", "title": "The spelling check in wide characters", "statement": "CheckWord of the wide-character interface answers for a word exactly what the narrow one answers for the same text, in Russian and in English; no text is no word and a text too long is refused with WORDBUFF_FAILED.", "quantifier": "all dictionaries, wide words (counted or terminated), settings and contents of the local arrays", "why_tests_cant": "All words and all previous stack contents.", "anchors": ["xmorph/mlmawide.hpp:CheckWord", "lang-rus/libdict/mlmamain.cpp:mlma1251", "lang-eng/libdict/mlmamain.cpp"]}
{"id": "C63", "title": "Forms in wide characters", "statement": "BuildForm and FindForms of the wide-character interface write exactly the forms of the narrow one, in order, as wide strings with their terminators, and nothing behind them; if they do not fit, LEMMBUFF_FAILED is returned and the buffer is as it was. Forms written are recognised by the wide CheckWord.", "quantifier": "all dictionaries, lexemes, words, form ids and buffer sizes", "why_tests_cant": "Boundaries of two buffers, the caller's and the local one, at all sizes.", "anchors": ["xmorph/mlmawide.hpp:BuildForm", "xmorph/mlmawide.hpp:FindForms"]}
{"id": "C64", "title": "Lemmas in wide characters", "statement": "Lemmatize of the wide-character interface stores the lexemes of the text as the narrow one does, the normal forms as wide strings at the positions the lexemes point to; with arrays too small it returns a failure code and leaves the lexemes and normal forms of the caller as they were.", "quantifier": "all dictionaries, words, settings and combinations of null and given buffers of any size", "why_tests_cant": "All dictionaries, words and buffer sizes.", "anchors": ["xmorph/mlmawide.hpp:Lemmatize"]}
{"id": "C65", "title": "Search by pattern in wide characters", "statement": "FindMatch of the wide-character interface makes the same calls of the collector as the narrow one for the same pattern, the strings made wide, and never overruns its string buffer unless the narrow search overruns its own.", "quantifier": "all dictionaries, patterns, collectors", "why_tests_cant": "All dictionaries and patterns, histories of collectors.", "anchors": ["xmorph/mlmawide.hpp:FindMatch", "xmorph/mlmawide.hpp:WcMatch::AddLexeme"]}
{"id": "C66", "title": "Forms by id from compiled Russian sources", "statement": "A Russian dictionary compiled from its sources answers by lexeme id what the sources say: BuildForm delivers exactly the forms with the number asked for (stem, alternation of the level, ending, postfix, in the lexeme's capitalisation), each once; GetWdInfo the part of speech; unknown ids have neither; what is built is recognised.", "quantifier": "all inflexion and alternation tables, lists of lexemes, ids, form numbers and buffer sizes", "why_tests_cant": "All sources: tables reference each other to any depth, and stems, classes and ids interact through four compiled arrays.", "anchors": ["lang-rus/libdict/tools/buildic/lresolve.cpp", "lang-rus/libdict/tools/buildic/makerus.cpp", "lang-rus/libdict/mlmamain.cpp:BuildForm", "lang-rus/libdict/mlmamain.cpp:GetWdInfo"]}
{"id": "C67", "title": "Analyses from compiled Russian sources", "statement": "A Russian dictionary compiled from its sources analyses a word as the sources say: Lemmatize reports lexemes of the sources that have a form spelled so, with the least dictionary form as normal form and the descriptions given by the tables, and FindForms their forms with the number asked for; no such lexeme is missing.", "quantifier": "all inflexion and alternation tables, lists of lexemes, words, settings, buffers", "why_tests_cant": "All sources and all words.", "anchors": ["lang-rus/libdict/tools/buildic/lresolve.cpp", "lang-rus/libdict/tools/buildic/makerus.cpp", "lang-rus/libdict/lemmatize.cpp:Lemmatizer", "lang-rus/libdict/mlmamain.cpp:FindForms"]}
{"id": "C68", "title": "Search by pattern in compiled Russian sources", "statement": "FindMatch on a Russian dictionary compiled from its sources delivers forms of the sources' lexemes described by the pattern, with their numbers, and every such form.", "quantifier": "all inflexion and alternation tables, lists of lexemes, patterns, collectors", "why_tests_cant": "All sources and all patterns.", "anchors": ["lang-rus/libdict/tools/buildic/makerus.cpp", "lang-rus/libdict/wildClass.hpp", "xmorph/wildscan.h:ScanTree"]}
{"id": "C69", "title": "Forms of guessed words in every language and code page", "statement": "BuildForm of the Russian and English guessers, in every code page, writes the stem (in small letters) with each inflexion listed for the form asked for, in the order of the list, in the code page and in the capitalisation of the part of speech (Russian only), each terminated, and returns their number; if they do not fit it returns LEMMBUFF_FAILED without writing outside the buffer. No buffer or an unknown class is an argument error.", "quantifier": "both languages, all code pages, class tables, stems, form ids, buffer sizes and previous stack contents", "why_tests_cant": "All tables, texts and buffer sizes in each of twelve instances.", "anchors": ["lang-rus/libprob/buildforms.hpp", "lang-eng/libprob/buildforms.hpp", "lang-rus/libprob/mlfamain.cpp:BuildForm", "lang-eng/libprob/mlfamain.cpp:BuildForm", "xmorph/codepages.hpp:MbcsCoder"]}
{"id": "C70", "title": "Guessing unknown words in every language and code page", "statement": "Lemmatize of the Russian and English guessers, in every code page, reports exactly the classes whose endings the word has and whose capitalisation it suits, grouped by stem and class, sorted by decreasing weight, with normal forms in the code page and descriptions; with too little room it returns a failure code and leaves the array of stems as it was.", "quantifier": "both languages, all code pages, class tables, indexes, words, settings, buffers and previous stack contents", "why_tests_cant": "All dictionaries, words and buffer sizes in each of twelve instances.", "anchors": ["lang-rus/libprob/lemmatizer.hpp", "lang-eng/libprob/lemmatizer.hpp", "lang-rus/libprob/mlfamain.cpp:Lemmatize", "lang-eng/libprob/mlfamain.cpp:Lemmatize", "lang-eng/libprob/class/pspfid.cpp"]}
{"id": "C71", "title": "Samples of guessed classes in every code page", "statement": "GetModels of the guessers writes as many samples of the class as fit, in the code page, each terminated, returns their number and leaves the rest of the buffer alone; if none fits it returns LEMMBUFF_FAILED; an unknown class is an argument error.", "quantifier": "all code pages, class tables and buffer sizes", "why_tests_cant": "Boundaries at every buffer size and every list of samples.", "anchors": ["lang-rus/libprob/mlfamain.cpp:GetModels", "lang-eng/libprob/mlfamain.cpp:GetModels"]}
{"id": "C72", "title": "The guessed class gives the word back in every code page", "statement": "Cutting the word off at the stem length reported by Lemmatize (normal forms being asked for), in the units of the caller's code page, and building the reported form of the reported class from it yields a list that contains the word itself, for arrays compiled from class descriptions of either language.", "quantifier": "both languages, all code pages, class descriptions, words of at most 49 characters", "why_tests_cant": "Relates two calls over all sources and words; lengths in bytes and characters differ in UTF-8.", "anchors": ["lang-rus/libprob/lemmatizer.hpp:operator int", "lang-rus/libprob/buildforms.hpp", "lang-eng/libprob/lemmatizer.hpp:operator int", "lang-eng/libprob/buildforms.hpp"]}
{"id": "C73", "title": "Compiled guessers of both languages", "statement": "The arrays the compilers make of Russian or English class descriptions are valid for the guesser of the language, which guesses for a word exactly the classes with a model and an inflexion whose suffix and string the word ends with.", "quantifier": "both languages, all class descriptions, words", "why_tests_cant": "All sources and words.", "anchors": ["lang-rus/libprob/tools/compile-dict.cpp", "lang-eng/libprob/tools/compile-dict.cpp"]}
{"id": "C74", "title": "Forms of guessed words in wide characters", "statement": "BuildForm of the wide-character guessers of both languages writes exactly the forms of the narrow one, in order, as wide strings each terminated, and nothing behind them; if they do not fit, LEMMBUFF_FAILED is returned and the buffer is as it was. Built from the stem, class and form that Lemmatize reports, the list contains the word.", "quantifier": "both languages, all class tables, stems (counted or terminated), form ids, buffer sizes and previous stack contents", "why_tests_cant": "Boundaries of two buffers, the caller's and the local one, at all sizes.", "anchors": ["xmorph/mlfawide.hpp:BuildForm"]}
{"id": "C75", "title": "Guessing unknown words in wide characters", "statement": "Lemmatize of the wide-character guessers reports the same stems, classes, weights and descriptions as the narrow one for the same text, the normal forms as wide strings at the positions the stems point to; with arrays too small it returns a failure code and leaves the stems and normal forms of the caller as they were.", "quantifier": "both languages, all class tables, indexes, words, settings and combinations of null and given buffers of any size", "why_tests_cant": "All dictionaries, words and buffer sizes.", "anchors": ["xmorph/mlfawide.hpp:Lemmatize"]}
{"id": "C76", "title": "Samples of guessed classes in wide characters", "statement": "GetModels of the wide-character guessers writes as many samples of the class as fit, as wide strings each terminated, returns their number and leaves the rest of the buffer alone; GetWdInfo reports the part of speech; an unknown class is an argument error.", "quantifier": "all class tables and buffer sizes", "why_tests_cant": "Boundaries at every buffer size and every list of samples.", "anchors": ["xmorph/mlfawide.hpp:GetModels", "xmorph/mlfawide.hpp:GetWdInfo"]}
{"id": "C77", "title": "Articles of the Russian dictionary are read exactly", "statement": "The line of a dictionary article (headword, mark, type, index, notes in any number and order, lexeme id, separated by any blanks) yields exactly the lexemes the article means: the stem of the headword, its type with the attributes noted, its inflexion and alternation tables, its postfix and id; an index of two variants a//b yields both. An article without meaning is reported, comments are reported, other lines ignored.", "quantifier": "all tables and their names, all articles and ways to write them", "why_tests_cant": "All texts: field lengths, blanks, notes and marks combine freely.", "anchors": ["lang-rus/libdict/tools/buildic/makerus.cpp:BuildStems", "lang-rus/libdict/tools/buildic/lresolve.cpp:ResolveClassInfo", "tools/buildmorph.h:DictReader"]}
{"id": "C78", "title": "Russian dictionary files are compiled as the articles they contain", "statement": "Compiling files gives the arrays that compiling the lexemes of their articles gives, in the order of the files and lines, whatever comments, blank and unknown lines are between them; every lexeme compiled is meant by an article and every article's lexemes are compiled.", "quantifier": "all lists of files of lines up to 1022 characters", "why_tests_cant": "All files; boundaries of the line buffer.", "anchors": ["tools/buildmorph.h:CreateDict", "tools/buildmorph.h:DictReader", "lang-rus/libdict/tools/buildic/makerus.cpp:Run"]}
{"id": "C79", "title": "From the text of the Russian dictionary to recognised words", "statement": "A word is accepted by CheckWord of a Russian dictionary compiled from text if and only if it is, in acceptable capitalisation, a form of a word that one of the articles means.", "quantifier": "all files, articles, tables, words, settings and previous stack contents", "why_tests_cant": "Composition of text, compiler and analyser over all dictionaries and words.", "anchors": ["lang-rus/libdict/tools/buildic/makerus.cpp", "lang-rus/libdict/tools/buildic/lresolve.cpp", "lang-rus/libdict/mlmamain.cpp:CheckWord"]}
{"id": "C80", "title": "The stem of a headword", "statement": "The stem of a word that changes is found by taking off the first ending of the normal form (for verbs the infinitive, then reflexive elements), continued through linked tables, that the word has, and then the first alternation whose string and condition the rest satisfies; a word without such an ending is refused unless its index has a colon, and an explicit mark of the end of the stem is followed.", "quantifier": "all tables with links of any depth, alternation lists, words, remarks and types", "why_tests_cant": "All tables and words; recursion through linked tables.", "anchors": ["tools/ftables.h:StripStr", "lang-rus/libdict/tools/buildic/mtables.cpp:Find", "lang-rus/libdict/tools/buildic/lresolve.cpp:ResolveClassInfo"]}
{"id": "C81", "title": "Headwords of the Russian dictionary are recognised", "statement": "CheckWord of a Russian dictionary compiled from text accepts the headword of every article that was given a stem by the search, in every acceptable capitalisation.", "quantifier": "all files, articles of changing words and tables", "why_tests_cant": "Composition of the search for stems, compiler and analyser over all dictionaries.", "anchors": ["lang-rus/libdict/tools/buildic/lresolve.cpp", "tools/ftables.h", "lang-rus/libdict/mlmamain.cpp:CheckWord"]}
{"id": "C82", "title": "Inflexion tables are compiled as their text defines them", "statement": "tfc turns a text of inflexion tables (files with includes, comments, names separated by commas, elements with descriptions and links) into a binary table set in which every defined name, and no other, has a table with exactly the elements of its definition, each link being the offset of the table named, so that the endings and descriptions readable from the bytes are exactly those the text tells.", "quantifier": "all texts that define tables, in any files, order and layout, that fit the format", "why_tests_cant": "All texts, nesting of includes and links between tables.", "anchors": ["utils/tfc/tfc.cpp:Compile", "utils/tfc/ftable.cpp", "utils/tfc/ftable.h", "tools/sourcefile.h"]}
{"id": "C83", "title": "tfc accepts only well-formed tables without dangling links", "statement": "If tfc succeeds then the text is well-formed (every line is a command, a brace, a description or an element of known tokens; every table has a brace and an element), every table referred to is defined, and the result means exactly the text; a text with a link to an undefined table is refused.", "quantifier": "all files of lines up to 4095 characters", "why_tests_cant": "All texts, including the malformed ones.", "anchors": ["utils/tfc/tfc.cpp:MakeTab", "utils/tfc/tfc.cpp:MapLine", "utils/tfc/ftable.cpp:RelocateReferences"]}
{"id": "C84", "title": "Order of lines and sharing of equal tables", "statement": "The order and repetition of the lines of a table do not change the compiled bytes; two names share one table if and only if their definitions have the same elements.", "quantifier": "all texts that are compiled", "why_tests_cant": "All permutations, all pairs of tables.", "anchors": ["utils/tfc/ftable.h:ftable::Insert", "utils/tfc/ftable.cpp:fxlist::Insert"]}
{"id": "C85", "title": "A name defined twice", "statement": "A second definition of a table name is reported.", "quantifier": "all texts", "why_tests_cant": "All positions of the second definition.", "anchors": ["utils/tfc/ftable.cpp:fxlist::Insert"]}
{"id": "C86", "title": "Size of inflexion tables", "statement": "A table that does not fit the one-byte element count is refused.", "quantifier": "all texts", "why_tests_cant": "Sizes beyond any shipped table.", "anchors": ["utils/tfc/ftable.h:ftable::Serialize"]}
{"id": "C87", "title": "Grammatical descriptions in table sources", "statement": "A list of description tokens changes the description as the tokens say (case, number, gender, tense, person, verb form, comparison, short form, reflexivity, animacy and marks), in order; it is refused exactly if a token is unknown; every token can be used in an element.", "quantifier": "all strings and descriptions so far", "why_tests_cant": "All sequences of tokens.", "anchors": ["utils/tfc/gramap.cpp:MapInfo", "utils/tfc/gramap.cpp:InitRus"]}
{"id": "C88", "title": "Alternation tables are compiled as their text defines them", "statement": "makeich turns a text of alternation tables (files with includes, comments, names separated by commas, lines of a condition and two or more alternating strings, two apostrophes for the empty one) into bytes and an index in which every name has references to exactly the alternations of its definitions, in order, with their conditions; on each of the three levels the stored alternation has exactly the string the line gives for it, a level that is not given being like the first.", "quantifier": "all texts that define alternations, in any files, order and layout, that fit the format, whose definitions have equal or disjoint names", "why_tests_cant": "All texts, nesting of includes and sharing of strings between lines.", "anchors": ["lang-rus/libdict/tools/makeich/makeich.cpp", "lang-rus/libdict/tools/makeich/mtable.h"]}
{"id": "C89", "title": "makeich accepts only well-formed alternations", "statement": "If makeich succeeds then the text is well-formed (every line is a command, a brace, or a condition with at least two strings) and the result means the text, names that share definitions (directly or through others) sharing all of their alternations.", "quantifier": "all files of lines up to 4095 characters", "why_tests_cant": "All texts, including the malformed and inconsistent ones.", "anchors": ["lang-rus/libdict/tools/makeich/makeich.cpp:MakeTab", "lang-rus/libdict/tools/makeich/mtable.h:set_conditions"]}
{"id": "C90", "title": "Inconsistent or oversized alternations", "statement": "A name has only the alternations of the definitions that mention it; a string that does not fit the four-bit length is refused.", "quantifier": "all texts", "why_tests_cant": "All combinations of names over the definitions; sizes beyond any shipped table.", "anchors": ["lang-rus/libdict/tools/makeich/mtable.h:set_conditions", "lang-rus/libdict/tools/makeich/mtable.h:interchange::Serialize"]}
{"id": "C91", "title": "Texts of tables and alternations compile together", "statement": "If texts define inflexion tables and alternations that fit the format, all links being defined, endings being words of one alphabet with at most 64 descriptions each, alternations having letters, then both table compilers succeed, and what they write means what the texts say and is what the dictionary compiler needs.", "quantifier": "all texts that satisfy the conditions", "why_tests_cant": "All texts, in any files and layout.", "anchors": ["utils/tfc", "lang-rus/libdict/tools/makeich", "lang-rus/libdict/tools/buildic"]}
{"id": "C92", "title": "Words of a dictionary built from texts", "statement": "After building a dictionary from three texts (inflexion tables, alternations, articles), CheckWord accepts a spelling if and only if the texts tell of it: some article gives a word whose stem, changing part (ending of its table, with the string of its alternation for that form) and postfix make up the spelling, in acceptable capitalisation.", "quantifier": "all texts, all spellings, all options", "why_tests_cant": "All dictionaries and words: the whole chain from the sources a linguist edits to the answer of the API.", "anchors": ["utils/tfc", "lang-rus/libdict/tools/makeich", "lang-rus/libdict/mlmamain.cpp", "lang-rus/libdict/tools/buildic/lresolve.cpp", "lang-rus/libdict/mlmamain.cpp:CMlmaMb::CheckWord"]}
{"id": "C93", "title": "Headwords of a dictionary built from texts", "statement": "The headword of every article that has a table is recognised by the dictionary built from the texts, in any acceptable capitalisation.", "quantifier": "all texts and articles", "why_tests_cant": "All dictionaries: an editor of the sources expects every headword to be found.", "anchors": ["lang-rus/libdict/tools/buildic/lresolve.cpp", "lang-rus/libdict/mlmamain.cpp:CMlmaMb::CheckWord"]}
{"id": "C94", "title": "Python: constructors select the dictionary of the code page", "statement": "The constructors of pyrusmorph give an object over the dictionary (or guesser) of the named code page, in any letter case, and raise an exception for a name that is not documented; those of pyengmorph always give an object; an object of a narrow class works with a narrow dictionary.", "quantifier": "all byte strings as code page names, both languages, dictionary and guesser", "why_tests_cant": "All names.", "anchors": ["pybind11/morph-pad.hpp", "pyrusmorph/rus.cpp", "pyengmorph/eng.cpp"]}
{"id": "C95", "title": "Python: lemmatize", "statement": "lemmatize of an object in any code page, or wide, returns one element per lexeme of the word, in order, with its number, its normal form in the code page unless SF_NO_LEMMA_STRING, and the descriptions of the word unless SF_NO_GRAMMAR_DATA; capitals matter unless SF_IGNORE_CAPITALS; an empty list means that the word is unknown.", "quantifier": "all dictionaries, words, code pages, settings", "why_tests_cant": "All dictionaries and words; contents of uninitialised local arrays.", "anchors": ["pybind11/morph-pad.hpp:lemmatize", "lang-rus/libdict/mlmamain.cpp:CMlmaMb::Lemmatize", "xmorph/mlmawide.hpp"]}
{"id": "C96", "title": "Python: check_word, build_form, part_of_sp", "statement": "check_word returns 1 exactly for the words of the dictionary, build_form the list of the spellings of a form of a lexeme, part_of_sp its part of speech, in any code page and wide; unknown lexemes give an empty list and 0.", "quantifier": "all dictionaries, words, lexemes, forms, code pages, settings", "why_tests_cant": "All dictionaries and arguments.", "anchors": ["pybind11/morph-pad.hpp:build_form", "pybind11/morph-pad.hpp:check_word", "pybind11/morph-pad.hpp:part_of_sp"]}
{"id": "C97", "title": "Python: find_match and its callback", "statement": "find_match calls the function with the matches of the pattern, lexeme by lexeme, each match giving the text of a form and its number, until the function returns something other than 0; the value returned is the last result; matches can be kept; exceptions of the function reach the caller.", "quantifier": "all dictionaries, patterns, callback functions (with state, results of any kind, exceptions)", "why_tests_cant": "All histories of callback results.", "anchors": ["pybind11/morph-pad.hpp:find_match", "lang-rus/libdict/mlmamain.cpp:CMlmaMb::FindMatch", "pyrusmorph/rus.cpp"]}
{"id": "C98", "title": "Python: the attribute lemma can be read", "statement": "The attribute lemma of an element is the text of the normal form, whatever the code page of the object.", "quantifier": "all texts and code pages", "why_tests_cant": "All texts.", "anchors": ["pyrusmorph/rus.cpp", "pybind11/morph-pad.hpp:XxLemmInfo"]}
{"id": "C99", "title": "Python: the guessers", "statement": "lemmatize of a guesser returns the guesses for the word by decreasing weight, each with stem length, class, weight, normal form and descriptions as the settings ask; build_form returns the stem with every inflexion of the form.", "quantifier": "all guessers, words, code pages, settings", "why_tests_cant": "All guessers and words; all orders equal weights may take.", "anchors": ["pybind11/morph-pad.hpp:FuzzyAPI", "lang-rus/libprob", "lang-eng/libprob", "xmorph/mlfawide.hpp"]}
{"id": "C100", "title": "From texts to forms by number", "statement": "On a dictionary built from texts of tables, alternations and articles, the lexeme id is the number written in the article: BuildForm gives, once each, exactly the forms the texts tell of for a form number, in the word's capitalisation, GetWdInfo its type, both nothing for numbers of no article; the forms built are recognised.", "quantifier": "all texts, articles, form numbers, buffers", "why_tests_cant": "All texts: the chain goes through three compilers and the run time.", "anchors": ["utils/tfc/tfc.cpp", "lang-rus/libdict/tools/makeich/makeich.cpp", "lang-rus/libdict/tools/buildic/makerus.cpp", "lang-rus/libdict/mlmamain.cpp:CMlmaMb::BuildForm", "lang-rus/libdict/mlmamain.cpp:CMlmaMb::GetWdInfo"]}
{"id": "C101", "title": "From texts to lemmas", "statement": "On a dictionary built from texts, FindForms delivers the forms of the words spelled like its argument, Lemmatize the numbers of the articles, the normal forms and the descriptions which the texts tell of, and no word is missing.", "quantifier": "all texts, words, settings, arrays", "why_tests_cant": "All texts and words.", "anchors": ["utils/tfc/tfc.cpp", "lang-rus/libdict/tools/makeich/makeich.cpp", "lang-rus/libdict/tools/buildic/makerus.cpp", "lang-rus/libdict/mlmamain.cpp:CMlmaMb::Lemmatize", "lang-rus/libdict/mlmamain.cpp:CMlmaMb::FindForms"]}
{"id": "C102", "title": "From texts to matches", "statement": "On a dictionary built from texts, FindMatch delivers exactly the forms told by the texts that match the pattern, with the number of the article and of the form.", "quantifier": "all texts, patterns, callbacks", "why_tests_cant": "All texts and patterns.", "anchors": ["lang-rus/libdict/tools/buildic/makerus.cpp", "lang-rus/libdict/mlmamain.cpp:CMlmaMb::FindMatch"]}
{"id": "C103", "title": "Generated sources are C++ that defines the array", "statement": "The file that the compilers write for an object is C++ source that defines one array of unsigned char, with the name and in the namespace asked for, and exactly the serialized bytes, however the object hands them over; a file that cannot be created is reported by an exception.", "quantifier": "all contents, names, namespaces, headers, folders, ways to cut the serialization", "why_tests_cant": "All contents of all sizes, all cuttings.", "anchors": ["tools/dumppage.h:BinaryDumper"]}
{"id": "C104", "title": "Command lines in order", "statement": "makerus and makeeng accept exactly the command lines whose switches are known, given as -key=value or -key:value, and not repeated once they have a value; otherwise, and if tables or dictionaries are not named or missing, they fail and write no array. compile-dict refuses unknown switches and third files.", "quantifier": "all command lines, file systems", "why_tests_cant": "All sequences of arguments.", "anchors": ["lang-rus/libdict/tools/buildic/makerus.cpp", "lang-eng/libdict/buildic/makeeng.cpp", "lang-rus/libprob/tools/compile-dict.cpp"]}
{"id": "C105", "title": "makerus writes what it compiled", "statement": "A successful run of makerus writes, in the folder and namespace of its options, six files that define the six arrays compiled from the tables and dictionaries named, and the file of lines not understood if one is asked for, and nothing else; a run that fails writes no array.", "quantifier": "all command lines, tables, dictionaries, file systems", "why_tests_cant": "All inputs and file systems.", "anchors": ["lang-rus/libdict/tools/buildic/makerus.cpp", "tools/buildmorph.h", "tools/dumppage.h"]}
{"id": "C106", "title": "makeeng writes what it compiled", "statement": "A successful run of makeeng writes, in the folder and namespace of its options, four files that define the four arrays compiled from the dictionaries named, and the file of comments if one is asked for, and nothing else; a run that fails writes no array.", "quantifier": "all command lines, dictionaries, file systems", "why_tests_cant": "All inputs and file systems.", "anchors": ["lang-eng/libdict/buildic/makeeng.cpp", "tools/buildmorph.h", "tools/dumppage.h"]}
{"id": "C107", "title": "compile-dict writes the arrays of the guesser", "statement": "compile-dict writes one file that defines the number of classes, their offsets, the class tables and the reverse dictionary of the classes in its source, in the namespace asked for; it writes nothing when it refuses its arguments or its source.", "quantifier": "all command lines, sources, orders of the sort", "why_tests_cant": "All sources.", "anchors": ["lang-rus/libprob/tools/compile-dict.cpp", "tools/dumppage.h"]}
{"id": "C108", "title": "Free lexeme ids are listed", "statement": "get-holes prints the least and the greatest lexeme id of a dictionary and exactly the gaps between them, in order, and reports every id that is used again.", "quantifier": "all dictionaries (lines of at most 1022 characters), all sets of ids", "why_tests_cant": "All sets of ids of all sizes.", "anchors": ["utils/get-holes.cpp"]}
{"id": "C109", "title": "The check of a dump reports the differences", "statement": "The comparison of two dumps ends; its report is an edit script between their lines, is empty exactly if they are equal, and names exactly the lines that only one has.", "quantifier": "all lists of lines, all sources of them", "why_tests_cant": "All pairs of lists of all lengths; termination.", "anchors": ["lang-rus/dicdump/dicdump.cpp:DumpDiff", "lang-rus/dicdump/dicdump.cpp:LoadList"]}
{"id": "C110", "title": "The dump has a line for each lexeme with forms", "statement": "dicdump build prints a line for each lexeme id up to 0x3ffff that has forms, in ascending order: the id, and for each form id the first form, all but the first without their longest common beginning; nothing is left out and no buffer overflows.", "quantifier": "all dictionaries with forms of at most 251 characters, all form ids, all contents of the buffers", "why_tests_cant": "All dictionaries.", "anchors": ["lang-rus/dicdump/dicdump.cpp:Libmorphrus", "lang-rus/libdict/mlmamain.cpp:CMlmaMb::BuildForm"]}
{"id": "C111", "title": "A dump checked against its dictionary", "statement": "A dump checked against the dictionary it was made of gives an empty report; checked against a dictionary with other forms it does not; any file of ascending ids is checked to the end.", "quantifier": "all dictionaries, all files without byte 0", "why_tests_cant": "All dictionaries and files.", "anchors": ["lang-rus/dicdump/dicdump.cpp:DumpedQueue", "lang-rus/dicdump/dicdump.cpp:DumpDiff"]}
{"id": "C112", "title": "The program lemmatize prints JSON of the lexemes", "statement": "What utils/lemmatize prints for a word is JSON: the list of its lexemes with normal form, lexeme id, part of speech and form ids, in the code page of the object, capitals ignored; it is empty if the word is unknown or its lexemes do not fit the program's arrays.", "quantifier": "all dictionaries, code pages and words, all contents of the local arrays", "why_tests_cant": "All dictionaries and words; the whole output text.", "anchors": ["utils/lemmatize.cpp:Lemmatize", "api.hpp:inword", "lang-rus/libdict/mlmamain.cpp:CMlmaMb::Lemmatize", "lang-eng/libdict/mlmamain.cpp"]}
{"id": "C113", "title": "The command line of lemmatize and stematize", "statement": "With library, function and word the function of the library is asked for the code page named behind a colon, for UTF-8 without one, and the word is looked up in that; missing arguments, libraries, functions and code pages are reported.", "quantifier": "all command lines, loaders, names of code pages", "why_tests_cant": "All argument strings.", "anchors": ["utils/lemmatize.cpp:main", "utils/stematize.cpp:main", "lang-rus/libdict/mlmamain.cpp:mlmaruGetAPI"]}
{"id": "C114", "title": "The words of a text counted for the guessers", "statement": "make-psp-tab looks up exactly the words of its text: what is between characters that are neither letters nor hyphens (English: nor apostrophes), without hyphens in front, if it has more than three characters; the loop over a line always ends.", "quantifier": "all lines", "why_tests_cant": "All byte strings; termination.", "anchors": ["lang-rus/libprob/tools/make-psp-tab.cpp:Accumulate", "lang-eng/libprob/tools/make-psp-tab.cpp:Accumulate"]}
{"id": "C115", "title": "The shares of parts of speech and forms", "statement": "The table of make-psp-tab gives each part of speech its share of the words counted, a word of several lexemes being shared equally among them, and each form its share of the lexemes of its part of speech; the shares are not negative and sum up to one.", "quantifier": "all texts (lines below 16383 bytes), all dictionaries", "why_tests_cant": "All texts and dictionaries.", "anchors": ["lang-rus/libprob/tools/make-psp-tab.cpp:Accumulate", "lang-rus/libprob/tools/make-psp-tab.cpp:main", "lang-eng/libprob/tools/make-psp-tab.cpp"]}
{"id": "C116", "title": "The program stematize prints JSON of the guesses, the best first", "statement": "What utils/stematize prints for a word is JSON: the list of the guesses for it, heaviest first, with normal form in the code page, weight, class, part of speech and form ids, capitals ignored; it is empty if there is no guess or the guesses do not fit the program's arrays.", "quantifier": "all guessing dictionaries, languages, code pages and words, all contents of the local arrays", "why_tests_cant": "All dictionaries and words; the whole output text.", "anchors": ["utils/stematize.cpp:Stematize", "api.hpp:inword", "lang-rus/libprob/mlfamain.cpp:CMlfaMb::Lemmatize", "lang-eng/libprob/mlfamain.cpp", "lang-rus/libprob/lemmatizer.hpp"]}
{"id": "C117", "title": "The game of five letters ends, uses what it is told and finds the word", "statement": "Over a dictionary of nouns of five letters а-я the program 5-letters ends; every guess is a noun of the dictionary shown with its true marks, none is made twice, each respects all the marks shown before and is a heaviest of the nouns still possible, it is given up only if there are none; 'guessed' is the verdict exactly if the word was guessed, and a noun that fits the pattern without ruled-out letters is guessed.", "quantifier": "all dictionaries, words, patterns and ruled-out letters", "why_tests_cant": "All dictionaries and words, any number of rounds.", "anchors": ["lang-rus/libdict/utils/5-letters.cpp:main", "lang-rus/libdict/utils/5-letters.cpp:GetWordset", "lang-rus/libdict/utils/5-letters.cpp:CheckWord", "lang-rus/libdict/utils/5-samples.cpp:charRank"]}
{"id": "C118", "title": "A word for the game of five letters is a proper noun for it, and every one can come", "statement": "GetNewTask ends whatever the random numbers, gives a noun of five letters in dictionary form that is none of the ruled out lexemes, nothing only if there is none, and every such noun comes out for some random numbers.", "quantifier": "all dictionaries, all sequences of random numbers", "why_tests_cant": "All dictionaries and random sequences, all paths of the search with its returns.", "anchors": ["lang-rus/libdict/utils/5-samples.cpp:GetNewTask", "lang-rus/libdict/utils/5-samples.cpp:SelectChar"]}
{"id": "C119", "title": "The program wildcards answers every pattern in front of the first blank line", "statement": "For each line of its input in front of the first blank one, in order, wildcards searches for the pattern without the control characters behind it, and shows a line for each lexeme with matches, with one of them.", "quantifier": "all inputs of lines of at most 254 bytes, all dictionaries", "why_tests_cant": "All inputs, any number of lines.", "anchors": ["lang-rus/libdict/utils/wildcards.cpp:main"]}
