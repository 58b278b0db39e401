import json
P=[]
def p(title, statement, quantifier, why, anchors):
    P.append(dict(id="C%02d"%(len(P)+1), title=title, statement=statement, quantifier=quantifier, why_tests_cant=why, anchors=anchors))
p("Dictionary integers read back as written",
  "Every unsigned 32-bit number the dictionary compiler stores in a compiled table is read back by the analyser as the same number, and the reader stops exactly at the first byte after it; likewise for 16-bit little-endian words.",
  "all numbers below 2^32 (resp. 2^16) and all bytes following them",
  "2^32 values times arbitrary following bytes; the failure mode is a wrong shift or mask at one width.",
  ["xmorph/typedefs.h:getserial","xmorph/typedefs.h:getword16","tools/wordtree.h:Serialize"])
p("Lexeme ids have unambiguous keys, and the compiler and the analyser agree on them",
  "Two different lexeme identifiers never share a lookup key, and the key under which the dictionary compiler files a lexeme is the key the analyser later computes from the identifier.",
  "all pairs of 32-bit lexeme identifiers",
  "The space is 2^64 pairs; the shipped dictionaries only use small ids so tests never meet the wide case.",
  ["xmorph/typedefs.h:lexkeylen","tools/buildmorph.h:lexkeybuf"])
p("The dictionary tree under construction is a finite map",
  "After any sequence of insertions the tree holds for every inserted key exactly what was stored under that key and nothing for other keys, with siblings kept in strictly descending byte order, regardless of insertion order.",
  "all finite sequences of (key, update) insertions over arbitrary byte strings",
  "Unbounded histories of insertions; only a few orders can be tried.",
  ["tools/wordtree.h:wordtree::Insert","tools/buildmorph.h:DictReader"])
p("Tree search finds what was inserted",
  "Looking a key up in the dictionary tree under construction returns the element inserted under it and null for keys never inserted.",
  "all trees and keys", "Requires the lookup be right for every tree shape; the function has no caller, so no test exercises it.",
  ["tools/wordtree.h:wordtree::Search"])
p("Announced length equals written length",
  "For every tree the length computed before dumping is exactly the number of bytes dumped, for the whole tree and for every nested subtree, so skipping a subtree by its stored length lands exactly on the next sibling.",
  "all trees, both counter widths, any payload type with a correct length function",
  "One wrong subtree length corrupts every later sibling; tests only see the one shipped tree.",
  ["tools/wordtree.h:GetBufLen","tools/wordtree.h:Serialize"])
p("Scanning a compiled tree visits exactly the stored prefixes of the word, longest first",
  "Given a compiled tree and a word, the scanner calls its handler exactly once for each stored key that is a prefix of the word, longest first, each time with that key's data and the rest of the word; it stops at the first non-zero answer and returns it, and never reads outside the compiled tree.",
  "all well-formed trees, all words, all handlers",
  "Universally quantified over trees and words, including pathological shapes (keys that are prefixes of each other, missing data nodes).",
  ["xmorph/scandict.h:Flat::ScanTree","xmorph/scandict.h:scan_stack::findchar","tools/wordtree.h:Serialize"])
p("Lookup by lexeme id returns that lexeme's record",
  "Looking up an id in the compiled id index returns the offset that was stored for this very id, returns nothing for ids not in the index, and does not depend on the uninitialised bytes that follow the key in the key buffer.",
  "all indexes, all ids below 2^24, all contents of the key buffer after the key",
  "The scanner really reads past the key when the key is a prefix of others ending in zero bytes; only a proof shows that the garbage cannot influence the result.",
  ["lang-rus/libdict/mlmamain.cpp:GetWdInfo","lang-rus/libdict/mlmamain.cpp:BuildForm","xmorph/scandict.h:Flat::ScanTree"])
p("Recovering a stem from its position in the dictionary",
  "Walking the compiled tree towards a byte offset delivers the complete stem string leading to the stem list that contains this offset, and delivers no other stem's record.",
  "all compiled stem trees and all offsets of stem records in them",
  "Depends on every ancestor's stored subtree length; a boundary off by one only shows for neighbours at particular offsets.",
  ["xmorph/scandict.h:Flat::GetTrack","xmorph/scandict.h:Flat::SelectView","tools/wordtree.h:Enumerate"])
p("GetWdInfo reports the word's own class",
  "For every lexeme id in a compiled dictionary GetWdInfo returns 1 and the part-of-speech byte of that lexeme's class; for every other id it returns 0 and stores nothing.",
  "all dictionaries, all lexeme ids below 2^24",
  "All dictionaries and all ids; involves three compiled tables agreeing with one another.",
  ["lang-rus/libdict/mlmamain.cpp:GetWdInfo","tools/buildmorph.h:CreateDict"])
p("Every reported stem really fits the word",
  "Whenever the stem-list scanner hands a stem to the analyser, the rest of the word is the reported inflexion followed by the stem's postfix, and the reported id, class and postfix are those of a stored stem.",
  "all stem lists and all word rests", "Soundness over all stored lists and inputs.",
  ["xmorph/scandict.h:Flat::LookupList"])
p("No fitting stem is skipped by the first-letter bounds",
  "Every stored stem whose postfix ends the word and whose first-letter bounds admit the inflexion is handed to the analyser.",
  "all lists sorted the way the compiler sorts them, all word rests",
  "The scanner stops early at the first stem whose upper bound is too small; whether this is safe depends on the order of the whole list and interacts with postfixes.",
  ["xmorph/scandict.h:Flat::LookupList","lang-rus/libdict/tools/buildic/makerus.cpp:entry_type"])
p("Canonicalisation is exact and bounded",
  "Bringing a word to canonical form yields exactly the per-letter lower-case image of the word with its length unchanged, reports an error exactly when the word does not fit the fixed buffer with its terminator, and never writes outside that buffer.",
  "all byte strings, all buffer sizes", "All strings and lengths, including the exact-fit boundary.",
  ["xmorph/capsheme.cpp:CapScheme::Get"])
p("Capitalisation class of a word",
  "A word without delimiters is classified lower-case, capitalised or all-capitals exactly when its letters are, a mixed-case or foreign-character word is classified invalid; a word of two or three hyphenated parts is classified by its parts.",
  "all strings up to three parts of any length", "All strings; the automaton has states whose misclassification only shows on particular letter sequences.",
  ["xmorph/capsheme.cpp:capStateMatrix","xmorph/capsheme.cpp:CapScheme::Get"])
p("Words of many parts do not corrupt the result",
  "For every word accepted by the length check the reported length is the word's length and the behaviour is defined, no matter how many delimiters it contains.",
  "all strings shorter than the buffer", "Needs words with five to fifty delimiters, which no natural test corpus has.",
  ["xmorph/capsheme.cpp:CapScheme::Get"])
p("Acceptable capitalisation is monotone",
  "If a word with a given capitalisation is acceptable for a lexeme requiring more capitals, it is acceptable for any lexeme requiring fewer; and the all-capitals spelling of a one- to three-part word is always acceptable.",
  "all scheme values and all requirement levels", "Exhaustive over 2^16 schemes and all words.",
  ["xmorph/capsheme.h:IsGoodSheme"])
p("Restored capitalisation is acceptable and changes only case",
  "Putting a lower-case word into the capitalisation its lexeme requires changes only the case of letters, keeps the length, canonicalises back to the same word, and yields a word acceptable for that lexeme.",
  "all canonical words of one to three parts, all requirement levels", "All words; the property links two independently written tables and an automaton.",
  ["xmorph/capsheme.cpp:CapScheme::Set","xmorph/capsheme.cpp:CapScheme::Get","lang-rus/chartype.cpp"])
p("Ignoring capitals makes the analysis case-blind",
  "With sfIgnoreCapitals two spellings of a word with the same letters in different case give identical CheckWord and Lemmatize results.",
  "all dictionaries, all pairs of words equal up to letter case", "Relational property over pairs of words and all dictionaries.",
  ["lang-rus/libdict/mlmamain.cpp:CheckWord","lang-rus/libdict/mlmamain.cpp:Lemmatize","lang-rus/libdict/scanClass.hpp:MatchClass"])
p("Form identifiers and grammatical descriptions correspond",
  "For every part of speech, converting a proper form identifier to its grammatical description and back gives the identifier again, and different proper identifiers have different descriptions.",
  "all 64 word types and all form identifiers", "A table-driven bijection over every type and identifier.",
  ["lang-rus/libdict/grammap.h:GetGramInfo","lang-rus/libdict/grammap.h:MapWordInfo"])
p("CheckWord accepts exactly the words of the dictionary",
  "CheckWord answers 1 exactly when the word can be split into a dictionary stem, one of its alternations, an inflexion of its class admitted at that alternation, and its postfix, with acceptable capitalisation; otherwise 0.",
  "all compiled dictionaries and all words that fit the buffer", "Equivalence between a pruned search over three compiled tables and the mathematical definition of the language.",
  ["lang-rus/libdict/mlmamain.cpp:CheckWord","lang-rus/libdict/scanClass.hpp:MatchClass","xmorph/scandict.h:Flat::ScanTree"])
p("CheckWord and Lemmatize agree",
  "With no output buffers Lemmatize returns a positive number exactly when CheckWord returns 1, and the number of lexemes is the number of matches found.",
  "all dictionaries, words and settings", "Relational, over all dictionaries.",
  ["lang-rus/libdict/mlmamain.cpp:Lemmatize","lang-rus/libdict/mlmamain.cpp:CheckWord"])
p("Lemmatize stays inside its buffers",
  "Lemmatize never writes outside the lexeme, string and grammar buffers it is given, whatever their sizes, and reports a failure code when one is too small.",
  "all dictionaries, words, and buffer sizes", "All buffer sizes against all result shapes, including merged homonyms at exact-fit boundaries.",
  ["lang-rus/libdict/lemmatize.cpp:Lemmatizer::operator()"])
p("Lemmatize results are well formed",
  "Every lexeme returned points at a terminated string and a grammar slice inside the given buffers; slices of different lexemes do not overlap and the number returned is the number of filled entries.",
  "all dictionaries, words, and buffer sizes", "Structural invariant over all histories of matches.",
  ["lang-rus/libdict/lemmatize.cpp:Lemmatizer::operator()"])
p("BuildForm produces exactly the paradigm's forms",
  "BuildForm returns, in dictionary order, exactly the strings made of the stem, the alternation selected for the requested form, an inflexion listed for that form, and the postfix, in the lexeme's capitalisation; their number is returned; their strings beyond 256 bytes in total, or too small a buffer, yield a failure code and no overrun.",
  "all dictionaries, lexeme ids, form ids and buffer sizes", "All paradigms and all buffer sizes.",
  ["lang-rus/libdict/mlmamain.cpp:BuildForm","lang-rus/libdict/buildform.cpp:FormBuild","xmorph/buildforms.cpp:GetFlexForms"])
p("FindForms produces the forms of every analysis of the word",
  "FindForms concatenates, over the analyses of the word in search order, the forms each matched lexeme has for the requested identifier, with the same failures as BuildForm.",
  "all dictionaries, words, form ids and buffer sizes", "All dictionaries and words.",
  ["lang-rus/libdict/mlmamain.cpp:FindForms","lang-rus/libdict/buildform.cpp:FormBuild"])
p("A built form is recognised",
  "Every string BuildForm produces for a lexeme is accepted by CheckWord.",
  "all dictionaries whose first-letter bounds are sound, all lexemes and form ids", "Synthesis and analysis are separate code paths over the same tables.",
  ["lang-rus/libdict/buildform.cpp:GetWordForms","lang-rus/libdict/scanClass.hpp:MatchClass"])
p("Wildcards have glob meaning",
  "'?' matches exactly one letter and '*' any possibly empty sequence: the matcher reports a string for a stem, alternation, inflexion and postfix exactly when their concatenation matches the pattern.",
  "all patterns, trees and inflexion tables", "Backtracking search over three nested structures; infinitely many patterns.",
  ["xmorph/wildscan.h:Wild::ScanTree","lang-rus/libdict/wildClass.hpp:FlexSearch","lang-rus/libdict/wildClass.hpp:SwapSearch","lang-rus/libdict/wildClass.hpp:ScanSuffix"])
p("FindMatch reports every match once and stays inside its buffers",
  "FindMatch reports each matching form of a lexeme once and does not overrun its internal match arrays.",
  "all patterns and dictionaries", "The arrays are sized for the number of forms, while the search can report a form several times for patterns with asterisks.",
  ["lang-rus/libdict/mlmamain.cpp:FindMatch"])
p("The class table stores each class once and retrievably",
  "Adding a class description returns an offset at which the description can be read back, equal descriptions get equal offsets, and offsets already returned stay valid as the table grows.",
  "all sequences of additions", "Invariant over all histories.",
  ["tools/classtable.h:AddClass"])
p("Class descriptions round-trip",
  "The word-class description written by the compiler is read by the analyser as the same type, inflexion table and alternation table.",
  "all class descriptions the compiler can produce", "All combinations of flags and table offsets.",
  ["lang-rus/libdict/tools/buildic/lresolve.h:morphclass","lang-rus/libdict/mlmadefs.h:steminfo::Load"])
p("First-letter bounds computed by the compiler are sound",
  "For every class, the minimum and maximum first letters the compiler stores for a stem bound the first letter of every alternation-plus-inflexion the stem can take.",
  "all inflexion tables and alternation tables", "All tables, including empty inflexions and empty alternations.",
  ["tools/ftables.h:GetMinMaxChar","lang-rus/libdict/tools/buildic/mtables.cpp:GetMinMaxChar"])
p("Output never exceeds the caller's buffer",
  "Appending strings to an output buffer in the dictionary's own codepage succeeds exactly when the string and its terminator fit, leaves the buffer terminated, and never writes outside it.",
  "all buffers and append sequences", "All sequences of appends at all fill levels.",
  ["xmorph/codepages.hpp:MbcsCoder::append","xmorph/codepages.hpp:ToCodepage","xmorph/buildforms.hpp:Collector"])
p("Suffix prediction finds every known ending of an unknown word",
  "Scanning the reversed-suffix index with an unknown word visits exactly the stored endings that the word ends with.",
  "all patricia indexes and all words", "Compressed-edge tree; partial edge matches at every split point.",
  ["lang-rus/libprob/scandict.hpp:ScanTree","lang-rus/libprob/scandict.hpp:JumpOver"])
p("Predicted paradigms build all variants of a form",
  "For a class of the guesser, building a form returns every inflexion listed for the form id, in order, each appended to the given stem, and reports overflow without overrun.",
  "all class tables, stems, form ids and buffer sizes", "All tables and buffer sizes.",
  ["lang-rus/libprob/buildforms.hpp:Buildform"])
p("English inflexion lookup is exact",
  "For the English analyser the inflexion table scan accepts exactly the inflexions listed in the (sorted) table with a grammatical description passing the filter.",
  "all sorted tables and all inflexions", "Early exit on sorted order; all tables.",
  ["lang-eng/libdict/scanClass.hpp:ScanTables"])
p("API selection by key",
  "Requesting an interface by key gives the documented instance for each listed codepage name in any letter case and fails with EINVAL, clearing the result, for any other key.",
  "all key strings", "All strings and letter cases.",
  ["lang-rus/libdict/mlmamain.cpp:mlmaruGetAPI","lang-rus/libdict/mlmamain.cpp:mlmaruLoadCpAPI"])
p("Character classes are consistent with case tables",
  "Every capital letter has a lower-case image that is a regular letter, lower-casing is idempotent and leaves delimiters unchanged, and upper-casing a dictionary letter gives a capital whose lower-case image is that letter.",
  "all 256 byte values of each language's tables", "Exhaustive over three tables of 256 entries.",
  ["lang-rus/chartype.cpp","lang-eng/chartype.cpp"])
p("Sorted stem lists",
  "However the dictionary source is ordered, the compiler keeps each stem list sorted by its comparison, and loses and invents no record.",
  "all sequences of records", "All histories of insertions.",
  ["tools/buildmorph.h:DictReader","lang-rus/libdict/tools/buildic/makerus.cpp:entry_type"])
p("Inflexion trees answer exactly the table",
  "Looking an inflexion up in a compiled inflexion tree returns exactly the grammatical descriptions of that inflexion that pass the filter, in stored order, and 0 for an inflexion not in the table.",
  "all inflexion tables, inflexions and filters", "All tables, including inflexions that are prefixes of one another.",
  ["lang-rus/libdict/scanClass.hpp:ScanTables","lang-rus/libdict/scanClass.hpp:Grammar::list","tools/plaintable.h:CreateTree"])
p("Normal forms and descriptions of Lemmatize are exact",
  "Lemmatize stores, for every lexeme found and in the order found, the lexeme id, the least dictionary form (infinitive, nominative singular, full masculine adjective; the plural for plural-only words) in the lexeme's capitalisation, and the grammatical descriptions of the inflexion matched; each array too small yields its failure code.",
  "all dictionaries, words, settings and combinations of null and given buffers of any size", "All dictionaries, words, and buffer sizes; merging of readings depends on history.",
  ["lang-rus/libdict/lemmatize.cpp:Lemmatizer::operator()","lang-rus/libdict/buildform.cpp:GetDictForms","lang-rus/libdict/mlmadefs.h:FindDictForm"])
p("A compiled dictionary recognises exactly its sources",
  "After the dictionary articles are compiled, the analyser's spelling check accepts exactly the words that the articles' stems, alternations, endings and postfixes spell, in the capitalisation their type asks for.",
  "all sets of articles and tables the formats can hold, all words", "Composition of the whole compiler and the whole analyser, over all dictionaries and words.",
  ["lang-rus/libdict/tools/buildic/makerus.cpp:ResolveRus","tools/buildmorph.h:buildmorph","tools/plaintable.h:CreatePlainTable","lang-rus/libdict/mlmamain.cpp:CheckWord"])
p("The headword of an article is one of its forms",
  "When the compiler accepts an article, the headword spelled in it is a form of the lexeme it stores.",
  "all articles and tables", "All endings, continuations, alternations and postfixes.",
  ["lang-rus/libdict/tools/buildic/lresolve.cpp:ResolveClassInfo","tools/ftables.h:StripStr","lang-rus/libdict/tools/buildic/mtables.cpp:Find"])
p("Guesses for an unknown word are reported exactly",
  "Lemmatize of the guesser reports the acceptable guesses grouped by stem and class: their number, the stems in order of decreasing weight, each with its normal form and the descriptions of its readings; if an array is too small it returns a negative code and does not touch the array of stems.",
  "all guesser arrays, words, settings, capitalisations and combinations of null and given buffers of any size", "All indexes, words and buffer sizes; grouping depends on the history of the scan.",
  ["lang-rus/libprob/lemmatizer.hpp:Lemmatizer::operator()","lang-rus/libprob/mlfamain.cpp:Lemmatize"])
p("The guesser guesses exactly the classes a word looks like",
  "After compilation of class descriptions, a word is guessed to belong to a class in a form exactly if it ends with the suffix of one of the class's models followed by an inflexion of that form.",
  "all sets of class descriptions and all words", "Composition of the index compiler and the scanner, over all sources and words.",
  ["lang-rus/libprob/tools/compile-dict.cpp","lang-rus/libprob/scandict.hpp:ScanTree"])
p("A guess gives the word back",
  "For every stem, class and form that Lemmatize of the guesser reports for a word, BuildForm of that stem, class and form returns a list that contains the word itself.",
  "all class descriptions and all words", "Relates two API functions over all sources and words.",
  ["lang-rus/libprob/mlfamain.cpp:BuildForm","lang-rus/libprob/mlfamain.cpp:Lemmatize","lang-rus/libprob/buildforms.hpp:Buildform"])
p("Samples of a class",
  "GetModels writes as many sample words of a class as fit the array, in order, each terminated, leaves the rest of the array alone and returns their number, -1 if not even the first fits, and the argument error for an unknown class; GetWdInfo gives the class's part of speech.",
  "all class tables, class numbers and buffer sizes", "All tables and buffer sizes.",
  ["lang-rus/libprob/mlfamain.cpp:GetModels","lang-rus/libprob/mlfamain.cpp:GetWdInfo"])
p("English spelling check is exact",
  "The English analyser's spelling check accepts exactly the words that the dictionary's stems, endings and postfixes spell in the capitalisation their type asks for; with capitals ignored the answer does not depend on case; a null or empty word gives 0 and one of 48 bytes or more the word-too-long code.",
  "all dictionaries, words and settings", "All dictionaries and words.",
  ["lang-eng/libdict/mlmamain.cpp:CheckWord","lang-eng/libdict/scanClass.hpp:ScanTables","lang-eng/libdict/mlmadefs.h"])
p("English part of speech and forms by lexeme id",
  "For every lexeme id in the dictionary, GetWdInfo gives its part of speech and BuildForm exactly the requested forms (stem, ending, postfix, in the lexeme's capitalisation); an unknown id gives 0; a missing or empty buffer the argument error; a buffer too small a negative code.",
  "all dictionaries, lexeme ids, form ids and buffer sizes", "All dictionaries, ids and buffer sizes.",
  ["lang-eng/libdict/mlmamain.cpp:GetWdInfo","lang-eng/libdict/mlmamain.cpp:BuildForm","lang-eng/libdict/buildform.cpp"])
p("English forms of a word's lexemes are exact",
  "FindForms of the English analyser returns exactly the requested forms of each lexeme the given word is a form of, in the order the readings are found.",
  "all dictionaries, words, form ids, settings and buffer sizes", "All dictionaries, words and buffer sizes.",
  ["lang-eng/libdict/mlmamain.cpp:FindForms","lang-eng/libdict/buildform.cpp"])
p("English built forms are recognised",
  "Every form that BuildForm of the English analyser returns is accepted by its spelling check.",
  "all dictionaries, lexeme ids and form ids", "Relates two API functions over all dictionaries.",
  ["lang-eng/libdict/mlmamain.cpp:BuildForm","lang-eng/libdict/mlmamain.cpp:CheckWord","lang-eng/libdict/buildform.cpp"])
p("English Lemmatize is exact",
  "Lemmatize of the English analyser stores, for every lexeme found and in the order found, the lexeme id, its dictionary form in the lexeme's capitalisation and the descriptions of the ending matched; it returns the number of lexemes, and each array too small yields its failure code; FindForms and Lemmatize agree on the lexemes.",
  "all dictionaries, words, settings and combinations of null and given buffers of any size", "All dictionaries, words and buffer sizes; merging of readings depends on history.",
  ["lang-eng/libdict/lemmatize.cpp:Lemmatizer::operator()","lang-eng/libdict/mlmamain.cpp:Lemmatize","lang-eng/libdict/buildform.cpp:GetDictForms"])
p("A compiled English dictionary recognises exactly its sources",
  "After the English compiler has read source files made of well-formed articles, comments and empty lines, the spelling check on the compiled arrays accepts exactly the spellings that some article gives (beginning, one of its endings, postfix; letter case folded; capitals as the article is written), whatever the order of the articles and whatever stands between them.",
  "all source files, words and settings", "All dictionaries: unit tests see one dictionary and a few words.",
  ["lang-eng/libdict/buildic/makeeng.cpp:ResolveEng","lang-eng/libdict/buildic/flexbox.h:CFlexBox","tools/buildmorph.h:DictReader","lang-eng/libdict/mlmamain.cpp:CheckWord"])
p("Forms by id are those of the English article",
  "On the compiled arrays BuildForm of an article's lexeme id gives the alternatives the article lists for the requested form, in alphabetical order of endings and in the article's capitalisation, GetWdInfo its part of speech, an id no article has gives 0, and every form built is accepted by the spelling check.",
  "all source files, articles, form ids and buffer sizes", "All dictionaries, ids and buffer sizes.",
  ["lang-eng/libdict/buildic/makeeng.cpp:ResolveEng","lang-eng/libdict/buildic/flexbox.h:CFlexBox::AddInflex","lang-eng/libdict/mlmamain.cpp:BuildForm","lang-eng/libdict/mlmamain.cpp:GetWdInfo"])
p("The English compiler survives bad lines",
  "Whatever a line of the source files contains, the compiler either compiles it, ignores it or refuses it with an error; it never reads or writes outside its arrays and never compiles an article into another word.",
  "all lines of text", "All inputs.",
  ["lang-eng/libdict/buildic/makeeng.cpp:ResolveEng","tools/buildmorph.h:DictReader"])
p("English search by pattern is exact",
  "FindMatch of the English analyser calls the collector with exactly the forms, lexeme ids and form numbers whose spelling the pattern describes ('?' one letter, '*' any letters, letter case folded), every match of a lexeme once, and returns the collector's answer; without a pattern or with one of 48 bytes or more it calls nothing.",
  "all dictionaries (also all compiled source files), patterns and collectors", "All dictionaries and patterns: recursion over the tree, tables and postfixes with a shared array.",
  ["lang-eng/libdict/mlmamain.cpp:FindMatch","lang-eng/libdict/wildClass.hpp:MatchModel","xmorph/wildscan.h:ScanTree"])
p("The C++ wrappers return exactly the strings of the interface",
  "BuildForm and FindForms of the C++ classes return a vector of exactly the forms the interface has to deliver, in order, whatever the local array held before, when they fit its 256 bytes; GetModels as many samples as fit 1024 bytes; GetWdInfo the part of speech, 0 for an unknown lexeme or class; an unknown lexeme gives an empty vector.",
  "all dictionaries, words, lexeme ids, classes, form ids and contents of the uninitialised arrays", "All dictionaries and all previous contents of uninitialised memory.",
  ["api.hpp:BuildForm","api.hpp:FindForms","api.hpp:GetModels","api.hpp:GetWdInfo"])
p("The C++ wrappers return self-contained lexemes",
  "Lemmatize of the C++ classes returns one object per lexeme (or guess) with its identifier, normal form and descriptions, all owned by the object - no pointer into the function's local arrays survives, also after the vector has moved its elements - and throws if the local arrays are too small or the word too long; a guess passed back to BuildForm with a form it describes yields the word again.",
  "all dictionaries, class tables, words, settings, contents of the uninitialised arrays and growth policies of the vector", "Dangling pointers show only for some histories of memory; all dictionaries and words.",
  ["api.hpp:Lemmatize","api.hpp:lexeme","api.hpp:BuildForm"])
p("Handles balance their references",
  "Whatever sequence of constructions, copies, assignments and destructions of Morpho handles is executed, every interface is attached as often as it is detached plus once for each handle holding it; no interface is used after it freed itself, and none survives its last holder.",
  "all sequences of operations on any number of handles and interfaces", "Quantifies over all histories.",
  ["api.hpp:Morpho","api.hpp:Morpho::Assign","lang-ukr/libdict/mlmamain.cpp:CMlmaCp::Detach"])
p("The spelling check does not depend on the code page",
  "CheckWord of the instances for other code pages (UTF-8, KOI8-R, ...) answers for a word exactly what the windows-1251 instance answers for the same text, whatever number of bytes the word has in the code page; a text too long for the analyser is refused with WORDBUFF_FAILED, no text is no word.",
  "all code pages that write texts without loss, dictionaries, words and settings", "All dictionaries and words in all code pages.",
  ["lang-rus/libdict/mlmamain.cpp:CMlmaMb","lang-rus/libdict/mlmamain.cpp:ToCanonic","xmorph/codepages.hpp"])
p("Forms in other code pages",
  "BuildForm and FindForms of the instances for other code pages write exactly the forms of the windows-1251 instance, in order, each in the code page with its terminator, if they fit the buffer in that code page, and report LEMMBUFF_FAILED without leaving the buffer otherwise; forms written are recognised by the same instance.",
  "all code pages, dictionaries, lexemes, words, form ids, buffer sizes", "All buffer sizes and code pages: off-by-one errors of the output coder show only at exact boundaries.",
  ["lang-rus/libdict/mlmamain.cpp:BuildForm","lang-rus/libdict/mlmamain.cpp:FindForms","xmorph/codepages.hpp:MbcsCoder","lang-rus/libdict/buildform.cpp"])
p("Lemmas in other code pages",
  "Lemmatize of the instances for other code pages stores the lexemes of the text as the windows-1251 instance does, with the normal forms in the code page, the pointers of the lexemes at their beginnings, and reports a failure code when an array is too small.",
  "all code pages, dictionaries, words, settings and combinations of null and given buffers of any size", "All dictionaries, words, buffer sizes and code pages.",
  ["lang-rus/libdict/mlmamain.cpp:Lemmatize","lang-rus/libdict/lemmatize.cpp:Lemmatizer","xmorph/codepages.hpp:MbcsCoder"])
p("Search by pattern in other code pages",
  "FindMatch of the instances for other code pages delivers exactly the matches of the windows-1251 instance for the same pattern, the strings in the code page.",
  "all code pages, dictionaries, patterns and collectors", "All dictionaries, patterns and code pages.",
  ["lang-rus/libdict/mlmamain.cpp:FindMatch","xmorph/codepages.hpp:ToCodepage","xmorph/wildscan.h:ScanTree"])
p("The spelling check in wide characters",
  "CheckWord of the wide-character interface answers for a word exactly what the narrow one answers for the same text, in Russian and in English; no text is no word and a text too long is refused with WORDBUFF_FAILED.",
  "all dictionaries, wide words (counted or terminated), settings and contents of the local arrays", "All words and all previous stack contents.",
  ["xmorph/mlmawide.hpp:CheckWord","lang-rus/libdict/mlmamain.cpp:mlma1251","lang-eng/libdict/mlmamain.cpp"])
p("Forms in wide characters",
  "BuildForm and FindForms of the wide-character interface write exactly the forms of the narrow one, in order, as wide strings with their terminators, and nothing behind them; if they do not fit, LEMMBUFF_FAILED is returned and the buffer is as it was. Forms written are recognised by the wide CheckWord.",
  "all dictionaries, lexemes, words, form ids and buffer sizes", "Boundaries of two buffers, the caller's and the local one, at all sizes.",
  ["xmorph/mlmawide.hpp:BuildForm","xmorph/mlmawide.hpp:FindForms"])
p("Lemmas in wide characters",
  "Lemmatize of the wide-character interface stores the lexemes of the text as the narrow one does, the normal forms as wide strings at the positions the lexemes point to; with arrays too small it returns a failure code and leaves the lexemes and normal forms of the caller as they were.",
  "all dictionaries, words, settings and combinations of null and given buffers of any size", "All dictionaries, words and buffer sizes.",
  ["xmorph/mlmawide.hpp:Lemmatize"])
p("Search by pattern in wide characters",
  "FindMatch of the wide-character interface makes the same calls of the collector as the narrow one for the same pattern, the strings made wide, and never overruns its string buffer unless the narrow search overruns its own.",
  "all dictionaries, patterns, collectors", "All dictionaries and patterns, histories of collectors.",
  ["xmorph/mlmawide.hpp:FindMatch","xmorph/mlmawide.hpp:WcMatch::AddLexeme"])
p("Forms by id from compiled Russian sources",
  "A Russian dictionary compiled from its sources answers by lexeme id what the sources say: BuildForm delivers exactly the forms with the number asked for (stem, alternation of the level, ending, postfix, in the lexeme's capitalisation), each once; GetWdInfo the part of speech; unknown ids have neither; what is built is recognised.",
  "all inflexion and alternation tables, lists of lexemes, ids, form numbers and buffer sizes", "All sources: tables reference each other to any depth, and stems, classes and ids interact through four compiled arrays.",
  ["lang-rus/libdict/tools/buildic/lresolve.cpp","lang-rus/libdict/tools/buildic/makerus.cpp","lang-rus/libdict/mlmamain.cpp:BuildForm","lang-rus/libdict/mlmamain.cpp:GetWdInfo"])
p("Analyses from compiled Russian sources",
  "A Russian dictionary compiled from its sources analyses a word as the sources say: Lemmatize reports lexemes of the sources that have a form spelled so, with the least dictionary form as normal form and the descriptions given by the tables, and FindForms their forms with the number asked for; no such lexeme is missing.",
  "all inflexion and alternation tables, lists of lexemes, words, settings, buffers", "All sources and all words.",
  ["lang-rus/libdict/tools/buildic/lresolve.cpp","lang-rus/libdict/tools/buildic/makerus.cpp","lang-rus/libdict/lemmatize.cpp:Lemmatizer","lang-rus/libdict/mlmamain.cpp:FindForms"])
p("Search by pattern in compiled Russian sources",
  "FindMatch on a Russian dictionary compiled from its sources delivers forms of the sources' lexemes described by the pattern, with their numbers, and every such form.",
  "all inflexion and alternation tables, lists of lexemes, patterns, collectors", "All sources and all patterns.",
  ["lang-rus/libdict/tools/buildic/makerus.cpp","lang-rus/libdict/wildClass.hpp","xmorph/wildscan.h:ScanTree"])
p("Forms of guessed words in every language and code page",
  "BuildForm of the Russian and English guessers, in every code page, writes the stem (in small letters) with each inflexion listed for the form asked for, in the order of the list, in the code page and in the capitalisation of the part of speech (Russian only), each terminated, and returns their number; if they do not fit it returns LEMMBUFF_FAILED without writing outside the buffer. No buffer or an unknown class is an argument error.",
  "both languages, all code pages, class tables, stems, form ids, buffer sizes and previous stack contents", "All tables, texts and buffer sizes in each of twelve instances.",
  ["lang-rus/libprob/buildforms.hpp","lang-eng/libprob/buildforms.hpp","lang-rus/libprob/mlfamain.cpp:BuildForm","lang-eng/libprob/mlfamain.cpp:BuildForm","xmorph/codepages.hpp:MbcsCoder"])
p("Guessing unknown words in every language and code page",
  "Lemmatize of the Russian and English guessers, in every code page, reports exactly the classes whose endings the word has and whose capitalisation it suits, grouped by stem and class, sorted by decreasing weight, with normal forms in the code page and descriptions; with too little room it returns a failure code and leaves the array of stems as it was.",
  "both languages, all code pages, class tables, indexes, words, settings, buffers and previous stack contents", "All dictionaries, words and buffer sizes in each of twelve instances.",
  ["lang-rus/libprob/lemmatizer.hpp","lang-eng/libprob/lemmatizer.hpp","lang-rus/libprob/mlfamain.cpp:Lemmatize","lang-eng/libprob/mlfamain.cpp:Lemmatize","lang-eng/libprob/class/pspfid.cpp"])
p("Samples of guessed classes in every code page",
  "GetModels of the guessers writes as many samples of the class as fit, in the code page, each terminated, returns their number and leaves the rest of the buffer alone; if none fits it returns LEMMBUFF_FAILED; an unknown class is an argument error.",
  "all code pages, class tables and buffer sizes", "Boundaries at every buffer size and every list of samples.",
  ["lang-rus/libprob/mlfamain.cpp:GetModels","lang-eng/libprob/mlfamain.cpp:GetModels"])
p("The guessed class gives the word back in every code page",
  "Cutting the word off at the stem length reported by Lemmatize (normal forms being asked for), in the units of the caller's code page, and building the reported form of the reported class from it yields a list that contains the word itself, for arrays compiled from class descriptions of either language.",
  "both languages, all code pages, class descriptions, words of at most 49 characters", "Relates two calls over all sources and words; lengths in bytes and characters differ in UTF-8.",
  ["lang-rus/libprob/lemmatizer.hpp:operator int","lang-rus/libprob/buildforms.hpp","lang-eng/libprob/lemmatizer.hpp:operator int","lang-eng/libprob/buildforms.hpp"])
p("Compiled guessers of both languages",
  "The arrays the compilers make of Russian or English class descriptions are valid for the guesser of the language, which guesses for a word exactly the classes with a model and an inflexion whose suffix and string the word ends with.",
  "both languages, all class descriptions, words", "All sources and words.",
  ["lang-rus/libprob/tools/compile-dict.cpp","lang-eng/libprob/tools/compile-dict.cpp"])
p("Forms of guessed words in wide characters",
  "BuildForm of the wide-character guessers of both languages writes exactly the forms of the narrow one, in order, as wide strings each terminated, and nothing behind them; if they do not fit, LEMMBUFF_FAILED is returned and the buffer is as it was. Built from the stem, class and form that Lemmatize reports, the list contains the word.",
  "both languages, all class tables, stems (counted or terminated), form ids, buffer sizes and previous stack contents", "Boundaries of two buffers, the caller's and the local one, at all sizes.",
  ["xmorph/mlfawide.hpp:BuildForm"])
p("Guessing unknown words in wide characters",
  "Lemmatize of the wide-character guessers reports the same stems, classes, weights and descriptions as the narrow one for the same text, the normal forms as wide strings at the positions the stems point to; with arrays too small it returns a failure code and leaves the stems and normal forms of the caller as they were.",
  "both languages, all class tables, indexes, words, settings and combinations of null and given buffers of any size", "All dictionaries, words and buffer sizes.",
  ["xmorph/mlfawide.hpp:Lemmatize"])
p("Samples of guessed classes in wide characters",
  "GetModels of the wide-character guessers writes as many samples of the class as fit, as wide strings each terminated, returns their number and leaves the rest of the buffer alone; GetWdInfo reports the part of speech; an unknown class is an argument error.",
  "all class tables and buffer sizes", "Boundaries at every buffer size and every list of samples.",
  ["xmorph/mlfawide.hpp:GetModels","xmorph/mlfawide.hpp:GetWdInfo"])
p("Articles of the Russian dictionary are read exactly",
  "The line of a dictionary article (headword, mark, type, index, notes in any number and order, lexeme id, separated by any blanks) yields exactly the lexemes the article means: the stem of the headword, its type with the attributes noted, its inflexion and alternation tables, its postfix and id; an index of two variants a//b yields both. An article without meaning is reported, comments are reported, other lines ignored.",
  "all tables and their names, all articles and ways to write them", "All texts: field lengths, blanks, notes and marks combine freely.",
  ["lang-rus/libdict/tools/buildic/makerus.cpp:BuildStems","lang-rus/libdict/tools/buildic/lresolve.cpp:ResolveClassInfo","tools/buildmorph.h:DictReader"])
p("Russian dictionary files are compiled as the articles they contain",
  "Compiling files gives the arrays that compiling the lexemes of their articles gives, in the order of the files and lines, whatever comments, blank and unknown lines are between them; every lexeme compiled is meant by an article and every article's lexemes are compiled.",
  "all lists of files of lines up to 1022 characters", "All files; boundaries of the line buffer.",
  ["tools/buildmorph.h:CreateDict","tools/buildmorph.h:DictReader","lang-rus/libdict/tools/buildic/makerus.cpp:Run"])
p("From the text of the Russian dictionary to recognised words",
  "A word is accepted by CheckWord of a Russian dictionary compiled from text if and only if it is, in acceptable capitalisation, a form of a word that one of the articles means.",
  "all files, articles, tables, words, settings and previous stack contents", "Composition of text, compiler and analyser over all dictionaries and words.",
  ["lang-rus/libdict/tools/buildic/makerus.cpp","lang-rus/libdict/tools/buildic/lresolve.cpp","lang-rus/libdict/mlmamain.cpp:CheckWord"])
p("The stem of a headword",
  "The stem of a word that changes is found by taking off the first ending of the normal form (for verbs the infinitive, then reflexive elements), continued through linked tables, that the word has, and then the first alternation whose string and condition the rest satisfies; a word without such an ending is refused unless its index has a colon, and an explicit mark of the end of the stem is followed.",
  "all tables with links of any depth, alternation lists, words, remarks and types", "All tables and words; recursion through linked tables.",
  ["tools/ftables.h:StripStr","lang-rus/libdict/tools/buildic/mtables.cpp:Find","lang-rus/libdict/tools/buildic/lresolve.cpp:ResolveClassInfo"])
p("Headwords of the Russian dictionary are recognised",
  "CheckWord of a Russian dictionary compiled from text accepts the headword of every article that was given a stem by the search, in every acceptable capitalisation.",
  "all files, articles of changing words and tables", "Composition of the search for stems, compiler and analyser over all dictionaries.",
  ["lang-rus/libdict/tools/buildic/lresolve.cpp","tools/ftables.h","lang-rus/libdict/mlmamain.cpp:CheckWord"])
p("Inflexion tables are compiled as their text defines them",
  "tfc turns a text of inflexion tables (files with includes, comments, names separated by commas, elements with descriptions and links) into a binary table set in which every defined name, and no other, has a table with exactly the elements of its definition, each link being the offset of the table named, so that the endings and descriptions readable from the bytes are exactly those the text tells.",
  "all texts that define tables, in any files, order and layout, that fit the format", "All texts, nesting of includes and links between tables.",
  ["utils/tfc/tfc.cpp:Compile","utils/tfc/ftable.cpp","utils/tfc/ftable.h","tools/sourcefile.h"])
p("tfc accepts only well-formed tables without dangling links",
  "If tfc succeeds then the text is well-formed (every line is a command, a brace, a description or an element of known tokens; every table has a brace and an element), every table referred to is defined, and the result means exactly the text; a text with a link to an undefined table is refused.",
  "all files of lines up to 4095 characters", "All texts, including the malformed ones.",
  ["utils/tfc/tfc.cpp:MakeTab","utils/tfc/tfc.cpp:MapLine","utils/tfc/ftable.cpp:RelocateReferences"])
p("Order of lines and sharing of equal tables",
  "The order and repetition of the lines of a table do not change the compiled bytes; two names share one table if and only if their definitions have the same elements.",
  "all texts that are compiled", "All permutations, all pairs of tables.",
  ["utils/tfc/ftable.h:ftable::Insert","utils/tfc/ftable.cpp:fxlist::Insert"])
p("A name defined twice",
  "A second definition of a table name is reported.",
  "all texts", "All positions of the second definition.",
  ["utils/tfc/ftable.cpp:fxlist::Insert"])
p("Size of inflexion tables",
  "A table that does not fit the one-byte element count is refused.",
  "all texts", "Sizes beyond any shipped table.",
  ["utils/tfc/ftable.h:ftable::Serialize"])
p("Grammatical descriptions in table sources",
  "A list of description tokens changes the description as the tokens say (case, number, gender, tense, person, verb form, comparison, short form, reflexivity, animacy and marks), in order; it is refused exactly if a token is unknown; every token can be used in an element.",
  "all strings and descriptions so far", "All sequences of tokens.",
  ["utils/tfc/gramap.cpp:MapInfo","utils/tfc/gramap.cpp:InitRus"])
p("Alternation tables are compiled as their text defines them",
  "makeich turns a text of alternation tables (files with includes, comments, names separated by commas, lines of a condition and two or more alternating strings, two apostrophes for the empty one) into bytes and an index in which every name has references to exactly the alternations of its definitions, in order, with their conditions; on each of the three levels the stored alternation has exactly the string the line gives for it, a level that is not given being like the first.",
  "all texts that define alternations, in any files, order and layout, that fit the format, whose definitions have equal or disjoint names", "All texts, nesting of includes and sharing of strings between lines.",
  ["lang-rus/libdict/tools/makeich/makeich.cpp","lang-rus/libdict/tools/makeich/mtable.h"])
p("makeich accepts only well-formed alternations",
  "If makeich succeeds then the text is well-formed (every line is a command, a brace, or a condition with at least two strings) and the result means the text, names that share definitions (directly or through others) sharing all of their alternations.",
  "all files of lines up to 4095 characters", "All texts, including the malformed and inconsistent ones.",
  ["lang-rus/libdict/tools/makeich/makeich.cpp:MakeTab","lang-rus/libdict/tools/makeich/mtable.h:set_conditions"])
p("Inconsistent or oversized alternations",
  "A name has only the alternations of the definitions that mention it; a string that does not fit the four-bit length is refused.",
  "all texts", "All combinations of names over the definitions; sizes beyond any shipped table.",
  ["lang-rus/libdict/tools/makeich/mtable.h:set_conditions","lang-rus/libdict/tools/makeich/mtable.h:interchange::Serialize"])
p("Texts of tables and alternations compile together",
  "If texts define inflexion tables and alternations that fit the format, all links being defined, endings being words of one alphabet with at most 64 descriptions each, alternations having letters, then both table compilers succeed, and what they write means what the texts say and is what the dictionary compiler needs.",
  "all texts that satisfy the conditions", "All texts, in any files and layout.",
  ["utils/tfc","lang-rus/libdict/tools/makeich","lang-rus/libdict/tools/buildic"])
p("Words of a dictionary built from texts",
  "After building a dictionary from three texts (inflexion tables, alternations, articles), CheckWord accepts a spelling if and only if the texts tell of it: some article gives a word whose stem, changing part (ending of its table, with the string of its alternation for that form) and postfix make up the spelling, in acceptable capitalisation.",
  "all texts, all spellings, all options", "All dictionaries and words: the whole chain from the sources a linguist edits to the answer of the API.",
  ["utils/tfc","lang-rus/libdict/tools/makeich","lang-rus/libdict/mlmamain.cpp","lang-rus/libdict/tools/buildic/lresolve.cpp","lang-rus/libdict/mlmamain.cpp:CMlmaMb::CheckWord"])
p("Headwords of a dictionary built from texts",
  "The headword of every article that has a table is recognised by the dictionary built from the texts, in any acceptable capitalisation.",
  "all texts and articles", "All dictionaries: an editor of the sources expects every headword to be found.",
  ["lang-rus/libdict/tools/buildic/lresolve.cpp","lang-rus/libdict/mlmamain.cpp:CMlmaMb::CheckWord"])
p("Python: constructors select the dictionary of the code page",
  "The constructors of pyrusmorph give an object over the dictionary (or guesser) of the named code page, in any letter case, and raise an exception for a name that is not documented; those of pyengmorph always give an object; an object of a narrow class works with a narrow dictionary.",
  "all byte strings as code page names, both languages, dictionary and guesser", "All names.",
  ["pybind11/morph-pad.hpp","pyrusmorph/rus.cpp","pyengmorph/eng.cpp"])
p("Python: lemmatize",
  "lemmatize of an object in any code page, or wide, returns one element per lexeme of the word, in order, with its number, its normal form in the code page unless SF_NO_LEMMA_STRING, and the descriptions of the word unless SF_NO_GRAMMAR_DATA; capitals matter unless SF_IGNORE_CAPITALS; an empty list means that the word is unknown.",
  "all dictionaries, words, code pages, settings", "All dictionaries and words; contents of uninitialised local arrays.",
  ["pybind11/morph-pad.hpp:lemmatize","lang-rus/libdict/mlmamain.cpp:CMlmaMb::Lemmatize","xmorph/mlmawide.hpp"])
p("Python: check_word, build_form, part_of_sp",
  "check_word returns 1 exactly for the words of the dictionary, build_form the list of the spellings of a form of a lexeme, part_of_sp its part of speech, in any code page and wide; unknown lexemes give an empty list and 0.",
  "all dictionaries, words, lexemes, forms, code pages, settings", "All dictionaries and arguments.",
  ["pybind11/morph-pad.hpp:build_form","pybind11/morph-pad.hpp:check_word","pybind11/morph-pad.hpp:part_of_sp"])
p("Python: find_match and its callback",
  "find_match calls the function with the matches of the pattern, lexeme by lexeme, each match giving the text of a form and its number, until the function returns something other than 0; the value returned is the last result; matches can be kept; exceptions of the function reach the caller.",
  "all dictionaries, patterns, callback functions (with state, results of any kind, exceptions)", "All histories of callback results.",
  ["pybind11/morph-pad.hpp:find_match","lang-rus/libdict/mlmamain.cpp:CMlmaMb::FindMatch","pyrusmorph/rus.cpp"])
p("Python: the attribute lemma can be read",
  "The attribute lemma of an element is the text of the normal form, whatever the code page of the object.",
  "all texts and code pages", "All texts.",
  ["pyrusmorph/rus.cpp","pybind11/morph-pad.hpp:XxLemmInfo"])
p("Python: the guessers",
  "lemmatize of a guesser returns the guesses for the word by decreasing weight, each with stem length, class, weight, normal form and descriptions as the settings ask; build_form returns the stem with every inflexion of the form.",
  "all guessers, words, code pages, settings", "All guessers and words; all orders equal weights may take.",
  ["pybind11/morph-pad.hpp:FuzzyAPI","lang-rus/libprob","lang-eng/libprob","xmorph/mlfawide.hpp"])
p("From texts to forms by number",
  "On a dictionary built from texts of tables, alternations and articles, the lexeme id is the number written in the article: BuildForm gives, once each, exactly the forms the texts tell of for a form number, in the word's capitalisation, GetWdInfo its type, both nothing for numbers of no article; the forms built are recognised.",
  "all texts, articles, form numbers, buffers", "All texts: the chain goes through three compilers and the run time.",
  ["utils/tfc/tfc.cpp","lang-rus/libdict/tools/makeich/makeich.cpp","lang-rus/libdict/tools/buildic/makerus.cpp","lang-rus/libdict/mlmamain.cpp:CMlmaMb::BuildForm","lang-rus/libdict/mlmamain.cpp:CMlmaMb::GetWdInfo"])
p("From texts to lemmas",
  "On a dictionary built from texts, FindForms delivers the forms of the words spelled like its argument, Lemmatize the numbers of the articles, the normal forms and the descriptions which the texts tell of, and no word is missing.",
  "all texts, words, settings, arrays", "All texts and words.",
  ["utils/tfc/tfc.cpp","lang-rus/libdict/tools/makeich/makeich.cpp","lang-rus/libdict/tools/buildic/makerus.cpp","lang-rus/libdict/mlmamain.cpp:CMlmaMb::Lemmatize","lang-rus/libdict/mlmamain.cpp:CMlmaMb::FindForms"])
p("From texts to matches",
  "On a dictionary built from texts, FindMatch delivers exactly the forms told by the texts that match the pattern, with the number of the article and of the form.",
  "all texts, patterns, callbacks", "All texts and patterns.",
  ["lang-rus/libdict/tools/buildic/makerus.cpp","lang-rus/libdict/mlmamain.cpp:CMlmaMb::FindMatch"])
p("Generated sources are C++ that defines the array",
  "The file that the compilers write for an object is C++ source that defines one array of unsigned char, with the name and in the namespace asked for, and exactly the serialized bytes, however the object hands them over; a file that cannot be created is reported by an exception.",
  "all contents, names, namespaces, headers, folders, ways to cut the serialization", "All contents of all sizes, all cuttings.",
  ["tools/dumppage.h:BinaryDumper"])
p("Command lines in order",
  "makerus and makeeng accept exactly the command lines whose switches are known, given as -key=value or -key:value, and not repeated once they have a value; otherwise, and if tables or dictionaries are not named or missing, they fail and write no array. compile-dict refuses unknown switches and third files.",
  "all command lines, file systems", "All sequences of arguments.",
  ["lang-rus/libdict/tools/buildic/makerus.cpp","lang-eng/libdict/buildic/makeeng.cpp","lang-rus/libprob/tools/compile-dict.cpp"])
p("makerus writes what it compiled",
  "A successful run of makerus writes, in the folder and namespace of its options, six files that define the six arrays compiled from the tables and dictionaries named, and the file of lines not understood if one is asked for, and nothing else; a run that fails writes no array.",
  "all command lines, tables, dictionaries, file systems", "All inputs and file systems.",
  ["lang-rus/libdict/tools/buildic/makerus.cpp","tools/buildmorph.h","tools/dumppage.h"])
p("makeeng writes what it compiled",
  "A successful run of makeeng writes, in the folder and namespace of its options, four files that define the four arrays compiled from the dictionaries named, and the file of comments if one is asked for, and nothing else; a run that fails writes no array.",
  "all command lines, dictionaries, file systems", "All inputs and file systems.",
  ["lang-eng/libdict/buildic/makeeng.cpp","tools/buildmorph.h","tools/dumppage.h"])
p("compile-dict writes the arrays of the guesser",
  "compile-dict writes one file that defines the number of classes, their offsets, the class tables and the reverse dictionary of the classes in its source, in the namespace asked for; it writes nothing when it refuses its arguments or its source.",
  "all command lines, sources, orders of the sort", "All sources.",
  ["lang-rus/libprob/tools/compile-dict.cpp","tools/dumppage.h"])
p("Free lexeme ids are listed",
  "get-holes prints the least and the greatest lexeme id of a dictionary and exactly the gaps between them, in order, and reports every id that is used again.",
  "all dictionaries (lines of at most 1022 characters), all sets of ids", "All sets of ids of all sizes.",
  ["utils/get-holes.cpp"])
p("The check of a dump reports the differences",
  "The comparison of two dumps ends; its report is an edit script between their lines, is empty exactly if they are equal, and names exactly the lines that only one has.",
  "all lists of lines, all sources of them", "All pairs of lists of all lengths; termination.",
  ["lang-rus/dicdump/dicdump.cpp:DumpDiff","lang-rus/dicdump/dicdump.cpp:LoadList"])
p("The dump has a line for each lexeme with forms",
  "dicdump build prints a line for each lexeme id up to 0x3ffff that has forms, in ascending order: the id, and for each form id the first form, all but the first without their longest common beginning; nothing is left out and no buffer overflows.",
  "all dictionaries with forms of at most 251 characters, all form ids, all contents of the buffers", "All dictionaries.",
  ["lang-rus/dicdump/dicdump.cpp:Libmorphrus","lang-rus/libdict/mlmamain.cpp:CMlmaMb::BuildForm"])
p("A dump checked against its dictionary",
  "A dump checked against the dictionary it was made of gives an empty report; checked against a dictionary with other forms it does not; any file of ascending ids is checked to the end.",
  "all dictionaries, all files without byte 0", "All dictionaries and files.",
  ["lang-rus/dicdump/dicdump.cpp:DumpedQueue","lang-rus/dicdump/dicdump.cpp:DumpDiff"])
p("The program lemmatize prints JSON of the lexemes",
  "What utils/lemmatize prints for a word is JSON: the list of its lexemes with normal form, lexeme id, part of speech and form ids, in the code page of the object, capitals ignored; it is empty if the word is unknown or its lexemes do not fit the program's arrays.",
  "all dictionaries, code pages and words, all contents of the local arrays", "All dictionaries and words; the whole output text.",
  ["utils/lemmatize.cpp:Lemmatize","api.hpp:inword","lang-rus/libdict/mlmamain.cpp:CMlmaMb::Lemmatize","lang-eng/libdict/mlmamain.cpp"])
p("The command line of lemmatize and stematize",
  "With library, function and word the function of the library is asked for the code page named behind a colon, for UTF-8 without one, and the word is looked up in that; missing arguments, libraries, functions and code pages are reported.",
  "all command lines, loaders, names of code pages", "All argument strings.",
  ["utils/lemmatize.cpp:main","utils/stematize.cpp:main","lang-rus/libdict/mlmamain.cpp:mlmaruGetAPI"])
p("The words of a text counted for the guessers",
  "make-psp-tab looks up exactly the words of its text: what is between characters that are neither letters nor hyphens (English: nor apostrophes), without hyphens in front, if it has more than three characters; the loop over a line always ends.",
  "all lines", "All byte strings; termination.",
  ["lang-rus/libprob/tools/make-psp-tab.cpp:Accumulate","lang-eng/libprob/tools/make-psp-tab.cpp:Accumulate"])
p("The shares of parts of speech and forms",
  "The table of make-psp-tab gives each part of speech its share of the words counted, a word of several lexemes being shared equally among them, and each form its share of the lexemes of its part of speech; the shares are not negative and sum up to one.",
  "all texts (lines below 16383 bytes), all dictionaries", "All texts and dictionaries.",
  ["lang-rus/libprob/tools/make-psp-tab.cpp:Accumulate","lang-rus/libprob/tools/make-psp-tab.cpp:main","lang-eng/libprob/tools/make-psp-tab.cpp"])
p("The program stematize prints JSON of the guesses, the best first",
  "What utils/stematize prints for a word is JSON: the list of the guesses for it, heaviest first, with normal form in the code page, weight, class, part of speech and form ids, capitals ignored; it is empty if there is no guess or the guesses do not fit the program's arrays.",
  "all guessing dictionaries, languages, code pages and words, all contents of the local arrays", "All dictionaries and words; the whole output text.",
  ["utils/stematize.cpp:Stematize","api.hpp:inword","lang-rus/libprob/mlfamain.cpp:CMlfaMb::Lemmatize","lang-eng/libprob/mlfamain.cpp","lang-rus/libprob/lemmatizer.hpp"])
p("The game of five letters ends, uses what it is told and finds the word",
  "Over a dictionary of nouns of five letters а-я the program 5-letters ends; every guess is a noun of the dictionary shown with its true marks, none is made twice, each respects all the marks shown before and is a heaviest of the nouns still possible, it is given up only if there are none; 'guessed' is the verdict exactly if the word was guessed, and a noun that fits the pattern without ruled-out letters is guessed.",
  "all dictionaries, words, patterns and ruled-out letters", "All dictionaries and words, any number of rounds.",
  ["lang-rus/libdict/utils/5-letters.cpp:main","lang-rus/libdict/utils/5-letters.cpp:GetWordset","lang-rus/libdict/utils/5-letters.cpp:CheckWord","lang-rus/libdict/utils/5-samples.cpp:charRank"])
p("A word for the game of five letters is a proper noun for it, and every one can come",
  "GetNewTask ends whatever the random numbers, gives a noun of five letters in dictionary form that is none of the ruled out lexemes, nothing only if there is none, and every such noun comes out for some random numbers.",
  "all dictionaries, all sequences of random numbers", "All dictionaries and random sequences, all paths of the search with its returns.",
  ["lang-rus/libdict/utils/5-samples.cpp:GetNewTask","lang-rus/libdict/utils/5-samples.cpp:SelectChar"])
p("The program wildcards answers every pattern in front of the first blank line",
  "For each line of its input in front of the first blank one, in order, wildcards searches for the pattern without the control characters behind it, and shows a line for each lexeme with matches, with one of them.",
  "all inputs of lines of at most 254 bytes, all dictionaries", "All inputs, any number of lines.",
  ["lang-rus/libdict/utils/wildcards.cpp:main"])
json.dump
with open('/verif/properties.jsonl','w') as f:
    for x in P: f.write(json.dumps(x,ensure_ascii=False)+"\n")
print(len(P))
