# Formal model of big-keva/libmorph in Rocq (Coq 8.16.1)

The project is a morphological analyser: offline *dictionary compilers* (`tools/`, `lang-*/libdict/**/buildic`,
`lang-*/libprob/tools`) turn word lists and inflexion tables into flat byte arrays; a small *run-time*
(`xmorph/`, `lang-*/libdict`, `lang-*/libprob`) walks those byte arrays.  Nearly every user-visible guarantee is
a statement about all byte arrays the compiler can emit and all words, so the model has both sides and the main
theorems connect them.

## Trusted base

* Coq 8.16.1's kernel (with `vm_compute` in examples and finite sweeps), the standard library.
* Axioms: every theorem in `Prop_*.v` is followed by `Print Assumptions` and reports *Closed under the global context*.
  The only axioms present in the loaded library are the seven of `Coq.ssr.ssrunder` (`Under_rel.*`), which come with
  loading ssreflect's library; no theorem uses them.  No axioms, admits, `Variable`s outside sections, functors or
  module types are in the development.
* The hand translation from C++ to Gallina.  Every definition of a model file cites file and lines; simplifications are
  stated in the comment.  `tools/citecheck.py` checks that cited lines exist and mention the named symbol.
* `tools/chartables.py`, which copies the character tables of `lang-*/chartype.cpp` into `CharTables.v`.

## How code is modelled

* A byte is an `N` below 256 (`Base.v`).  A pointer into a byte array is the list of bytes from that address to
  the end of the array; reading from the empty list is undefined behaviour.
* Every function that can read or write out of bounds returns `res A := Ok a | Ub`.  `Ub` is a distinct outcome
  (never a default value), so "does not run into undefined behaviour" is part of each theorem that says `= Ok …`.
* `size_t`, `unsigned`, `uint16_t`, `uint8_t` arithmetic that can wrap is written with explicit `mod`.
* Mutable out-parameters and callback objects with `mutable` members become state threaded through the walk.
* Uninitialised memory is a universally quantified argument (`junk`).
* A C++ loop becomes structural recursion on its counter; a recursion over a byte array is bounded by the
  capacity of the array that holds the recursion (`astack[0x40]` in `Flat::ScanTree`), or by explicit fuel whose
  exhaustion is a third outcome excluded by the theorem.
* Files: *models* contain definitions only, with citations; *specifications* (`*Spec.v`) define the vocabulary of the
  theorems and import no proofs; proofs are in `*Proofs*.v` and `Prop*Lemmas*.v`; the property theorems are in `Prop_*.v`,
  each closed by `exact lemma` with `Print Assumptions` beneath it, with `Example`s that meet the hypotheses.
* A property that fails is kept: the theorem `Cxx_…_refuted` exhibits inputs on which the code violates it, and the
  strongest statement that holds is proved beside it (suffix `_partial` if it is less than the property).

## What is modelled

| model | code | not modelled there |
|-------|------|--------------------|
| `Serial.v` | `getserial`, `getword16`, varint writer, `lexkeylen`/`lexkeybuf` | |
| `WordTree.v` | `tools/wordtree.h`: insertion, search, size, serialisation, enumeration; `CreateLids` | |
| `FlatScan.v`, `FlatStack.v` | `xmorph/scandict.h`: `Flat::ScanTree` (recursive reading, and with its explicit stack, proved equal), `GetTrack` | |
| `Stems.v` | stem records, `DictReader` insertion, `LookupList`, `SelectView`, id lookup | |
| `CharTables.v`, `CapScheme.v` | `chartype.cpp`, `xmorph/capsheme.*` | |
| `GramMap.v` | `lang-rus/libdict/grammap.h` | |
| `RusRuntime.v` | Russian `CheckWord`, `GetWdInfo`, `MatchClass`, `ScanTables` | codepage conversion (windows-1251 instance; the others in `Codepage.v`) |
| `RusBuild.v` | Russian `BuildForm`, `FindForms`, `Lemmatize` and their buffers | the same |
| `Wild.v` | `xmorph/wildscan.h`, `wildClass.hpp`, Russian `FindMatch` | the same |
| `Compile.v` | `plaintable.h`, `classtable.h`, `makerus.cpp`, `buildmorph.h`: from resolved lexemes to arrays | text of the sources (in `RusText.v`) |
| `Resolve.v` | `lresolve.cpp`, `mtables.cpp`, `ftables.h`: stem, alternation, bounds | text parsing (in `RusText.v`) |
| `Fuzzy.v` | `lang-rus/libprob`: scanner, guesser, form builder; `compile-dict.cpp` | `mtc::patricia` (as a map), JSON, floating point of weights |
| `EngRuntime.v` | English `CheckWord`, `GetWdInfo`, `BuildForm`, `FindForms`, `Lemmatize` | codepage conversion |
| `EngWild.v` | English `FindMatch`, `wildClass.hpp` | codepage conversion |
| `CxxApi.v` | api.hpp: the narrow C++ classes over the three interfaces, lexeme objects with their pointers, Morpho handles, the counting interface of lang-ukr | wide instances, allocation failure |
| `Codepage.v` | Russian calls in other code pages (`CMlmaMb<codepage>`), `xmorph/codepages.hpp` | the converters of moonycode: an encoding with its laws is a parameter, `Utf8.v` shows UTF-8 meets them |
| `WideApi.v` | wide-character interface `CMlmaWc` (`xmorph/mlmawide.hpp`), Russian and English | the converters of moonycode are parameters; null `pmatch`, null word of `CheckWord`/`Lemmatize`; `PropWideLemmas.v` shows UTF-16 meets the laws |
| `Guess.v` | the guesser of both languages in every code page: `CMlfaMb`, lemmatizer.hpp, buildforms.hpp of lang-rus and lang-eng | the converters of moonycode are parameters; the rest as for `Fuzzy.v`, which it is proved to contain |
| `GuessWide.v` | the wide-character guessers: xmorph/mlfawide.hpp over `Guess.v` | the converters of moonycode are parameters, as in `WideApi.v` |
| `RusText.v` | Russian compiler from files to arrays: `lresolve.cpp` (text helpers, type table), `makerus.cpp` (`BuildStems`, `GetSubtext`, `Run`), `buildmorph.h` (`DictReader`, `CreateDict`) over `Resolve.v`, `Compile.v` | moonycode's table of codepage 866 is a parameter; loading of the indexes (`references.h`, `Alternator::Load`): maps from names are given |
| `Tfc.v` | `utils/tfc` (`tfc.cpp`, `ftable.h/.cpp`, `gramap.cpp`), `tools/sourcefile.h`, `tools/sweets.h`: inflexion tables from text to bytes | the writer of the index in mtc; command line; the Ukrainian token table |
| `Makeich.v` | `lang-rus/libdict/tools/makeich` (`makeich.cpp`, `mtable.h`): alternation tables from text to bytes | the writer of the index in mtc; command line |
| `EngCompile.v` | English compiler from text lines to arrays | reading of files, codepage conversion (identity on ASCII) |
| `PyApi.v` | `pybind11/morph-pad.hpp`, `pyrusmorph/rus.cpp`, `pyengmorph/eng.cpp`: the Python classes over the interfaces above | pybind11 itself (stated in the file: strings arrive as bytes, exceptions of the callback, `std::string` attributes decoded as strict UTF-8); `find_match` of the wide classes |
| `Dump.v` | `tools/dumppage.h`, `main`/`Run` of `makerus.cpp`, `makeeng.cpp`, `compile-dict.cpp`, `DictReader`/`PutUnknown`/`SaveTables` of `buildmorph.h`: command lines, files read, C++ sources written | file system as a function; two open files of one name, sources changed during the run; index loaders, JSON, `patricia` serialization are parameters |
| `Holes.v` | `utils/get-holes.cpp`: map of ids, least, greatest, holes, reading of lines | the printed text (its numbers are modelled); lines hold no byte 0 |
| `Dicdump.v`, `DicdumpBuild.v` | `lang-rus/dicdump/dicdump.cpp`: comparison of two sources of lines, reading of a dump, lines of a dump, over the BuildForm and GetWdInfo of `RusBuild.v` | `main` and its usage text; `printf` of the report lines (the lines are modelled); the program includes `../include/mlma1049.h`, which is not in the repository |
| `LemmTool.v` | `utils/lemmatize.cpp` and `main` of `utils/stematize.cpp`: printed text, command line, over the Lemmatize and GetAPI of `Guess.v`, `EngRuntime.v`, `Api.v` | `mtc::SharedLibrary` is a parameter; messages are constructors; `Stematize` (prints a float) |
| `PspTab.v` | `lang-rus` and `lang-eng` `libprob/tools/make-psp-tab.cpp`: words of a line, counting, division into shares, over the Lemmatize of the dictionaries | rational numbers instead of `double`; the printed table; `main` (a fixed path in lang-rus) |
| `StemTool.v` | `utils/stematize.cpp`, `Stematize`: printed text, over `glemmatize` of `Guess.v` | what `%.4f` prints for a weight is a parameter (floating point is not modelled); printing to a closed stream |
| `Letters.v` | `lang-rus/libdict/utils/5-letters.cpp`, whole; `charRank` of `5-samples.cpp` | what `FindMatch` hands over and `GetWdInfo` are parameters; the pauses and the formatting of the lines; words of other lengths than the word to be guessed (compared past their end by the code) are `Ub` |
| `Tasks.v` | `lang-rus/libdict/utils/5-samples.cpp`: `SelectChar`, `GetNewTask` | what `FindMatch` and `CheckHelp` hand over, `GetWdInfo` and `rand` are parameters; floating point |
| `Api.v` | `GetAPI`, `LoadCpAPI` of the four libraries | |

## Per property

| id | theorem file | how |
|----|----|----|
| C01, C02 | Prop_Trees | round trip by induction on 7-bit groups; injectivity by arithmetic, agreement below 2^24, refuted above |
| C03, C04, C05 | Prop_Trees | refinement to a partial map; `Search` refuted (its loop-exit test is inverted); induction on trees |
| C06, C07, C08 | Prop_Trees | simulation between byte walk and abstract walk = filter of prefixes; key garbage quantified; absolute offsets |
| C09 | Prop_Rus | composition of C07, C29 |
| C10, C11, C37 | Prop_Trees | induction on lists; sorted-insertion invariant; C11 refuted in general |
| C12–C16, C36 | Prop_Case | loop invariant on parts, automaton lemma; finite sweeps lifted by `forallb_forall`; many parts: exactly when the length comes back (C14_length_exact), refuted in general |
| C17, C19, C38 | Prop_Rus, Prop_Lemmas | composition C06 ∘ C10/C11 ∘ `MatchClass` ∘ tables |
| C18 | Prop_Rus | exhaustive finite check |
| C20, C21, C22, C39 | Prop_Lemmas | invariant over the sequence of matches against a list specification |
| C23, C24, C25, C31 | Prop_Build | forms as a list function of class and key; buffer invariant |
| C26, C27 | Prop_Wild | soundness and completeness against an inductive glob relation |
| C28, C29, C30, C40, C41 | Prop_Compile | invariants over additions, end to end with C19; resolution of headwords |
| C32, C33, C42–C45 | Prop_Fuzzy | induction on patricia trees and tables, end to end compiler → guesser |
| C34, C46–C49 | Prop_Eng | as for Russian, over sorted tables |
| C50 | Prop_EngLemmas | as C20–C22 |
| C51–C53 | Prop_EngCompile | invariant over lines: the builder holds the lexicon of the articles read; then C46, C47, C49 |
| C54 | Prop_EngWild | as C26, then with C51's lexicon of the articles |
| C55, C56 | Prop_Cxx | from C09, C23, C24, C39, C42, C45, C47, C48, C50: strings in the arrays hold no NUL, offsets point at what was stored, moves keep ownership; any growth policy |
| C57 | Prop_Cxx | invariant of counters over histories, induction over operations |
| C58–C61 | Prop_Codepage | the calls parameterised by the output routine and the canonic form; the scan is the one of windows-1251, simulation of the coder |
| C62–C65 | Prop_Wide | the narrow calls on local arrays, exact copies of their results; the wide answers follow from the narrow theorems |
| C66–C68 | Prop_CompileForms | C40's lexicon of the sources, its classes, endings and alternations related to the tables; then C23, C24, C25, C26, C39 |
| C69–C73 | Prop_Guess | Fuzzy's proofs generalised over language and code page; the stem length in UTF-8 by width of letters |
| C74–C76 | Prop_GuessWide | the narrow theorems C69–C71 on the local arrays, then the copy into the caller's as in C62–C64 |
| C77, C78 | Prop_RusText | parser against an inductive description of articles, both directions; lines of a file by induction |
| C79, C81 | Prop_RusText | valid articles give valid sources (C40's conditions), then C40; C41 for the headword |
| C80 | Prop_RusText | the recursive search equals taking off the first of a list of endings, by induction on depth and elements |
| C82, C83 | Prop_Tfc | inductive description of the text (lines, fields, tokens, includes), both directions by induction on the files; layout by induction on the tables |
| C84–C87 | Prop_Tfc | sorted insertion is a normal form of sets; strictly increasing offsets; computation on concrete texts for the refutations |
| C88, C89 | Prop_Makeich | as C82, C83; the collector keeps an invariant over the sequence of lines (names ↔ lists of conditions ↔ sets of strings); relatedness of names by induction |
| C90 | Prop_Makeich | computation on concrete texts |
| C91, C92, C93 | Prop_DictText | composition of C82, C88, C79, C80, C81: every notion of the compiled tables used there is shown equivalent to one told in terms of the texts (DictTextSpec); determinism of the meaning of articles |
| C100, C101, C102 | Prop_DictForms | composition of C91 with C66, C67, C68: parts asked for, numbers, normal forms and descriptions of the compiled lexemes are those told by the texts (DictFormsSpec) |
| C103 | Prop_Dump | the text written is lexed and parsed by an independent reader of C++ (DumpSpec): automaton lemmas for the concatenation of texts, digits of numbers; induction over the bytes with the counter of the separator |
| C104 | Prop_Dump | the parser of arguments, read from the right, agrees with a declarative notion of command line (in_order, value_of, plain) |
| C105, C106, C107 | Prop_Dump | composition of C103, C104 with the compilers of `RusText.v`, `EngCompile.v`, `Fuzzy.v` |
| C108 | Prop_Holes | the words of the map denote a set of ids (bits); least, greatest and next hole by induction over the words, the loop by induction over its fuel |
| C109, C110, C111 | Prop_Dicdump | sources as streams of lines; one round of the inner loop consumes a common part and lines found on one side only, so edit scripts compose; on ascending lists no round is idle (termination by the lines left); longest common beginning by induction; the ids by a sorted list |
| C112, C113 | Prop_LemmTool | a JSON reader as specification; what the reader makes of the printed row by computation over its pieces (digits, strings), rows by induction; rows of the call from the exact answers of C39, C50, C60; command line over C35 |
| C114, C115 | Prop_PspTab | words as fields of the line without their front, by induction on the loop with the rest of the line as measure; counting as an invariant (rows and forms by index, sums) over the list of votes; division by sums that are positive |
| C116 | Prop_StemTool | the JSON reader of C112 with decimal numbers; rows of the arrays of C70 by induction on the guesses with their offsets, carried over the sorting permutation |
| C117 | Prop_Letters | invariant over the rounds: the masks and the pattern hold what all guesses so far have told, and nothing that is false of the word to be guessed, nor anything the marks did not tell (so no possible word is missed); over the wide interface (Prop_Fives) the search is exact by C65, patterns of letters and question marks being read alike in both alphabets; the words tested grow without repetition within the nouns |
| C118 | Prop_Tasks | induction on the letters still to be found, inside it on the letters not yet tried; sums of ranks strictly increase, so each index has its random number |
| C119 | Prop_Wildcards | lines as typed; the reader with its buffer by induction on the lines; the loop by induction along them |
| C35 | Prop_Api | case analysis over the tables of names |
| C94–C99 | Prop_Py | the local arrays of the bindings are instances of the callers' arrays of C20–C26, C35, C46–C65, C69–C76; lists proved element by element from the pointers; the callback as a state machine over the sequence of calls; UTF-8 decoder |

## Findings

Defects of the pinned commit exhibited by `_refuted` theorems (or, where marked *, described in model comments only):

1. `wordtree::Search` returns nothing for stored keys: inverted test (C04).
2. `lexkeybuf` drops a byte for ids of four bytes, so ids from 2^24 on are filed under wrong keys (C02).
3. `LookupList` and the pattern search stop at a record whose upper bound is below the first letter of a *postfix*
   that takes the whole rest: words such as `as-is` are lost when `as` is a word too (C11, C19, C25, C26, C40, C46, C51).
4. `CapScheme::Get` shifts by 32 or more from 17 parts on and gives wrong lengths from 9 parts on (C14).
5. The merge path of `Lemmatize`, the lexeme that fills the array with several readings: writes outside (C21, C50);
   lexemes without a normal form are skipped silently (C50).
6. Class offsets are checked against 0xffff but masked with 0x7fff (C28); type 51 without inflexions does not round-trip (C29).
7. `GetMinMaxChar` of alternators and flex strippers is unsound (C30).
8. `StripStr` truncates a string although the outer tail fails; plural-only masculine nouns lose their alternation (C41).
9. Guesser: reads before the start of the reversed key (C32), strings not terminated before `Set`, unchecked part-of-speech
   and form numbers (C33, C42).
10. English: fixed words lose their postfix when built (C47); `USA'S` is built but not recognised (C49); unsorted tables and more
    than 64 equal endings (C34).
11. English compiler: postfix neither folded nor compared with the word, arrays overrun by long tags, lines and postfixes (C51, C53);
    offsets of tables and classes wrap unchecked*.
12. API selection: a wrong magic leaves the result uncleared, a key shorter than the magic is read beyond its end, the guesser hands
    out its wide instance as narrow, English accepts any name (C35).

13. Pattern search: reads one byte behind the tree for a node without data, lexeme 0 written through an uninitialised pointer, more
    matches than the array holds, matches and lexemes delivered repeatedly, fixed words reported without their postfix (C26, C27, C54).
14. C++ wrappers: forms exceeding 256 bytes become an empty vector silently (C55); assigning a handle to itself detaches first, which frees
    a counting interface (C57).
15. Other code pages: FindMatch checks the length of the pattern in bytes of the code page before converting it, so UTF-8 patterns of 24
    Cyrillic letters are refused (C61).
16. Wide characters: FindForms offers the converter exactly as much room as the word has characters, so a converter that terminates its
    output refuses every counted word; a buffer needs two characters more than the forms and their terminators; never more than 96
    characters of forms are delivered, nor more than 32 lexemes (C63, C64).
17. Guesser in other code pages: in UTF-8 the length of the stem is in bytes if normal forms are asked for and in characters otherwise (C70);
    GetModels advances beyond the array when a sample fills it and the converter asks for no terminator, then writes there (C71); English
    ignores the capitalisation of the part of speech and builds everything in small letters (C69).
18. Wide guessers: a terminated stem of 64 characters fills the local array without a terminator and is read beyond it (C74); forms are cut
    off at 95 characters, normal forms at 240, stems at 32 and samples at 1024, whatever room the caller has (C74–C76).
19. Russian compiler from text: fields longer than the local arrays leave them unset (C77); the postfix is cut off by length without being
    compared with the word, a longer one ends the compiler; a postfix with two hyphens is read as a remark; `@` stays in words that do not
    change (C77); lines of more than 1022 characters are read in pieces, so that the end of a comment can become an article (C78);
    `-codepage` of makerus is parsed and ignored.
20. tfc: a second definition of a table name is ignored silently (C85); the count of elements is cut to a byte (C86); tokens with a space in
    their names turn into links inside elements (C87); its option `-w` sets a variable that is never used; `StoreRef` writes 16-bit offsets
    while `TableIndex` reads 32-bit ones (depends on mtc, not modelled).
21. makeich: a name added by a later definition inherits all alternations of the earlier ones it shares a name with, though it is not in
    them (C90); strings of 16 bytes and more destroy the length of their entry (C90); strings behind the fourth have no level; offsets
    beyond 64 KB wrap silently; from 32 strings in a line on the shift is undefined.
22. Python: `mlmaruMb("utf-16")` gives the narrow class a wide dictionary (C94); results that do not fit 32 lexemes or 2048 characters are
    silently an empty list, as for unknown words (C95); a non-zero result of the callback of `find_match` does not stop the search although
    documented, exceptions are lost, a callback without result ends the search, matches kept after the call change their text (C97);
    lemmas in any code page but UTF-8 raise UnicodeDecodeError (C98).
23. Generated sources and programs: the empty array is ill-formed, behind 2^32 bytes a separator is missing (C103); makeeng catches no
    exception, so every error aborts it (C106); compile-dict without arguments computes 1 + NULL unless argv[0] has a slash, an empty
    output name builds a std::string of a null pointer (C107), a missing string field of its source throws uncaught *; `@options_pack`
    of makerus and makeeng is documented and not implemented *.
24. get-holes: the search for the least id never shifts its bit, so nothing is found unless that id is a multiple of 32; a hole behind the
    greatest id is printed; a last line ending in `LID:` is read beyond its end (C108).
25. dicdump: `check` never ends on two dumps with two lines exchanged, reports a common line behind 1024 new ones, prints an empty `<< ` when
    one side ends first (C109); `build` removes the common beginning from all forms but the first, so that different paradigms have the same
    line, and keeps one form of each number (C111); ids above 0x3ffff are not dumped (C110).
26. lemmatize: 17 lexemes of a word print as an empty list, quotes and backslashes are not escaped (C112); the test for an empty code page
    can never hold, utf-16 calls the narrow interface of the wide object (C113).
27. make-psp-tab: words lose a capital A at their front, words across the end of the buffer are cut (C114); parts of speech 38-46 keep the
    flags above their number and get several rows (C115); `totalLexemes` is counted and never used.
28. 5-letters: the shipped word (шляпа) does not fit the shipped pattern (те???) and cannot be guessed; letters ruled out at first are forgotten
    after the first guess; a noun with ё is shifted out of the mask (undefined); six of the ranks of letters are octal literals by mistake
    (0260, 0730, 0360, 0040, 0320, 0640) and that of о is 1097 instead of ten times that (C117); `GetNewTask` looks ё
    up past the end of the table, and calls `CheckHelp`, which the current interface (`api.h`) has no more, only the legacy `lang-ukr`: as it
    stands it does not compile (C118).

## Not modelled

External libraries `mtc` (varint writer assumed to be 7-bit groups, least significant first, as its reader in
`xmorph/typedefs.h` demands; `patricia`, `json`) and `moonycode` (the converters are parameters of `Codepage.v`
with stated laws).  Command lines of tfc and makeich, PHP bindings, `utils/` except tfc, get-holes, lemmatize and stematize, `main` of dicdump, tests, legacy `lang-ukr`.
