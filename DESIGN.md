# Design

One executable Gallina model of the whole library (`rocq/theories/Model/`), small
independent specifications (`Spec/`), proofs (`Proofs/`), and the property theorems
with their non-vacuity examples (`Properties/`, each theorem followed by
`Print Assumptions`). `properties.jsonl` is generated by `tools/props.py`,
`MANIFEST.json` by `tools/manifest.py` from the theorem names.

## 1. Trusted base

* The Coq 8.16.1 kernel (and `vm_compute`, used for closed computations over the
  language, alias and plural tables).
* `Print Assumptions` says **"Closed under the global context"** for every property
  theorem: no axiom is used, neither our own nor the standard library's. (`vcheck`
  counts 7 axioms of `Coq.ssr.ssrunder`; they belong to a standard-library file that
  is merely loaded and no theorem depends on them.)
* No functor, module type, `Declare Module`, plugin, section-less variable, or
  switched-off kernel check is used.
* The reading of the C++ code: each model definition cites the lines of /repo it
  models. The code was not run.
* The readings of the C++ standard library and of iconv(3) listed in section 2.

## 2. What is modelled, and how

Conventions: a byte is `ascii`, `std::string` is `list ascii`; C++ control flow is a
state/exception monad whose outcomes are `Ret`, `Exn` (C++ exception), `Ub`
(undefined behaviour), `AssertFail`, and `OutOfFuel`. Loops of the code that need not
terminate carry a bound (`cf_fuel`), and exceeding it is the separate outcome
`OutOfFuel`, never a normal-looking value. Statements about the parser do not mention
bounds: `parses_to` says that for *every sufficiently large* bound the run finishes
with one and the same result, `diverges` says that for *every* bound it does not
finish. Inner loops that obviously terminate (`recover`, `scan_string`,
`skip_to_string`) have their own bound computed from the input, proved sufficient.

| source | model file | modelled | simplified or left out |
|---|---|---|---|
| plural_forms.{hpp,cpp} | PluralForms.v | all 24 plural functions, the 25-row table, from_string, ==, bool, getters | the lazily built map is the finished table here (its construction: LazyInit.v) |
| dictionary.{hpp,cpp} | Dictionary.v | everything: 4 add_translation overloads, 4 translate functions, fallback, foreach, log messages | `std::unordered_map` is an association list (theorems that could see the order are stated up to order); stack exhaustion of a fallback cycle appears as "no depth suffices" |
| language.{hpp,cpp} | LanguageTable.v (generated from the source text by a script), Language.v | all 241 table rows, all aliases, match, from_spec, from_env, from_name, getters, str, ==, <, hash | comparison of a null pointer with array elements (unspecified in C++) is "null is smaller" |
| log.{hpp,cpp}, log_stream.hpp | Log.v | static callbacks, macro, temporary object, destructor; in Callbacks.v callbacks that set callbacks or throw; in Nested.v callbacks that make lookups, which log again; in Learn.v callbacks that add translations | callbacks that enumerate or destroy dictionaries |
| iconv.{hpp,cpp} | IConv.v, Sdl.v (TINYGETTEXT_WITH_SDL) | set_charsets, convert, constructor, destructor, descriptor life-cycle as a trace | iconv(3) is an oracle with state; theorems quantify over it. The buffer arithmetic `4*size` is exact (no overflow below 2^61 bytes); the `tinygettext_ICONV_CONST` casts are dropped |
| std::istream / std::getline | Stream.v | buffer, eofbit, failbit or badbit; getline's sentry, which leaves the string alone when the stream is not good; streams on which reading fails behind some byte (`broken_after`: the partial line is in the string, getline reports failure); in Masked.v streams with an exception mask (std::ios::exceptions), in MaskedManager.v the manager on such streams | badbit is identified with failbit |
| po_parser.{hpp,cpp} | PoParser.v | every statement of POParser, including log messages, line numbers, exceptions and conversions | `line_number` is an unbounded Z (bounded by C36) and the casts to `unsigned int` are left out: Model/Widths.v has both, and C100 says when it makes a difference; `if ((false))` debug blocks and the unused member `running` are dropped |
| dictionary_manager.{hpp,cpp}, file_system.hpp | Manager.v | every public function, the destructor, a heap of dictionaries with addresses, deletion of a dead address = undefined | a file system whose callbacks re-enter the manager; strings > 4 GiB in the `unsigned int` loop of convertFilename2Language; allocation failure; copying a manager (deleted) |
| the command-line programs test/tinygettext_test.cpp, test/po_parser_test.cpp | Programs.v | arguments, all modes, both log callbacks, atoi, exceptions caught in main, standard output, standard error and exit status | interleaving of the two streams, failures of stdout/stderr themselves, allocation; test/helloworld.cpp is input for xgettext and not compiled
| Dictionary::add_translation when memory runs out | Memory.v | every allocating operation of the four overloads and of log_warning may fail; what the standard library guarantees about failing operations is stated at the head of the file | failing allocations elsewhere (parser, manager, translate) |
| the static tables when memory runs out | Tables.v | language_map, language_aliases and plural_forms, row by row; the calls that use them | concurrent calls (LazyInit.v) |
| DictionaryManager when anything fails | Exhaustion.v | dictionary_manager.cpp:69-261 with every request for memory granted or refused by an oracle; map, deque and string operations have the strong guarantee, ~Log is noexcept (so a failure in it is abort()) | the parser's own allocations, one by one: the parser is an oracle that ends in any way after any (possibly failing) calls on the dictionary |
| several threads, one manager | Threads.v | dictionary_manager.cpp:69-213, 221-233, 241-261 and the lookups of dictionary.cpp:80-153 again, cut into accesses to the map, the search path, the charset, the current language/dictionary and single dictionaries; any number of threads, any interleaving of accesses; accesses are recorded, so that data races can be told | weak memory (interleavings are sequentially consistent; the race theorems say where that is not enough); log lines count as no access (the default callbacks write to std::cerr); the static tables are taken as filled (C52 is about filling them); get_languages reads the search path in one access; set_language writes the language and the current dictionary in one access (they are one object here); get_language, get_use_fuzzy are not among the threads' requests; the parser makes one access per call on the dictionary |
| foreach/foreach_ctxt whose function changes the dictionary | Enumerate.v | dictionary.hpp:97-107, 115-128; order of the maps, and where an insertion goes or whether it rehashes, are oracles; an iterator into a rehashed map is invalid | functions that assign to the forms (C80 has them), that enumerate recursively, or that call other members |
| DictionaryManager called from its own FileSystem and log callbacks | Reentrant.v | every point of get_dictionary and get_languages where application code runs; const Language& aliasing the member; iterators into search_path | application code that throws; files that change during one call; the log order of nested messages |
| a program changing dictionaries obtained from a manager | Client.v | add_translation, set_plural_forms, addFallback, foreach and foreach_ctxt with assigning functions, POParser::parse through the returned reference, in any session | the target of addFallback is null or a dictionary of the cache (any target: Owner.v) |
| a program with dictionaries of its own | Owner.v | construction, destruction, add_translation, set_plural_forms, addFallback (any target, null, later destroyed), foreach / foreach_ctxt with functions that assign to the vectors, in any order | functions whose assignments depend on the iteration order; calling the dictionary from inside its own foreach |
| unix_file_system.{hpp,cpp} | Manager.v (`unix_file_system`) | open_directory, open_file over an abstract disk | `std::filesystem` itself; errors in the middle of a directory iteration |
| function-static lazily filled tables | LazyInit.v | any number of threads interleaving test / insert / lookup under sequential consistency | that an unsynchronised race is undefined behaviour in C++ (the model shows wrong answers even without it); rehashing |
| ctype on plain char | parameter `strict` | `strict = true`: a ctype call with a negative char is the outcome `Ub UbCtype`; `false`: it classifies as in the "C" locale | other locales |
| assert | parameter `ndebug` | `false`: a failing assert is the outcome `AssertFail` | |
| tinygettext.cpp (empty), dirent.h (a Windows shim nobody includes), test/helloworld.cpp (not compiled) | not modelled | | |

Not modelled at all: real memory layout, allocator failure outside add_translation, performance, real data races,
the internals of iconv and of the file system.

## 3. Properties: what is modelled, how it is proved

`[V]` marks properties in which the code violates what a user expects; the theorem
proves the violation (with the exact condition under which it happens).

| id | about | proof |
|---|---|---|
| C01-C03 | plural rules | table sweep by `vm_compute`, `lia` over `Z.rem`; independent C-expression parser and evaluator (`Spec/PluralSpec.v`) gives the meaning of the header text |
| C04-C07, C11, C12, C62 | Dictionary | refinement to a function `key -> option forms` (`Spec/DictSpec.v`), induction over histories |
| C08-C10 [V: C09, C10] | fallbacks | induction over fallback paths in the heap; a cycle defeats every depth |
| C13-C20, C54, C61 [V: C18, C54] | Language | table sweeps lifted by `forallb_forall`, string lemmas for size_t arithmetic |
| C21, C22, C36, C37 | parser safety, termination, line counter | Hoare-style invariants over the monad (ParserUnary, ParserSafe, ParserTerm, ParserLines, ParserAscii) |
| C26, C29, C31, C33 | parser non-interference | relational (lock-step) simulation of two runs (ParserRel, ParserLinewise, ParserBlank) |
| C27, C32 | isolation, truncation | "a run that does not look at eof does not see what follows" (ParserLocal, ParserCut, ParserBlank) |
| C23-C25, C28, C34, C35, C55 [V: C23, C28] | what files mean | a document tree with its text and meaning (`Spec/PoSpec.v`), forward simulation of the parser on the text (Doc*.v) |
| C30 | plural forms | invariant over the list of dictionary calls |
| C38-C41 [V: C40, C41] | IConv | case analysis; trace automaton `disciplined`; abstract converters (`Spec/IConvSpec.v`) |
| C59, C37 (general) | POParser::parse on arbitrary bytes | inverse lemmas for the scanners give entries back from their lines; invariant over the parse loop (DocSound); strict and permissive runs compared (ParserStrict) |
| C60 | every message of POParser::parse on well-formed documents | the expected log is a recursive function of the document tree (Spec/DiagSpec.v); exact versions of the reader lemmas (`pos` with line numbers, DocLog) |
| C63 | every message of POParser::parse on arbitrary bytes | invariant rule whose logging step may use the text (ParserSaid); position invariant `stands` ties line counter, current line and stream. Two error texts of the source turn out to be unreachable and are absent from the list |
| C64 | loading: files, directories, search path, both languages, log and exceptions | relational specification (LoadSpec) of one file, directory, path; ManagerLoad's pure loader is shown to satisfy it; ownership invariant for the cache (ManagerLog) |
| C65 | POParser::pedantic | lock-step simulation of the two modes for every parser function; traces related by `thins` (Spec/DiagSpec.v) (ParserPedantic) |
| C66 | arbitrary complete files with mistakes | Spec/DamageSpec.v cuts a file into segments; DocExact proves a Hoare-style rule `post` for every parser function (lines read, quiet log, locality: the error depends only on the lines up to the wrong one), DocUnique proves the cut unique |
| C67 | same | corollary of C66 and uniqueness |
| C68 | same, plus the table of complaints in DamageSpec | each scanner error characterised by an inversion lemma (DocComplaint); determinism of `complaint`; uniqueness of segments |
| C69 | the whole parser on a byte string not ended by a newline, next to the same bytes with it (DocOpen) | lock-step simulation of the two runs: equal up to the last line; behind it the first still sees that line while the second sees an empty one; every step there is either sticky (loops for ever), silent, or leads to one report. Joined with block_step (C66) to name the last segment; fuel monotonicity gives divergence |
| C70 | whole library, disk to answers | C64's choice of files, C25's meaning of documents, C72's meaning of damaged files and the dictionary's refinement composed (Shelf.v); `Spec/ShelfSpec.v` says what a file offers for a message without mentioning parser or dictionary |
| C71 | manager calls, termination | fuel monotonicity of every call (ManagerFuel.v); loading in continuation-passing form gives both the constructive criterion (files that end well) and the classical one (`~ ~`); combined with C69 for a concrete hanging disk |
| C72 | `parses_to`, whole result | the loop of C66 with the notes of every line (Spec/FullSpec.v: `line_notes`, `segs_log`), one invariant `at_` (position, line number, dictionary, trace) carried segment by segment (Proofs/DocFull.v); strict platforms by C37's strict-or-undefined argument |
| C73 | `parses_to`, whole result, any converter | `Spec/RunSpec.v` gives a small action language on converter, dictionary, calls and log (`segs_do`); the parser is shown to simulate it segment by segment (Proofs/DocRun.v, `ran`/`at_w`), including the failures of `opening`/`converting` at any point; existence and uniqueness of the description from C66 |
| C74-C76 [V: C76] | programs that change the manager's dictionaries (Model/Client.v) | every manager step commutes with any patch of the already loaded dictionaries (`comm`, Proofs/ClientProofs.v), so the state of a session is that of its calls alone with the changes applied (`crun_patched`); the rest follows from the manager's ownership invariant |
| C42-C48, C53, C56-C58 [V: C43, C45, C58, parts of C31] | DictionaryManager | ownership invariant over histories; canonical loading function; refinement of the cache |
| C49, C50 [V: part of C49] | file names | list/size_t lemmas |
| C51 | Log | induction over histories |
| C52 [V] | lazy initialisation, any number of threads | explicit schedule for the race; a rule for schedules (`schedule_rule`) with invariants on table and threads for what remains true |
| C77, C78 | Base.v's character classes, string searches, number printing | `Spec/TextSpec.v` spells the characters out and defines decimal notation inductively; sweep over the 256 bytes, induction |
| C79 | POParser::parse on streams that fail behind any byte; manager over a disk with failing files | three runs in lock step (failing stream, file with the cut line, file without it; ParserBreak): related until the failure, afterwards the failing run follows one of the other two, whose states differ only in stream state. Between blocks: two-run invariant that next_line at the end is reached only behind a white line from the block's end or from recovery. Manager: `reads_step`, a congruence of all calls in what parsing each file does |
| C80 | any number of Dictionary objects owned by the program (Model/Owner.v) | simulation between the heap of dictionaries and a world of abstract facts (catalogue, rule, charset, last fallback); lookups: inductive answers, inductive dangling, coinductive circles, each equivalent to the behaviour of translate at some/every depth; that one of them always applies is a pigeonhole argument over the heap |
| C81 [V] | log callbacks that set callbacks or throw (Model/Callbacks.v) | relational specification of what happens (Spec/CallbackSpec.v), equivalent to the model by induction over the history; C51 is the special case of plain callbacks |
| C82 | disk, choice of the file, parser, converter, manager, dictionary: everything at once, for catalogues in any charset. iconv(3) is assumed to serve a translator (`serves`, Spec/CharsetSpec.v: a function on texts per pair of charsets, EILSEQ/EINVAL as the only failures, no byte-order marks); C82_stateless_converters_serve shows the assumption met by every stateless converter of at most 4 bytes per byte | C73 gives the run of the parse; induction over it with the invariant that the converter applies the function in force; then as C70 |
| C83, C84 | the programs of test/ over C73/C82: the file is taken apart into segments (`described`, Spec/ProgramSpec.v; every complete file has exactly one such description, C73), whose meaning (`segs_do`, `file_says`) gives the printed texts, the log lines and whether the charset is on offer (`unavailable`); `parse_described` (Proofs/Programs.v) runs the parser on it, C84 by induction over the list of files |
| C85 | the other modes of tinygettext_test: exact output as lists of lines (`about`, `heading`, `usage`) from C49, C82 and the manager steps; standard error of "directory" is left open |
| C86 | add_translation once more, as a sequence of operations each of which asks for memory (Model/Memory.v), with an arbitrary set of refused requests; run with all granted it is proved equal to the Dictionary.v model. Invariant: after every operation the dictionary is the original with some list of forms for the one message. Histories by induction |
| C87 | loading once more, with an arbitrary state change of the manager allowed at every point where the application's code runs (Model/Reentrant.v); with the identity it is proved equal to Manager.v. Rely/guarantee: code that keeps the cache ("plays harmless", an inductive closure over any nesting) only appends to the cache and never touches an existing dictionary; the loading call itself guarantees the same. Content by induction over files, directories and the pieces of a parse |
| C88 | the same model: the language argument of get_dictionary() is the member itself, re-read at every use. The search path is split at the directory where it changes |
| C89 | the same model, with unrestricted nested calls: "cached or deleted" and "deleted stays deleted" are invariants of every call at any nesting depth |
| C90 | the same model; every use of a search-path iterator and of the dictionary checks that it is still there; an outcome-aware invariant: either the run has ended undefined or no interruption so far took away what is needed next |
| C91 | sizes of calls, dictionaries and heaps; from C59 (every call comes from an entry whose lines are in the file), a size bound for literals, conversions and forms, and an invariant of manager histories |
| C92 | upper bound: the run of C73, each action logging no more than its lines weigh; lower bound: an explicit family of documents and the exact log of C60 |
| C93 | Model/Tables.v: filling row by row with an oracle that grants or refuses each request; an interrupted fill leaves a prefix (plus at most one blank key) and is final; conversely every interruption is realised by an explicit oracle |
| C94 | Model/Exhaustion.v: the manager's code again, in a monad with a memory oracle and the parser as an oracle. `puts` (loading touches only the new dictionary and the log), `got` (get_dictionary keeps ownership whatever its outcome), induction over histories; `tracks`: with everything granted it is mstep, step by step; explicit oracles for the losses; Hoare-style `rets` for the swallowed exceptions |
| C95 | Model/Threads.v: a call is a resumption (a tree of accesses); `runs`/`permitted`: an invariant of resumptions kept by every access whatever others do in between; induction over schedules; for one loader, a simulation `in_step` between the full schedule and the one with the others' turns deleted |
| C96 | same model: every completed pair of calls contains a map read and the map write (invariant `racing` over schedules); explicit schedules for the other two parts, the leaked dictionary with an invariant `lost` kept by every continuation; settings: `must` (every way a call can go that returns makes the access) on the resumption, kept over schedules |
| C97 | Model/Enumerate.v: one loop for both enumerations; an invariant (visited keys and keys ahead are distinct and stored, contexts ahead are untouched, every key of the beginning is visited or ahead) kept by every add_translation; induction over steps for partial correctness, over contexts and messages ahead for termination |
| C98 | Model/Nested.v: callbacks are programs (lookups, settings, prints); an interpreter with a bound on nesting, shown equivalent to a big-step relation; endlessness by induction over the bound; the two safe disciplines by induction over programs |
| C99 | Model/Sdl.v: IConv::convert with SDL's return codes; shown equal to the iconv model over the iconv that SDL looks like; the two builds compared by a lock-step simulation of two parsers with different iconv implementations (Proofs/TwoConverters.v) |
| C100 | Model/Widths.v: the functions of PoParser.v that reach the line counter or a cast, again, with a 32-bit int and the casts; equal to PoParser.v by a relation `ap` (same result while the counter fits, undefined as soon as it does not) that every monadic combinator preserves; lower bounds on the counter (newlines read, iterations of a loop) in Proofs/WidthsLower.v |
| C101 | Model/Learn.v: the lookups and add_translation with callbacks that call add_translation (recursion of bounded depth); answers and last words by induction on depth; determinism because more depth changes nothing; violations by following the one path |
| C102 | Model/Masked.v: the functions of the parser that read lines, on a stream that may throw in getline. One induction over the parser (Proofs/MaskedLock.v: a relation between the two parsers that holds for the line reader and is closed under sequencing and the catch block holds of the whole), used three times: same result or a first part of it; no difference while reading works; the end of the input is met with the exception (with a measure that bounds the rounds, so no hang); it leaves the descriptor in order. For files that end in a blank line, a second induction (Proofs/MaskedBlank.v) with the invariant that the parser never reads on behind the last white line inside an entry |
| C103 | Model/MaskedManager.v: the manager functions that parse files, on the parser of Model/Masked.v. One lock-step relation between the two managers (Proofs/MaskedManager.v), parametrized over a relation on dictionaries and one on logs and closed under sequencing, used three times: equal dictionaries and a noisier log, with po_blank of C102 as the load of a file; thinner dictionaries, with C102's cut and C29's independence (the dictionaries may already differ); equality, for badbit. Sessions by induction over the calls. The reports: a direct computation with the result that an armed parse never returns |
| C104 | The language code from_env picks is the part before the first `_`, `.` or `@` (Proofs/LangMenu.v), which putting the country into upper case keeps; with C49 and C50 the listed codes are the codes of the candidate files (Spec/LoadSpec.v). Not listed: inversion of C64's readings. Own file: C46 with the top rating, which only the language itself has; a kernel-evaluated sweep over the table for the file names. Keys: C15 |
| C105 | Spec/OrderSpec.v: permuted listings, the file that fits best. A lock-step relation between two managers (everything equal but the order of the log), closed under sequencing; the choice of a file by its characterization as a maximum; the set of languages as the unique sorted list of its elements. Sessions by induction. The converse (violation) by moving any of the best files to the front of the listing; lower-case locales: a sweep over the pairs of rows |
| C106 [V] | C46 and C64 with the parse of a stream without content (kernel-evaluated for any dictionary and configuration), the chosen file being unique; the cache for what follows |

No property is "not applicable".

## 4. How the statements are kept honest

* Specifications in `Spec/` are separate from the model: a function map for
  dictionaries, a C-expression evaluator for plural headers, a grammar of PO files
  (text and meaning), a scoring table, an automaton for descriptors, abstract
  path/charset/language histories for the manager.
* Beside each theorem an `Example` shows a concrete non-trivial case that meets the
  hypotheses.
* Theorems are tested against wrong programs; `seeded/LOG.jsonl` records every edit of
  the model, the claim it breaks, what failed to prove, and what was tightened.
- The model is executable. Validation/ runs it (vm_compute, for every converter where none is
  needed) on the project's own test data: all .po files of /repo/test, transcribed byte for byte
  by tools/corpus.py, and the four commands of /repo/test/test.sh, with the complete standard
  output and standard error. These are tests of the model, not properties, and are not listed
  in MANIFEST.json.

## 5. Findings in /repo (read off the model; proved where a property is named)

1. `std::getline` leaves `current_line` untouched at end of file, and three loops do
   not test `eof`: a file whose unterminated last line is a comment, a string
   continuation or a `msgstr[N]` line makes `POParser::parse` loop for ever (C23).
2. `error()` skips to the next blank line even if the error was found *at* a blank
   line: an incomplete entry swallows the whole entry after it (C28).
3. `set_use_fuzzy` has no effect: the parser is always constructed with
   `use_fuzzy = true` (C31).
4. Plural table: the Latvian row is registered with 2 forms although its rule yields
   0..2 (and its text has an unbalanced parenthesis, so the real header is not
   recognised); the Slovenian row with 3 although its rule yields 0..3 (C01, C02).
5. Five aliases are registered with upper-case letters and can never match (C18).
6. `iconv_close((iconv_t)-1)` after a failed `iconv_open` (C40); an encoder with a
   4-byte mark trips the E2BIG assertion; conversion state leaks from message to
   message (C41); an invalid first byte yields an *empty translation* (C39).
7. Manager: a directory that throws leaves a half-loaded dictionary in the cache
   (C43); plural forms come from the *lowest*-priority directory (C45); singular
   overrides keep the overridden entry's other forms (C58); `get_languages` lists the
   undefined language and does not normalise `zh_tw.po` (C49);
   `convertFilename2Language` throws for names shorter than 3 bytes (C50, unreachable
   from `get_dictionary`); a failure to open a file is never noticed (C53); references
   dangle after `set_charset`/`set_use_fuzzy` even when nothing changes (C56).
8. Dictionary: fallback cycles recurse for ever (C09); `translate_ctxt` leaves its
   context through the fallback, and ignores the fallback if the context is unknown;
   plural lookups ignore the fallback (C10); an out-of-range plural index returns the
   singular msgid even for n != 1 (C07).
9. ctype functions receive negative chars (C37); `_` in a codeset or modifier is taken
   for the country separator (C54); BIG5 mode is never switched off again (C25's
   `big5_after`); an unterminated last header line is ignored (C34); lazily built
   tables race (C52).
10. msgid and msgctxt are never converted, only msgstr (C25, C34): a file in another
    charset has unreachable non-ASCII msgids. A line `# ...` directly behind an entry
    acts as a blank line (C25's `is_blank`).
11. The errors "expected start of string" and "expected 'msgstr[N]' or empty line" are
    unreachable (C63); at an unterminated last line, diagnostics name line numbers that
    the file does not have (C63's example).
12. One `.po` file without a final newline that ends in a comment, a continued string or
    a `msgstr[N]` line makes `get_dictionary` hang for ever (C69, C71).
13. The manager's empty dictionary is never reset; with a cached dictionary as fallback it
    dangles after any call that clears the cache (C76).
14. A read error (or a directory in place of a file) is silently taken for the end of the
    catalogue (C79).
15. `Log`'s destructor calls the callback; destructors are noexcept, so a callback that
    throws (say, to turn errors into exceptions) terminates the program (C81).
16. `add_translation` has no strong exception guarantee: after std::bad_alloc a new message can
    be known without forms, a plural message can mix new and old forms; and memory exhausted
    in a warning terminates the program, since `~Log` is noexcept (C86).
17. `get_dictionary()` passes `current_language` by reference into the loading code
    (dictionary_manager.cpp:92): a `set_language` made meanwhile by the FileSystem or a log
    callback switches the language in the middle of the search path, and the mixture is kept
    as the current dictionary (C88).
18. Cache-clearing calls made while a dictionary is loading delete the dictionary being loaded
    (and may invalidate the iterators over the search path); `get_dictionary()` then stores the
    dangling pointer in `current_dict` (C89).
19. The loops over `search_path` (a deque) keep iterators while application code runs; add_directory
    or remove_directory from there is undefined (C90).
20. Every unknown escape sequence is reported with its whole line: the log of a file can be quadratic in
    its size (C92).
21. The lazily filled static tables are tested for emptiness, not for completeness: a std::bad_alloc
    while one is being filled leaves it incomplete for the life of the process; a language may stay
    behind with no row at all (its from_spec then fails an assertion), and, `ca_ES` standing before
    `ca` in the table, Catalan may become its own base language (C93).
22. get_dictionary(language) enters the new dictionary into the cache before filling it and has no
    way back: if anything throws in between, the language is served from the empty or partial
    dictionary, without fallback, from then on. `new Dictionary` is leaked if the map cannot grow.
    set_charset and add_directory clear the cache before the one operation that can throw (C94).
23. There is no synchronisation in DictionaryManager: two threads may not call get_dictionary for languages
    not loaded yet, not even for different languages (C96); lookups are read-only and safe (C95). Each setter races with the calls that read what it sets (C96).
24. foreach and foreach_ctxt hold iterators into unordered_maps while the function runs: a function that
    adds a new message may make them invalid (C97); changing existing messages is safe.
25. An info callback that translates a message which is missing calls itself for ever (C98).
26. Built with SDL, failed conversions go unnoticed: SDL_iconv does not use errno, and three of its four error
    codes are not (size_t)-1 (C99).
27. A catalogue whose parse never ends (C23) in fact runs into undefined behaviour: every round of the loop
    increments `int line_number`, which overflows after 2^31 rounds. So do files of 2^31 - 1 lines; lines of
    2^32 bytes are misjudged because of casts to unsigned int (C100).
28. A log callback must not add translations to the dictionary that is logging: the list of candidates is
    iterated while callbacks run (invalid iterator or endless list), a collision inside a collision's warning
    recurses, and `vec[0]` is written after the callback may have emptied `vec` (C101).
29. A caller's stream with exceptions(failbit) or exceptions(eofbit) makes every parse end with the stream's
    exception, and the last entry of a file that does not end in a blank line is lost with it (a blank line prevents it). exceptions(badbit)
    is the way to learn of read errors, which are silent otherwise (C79, C102).
    Through a DictionaryManager nothing escapes, but with failbit or eofbit every file is logged as failed (C103).
30. get_name() does not identify a language: a menu of names may show "Belarusian" twice (be, be@latin); str()
    does (C104).
31. Which of several equally good files of a directory is loaded (de_AT.po or de_CH.po for "de") depends on the order
    of std::filesystem::directory_iterator, which is unspecified (C105).
32. A catalogue that cannot be opened (or is empty, or a directory) is chosen all the same and silently hides the other
    files of its directory that would fit, until the cache is cleared (C106).
