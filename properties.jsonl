{"id": "C01", "title": "Plural index is in range for every recognised Plural-Forms header", "statement": "For every Plural-Forms header that PluralForms::from_string recognises, and every count n, get_plural(n) < get_nplural(); the code violates this for exactly two recognised headers (the 'Latvian' one, registered with 2 forms, and the 'Slovenian' one, registered with 3 forms), and for those there is a count for which the index is out of range.", "quantifier": "every header string (any whitespace) and every integer count, positive or negative", "why_tests_cant": "2^32 counts times unboundedly many spellings of each header; the two wrong rows are never touched by the test-suite", "anchors": ["src/plural_forms.cpp: PluralForms::from_string, plural1..plural6_ar", "include/tinygettext/plural_forms.hpp: PluralForms::get_plural, get_nplural"]}
{"id": "C02", "title": "The plural rule applied is the rule the header text states", "statement": "For every header recognised by from_string (other than the one whose text is not a well-formed expression), parsing the header's own text 'nplurals=K;plural=EXPR' as a C expression gives K = get_nplural() and, for every n, value(EXPR,n) = get_plural(n), where % truncates as in C.", "quantifier": "every recognised header and every integer count", "why_tests_cant": "requires equality of two functions on every integer, for each of the 25 rules", "anchors": ["src/plural_forms.cpp: plural functions and the table in from_string"]}
{"id": "C03", "title": "Whitespace in a Plural-Forms header never matters", "statement": "from_string gives the same answer for any two strings that are equal once white space (as in isspace) is removed, and recognises a string iff that white-space-free text is one of the 25 registered texts.", "quantifier": "every pair of strings", "why_tests_cant": "unboundedly many placements of white space", "anchors": ["src/plural_forms.cpp: PluralForms::from_string"]}
{"id": "C04", "title": "A dictionary behaves like a map: last added translation wins", "statement": "After any sequence of add_translation calls (singular, plural, with and without context) on a fresh dictionary, translate / translate_plural / translate_ctxt / translate_ctxt_plural answer exactly as a plain map from (optional context, msgid) to a list of forms would, in which a plural add replaces the whole list and a singular add replaces form 0 and keeps the others.", "quantifier": "every sequence of add_translation calls and every query", "why_tests_cant": "needs every history of overlapping adds", "anchors": ["src/dictionary.cpp: Dictionary::add_translation (4 overloads), translate*"]}
{"id": "C05", "title": "Untranslated messages come back unchanged", "statement": "If no translation was added for a msgid (and no fallback is set), translate returns exactly msgid; translate_plural and translate_ctxt_plural return msgid when the count is 1 and msgid_plural otherwise; translate_ctxt returns msgid.", "quantifier": "every history of adds that does not mention the key; every msgid, msgid_plural and count", "why_tests_cant": "quantifies over all strings and histories", "anchors": ["src/dictionary.cpp: translate, translate_plural, translate_ctxt, translate_ctxt_plural"]}
{"id": "C06", "title": "Contexts are isolated from each other and from context-free messages", "statement": "Adding a translation under one context (or under none) never changes the answer of any query made under a different context (or under none), even with equal msgids; an empty context is distinct from no context.", "quantifier": "every dictionary, add call and query under different contexts", "why_tests_cant": "all pairs of contexts and msgids", "anchors": ["src/dictionary.cpp: add_translation, translate_ctxt, translate_ctxt_plural"]}
{"id": "C07", "title": "Plural lookup selects the form the plural rule picks", "statement": "If the stored list has a non-empty form at index get_plural(n), translate_plural returns that form; if the form is empty it returns msgid for n==1 and msgid_plural otherwise; if the index is beyond the list it returns msgid (even when n is not 1) and logs two errors naming the msgid and the index.", "quantifier": "every dictionary, plural rule, key and count", "why_tests_cant": "all combinations of rule, list length and count", "anchors": ["src/dictionary.cpp: Dictionary::translate_plural", "include/tinygettext/plural_forms.hpp: get_plural"]}
{"id": "C08", "title": "Fallback lookup", "statement": "translate on a chain of dictionaries linked by addFallback returns the translation of the first dictionary in the chain that has one, and msgid if none has; it makes no other dictionary visible.", "quantifier": "every finite chain of dictionaries and every msgid", "why_tests_cant": "unbounded chain length", "anchors": ["src/dictionary.cpp: translate", "include/tinygettext/dictionary.hpp: addFallback"]}
{"id": "C09", "title": "[violation] A fallback cycle makes translate recurse for ever", "statement": "If following addFallback links returns to a dictionary already visited and no dictionary on the cycle knows the msgid, translate never returns.", "quantifier": "every cyclic chain of dictionaries lacking the msgid, every amount of fuel", "why_tests_cant": "non-termination cannot be observed by a test", "anchors": ["src/dictionary.cpp: translate", "include/tinygettext/dictionary.hpp: addFallback"]}
{"id": "C10", "title": "[violation] Context lookups leave the context when a fallback exists", "statement": "A user expects translate_ctxt to answer within its context or return msgid. With a fallback set, translate_ctxt for a context that exists but lacks the msgid returns the fallback's context-free translation; for a context that does not exist it ignores the fallback altogether. Plural lookups never consult the fallback.", "quantifier": "every dictionary with a fallback", "why_tests_cant": "depends on combinations of two dictionaries' contents", "anchors": ["src/dictionary.cpp: translate_ctxt, translate_plural, translate"]}
{"id": "C11", "title": "Enumeration visits every stored message exactly once", "statement": "foreach calls the function once for each context-free msgid ever added, with its current list; foreach_ctxt does so once for every (context, msgid) pair; nothing else is visited.", "quantifier": "every sequence of add_translation calls", "why_tests_cant": "all histories with repeated keys", "anchors": ["include/tinygettext/dictionary.hpp: foreach, foreach_ctxt"]}
{"id": "C12", "title": "A warning is logged exactly when an add overwrites a different translation", "statement": "add_translation logs a collision warning iff the key already has a non-empty list that the add changes; adding the same value again is silent and changes nothing.", "quantifier": "every dictionary and add call", "why_tests_cant": "all histories", "anchors": ["src/dictionary.cpp: add_translation"]}
{"id": "C13", "title": "Language matching is a symmetric score", "statement": "Language::match is symmetric, lies between 0 and 9, is 0 iff the language codes differ, is 9 iff language, country and modifier all agree, and with equal language codes is exactly the 3x3 table (country agrees / one side is empty / conflicts) x (modifier likewise), strictly increasing with each part's agreement: whatever the other part does, agreeing beats an unspecified part, which beats a conflict.", "quantifier": "every pair of languages", "why_tests_cant": "all pairs", "anchors": ["src/language.cpp: Language::match"]}
{"id": "C14", "title": "from_spec always finds the best registered language", "statement": "from_spec(l,c,m) is undefined iff no registered language has code l; otherwise it is a registered language with code l whose match score against (l,c,m) is maximal, the first registered one among equals. The assertion on best_match never fires.", "quantifier": "every triple of strings", "why_tests_cant": "unbounded strings", "anchors": ["src/language.cpp: Language::from_spec, languages[]"]}
{"id": "C15", "title": "Language names round-trip", "statement": "For every language value L obtainable through the API, from_env(L.str()) == L and from_spec(L.get_language(), L.get_country(), L.get_modifier()) == L, and two such values are equal iff their str() are equal.", "quantifier": "every string given to from_spec/from_env/from_name", "why_tests_cant": "quantifies over every constructor argument; the table has almost 300 rows", "anchors": ["src/language.cpp: str, from_env, from_spec, operator=="]}
{"id": "C16", "title": "from_env splits LANGUAGE_COUNTRY.CODESET@MODIFIER", "statement": "from_env(lang[_country][.codeset][@modifier]) == from_spec(lang, country, modifier), whatever the codeset, provided lang contains none of '_' '.' '@', country none of '.' '@', codeset no '@', and, if there is no country, no '_' occurs in codeset or modifier. from_env never throws, for any string.", "quantifier": "every combination of part strings; every string for totality", "why_tests_cant": "unbounded strings; index arithmetic wraps in size_t", "anchors": ["src/language.cpp: Language::from_env"]}
{"id": "C17", "title": "Language aliases resolve regardless of letter case", "statement": "from_name(s) depends only on the lower-cased s when that is a registered alias, and equals from_env(s) when it is not; every all-lower-case alias resolves to its registered locale in any mix of upper and lower case.", "quantifier": "every string and every letter-case variant", "why_tests_cant": "exponentially many case variants", "anchors": ["src/language.cpp: resolve_language_alias, from_name"]}
{"id": "C18", "title": "[violation] Aliases registered with upper-case letters are dead", "statement": "The table registers ja_JP, ja_JP.ujis, ko_KR, no_NO and no_NO.ISO-8859-1, but no argument whatsoever makes from_name use those rows; from_name(\"no_NO\") is Norwegian (no_NO), not the registered nb_NO.", "quantifier": "every string passed to from_name", "why_tests_cant": "a statement about all inputs", "anchors": ["src/language.cpp: resolve_language_alias"]}
{"id": "C19", "title": "Every language has a country-less representative", "statement": "For every registered language, from_spec(get_language()) is a defined language with an empty country; hence dictionary fallback from a country variant to its base language has depth at most one and terminates.", "quantifier": "every language reachable through the API", "why_tests_cant": "all rows of the table and all arguments that reach them", "anchors": ["src/language.cpp: languages[], from_spec", "src/dictionary_manager.cpp: get_dictionary"]}
{"id": "C20", "title": "Language ordering is a strict total order consistent with equality", "statement": "operator< on languages obtained through the API is irreflexive, transitive and total, and two languages are unordered iff equal, so std::set<Language> holds each language once.", "quantifier": "all languages", "why_tests_cant": "all triples", "anchors": ["include/tinygettext/language.hpp: operator<, operator=="]}
{"id": "C21", "title": "The parser never performs an out-of-range access and never leaks its internal exception", "statement": "For every byte stream and dictionary, POParser::parse performs no out-of-range character access and never lets POParserError escape; the only exceptions it can raise come from charset set-up and the only assertions from iconv.", "quantifier": "every byte stream, every dictionary, every iconv behaviour", "why_tests_cant": "all byte sequences, including truncated and malformed ones", "anchors": ["src/po_parser.cpp: all of POParser"]}
{"id": "C22", "title": "Parsing terminates on newline-terminated input", "statement": "POParser::parse returns for every stream that is empty, ends in a newline, or whose unterminated last line does not start with '#' or 'msgstr[' and whose first non-space character is not '\"'.", "quantifier": "every byte stream meeting the condition", "why_tests_cant": "termination for all inputs", "anchors": ["src/po_parser.cpp: parse, get_string, error, next_line"]}
{"id": "C23", "title": "[violation] Parsing never returns on some files without a final newline", "statement": "If the last line of the file is not newline-terminated and is a comment, a string continuation of the last entry, or the msgstr[N] line of the last entry, POParser::parse loops for ever (std::getline leaves the line buffer untouched at end of file and these loops do not test eof).", "quantifier": "every file of the three shapes, with arbitrary comment text / string text, after any preceding blocks that parse; every amount of fuel", "why_tests_cant": "a hang is not a test verdict, and it depends on the end-of-file state", "anchors": ["src/po_parser.cpp: next_line, get_string (next:), parse (while prefix(\"#\")), parse (next:)"]}
{"id": "C24", "title": "String literals round-trip through escaping", "statement": "Writing any byte string with the PO escapes (\\a \\b \\v \\n \\t \\r \\\" \\\\), split over any number of quoted continuation lines with any leading and trailing white space, and reading it back through a PO file yields the same byte string.", "quantifier": "every byte string and every way of splitting it into chunks", "why_tests_cant": "all strings over all 256 bytes", "anchors": ["src/po_parser.cpp: get_string_line, get_string"]}
{"id": "C25", "title": "A written catalogue is read back exactly", "statement": "For any list of entries (optional context, msgid, msgstr or msgid_plural with up to ten msgstr[N], arbitrary comments, any chunking), parsing the file written from it adds exactly the translations of the list, in order, and nothing else; entries whose translations are all empty add nothing.", "quantifier": "every well-formed catalogue", "why_tests_cant": "unbounded number of entries and string contents", "anchors": ["src/po_parser.cpp: POParser::parse"]}
{"id": "C26", "title": "CRLF line endings do not change the result", "statement": "For every byte stream, replacing each newline by CR LF gives the same translations, plural forms and outcome.", "quantifier": "every byte stream, well-formed or not, on platforms whose ctype functions accept every char (elsewhere see C37)", "why_tests_cant": "all inputs including malformed ones", "anchors": ["src/po_parser.cpp: all"]}
{"id": "C27", "title": "Two blank lines isolate any damage", "statement": "For arbitrary bytes A (complete lines) and B, parsing A + two blank lines + B performs the dictionary additions of A followed by those of B parsed with the charset state A left; nothing in A, however malformed, can change which entries of B are seen.", "quantifier": "every byte string A ending in a newline, every B", "why_tests_cant": "all malformed inputs", "anchors": ["src/po_parser.cpp: error, parse"]}
{"id": "C28", "title": "[violation] An incomplete entry swallows the entry after it", "statement": "A user expects an error in one entry not to affect the next. If an entry ends prematurely at a blank line (msgid without msgstr, msgctxt without msgid, msgid_plural without msgstr[N]), recovery skips the whole following entry.", "quantifier": "every such entry and every well-formed following entry", "why_tests_cant": "needs the general claim for all strings", "anchors": ["src/po_parser.cpp: error"]}
{"id": "C29", "title": "Parsing only adds: effects do not depend on what the dictionary already holds", "statement": "The sequence of additions a file causes depends only on the file and the dictionary's charset, not on its prior contents, plural forms or fallback, nor on pedantic mode, log callbacks or file name; existing keys are never removed.", "quantifier": "every file and every pair of dictionaries with equal charset", "why_tests_cant": "relational claim over all dictionaries", "anchors": ["src/po_parser.cpp: parse, parse_header", "src/dictionary.cpp: add_translation"]}
{"id": "C30", "title": "Plural forms: the first file wins", "statement": "If a dictionary already has plural forms, parsing any file leaves them unchanged; if it has none, it ends up with the first recognised Plural-Forms line of the file, if any.", "quantifier": "every file and dictionary", "why_tests_cant": "all files", "anchors": ["src/po_parser.cpp: parse_header"]}
{"id": "C31", "title": "[violation] Fuzzy entries are always used", "statement": "A user who calls DictionaryManager::set_use_fuzzy(false) expects entries flagged '#, fuzzy' to be ignored. POParser::parse always constructs the parser with use_fuzzy = true, so the fuzzy flag and the manager setting have no effect on any dictionary.", "quantifier": "every file, every manager history", "why_tests_cant": "absence of effect over all inputs", "anchors": ["src/po_parser.cpp: POParser::parse(static)", "src/dictionary_manager.cpp: set_use_fuzzy"]}
{"id": "C32", "title": "Truncation at a line boundary loses at most the last entry", "statement": "If a file is cut at any line boundary, the additions made by parsing the cut file are, except possibly those of the entry being read at the cut, a prefix of the additions made by parsing the whole file.", "quantifier": "every file and every line-boundary cut point", "why_tests_cant": "all crash points", "anchors": ["src/po_parser.cpp: parse"]}
{"id": "C33", "title": "A UTF-8 byte-order mark is ignored", "statement": "Parsing BOM + content has the same effect as parsing content, provided content does not itself begin with a BOM.", "quantifier": "every byte stream", "why_tests_cant": "all inputs", "anchors": ["src/po_parser.cpp: parse"]}
{"id": "C34", "title": "Header handling", "statement": "The charset used to convert msgstrs is the upper-cased text after 'Content-Type: text/plain; charset=' on the last such newline-terminated header line, or UTF-8 if there is none, it is empty, or it is CHARSET.", "quantifier": "every header text", "why_tests_cant": "all header texts", "anchors": ["src/po_parser.cpp: parse_header"]}
{"id": "C35", "title": "Big5 double-byte characters pass through unharmed", "statement": "After a BIG5 header, a lead byte 0x81..0xfe and its trail byte are copied verbatim inside strings even if the trail byte is '\"' or a backslash.", "quantifier": "every sequence of single- and double-byte characters", "why_tests_cant": "all strings", "anchors": ["src/po_parser.cpp: get_string_line"]}
{"id": "C36", "title": "Line numbers in messages are bounded by the file size", "statement": "When parse returns, the line counter never exceeded the number of lines read plus a small constant, so it cannot overflow an int for files below 2 GiB.", "quantifier": "every terminating input", "why_tests_cant": "all inputs", "anchors": ["src/po_parser.cpp: next_line, warning, error"]}
{"id": "C37", "title": "[violation] ctype functions receive negative values on signed-char platforms", "statement": "isspace/isdigit/toupper/tolower/isalpha are called on plain char. Where char is signed and the ctype functions do not accept negative arguments, parsing is undefined for some files with non-ASCII bytes; it is never undefined for pure-ASCII files.", "quantifier": "every ASCII file (safety), a family of non-ASCII files (violation)", "why_tests_cant": "undefined behaviour is platform-dependent and usually invisible to tests", "anchors": ["src/po_parser.cpp: is_empty_line, get_string_line, get_string", "src/language.cpp: resolve_language_alias"]}
{"id": "C38", "title": "Equal charsets convert by identity", "statement": "If the two charsets are equal up to ASCII letter case, or none was set, convert returns its argument unchanged and opens no descriptor.", "quantifier": "every pair of charset names and every text", "why_tests_cant": "all strings", "anchors": ["src/iconv.cpp: set_charsets, convert"]}
{"id": "C39", "title": "Converted text is exactly what iconv produced", "statement": "If iconv succeeds within the 4x buffer, convert returns all of its output and nothing else; on an invalid sequence it returns the output for the valid prefix, resets the descriptor and logs an error.", "quantifier": "every iconv behaviour and text", "why_tests_cant": "oracle-quantified", "anchors": ["src/iconv.cpp: convert"]}
{"id": "C40", "title": "[violation] iconv_close is called on an invalid descriptor", "statement": "After iconv_open fails, set_charsets throws while the descriptor is (iconv_t)-1, and the destructor closes it; this is reachable from POParser::parse with an unknown charset. In all other histories every descriptor is closed exactly once and never used after.", "quantifier": "every sequence of set_charsets/convert calls", "why_tests_cant": "resource discipline over all histories", "anchors": ["src/iconv.cpp: set_charsets, ~IConv", "src/po_parser.cpp: parse_header"]}
{"id": "C41", "title": "[violation] The 4x output buffer can be too small and conversion is not repeatable", "statement": "For a target charset whose encoder emits a 4-byte byte-order mark, converting a one-byte text trips the E2BIG assertion; for any encoder with start-up state, converting the same text twice gives different results because the state is neither flushed nor reset between messages.", "quantifier": "iconv behaviours with output-prefix state", "why_tests_cant": "depends on the installed iconv", "anchors": ["src/iconv.cpp: convert"]}
{"id": "C42", "title": "Manager caching is transparent", "statement": "After any sequence of set_language, set_charset, set_use_fuzzy, add_directory, remove_directory, get_dictionary and get_languages calls, get_dictionary(L) yields a dictionary with the same contents as a fresh manager with the same search path and charset would, provided directories can be read and the files do not change.", "quantifier": "every sequence of operations", "why_tests_cant": "all histories", "anchors": ["src/dictionary_manager.cpp: all"]}
{"id": "C43", "title": "[violation] A failed load is cached half-done", "statement": "If reading a search directory throws, get_dictionary propagates the exception but leaves the partially loaded dictionary (without fallback) in the cache, so the next call returns it without error.", "quantifier": "every search path with an unreadable directory", "why_tests_cant": "depends on failure histories", "anchors": ["src/dictionary_manager.cpp: get_dictionary"]}
{"id": "C44", "title": "Search-path priority", "statement": "For a context-free or contextual msgid, the translation (form 0 for singular lookups) comes from the first directory of the search path whose chosen file provides one; add_directory appends (or prepends with precedence), never duplicates, and remove_directory removes.", "quantifier": "every search path, file contents and msgid", "why_tests_cant": "all configurations", "anchors": ["src/dictionary_manager.cpp: get_dictionary, add_directory, remove_directory"]}
{"id": "C45", "title": "[violation] Plural forms come from the lowest-priority directory", "statement": "Although earlier directories override later ones for messages, the plural forms of the dictionary are those of the last directory in the search path that declares any.", "quantifier": "every search path", "why_tests_cant": "all configurations", "anchors": ["src/dictionary_manager.cpp: get_dictionary", "src/po_parser.cpp: parse_header"]}
{"id": "C46", "title": "The best matching file is chosen", "statement": "In each directory the file loaded is a '.po' file whose language has the highest match score with the requested language, the first listed among equals, and none is loaded iff no '.po' file's language code equals the requested one.", "quantifier": "every directory listing and language", "why_tests_cant": "all listings", "anchors": ["src/dictionary_manager.cpp: get_dictionary, convertFilename2Language"]}
{"id": "C47", "title": "Memory ownership in the manager", "statement": "In every history, including ones with exceptions, each dictionary allocated by the manager is freed exactly once by clear/destructor, the current dictionary and every fallback pointer held in the cache refer to live dictionaries, and get_dictionary never returns a freed one.", "quantifier": "every sequence of operations and file-system behaviours", "why_tests_cant": "all histories", "anchors": ["src/dictionary_manager.cpp: clear_cache, ~DictionaryManager, get_dictionary"]}
{"id": "C48", "title": "Language selection", "statement": "get_language returns the language last set; get_dictionary() without a language returns an empty dictionary, and with one returns get_dictionary(that language).", "quantifier": "every sequence of operations", "why_tests_cant": "all histories", "anchors": ["src/dictionary_manager.cpp: set_language, get_language, get_dictionary"]}
{"id": "C49", "title": "get_languages lists the languages of the .po files", "statement": "get_languages contains from_env(stem) for every '.po' file in every search directory, and nothing else; the code violates the natural expectation in two ways: it contains the undefined language when a stem is unknown (which get_dictionary(lang) then rejects by assertion), and for lower-case country names (zh_tw.po) it lists a different language than the one get_dictionary loads the file for.", "quantifier": "every directory contents", "why_tests_cant": "all listings", "anchors": ["src/dictionary_manager.cpp: get_languages, convertFilename2Language"]}
{"id": "C50", "title": "Filename to language conversion", "statement": "convertFilename2Language strips a '.po' suffix, upper-cases exactly the letters directly after the first underscore up to the first non-letter, and changes nothing else; it throws out_of_range iff the name has fewer than 3 characters.", "quantifier": "every string", "why_tests_cant": "all strings; relies on size_t wrap-around", "anchors": ["src/dictionary_manager.cpp: convertFilename2Language"]}
{"id": "C51", "title": "Log callbacks", "statement": "Each log statement invokes the callback currently installed for its level exactly once with the complete text, and none at all if that callback is null; changing one level's callback does not affect the others.", "quantifier": "every sequence of callback changes and log statements", "why_tests_cant": "all histories", "anchors": ["src/log.cpp", "include/tinygettext/log_stream.hpp"]}
{"id": "C52", "title": "[violation] Lazy table initialisation is not thread-safe", "statement": "from_spec, from_name and from_string fill a function-static table on first use without synchronisation: with two or more threads there is a schedule in which one thread's lookup of a registered key fails although another has only begun filling the table. Even if every access is atomic this is all that can go wrong: for any number of threads and any schedule a lookup gives the registered value or misses, never a wrong value; a thread that found the table empty gets the right answer; when all have finished the table is complete, and from then on every lookup is right and the table is not changed again. With one thread the lookup is always right.", "quantifier": "every number of threads, every schedule, every key", "why_tests_cant": "schedule-dependent", "anchors": ["src/language.cpp: from_spec, resolve_language_alias", "src/plural_forms.cpp: from_string"]}
{"id": "C53", "title": "Unreadable files are harmless", "statement": "With UnixFileSystem, a file that cannot be opened yields a stream in failed state (never null), parsing it changes nothing and logs nothing, so the 'failure opening' branch of get_dictionary is unreachable.", "quantifier": "every file system state", "why_tests_cant": "depends on OS failures", "anchors": ["src/unix_file_system.cpp: open_file", "src/dictionary_manager.cpp: get_dictionary"]}
{"id": "C54", "title": "[violation] Without a country, an underscore in the codeset or modifier is taken for the country separator", "statement": "A user expects from_env(\"lang@mod_ifier\") to parse language 'lang' with modifier 'mod_ifier'. If there is no country, the first '_' anywhere in the string is taken as the country separator: the text between it and the end is the country (the substr length wraps around in size_t) although the language part still ends at '.' or '@'.", "quantifier": "every locale name without country whose codeset or modifier contains an underscore", "why_tests_cant": "depends on size_t wrap-around for arbitrary strings", "anchors": ["src/language.cpp: Language::from_env"]}
{"id": "C55", "title": "A missing newline after a one-line msgstr does no harm", "statement": "If a well-formed file ends in a msgstr written on a single line and only its final newline is missing, parsing still finishes, with the same outcome and the same translations as with the newline.", "quantifier": "every well-formed document that ends in a one-line msgstr", "why_tests_cant": "every document and string contents", "anchors": ["src/po_parser.cpp: POParser::parse, get_string", "std::getline"]}
{"id": "C56", "title": "How long a dictionary reference stays valid", "statement": "A Dictionary& obtained from get_dictionary stays valid and its dictionary unchanged across any calls except set_charset, set_use_fuzzy, add_directory of a directory not yet in the search path and remove_directory of one that is; each of those makes every such reference dangle, even if the setting does not really change.", "quantifier": "every history of calls, with exceptions, and every reference", "why_tests_cant": "the lifetime depends on the whole history of calls", "anchors": ["src/dictionary_manager.cpp: DictionaryManager::clear_cache, set_language, set_charset, set_use_fuzzy, add_directory, remove_directory, get_dictionary"]}
{"id": "C57", "title": "Translating through a manager's dictionaries is always safe", "statement": "For every dictionary a manager holds after any history (including half-loaded ones left by exceptions), translate and translate_ctxt finish after following at most one fallback and never dereference a deleted or null fallback.", "quantifier": "every history of calls and file-system behaviours, every msgid", "why_tests_cant": "needs an invariant over all histories of loads, exceptions and cache clears", "anchors": ["src/dictionary_manager.cpp: DictionaryManager::get_dictionary", "src/dictionary.cpp: Dictionary::translate"]}
{"id": "C58", "title": "[violation] An overriding singular entry keeps the other plural forms of the overridden one", "statement": "If the preferred directory translates a message as singular only and a less preferred directory translates it with plural forms, the resulting entry mixes both: form 0 from the preferred directory, all other forms from the other one.", "quantifier": "every pair of directories, message and list of forms", "why_tests_cant": "depends on arbitrary contents of two files", "anchors": ["src/dictionary.cpp: Dictionary::add_translation(msgid, msgstr)", "src/dictionary_manager.cpp: DictionaryManager::get_dictionary"]}
{"id": "C59", "title": "Nothing is made up: every parser effect comes from an entry of the file", "statement": "Whatever bytes a file consists of, its lines can be cut into skipped lines and well-formed PO entries such that the additions and plural rules the parse hands to the dictionary are exactly what those entries say, in file order, with texts converted by the converter the preceding header set up; in particular, a message whose translation changes has an entry with its msgid and context in the file.", "quantifier": "every byte sequence, dictionary, converter behaviour and platform", "why_tests_cant": "quantifies over all malformed files", "anchors": ["src/po_parser.cpp: POParser::parse, parse_header, get_string, get_string_line"]}
{"id": "C60", "title": "The parser's warnings, exactly", "statement": "Reading a well-formed file that needs no charset conversion logs exactly: one warning per unknown escape, per garbage after a string, per malformed Content-Type or unrecognised, contradicting or missing Plural-Forms or charset, per colliding message and per wrong number of plural forms, and in pedantic mode per irregular white space before a string, in file order, each naming the file, the number and the text of the line; a tidy file is read in silence.", "quantifier": "every well-formed document, dictionary, pedantic mode and file name", "why_tests_cant": "all documents and all combinations of irregularities", "anchors": ["src/po_parser.cpp: POParser::warning, parse, parse_header, get_string, get_string_line", "src/dictionary.cpp: Dictionary::add_translation"]}
{"id": "C61", "title": "Language names and identity", "statement": "Every defined language has a non-empty language code, string form, English name and localised name (the English one standing in where none is registered), all taken from one row of the table; the undefined language has only empty ones; a language is defined iff its string form is non-empty; operator!= is difference of string forms; Language_hash is consistent with operator==.", "quantifier": "every language value a client can hold (and every assignment of addresses)", "why_tests_cant": "the table has 241 rows and every pair of languages matters", "anchors": ["src/language.cpp: get_name, get_localized_name, str, operator==, operator!=", "include/tinygettext/language.hpp: operator bool, Language_hash"]}
{"id": "C62", "title": "What lookups log", "statement": "A successful lookup logs nothing; a failing translate or translate_ctxt logs one info message naming the msgid; a failing plural lookup also lists exactly the msgids known in that context.", "quantifier": "every history of adds and every query", "why_tests_cant": "all histories and keys", "anchors": ["src/dictionary.cpp: translate, translate_ctxt, translate_plural, translate_ctxt_plural"]}
{"id": "C63", "title": "Diagnostics quote the line they name", "statement": "Whatever bytes a file consists of, everything parsing it logs is one of: a warning or error from a fixed list, prefixed by file name and line number and ending in the text of exactly that line of the file (the last line standing in behind the end); a collision report about a message this parse added; or an invalid-multibyte report. Line numbers exceed the file's length by at most 17.", "quantifier": "every byte sequence, dictionary, converter behaviour, platform and mode", "why_tests_cant": "quantifies over all malformed files", "anchors": ["src/po_parser.cpp: POParser::warning, POParser::error, next_line", "src/dictionary.cpp: Dictionary::add_translation", "src/iconv.cpp: IConv::convert"]}
{"id": "C64", "title": "What loading a dictionary reads and logs", "statement": "The first get_dictionary(language) reads the directories of the search path from last to first, in each the first of the best-fitting .po files, for the language and then (if it has a country) for its base language; the log is exactly: an 'ignoring, unknown language' warning per .po file of an unknown language, what the parser logs, and 'failure opening' or 'failure parsing' plus the exception's text for a file that cannot be read, while exceptions from listing a directory reach the caller. Once it has returned, the same call returns the same reference and reads and logs nothing until the settings change; no other call logs anything.", "quantifier": "every file system (including ones that throw or change between calls), search path, charset, language and call history", "why_tests_cant": "all file systems and call histories", "anchors": ["src/dictionary_manager.cpp: get_dictionary, clear_cache, add_directory, remove_directory, set_charset, set_use_fuzzy", "src/po_parser.cpp: POParser::parse"]}
{"id": "C65", "title": "Pedantic mode only adds warnings", "statement": "Whatever bytes a file consists of, parsing it in pedantic mode has the same outcome, gives the same dictionary and consumes the same lines as in normal mode, and logs the same messages in the same order plus possibly some of the two pedantic warnings.", "quantifier": "every byte sequence, dictionary, file name, converter behaviour and platform; also every bound on the number of steps", "why_tests_cant": "quantifies over all files, including malformed ones", "anchors": ["src/po_parser.cpp: POParser::pedantic, get_string"]}
{"id": "C66", "title": "Exactly which lines of a damaged file are lost", "statement": "If a parse of a file whose lines all end in newlines returns normally, its lines fall in exactly one way into segments: well-formed blocks with a separating blank line, which are read and about which only warnings (or the converter's complaints) are logged; singular entries followed by a line that is neither blank nor a further string, which are read while that line and the lines up to the next blank line are lost, reported by exactly one 'expected empty line' naming that line and its number; and broken blocks, lost up to the next blank line, reported by exactly one error that names (with its number) the first line no well-formed block can have there and says what is wrong with it (which keyword was expected, or how its string is damaged). The dictionary calls are exactly those of the entries read, in order.", "quantifier": "every complete file, file name, configuration, converter, dictionary", "why_tests_cant": "all byte strings ending in a newline; the mistakes can be anywhere and of any kind", "anchors": ["src/po_parser.cpp: parse, error, get_string, get_string_line, is_empty_line"]}
{"id": "C67", "title": "No mistake is reported exactly when the file is well-formed", "statement": "If a parse of a complete file returns normally and no error line names a line of it, the file's lines are those of a well-formed PO document; and if they are, the only error lines logged are the converter's own complaints.", "quantifier": "every complete file, file name, configuration, converter, dictionary", "why_tests_cant": "all byte strings ending in a newline", "anchors": ["src/po_parser.cpp: parse, error"]}
{"id": "C68", "title": "The mistakes reported depend on the file only", "statement": "Any two parses of the same complete file that return normally report the same mistakes in the same order: the same line numbers, the same texts and the same quoted lines, whatever the file name, the configuration (debug or pedantic checks), the converter, the destination dictionary or its charset. The numbers are increasing and each report quotes the line of the file with that number (an empty one past the end). The text is determined by the line, by the lines of its block before it, and by whether the catalogue has declared BIG5.", "quantifier": "every complete file, any two file names, configurations, converters and dictionaries", "why_tests_cant": "relates two arbitrary executions on arbitrary damaged files", "anchors": ["src/po_parser.cpp: parse, error, get_string, get_string_line"]}
{"id": "C69", "title": "A missing final newline: exactly when it hangs the parser, and otherwise exactly what it changes", "statement": "Take any PO file whose last line is not ended by a newline, well-formed or damaged, and the same file with the newline. The lines fall in exactly one way into segments (C66); the last one decides. If the last line of that segment is a comment, continues a string, or is a msgstr[N] line, then parsing the file without the newline never ends normally, whatever the converter, the build and the dictionary; and if the file with the newline is parsed normally, parsing the other one does not terminate at all (or, in a build with asserts, may end in an assertion if the converter starts to fail on the same text). In every other case the parse without the newline ends normally if the one with it does, with the same calls and the same dictionary, and the logs agree except for the last report and the line quoted by warnings about the end of the file. Adding the newline never makes a normal parse fail.", "quantifier": "all byte sequences not ended by a newline (well-formed, damaged, with or without byte order mark), file names, dictionaries, iconv implementations, build configurations and ctype behaviours", "why_tests_cant": "whether a parse hangs cannot be observed by a test at all, and the dichotomy ranges over all damaged files and every place where a file can end", "anchors": ["src/po_parser.cpp: next_line, get_string, parse_header, parse, error"]}
{"id": "C70", "title": "From files on the disk to the answers of translate", "statement": "With the default file system, when every directory of the search path can be listed and the file chosen in each (for the language, and for the language without its country) is a well-formed PO file in the manager's charset (or, where the ctype functions take any char, any file at all that ends in a newline and is in that charset: then its damaged segments count for nothing), then, after any history of calls that returned, get_dictionary(l) returns a dictionary whose translate(msgid) is the msgstr of the last translated entry for msgid in the file of the first directory that has one, else the same for the language without its country, else msgid; translate_ctxt does the same inside the context, but consults the base language (without context) only if some file uses that context; the plural functions answer from the entries of all files merged from the last directory to the first, with the first plural rule met in that order. If a directory cannot be opened, get_dictionary and get_languages throw filesystem_error.", "quantifier": "all disks, search paths, charsets, languages, documents, well-formed or damaged, histories of manager calls, messages, contexts and counts", "why_tests_cant": "the input is a whole directory tree of arbitrary files together with an arbitrary call history; a test fixes one of each", "anchors": ["src/dictionary_manager.cpp: DictionaryManager::get_dictionary", "src/unix_file_system.cpp: UnixFileSystem::open_directory, open_file", "src/po_parser.cpp: POParser::parse", "src/dictionary.cpp: Dictionary::translate, translate_ctxt, translate_plural, translate_ctxt_plural"]}
{"id": "C71", "title": "A manager call has one result, and exactly when get_dictionary never comes back", "statement": "Every call on a DictionaryManager either has exactly one result or never comes back. Only the two get_dictionary calls can fail to come back, whatever the history. On a new manager get_dictionary(l) never comes back exactly when, reading the search path from its last directory to its first for l and then for l without its country, the manager reaches a file whose parse never ends; after any history a call that does not come back got stuck on such a file. If every file the file system opens is unreadable or ends in a newline (or at least its last line is no comment, no msgstr[N] line and does not begin with a quote), every call comes back. Conversely a single file for the language that lacks only its final newline and ends in a comment, a continued string or a msgstr[N] line makes get_dictionary hang for ever.", "quantifier": "all manager histories, file systems that return or throw, languages, search paths, charsets, converters, builds", "why_tests_cant": "non-termination cannot be observed by a test, and the criterion ranges over all directory trees and call histories", "anchors": ["src/dictionary_manager.cpp: DictionaryManager::get_dictionary, get_languages", "src/po_parser.cpp: POParser::parse, next_line"]}
{"id": "C72", "title": "Everything about a parse: calls, dictionary and every line of the log, for any complete file", "statement": "Let a file have every line ended by a newline, cut it into its (unique, C66) whole blocks, blocks followed by an excess line, and broken blocks, and let the headers among the entries read name the dictionary's own charset. Then on every platform with total ctype functions the parse ends normally, the calls on the dictionary are those of the entries read, in order, the dictionary afterwards is what these calls make of the one passed in, and the log is, line for line, determined by the file, its name, the pedantic flag and the dictionary: for every line up to a mistake the notes about it (missing single space behind the keyword, leading white space, unknown escapes, garbage behind the string, repeated msgids, too few or too many plural forms), then the one report of the mistake with its line number and text, and nothing about the lines skipped. Where ctype functions must not get negative chars the same holds of every parse that ends normally. The converter has no influence.", "quantifier": "all complete files, well-formed or not, all dictionaries, file names, pedantic or not, converters, builds", "why_tests_cant": "the exact log of arbitrary damaged input, with line numbers, is a statement about infinitely many files; tests only look at single diagnostics", "anchors": ["src/po_parser.cpp: POParser::parse, get_string, get_string_line, warning, error, next_line"]}
{"id": "C73", "title": "Everything a parse does, conversions included, for any complete file and any converter", "statement": "Every file whose lines all end in a newline has exactly one description: its cut into whole blocks, blocks followed by an excess line and broken blocks, with the report that is made about each. Whatever character sets its headers name and however the converter behaves, the parse does exactly what that description prescribes, in order: the notes about every line, the calls on the dictionary, the opening and closing of converters, every conversion of a msgstr or msgstr[N] (in a broken block those of the msgstr[N] already complete before the mistake), one report per mistake; and if opening or converting fails, it stops right there with that failure, with the dictionary, the calls and the log as they are at that point. Where ctype functions must not get negative chars the same holds unless a negative char is passed.", "quantifier": "all complete files, well-formed or not, in any charset, all dictionaries, file names, pedantic or not, converters (also failing and stateful ones), builds", "why_tests_cant": "the order of conversions, additions and messages, and the state left by a conversion failing at any point, are statements about infinitely many files and converters", "anchors": ["src/po_parser.cpp: POParser::parse, parse_header, get_string, error, warning, next_line", "src/iconv.cpp: IConv::set_charsets, convert"]}
{"id": "C74", "title": "A program's changes to the manager's dictionaries and the manager's own work do not interfere", "statement": "get_dictionary returns a reference through which a program may change the dictionary (add_translation, set_plural_forms, addFallback, POParser::parse). In every session of manager calls and such changes, with exceptions and changing files, every manager call has the outcome and logs what it would without the changes, and every reference denotes what it would denote without them, with the changes made through it applied in order: the manager never touches a dictionary again once it has been loaded.", "quantifier": "all sessions of manager calls and dictionary changes through non-dangling references, all file systems, charsets, builds", "why_tests_cant": "arbitrary interleavings of calls and changes", "anchors": ["src/dictionary_manager.cpp: DictionaryManager::get_dictionary, clear_cache", "include/tinygettext/dictionary.hpp: Dictionary::add_translation, set_plural_forms, addFallback", "src/po_parser.cpp: POParser::parse"]}
{"id": "C75", "title": "Changes to a dictionary last exactly until the cache is cleared", "statement": "As long as no call clears the cache (set_charset, set_use_fuzzy, add_directory of a new directory, remove_directory of a present one), get_dictionary(l) keeps returning the same dictionary with all changes a program has made to it, without reading a file. After any such call - even one that sets what was set before - the changes are gone: the next get_dictionary(l) cannot be told from that of a new manager with the same charset and search path, on the files as they are then.", "quantifier": "all sessions of manager calls and dictionary changes, all languages, file systems that change in between", "why_tests_cant": "arbitrary interleavings of calls and changes", "anchors": ["src/dictionary_manager.cpp: DictionaryManager::get_dictionary, clear_cache, set_charset, set_use_fuzzy, add_directory, remove_directory"]}
{"id": "C76", "title": "[violation] The manager's empty dictionary is never reset and may fall back on a deleted dictionary", "statement": "The dictionary returned while no language is set is one object for the manager's whole life: it keeps every change ever made to it. If a program makes a cached dictionary its fallback, then after any call that clears the cache looking up a message it does not hold itself dereferences a deleted dictionary. For dictionaries of the cache this cannot happen, whatever (non-dangling) fallbacks the program has set; and without addFallback translation through any dictionary of the manager stays safe and ends after at most one fallback.", "quantifier": "all sessions of manager calls and dictionary changes", "why_tests_cant": "arbitrary interleavings of calls and changes; use after free may go unnoticed in a test", "anchors": ["src/dictionary_manager.cpp: DictionaryManager::get_dictionary, clear_cache", "include/tinygettext/dictionary_manager.hpp: empty_dict", "include/tinygettext/dictionary.hpp: Dictionary::addFallback"]}
{"id": "C77", "title": "Characters and words", "statement": "White space, digits and letters are exactly the ASCII ones of the C locale (white space: tab, line feed, vertical tab, form feed, carriage return, space); no byte from 128 on belongs to any class or has another case, so UTF-8 text is never taken for a separator; changing case maps each letter to its partner and leaves everything else alone; prefix, substring and character searches and C string conversion find exactly what the words say.", "quantifier": "all bytes, all strings", "why_tests_cant": "all strings; the other specifications rest on these words", "anchors": ["src/po_parser.cpp: POParser::prefix, is_empty_line, get_string_line", "src/plural_forms.cpp: PluralForms::from_string", "src/language.cpp: resolve_language_alias", "src/iconv.cpp: IConv::set_charsets"]}
{"id": "C78", "title": "Line numbers in messages are decimal", "statement": "Every line number in a message is written in ordinary decimal notation, with no needless zeros (so the number can be read back and is the number meant), negative numbers with a minus sign.", "quantifier": "all integers", "why_tests_cant": "infinitely many numbers", "anchors": ["src/po_parser.cpp: POParser::warning, error"]}
{"id": "C79", "title": "[violation] A read error is taken for the end of the file and never reported", "statement": "If reading a catalogue fails after some bytes (an I/O error; a directory where a file was expected fails after none), POParser::parse reports nothing: it has exactly the outcome, dictionary and messages of parsing the file that ends there - with the line the error cut, if that line continues a block, or without it. After a complete block the cut line is not looked at and the parse ends; after a complete line there is no difference to a file that ends there; if the parser gets stuck, it gets stuck on the file with the cut line too. A manager, in every history, behaves on a shelf with such files as on one whose files end with the last complete block.", "quantifier": "all byte strings delivered before the error, all dictionaries, converters, builds; all histories of manager calls over all sets of failing files", "why_tests_cant": "a read error may strike after any byte; tests cannot easily inject them", "anchors": ["src/po_parser.cpp: POParser::next_line, parse", "src/unix_file_system.cpp: UnixFileSystem::open_file", "src/dictionary_manager.cpp: DictionaryManager::get_dictionary"]}
{"id": "C80", "title": "A program's own dictionaries: lookups follow the last addFallback", "statement": "A program constructs, changes (add_translation, set_plural_forms, addFallback, assignments from foreach and foreach_ctxt) and destroys any number of dictionaries in any order. It is undefined exactly if it touches an object that is not alive. Every singular lookup then answers the dictionary's own text for the key; else, if addFallback was called and the key's context (if any) has some entry, what the dictionary last passed to addFallback says about the msgid without context; else the msgid. A lookup led to a null or destroyed dictionary is undefined, one led round in a circle never ends, and there is no other fate. Plural lookups, charset, plural rule and enumeration depend on the dictionary's own calls only; a call on one dictionary changes nothing in another.", "quantifier": "all programs over any number of dictionaries, all keys", "why_tests_cant": "unbounded histories, fallback graphs of any shape", "anchors": ["include/tinygettext/dictionary.hpp: Dictionary::addFallback, foreach, foreach_ctxt", "src/dictionary.cpp: Dictionary::translate, translate_ctxt, translate_plural, translate_ctxt_plural, add_translation"]}
{"id": "C81", "title": "[violation] Log callbacks may change the callbacks, but must not throw", "statement": "Whatever the registered callbacks do, each library message of a level calls the callback set last for that level - by the program or by an earlier callback - exactly once with the whole text, or nobody if that is null; what a callback sets counts from the next message on. An exception thrown by a callback never reaches the caller of the library: the program is terminated at that message.", "quantifier": "all callbacks (any reaction to any text), all histories of settings and messages", "why_tests_cant": "callbacks are arbitrary code; termination ends the test", "anchors": ["src/log.cpp: Log::~Log, Log::set_log_info_callback", "include/tinygettext/log.hpp: Log", "include/tinygettext/log_stream.hpp"]}
{"id": "C82", "title": "Clients get the files' texts converted from the charset the header names", "statement": "Default file system, search path of directories that can be listed, files of any content that end in a newline (or cannot be opened), an iconv(3) that converts whole texts by some function for each pair of charsets it offers. After any calls that returned, get_dictionary(l) returns a dictionary that answers translate, translate_ctxt, translate_plural and translate_ctxt_plural with the texts of the entries in the files, converted from the charset of the header above them to the manager's charset: first directory first, last entry of a file, then the language without its country, then the msgid. msgctxt and msgid are not converted. Texts above the first header, or under one that names the manager's charset in any case, are taken as they are. From a header whose charset is not on offer on, the file is ignored. Every such disk says exactly one thing.", "quantifier": "all disks, file contents, charsets, converters keeping the promise, languages, histories of manager calls", "why_tests_cant": "files and charsets of unbounded variety; needs the whole chain from disk to answer", "anchors": ["src/dictionary_manager.cpp: DictionaryManager::get_dictionary", "src/po_parser.cpp: POParser::parse, parse_header", "src/iconv.cpp: IConv::set_charsets, convert", "src/unix_file_system.cpp", "src/dictionary.cpp: Dictionary::translate"]}
{"id": "C83", "title": "tinygettext_test translate and list-msgstrs print what the file says, and report failures with exit status 0", "statement": "'translate FILE MESSAGE' (with CONTEXT, MESSAGE_P, NUM) prints the text the catalogue holds for the message, converted to UTF-8, or the message; plural lookups print the form the file's plural rule picks for the number NUM denotes (a NUM that does not fit an int is undefined behaviour). 'list-msgstrs FILE' prints every message exactly once, those without context first, each with all its texts. Standard error receives the parser's complaints in order, each prefixed 'tinygettext: ', and one line for a message not found. A file that cannot be opened, or whose charset is not on offer, prints one line 'Exception: ...' on standard output and the exit status is still 0.", "quantifier": "all files ending in a newline, damaged or not, all converters keeping their promise, all arguments", "why_tests_cant": "command lines and files are unbounded; the programs are only run by hand", "anchors": ["test/tinygettext_test.cpp: main, read_dictionary, print_msg, print_msg_ctxt", "src/po_parser.cpp: POParser::parse", "src/log.cpp: Log::default_log_callback"]}
{"id": "C84", "title": "po_parser_test checks every file named, whatever is wrong with the others", "statement": "po_parser_test FILE... reports about each file in the order given: a line 'cannot access' for one that cannot be opened, the parser's complaints (unprefixed) for one that can, and a line 'exception: ...' where reading failed. No file's report depends on another file, every file has exactly one possible report, and the exit status is 0 even if all fail. Without files it prints a usage line.", "quantifier": "all lists of files, all contents ending in a newline", "why_tests_cant": "unbounded lists and contents", "anchors": ["test/po_parser_test.cpp: main, my_log_callback", "src/po_parser.cpp: POParser::parse"]}
{"id": "C85", "title": "tinygettext_test language, language-dir and directory print what the library answers", "statement": "'language NAME' prints the language's code, name, language, country and modifier, or 'not found'. 'language-dir DIR' prints the number of distinct languages of the DIR/*.po files and each of them once, in the order of Language's operator<. 'directory DIR MESSAGE LANG' prints the text of the best file for LANG in DIR, else that of the language without country, else MESSAGE; without LANG always MESSAGE. An unknown LANG ends with exit status 1, the only way to get one; a DIR that cannot be listed breaks off in the middle of the last line with 'Exception: ...', exit status 0. Every other command line prints the usage, exit status 0. Every command line ends, if the files end in a newline.", "quantifier": "all command lines, disks, catalogue contents", "why_tests_cant": "unbounded command lines and disks", "anchors": ["test/tinygettext_test.cpp: main, print_usage", "src/language.cpp: Language::from_name", "src/dictionary_manager.cpp: DictionaryManager::get_languages, get_dictionary"]}
{"id": "C86", "title": "What a failed allocation leaves behind in add_translation", "statement": "With enough memory add_translation does what the other properties say. If a request for memory is refused, wherever in the call: a call that returns has done all its work (its warning may be cut short); one that throws std::bad_alloc has changed no setting and no other message, and its own message is as before, or is now known without any form, or (plural call) has its first forms new and the rest old - each of these really happens, so there is no strong exception guarantee: after a failed call translate_plural can answer msgid for every number where before it chose between msgid and msgid_plural. In any history of calls, every message none of whose own calls failed has exactly the forms it was given; and repeating a call until it succeeds is as good as one that succeeds at once. std::terminate happens only where a warning about an overwritten translation is handed to a callback, and there it does happen.", "quantifier": "all dictionaries, calls, histories, and all sets of refused requests", "why_tests_cant": "unbounded many failure points in unbounded histories; memory exhaustion is not reproducible", "anchors": ["src/dictionary.cpp: Dictionary::add_translation", "src/log.cpp: Log::~Log", "include/tinygettext/log_stream.hpp: log_warning"]}
{"id": "C87", "title": "Calls on a manager from its own file system or log callbacks are harmless if they keep the cache", "statement": "While a manager loads a dictionary it runs the application's code: the FileSystem it was given and the log callbacks. If that code calls the same manager - get_dictionary, get_languages, set_language, any call that does not clear the cache, as often as it likes, nested to any depth -, no dictionary is deleted, none that existed before is changed, and get_dictionary(l) returns what it would have returned alone: the dictionary read from the search path, with the base language's dictionary as fallback. The same holds for get_dictionary() if nobody changes the language meanwhile. At every point where the application's code runs, get_dictionary(l) already returns that very dictionary, holding what has been read so far.", "quantifier": "all managers, file systems, languages, behaviours of the application's code at every interruption, nesting depths", "why_tests_cant": "the application's code is arbitrary and runs at arbitrary points of the loading; nesting is unbounded", "anchors": ["src/dictionary_manager.cpp: DictionaryManager::get_dictionary, get_languages", "include/tinygettext/file_system.hpp: FileSystem", "include/tinygettext/log.hpp: Log"]}
{"id": "C88", "title": "[violation] set_language from inside a loading get_dictionary() mixes two languages", "statement": "get_dictionary() passes its current language on by reference. If the file system calls set_language(l2) from inside open_directory(p0) while get_dictionary() is loading l1, the directories read before p0 are read for l1, p0 and the later ones for l2, all into one dictionary. get_dictionary() returns that mixture then and later, although get_language() answers l2, and so does get_dictionary(l1).", "quantifier": "all managers, search paths, languages l1 and l2 (l2 without country), directories p0, files", "why_tests_cant": "needs a re-entrant call at one point of an unbounded loading", "anchors": ["src/dictionary_manager.cpp: DictionaryManager::get_dictionary, set_language"]}
{"id": "C89", "title": "[violation] Clearing the cache from inside a loading get_dictionary leaves a dangling reference", "statement": "If application code running during get_dictionary(l) or get_dictionary() makes any calls, nested to any depth, and one of them clears the cache (set_charset, set_use_fuzzy, add_directory of a new directory, remove_directory of a present one), the call never returns a usable dictionary: if it returns at all, the dictionary it refers to has been deleted; after get_dictionary() the manager keeps returning that dangling reference.", "quantifier": "all managers, file systems, languages, behaviours of the application's code, interruption at which the cache is cleared", "why_tests_cant": "arbitrary code at arbitrary points; a dangling reference may go unnoticed in a test", "anchors": ["src/dictionary_manager.cpp: DictionaryManager::get_dictionary, clear_cache, set_charset, set_use_fuzzy, add_directory, remove_directory"]}
{"id": "C90", "title": "[violation] Changing the search path or deleting the dictionary under a running call is undefined", "statement": "A get_dictionary or get_languages during which the application's FileSystem or log callbacks leave the search path of the same manager changed (a new directory added, one removed) never returns; get_languages does not survive a single interruption that leaves it changed. A get_dictionary(l) during which the cache is cleared inside open_file (the file then being opened), or in a log callback while the file being parsed still has translations to store, runs into undefined behaviour there and then.", "quantifier": "all managers, file systems, languages, behaviours of the application's code, interruption points", "why_tests_cant": "arbitrary code at arbitrary points; undefined behaviour may go unnoticed in a test", "anchors": ["src/dictionary_manager.cpp: DictionaryManager::get_dictionary, get_languages, add_directory, remove_directory, clear_cache", "include/tinygettext/dictionary_manager.hpp: SearchPath"]}
{"id": "C91", "title": "Catalogues are not amplified in memory", "statement": "Parsing a file of n bytes - well-formed, damaged or hostile, and however the parse ends - hands the dictionary at most n calls carrying at most 4n bytes of text, and makes the dictionary hold at most 4n bytes and n messages more than before (n bytes if no character conversion is in force). A DictionaryManager whose files have at most B bytes keeps, after any history of calls, at most one dictionary per known language (plus one for the undefined language), each holding at most 4B bytes and B messages per directory of the present search path: dropping and reloading never accumulates.", "quantifier": "all byte strings as files, dictionaries, converters that respect the room they are given, numbers of steps; all histories of manager calls and file systems", "why_tests_cant": "a bound over all inputs and histories; tests see particular files", "anchors": ["src/po_parser.cpp: POParser::parse, get_string", "src/iconv.cpp: IConv::convert", "src/dictionary.cpp: Dictionary::add_translation", "src/dictionary_manager.cpp: DictionaryManager::get_dictionary, clear_cache"]}
{"id": "C92", "title": "How much is logged about a file: linearly many messages, quadratically many bytes", "statement": "Parsing a complete file of n bytes logs at most 2(n+1) messages, whatever is in it. Their total size is not linear: every unknown escape sequence is reported with the whole line it is in, so for every n there is a well-formed file of 2n+20 bytes about which at least 2n^2 bytes are logged.", "quantifier": "all complete files, dictionaries, converters, file names; all n for the second part", "why_tests_cant": "a bound over all inputs; the quadratic growth shows only on files larger than a test uses", "anchors": ["src/po_parser.cpp: POParser::warning, POParser::error, get_string_line"]}
{"id": "C93", "title": "[violation] A std::bad_alloc while a built-in table is being filled cripples the library for good", "statement": "The tables of languages, of language names and of plural rules are filled by the first call that needs them. As long as no call has reported std::bad_alloc all answers are right. A call that runs out of memory while filling a table leaves the first n rows in it and no later call fills it up, however much memory there is: the other languages, names and plural rules are unknown for the life of the process. Every language but the first can be lost so; every language can be left with a key but no row, whereupon from_spec aborts (or, without assertions, does not know it); every language name can come to denote no language; every plural rule but the first can be lost. A language that is still known keeps its country-less base, except Catalan, where ca_ES@valencia can become its own base (and hence its dictionary its own fallback).", "quantifier": "all sequences of calls of from_spec, from_env, from_name and PluralForms::from_string, all points at which memory runs out, all rows of the tables", "why_tests_cant": "needs an allocation failure at one particular moment in the life of a process, and a check of everything the process does afterwards", "anchors": ["src/language.cpp: Language::from_spec, Language::from_env, Language::from_name, resolve_language_alias", "src/plural_forms.cpp: PluralForms::from_string"]}
{"id": "C94", "title": "A manager stays sound whatever fails inside its calls; but a failed load is remembered as if it had succeeded", "statement": "Let memory run out at any request, the file system throw, and the parser end in any way at any point of a file, in any calls of any history. Then the manager still owns each of its dictionaries exactly once, its current dictionary and all fallbacks are live, references it returns are live, no call touches a deleted dictionary, the destructor deletes everything it holds exactly once, dictionaries loaded before are unchanged, and at most one dictionary is leaked per call that threw std::bad_alloc; when nothing fails, the calls do what the other properties say. But: a get_dictionary(language) that throws has either had no effect, or has left a dictionary without fallback in the cache, which every later get_dictionary(language) returns without looking at any file until a setting changes - and for every language not loaded yet there is a moment at which running out of memory makes its dictionary empty that way, one at which a dictionary is leaked, and, if a directory holds a .po file of an unknown language, one at which the program is aborted because the warning cannot be delivered; a std::bad_alloc (or any std::exception) thrown by the parser is never reported to the caller, who gets the part of the file read so far; set_charset and add_directory that throw have deleted all dictionaries without changing the setting; and a language that an incomplete table (C93) makes its own base gets a dictionary that is its own fallback, so that translating a message it lacks never ends.", "quantifier": "all histories of manager calls, file systems, points of failure of each memory request, behaviours of the parser, languages, charsets, configurations", "why_tests_cant": "needs failures injected at every allocation of every call in every history, and a check of everything that happens afterwards", "anchors": ["src/dictionary_manager.cpp: DictionaryManager::get_dictionary, get_languages, set_charset, add_directory, clear_cache, ~DictionaryManager", "src/log.cpp: Log::~Log"]}
{"id": "C95", "title": "Threads that only look things up in loaded dictionaries need no locks; one thread may load meanwhile", "statement": "Several threads use one DictionaryManager. If all their requests are for what has been loaded already - lookups in dictionaries returned earlier, get_dictionary(l) of a cached language, get_languages(), get_dictionary() with the current dictionary loaded -, then in every interleaving nothing but log lines is written, there is no data race, every answer is the one a single-threaded program would get, and the manager is unchanged. If one of the threads moreover loads new dictionaries and looks things up in them (but changes no setting) while the others only make lookups in dictionaries there before, call get_languages(), or call get_dictionary() with the current dictionary loaded (or no language set), there is still no data race, the others' answers are undisturbed, and the loading thread's answers and the manager are those of a run without the others. As long as no thread changes a setting, no interleaving whatsoever makes the library write to a dictionary that was complete before, to the search path or to the charset. The record of accesses these claims are about is faithful: an object changes only in a turn that records a write to it.", "quantifier": "all histories before the threads start, all numbers of threads, all request sequences (which may depend on the answers), all interleavings", "why_tests_cant": "interleavings are unboundedly many and not reproducible", "anchors": ["src/dictionary_manager.cpp: DictionaryManager::get_dictionary, DictionaryManager::get_languages", "src/dictionary.cpp: Dictionary::translate, translate_ctxt, translate_plural, translate_ctxt_plural"]}
{"id": "C96", "title": "[violation] get_dictionary for a language not loaded yet may not be called from two threads, nor settings changed while others use the manager", "statement": "If two threads call get_dictionary(l0) and get_dictionary(l1), and l0 is not cached, then every execution in which both calls return has a data race on the manager's map - there is no lucky schedule. Even were each access to the map atomic, a thread could be handed the dictionary another thread is still filling and get every msgid back untranslated, and with two threads loading the same language there is a schedule in which the dictionary returned to one of them is replaced in the cache and leaked: it is still there after the manager is destroyed. Changing a setting races with any call that reads it, in every execution in which both calls return: set_language (of another language) with get_dictionary() or set_language; add_directory (of a new directory) or remove_directory (of one in the path) with get_languages, add_directory or remove_directory; set_charset or set_use_fuzzy with get_dictionary(l), cached or not, and with each other.", "quantifier": "all managers, file systems, pairs of languages, settings, later behaviours of the threads, and (for the race) all interleavings", "why_tests_cant": "data races need not show; the bad interleavings are not reproducible", "anchors": ["src/dictionary_manager.cpp: DictionaryManager::get_dictionary, clear_cache, set_language, set_charset, set_use_fuzzy, add_directory, remove_directory", "include/tinygettext/dictionary_manager.hpp: Dictionaries"]}
{"id": "C97", "title": "foreach with a function that calls add_translation: what is safe and what is not", "statement": "If foreach (foreach_ctxt) returns, its function has been called exactly once for each message without (with) a context that was there when the enumeration began, for no message twice, each time with the forms the message had just then, and the dictionary is what the function's own add_translation calls make of it - in whatever order the messages are kept. It does return if the function only changes messages that were there when it began, or adds messages that go elsewhere (foreach: messages with a context; foreach_ctxt: messages without context or in another existing context); foreach then visits no other message. [violation] If the function adds a key to a map being enumerated and the map is rehashed at that moment, the enumeration never returns (an invalid iterator is used); in every non-empty dictionary this can happen to a function that adds one new message.", "quantifier": "all histories of the dictionary, all functions (with state, and with calls that depend on the dictionary), all orders of the hash tables, all reactions of the tables to an insertion", "why_tests_cant": "the order of a hash table and the moment of rehashing are unspecified; functions are arbitrary", "anchors": ["include/tinygettext/dictionary.hpp: Dictionary::foreach, Dictionary::foreach_ctxt", "src/dictionary.cpp: Dictionary::add_translation"]}
{"id": "C98", "title": "Log callbacks that translate their own text: safe if the messages are there, or logging is off meanwhile; else endless", "statement": "A log callback may use the library (typically, to translate the prefix it prints). If callbacks look up only messages that are found, or switch all three callbacks off (set_log_*_callback(nullptr)) before they look anything up and restore them afterwards, then every program of lookups, settings and prints ends. [violation] If the info callback begins by translating a message the dictionary has not got, then the first lookup that logs an info message - any miss, of any message in any dictionary - never returns, however deep the stack: the miss inside the callback calls the callback again.", "quantifier": "all dictionaries, callbacks (programs whose course may depend on texts and answers), programs, callback configurations, stack depths", "why_tests_cant": "unbounded nesting; arbitrary callbacks", "anchors": ["src/log.cpp: Log::~Log, set_log_info_callback", "include/tinygettext/log_stream.hpp: log_info, log_warning, log_error", "src/dictionary.cpp: Dictionary::translate, translate_plural, translate_ctxt, translate_ctxt_plural"]}
{"id": "C99", "title": "Built with SDL, failed conversions are never noticed", "statement": "With TINYGETTEXT_WITH_SDL the library calls SDL_iconv, which reports failures by four different return values and not in errno; IConv still tests for the one value (size_t)-1 and reads errno. [violation] So a text with an invalid or incomplete character (and, in principle, one whose conversion does not fit, which the other build asserts never happens) is cut off at that point without any log message, and the conversion state is not reset. Conversions that succeed give the same result. If the conversions have no shift states, parsing any file gives the same dictionary and outcome in both builds, and the same log except that every complaint about failed conversions is missing. Whatever SDL does, class IConv behaves as with some iconv(3) implementation, so every other property (all of which quantify over iconv implementations) holds of that build too.", "quantifier": "all iconv implementations below SDL, texts, files, file names, dictionaries, configurations of the parser, SDL implementations", "why_tests_cant": "all inputs; a build variant the tests do not run", "anchors": ["include/tinygettext/iconv.hpp: tinygettext::iconv, iconv_open, iconv_close", "src/iconv.cpp: IConv::convert"]}
{"id": "C100", "title": "The parser's integer types: harmless below 2 GiB, undefined beyond", "statement": "The line counter is an int, and line lengths are cast to unsigned int before they are compared. For files without a line of 2^32 bytes, parsing with these types gives exactly the result of a parser with unlimited ones as long as the line numbers fit an int, in particular for every file of less than 2 GiB - 18 bytes. [violation] Otherwise the counter overflows (undefined behaviour): on every file of 2^31 - 1 or more newlines that would be parsed to its end, blank lines for instance, and also, however small the file is, on every file whose parse would never end (C23): the endless loop counts lines. [violation] An entry whose msgid line has a length of 0 to 6 modulo 2^32 is rejected as 'unexpected end of line' although it is well-formed.", "quantifier": "all files, dictionaries, file names, configurations of the parser and iconv implementations", "why_tests_cant": "files of gigabytes; the hang has to be run through 2^31 rounds to be seen overflowing", "anchors": ["include/tinygettext/po_parser.hpp: POParser::line_number", "src/po_parser.cpp: POParser::next_line, POParser::get_string_line, POParser::get_string (casts at 98, 168, 182)"]}
{"id": "C101", "title": "Log callbacks that add translations to the dictionary that is logging", "statement": "A log callback may call add_translation on the very dictionary whose member function is logging. If a lookup then returns, it answers as the dictionary was when it began, and the dictionary is what the callback's calls make of it; if an addition returns, it has the last word: what a callback has stored under the key during the collision's warning is overwritten. Callbacks that leave the dictionary alone get exactly the messages of the plain lookup, the candidates in some order; what a callback adds when told that a message could not be translated is among the candidates. Every lookup returns if the warning callback adds nothing and the info callback, told about a candidate, adds to messages only that are there. [violation] An info callback that learns a new message at each candidate makes translate_plural of an unknown message use an invalid iterator (if the map is rehashed) or list candidates without end (if new messages come ahead). [violation] With a warning callback that itself overwrites something, the first collision never ends (unbounded recursion). [violation] A warning callback that empties the forms of the message whose form is about to be overwritten makes add_translation write to vec[0] of an empty vector.", "quantifier": "all dictionaries without fallback, lookups, additions, callbacks that may keep state and decide by the text and the dictionary, orders of iteration and placements of insertions", "why_tests_cant": "tests' callbacks record; they do not add; and whether an insertion rehashes is up to the standard library", "anchors": ["src/dictionary.cpp: Dictionary::translate, translate_plural, translate_ctxt, translate_ctxt_plural, add_translation (80-242)", "src/log.cpp: Log::~Log", "include/tinygettext/dictionary.hpp: Entries"]}
{"id": "C102", "title": "Streams with an exception mask", "statement": "After in.exceptions(mask), std::getline throws and the parser lets the exception pass. For every mask and stream, a parse that ends without the mask ends with it, with the same result or with the stream's exception after the first part of the same work (its additions and messages are the first ones of the unmasked parse, and nothing else). With badbit alone nothing changes while reading works; and with badbit a read error is never taken for the end of the file: the parse always ends, even where it hangs without the mask, and does not return. [violation] With failbit or eofbit no parse returns, however well-formed the file is: the end of the file is met with the exception (which also ends the parses that otherwise hang), and an entry not followed by a blank line is lost with it. A blank line at the end prevents that: the dictionary, messages and calls are then those of the parse without the mask. When the exception passes, every iconv descriptor has been used properly and closed once.", "quantifier": "all masks, file contents, streams (also those on which reading fails), dictionaries, iconv implementations and configurations", "why_tests_cant": "the tests use default ifstreams and istringstreams; the point where an exception cuts a parse depends on the whole input", "anchors": ["src/po_parser.cpp: POParser::next_line, error, get_string, get_string_line, parse, the catch of POParserError (87-93, 340-491)"]}
{"id": "C103", "title": "A manager whose file system delivers streams with exception masks", "statement": "A FileSystem may set exceptions() on the streams it returns. For all masks, sessions of manager calls and file systems that change between the calls: no stream's exception ever reaches the client. If all calls of a session return or throw without masks, they have the same outcomes (the same references, languages, exceptions) with masks, and the dictionaries are at the same places, with the same charset and fallback, and know at most the messages known without masks. If every file ends in a blank line (or cannot be opened, or fails behind such a line), the dictionaries, cache, path and settings are exactly the same, and the log is the same with reports of failed files inserted. With badbit alone, sessions on readable files are exactly the same. And read errors, silent otherwise (C79), are reported with badbit: after get_dictionary(l) - or set_language(l) and get_dictionary() - has loaded a directory with one file for the language, which fails in the middle, the last two messages name the file and the reason. [violation] With failbit or eofbit these two messages come for every file, also a well-formed one loaded completely; and the last entry of a file without a blank line at its end is missing from the dictionary.", "quantifier": "all masks (per file and per call), sessions, file systems, file contents, iconv implementations and configurations", "why_tests_cant": "the tests use UnixFileSystem, whose streams have no masks; which entries get lost depends on the whole file", "anchors": ["include/tinygettext/file_system.hpp: FileSystem::open_file", "src/dictionary_manager.cpp: DictionaryManager::get_dictionary (153-173), the catch of std::exception", "src/po_parser.cpp: POParser::next_line, parse"]}
{"id": "C104", "title": "The language menu: what get_languages offers is what get_dictionary serves", "statement": "A client offers get_languages() to its user and loads the chosen language. If all directories of the search path can be listed, then for every language l of the table: the list has a defined language with l's language code if and only if some file of the search path is one that get_dictionary(l) may load (get_languages() takes file names as they are, get_dictionary() puts the country into upper case first, which never changes the language code). A language whose code is not listed has no translations at all: get_dictionary(l) opens no file, returns an empty dictionary (with an empty fallback, if l has a country) and logs only warnings about files of unknown languages. A file <str(l)>.po stands for exactly l, and of the files that stand for exactly l the first is loaded, whatever other files the directory has; so a client that takes its language from the environment gets the file named after its locale, codeset and modifier included (or one listed before it that stands for the same language), unless the country is in lower case (C105). The str() of the listed languages are distinct and from_env(str(l)) is l again, so they can be used as keys of a menu; [violation] get_name() cannot: be.po and be@latin.po are listed as two languages named Belarusian.", "quantifier": "all search paths, directory contents and file systems, languages of the table and configurations", "why_tests_cant": "file names are arbitrary strings, from_env and the choice of a file each pick one of the table's languages by scores, and the two functions convert the names differently; only a proof connects what they pick", "anchors": ["src/dictionary_manager.cpp: DictionaryManager::get_languages (185-203)", "src/dictionary_manager.cpp: DictionaryManager::get_dictionary (121-151), convertFilename2Language", "src/language.cpp: Language::from_env, Language::match, Language::str, Language::get_name"]}
{"id": "C105", "title": "The order in which a directory's files are listed", "statement": "std::filesystem::directory_iterator promises no order, so FileSystem::open_directory may list the same files differently on another machine. If in every directory of the search path at most one file fits best each language the client asks for (and its base language), then the order does not matter: all calls of a session have the same outcomes, the managers hold the same dictionaries, cache and settings, and the log has the same messages, perhaps in another order. One file for exactly the language asked for is enough for that language. get_languages() never depends on the order. [violation] In all other cases the order decides: each of the files that fit a language equally well is the one that is loaded under some order of the listing (de_AT.po and de_CH.po for German). This concerns every locale whose country is written in lower case: for zh_tw, from_env gives a language for which zh_tw.po, though it stands for zh_TW, and zh_CN.po are equally good, and so for every country of the table and every other country with its language.", "quantifier": "all sessions, file systems that change between the calls, permutations of all listings, file names and languages of the table", "why_tests_cant": "a test sees the one order its own file system happens to deliver", "anchors": ["src/dictionary_manager.cpp: DictionaryManager::get_dictionary (121-151), get_languages (185-203)", "src/unix_file_system.cpp: UnixFileSystem::open_directory (41-50)", "src/language.cpp: Language::match"]}
{"id": "C106", "title": "[violation] A catalogue without content hides the other files of its directory", "statement": "If the file of a directory that fits the requested language best (the first such) cannot be opened, is empty or is itself a directory, then get_dictionary(l) takes nothing from that directory: no other file is tried, though one might fit, and loading l logs nothing but the warnings about files of unknown languages. The dictionary stays empty when the file is repaired: until the cache is cleared, every later get_dictionary(l) returns the same dictionary, whatever the file system then holds.", "quantifier": "all directory contents, languages, file systems at the moment of the first and of any later call, configurations", "why_tests_cant": "needs the choice of the file for arbitrary listings, and what the parser does with streams that fail at once; the tests only use readable files", "anchors": ["src/dictionary_manager.cpp: DictionaryManager::get_dictionary (108-173)", "src/unix_file_system.cpp: UnixFileSystem::open_file (52-56)", "src/po_parser.cpp: POParser::parse, next_line"]}
