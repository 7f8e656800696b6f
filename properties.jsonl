{"id": "C01", "title": "Label print/parse round trip", "statement": "Printing a target with BazelTarget::ToString() and parsing the text with BazelTarget::ParseFrom() in any context package of the main project (or any context at all if the target names an external project) returns the same target, for every target whose name is non-empty and colon-free and whose package has a well-formed project and path.", "quantifier": "every well-formed target, every context package", "why_tests_cant": "The set of labels is infinite and the compact forms (//foo for //foo:foo, @foo for @foo//:foo) interact with slashes, '@' and empty components; tests cover a dozen literals.", "anchors": ["bant/types-bazel.cc: BazelTarget::ToString, BazelTarget::ParseFrom, BazelPackage::ParseFrom, PackageLastElement"]}
{"id": "C02", "title": "Canonicalizing a dependency never changes what it refers to, and is idempotent", "statement": "For every dependency string s found in a package, if bant accepts s, then the canonical spelling ToStringRelativeTo(package) parses, in the same package, to the same target as s; and canonicalizing the canonical spelling gives it back unchanged. (Holds except for degenerate labels: an empty name in the top package and a project spelled '@~...', which are exhibited as counterexamples.)", "quantifier": "every dependency string, every package context", "why_tests_cant": "Strings are unbounded; the tool rewrites the user's BUILD files, so one bad string corrupts a project.", "anchors": ["bant/tool/canon-targets.cc: CreateCanonicalizeEdits", "bant/types-bazel.cc: BazelTarget::ParseFrom, ToStringRelativeTo"]}
{"id": "C03", "title": "A recursive pattern selects exactly the package subtree", "statement": "//a/b/... matches a package iff the package is in the same project and the path components a,b are a prefix of the package's path components; //... matches exactly all packages of the project; //a/bc never matches //a/b/... by textual prefix accident. On the command line a pattern that is only a name (with or without ':') matches the target of that name in the top package and nothing else, :all matches the top package and ... the whole main project.", "quantifier": "every pattern path, every package", "why_tests_cant": "Requires all pairs of paths; the textual prefix test and the component-wise meaning differ on infinitely many pairs.", "anchors": ["bant/types-bazel.cc: BazelPattern::ParseFrom, BazelPattern::Match"]}
{"id": "C04", "title": "Filtering by package first never loses a target", "statement": "If a pattern matches a target, it matches the target's package (all commands skip whole packages by the package test before looking at targets).", "quantifier": "every pattern, every target", "why_tests_cant": "Must hold for every pattern kind and every target.", "anchors": ["bant/types-bazel.cc: BazelPattern::Match(BazelTarget), BazelPattern::Match(BazelPackage)"]}
{"id": "C05", "title": "Target-name globs mean what the user wrote", "statement": "A pattern //p:g where g contains '*' matches exactly the targets of package p whose name is obtained from g by replacing each '*' by an arbitrary string, if the text after the last '*' has no regular-expression operator. Otherwise that text is used as a regular expression for the rest of the name: '.' stands for any one character (so '*.h' also matches 'foo_h'), any expression without '|' for the texts it describes, and with '|' or an unbalanced parenthesis the pattern means something else or is rejected (witnesses).", "quantifier": "every glob, every target name", "why_tests_cant": "Infinite set of names and globs; the unquoted tail is invisible with the test's alphanumeric literals.", "anchors": ["bant/types-bazel.cc: GlobbingToRE2, BazelPattern::Match"]}
{"id": "C06", "title": "Visibility declarations are enforced as documented", "statement": "A visibility entry evaluated in package c is: //visibility:public - everybody; //visibility:private - exactly package c; X:__pkg__ - exactly package X; X:__subpackages__ (or X/...) - package X and everything below; anything else not ending in '...' or '__' - everybody (documented caveat).", "quantifier": "every visibility string, every declaring package, every requesting target", "why_tests_cant": "Ranges over all packages and strings.", "anchors": ["bant/types-bazel.cc: BazelPattern::ParseVisibility", "bant/tool/dwyu.cc: DWYUGenerator::CanSee"]}
{"id": "C07", "title": "Tokens tile the source text", "statement": "For every byte string, the tokens delivered by the scanner are substrings of the content, in order, pairwise disjoint, and the bytes between consecutive tokens consist only of white space, backslashes and comments; every non-EOF token is non-empty.", "quantifier": "every byte string as file content", "why_tests_cant": "All byte strings, including malformed and truncated ones.", "anchors": ["bant/frontend/scanner.cc: Scanner::Next, SkipSpace, HandleString, HandleNumber, HandleIdentifierKeywordRawStringOrInvalid"]}
{"id": "C08", "title": "The scanner always reaches end of file and stays there", "statement": "Scanning any content of n bytes yields EOF after at most n tokens; from then on every Next() yields EOF; any interleaving of Peek() and Next() calls sees the same token sequence as calling only Next(), and Peek() never consumes.", "quantifier": "every byte string, every sequence of Peek/Next calls", "why_tests_cant": "Termination and call-sequence independence quantify over infinitely many inputs and histories.", "anchors": ["bant/frontend/scanner.cc: Scanner::Next, Scanner::Peek"]}
{"id": "C09", "title": "Reported line and column of every token are the true ones", "statement": "After scanning a file to any point, the line/column reported for any already delivered token equals (number of newlines before it, distance from the previous newline). (False when 'not' and 'in' are separated by a newline: that newline is never recorded; proved for all inputs without this construct.)", "quantifier": "every byte string, every token", "why_tests_cant": "Quantifies over all inputs; the failing inputs are a corner no test contains.", "anchors": ["bant/frontend/scanner.cc: SkipSpace, ConsumeOptionalIn, HandleString", "bant/frontend/linecolumn-map.cc: GetPos, PushNewline"]}
{"id": "C10", "title": "Identifiers are never split", "statement": "An identifier or keyword token is maximal: the byte following it in the text is not an identifier character. (False for 'not' followed by an identifier starting with 'in', e.g. 'not inner': the tokens are 'not in' and 'ner'; proved for every other token.)", "quantifier": "every byte string, every identifier/keyword token", "why_tests_cant": "All inputs.", "anchors": ["bant/frontend/scanner.cc: ConsumeOptionalIn, HandleIdentifierKeywordRawStringOrInvalid"]}
{"id": "C11", "title": "The value of a string literal is exactly the text between its quotes", "statement": "For every string token delivered by the scanner, StringScalar::FromLiteral yields the text between the opening and the closing quotes, and records raw/triple quoting so that the printer re-creates the literal. (False for triple single quotes, whose value keeps two quote characters on each side.)", "quantifier": "every string literal", "why_tests_cant": "All literals with all quote styles, escapes and prefixes.", "anchors": ["bant/frontend/ast.cc: StringScalar::FromLiteral", "bant/frontend/scanner.cc: HandleString"]}
{"id": "C12", "title": "Integer literals are read exactly or rejected", "statement": "A number token that is a plain decimal, 0o octal or 0x hex literal evaluates to its mathematical value if that fits in a signed 64 bit integer, and is a parse error otherwise; no wrap around ever happens.", "quantifier": "every number token", "why_tests_cant": "All digit strings of all lengths.", "anchors": ["bant/frontend/ast.cc: IntScalar::FromLiteral", "bant/frontend/scanner.cc: HandleNumber"]}
{"id": "C13", "title": "Byte offset to line/column conversion", "statement": "For a line map initialised from a text, the position reported for byte offset p is (number of newlines strictly before p, p minus the offset after the last such newline); it is monotone and injective, and GetRange covers start and end accordingly.", "quantifier": "every text, every offset", "why_tests_cant": "All texts and offsets including offsets at newlines, at the end and in empty files.", "anchors": ["bant/frontend/linecolumn-map.cc: InitializeFromStringView, GetPos, GetRange"]}
{"id": "C14", "title": "The line shown around a location is the whole line", "statement": "GetSurroundingLine(range) returns the smallest newline-delimited piece of the content that contains the range: it contains the range, is contained in the content, begins at the file start or after a newline, ends at the file end or before a newline, and adds no newline that is not inside the range.", "quantifier": "every content, every sub-range", "why_tests_cant": "All contents/ranges; dwyu's 'keep' comments depend on it.", "anchors": ["bant/frontend/named-content.cc: GetSurroundingLine"]}
{"id": "C15", "title": "Parsing terminates on every input", "statement": "For every byte string the parser finishes after a number of steps bounded by the number of tokens; no input makes it loop.", "quantifier": "every byte string", "why_tests_cant": "Termination over all inputs, including malformed ones.", "anchors": ["bant/frontend/parser.cc: Parser::Impl::parse and all Parse* members"]}
{"id": "C16", "title": "An accepted file has a complete syntax tree", "statement": "If parsing reports no error then every operand later phases dereference is present (only the operand of a unary operator, the bounds of slices, loop variables and the else-part can be absent), and, unless a function that is called has the name of an assigned variable (see C22), elaboration and rule queries on it never dereference a missing node.", "quantifier": "every byte string that parses without error", "why_tests_cant": "All inputs.", "anchors": ["bant/frontend/parser.cc", "bant/frontend/elaboration.cc", "bant/explore/query-utils.cc: ExtractStringList"]}
{"id": "C17", "title": "A syntax error only concerns the statement it is in", "statement": "Whatever the content of a BUILD file, all statements but the last one that is kept are complete: evaluating and querying them works and gives the same as without the faulty one. If in the faulty statement nothing is missing where it is used (operands of '+', elements of lists, arguments and maps, keys and values of maps, the include and exclude lists of glob()), the whole file, and with it a project of such files, is evaluated and queried file by file without following a null pointer. In each of these places a missing part can bring the tool down (witnesses).", "quantifier": "every byte string; every set of files", "why_tests_cant": "All malformed inputs.", "anchors": ["bant/frontend/parser.cc: Parser::Impl::parse", "bant/frontend/parsed-project.cc: AddBuildFileContent", "bant/frontend/elaboration.cc: Elaborate, VisitBinOpNode, HandleSelect, HandleGlob", "bant/explore/query-utils.cc: AppendStringList"]}
{"id": "C18", "title": "Everything in the syntax tree can be located in the file", "statement": "Every identifier, string and number in the tree produced from a file is a sub-range of that file's content with the text found there, so that its location can be reported. The same goes for operators: the range kept with a binary operator is the place of that very operator.", "quantifier": "every byte string, every node of the tree", "why_tests_cant": "All inputs and nodes.", "anchors": ["bant/frontend/parser.cc", "bant/frontend/parsed-project.cc: GetLocation"]}
{"id": "C19", "title": "Printing then parsing gives the same tree", "statement": "Printing the trees of a file and parsing the printed text yields the same trees (up to the places in the text), and printing those gives the same text again; comments between them do not matter. In particular the output of 'print' is a BUILD file with exactly the rules it shows. This holds for every tree that needs no parentheses and for every parsed file that contains none of: a compound expression in parentheses left of an operator, subscript or 'if'; an if-expression without else inside the condition of another; an operator without operand; a missing loop variable; '.' after a number; 'not' before a name that begins with 'in'; a string that has a double quote and also an unescaped single quote or triple quotes; a parenthesised assignment in the line after something that ends with a name. For each of these there is a file that is changed by printing.", "quantifier": "every syntax tree, every file and every text around the printed trees", "why_tests_cant": "Trees of unbounded size.", "anchors": ["bant/frontend/print-visitor.cc: PrintVisitor", "bant/frontend/parser.cc", "bant/frontend/scanner.cc"]}
{"id": "C20", "title": "Elaboration computes the value the expression denotes", "statement": "After elaboration a list expression built from list literals, '+' and earlier assigned variables is the literal list with the concatenated elements in order, and likewise a string expression is the concatenated string; undefined parts are left in place (or dropped from list concatenation, as documented by the tests).", "quantifier": "every expression of the fragment, every prior assignment history", "why_tests_cant": "All expression shapes and assignment sequences.", "anchors": ["bant/frontend/elaboration.cc: NestedElaborator"]}
{"id": "C21", "title": "select() chooses the default branch", "statement": "Elaborating select({...}) yields the (elaborated) value of the first '//conditions:default' entry if there is one, and otherwise leaves the call in place.", "quantifier": "every select call", "why_tests_cant": "All map contents and orders.", "anchors": ["bant/frontend/elaboration.cc: HandleSelect"]}
{"id": "C22", "title": "Elaboration keeps the rules of a file", "statement": "Elaboration of a file without parse errors keeps the number and order of top-level statements, never touches function names, keyword names, or rules that mention no variable, '+', glob or select. (Function names: false if a global variable has the name of a called function; the call is then read through a node of the wrong type, undefined behaviour.)", "quantifier": "every syntax tree", "why_tests_cant": "All trees.", "anchors": ["bant/frontend/elaboration.cc: NestedElaborator", "bant/frontend/ast.h: BaseNodeReplacementVisitor"]}
{"id": "C23", "title": "Target queries report every matching rule exactly once, in file order", "statement": "FindTargets on a parsed file invokes the callback exactly once per call (outside other calls and outside assignments) whose function name is of interest, that is not package(), and that has a non-empty name, in file order, with each attribute equal to the last keyword argument of that name that has a literal value of the right kind (and alwayslink set for a cc_library without headers).", "quantifier": "every syntax tree, every set of rule names", "why_tests_cant": "All files.", "anchors": ["bant/explore/query-utils.cc: TargetFinder"]}
{"id": "C24", "title": "Default visibility applies to later rules without own visibility", "statement": "A reported rule's visibility is its own visibility list if given, else the default_visibility of the last package() call before it, else absent.", "quantifier": "every sequence of package()/rule calls", "why_tests_cant": "All histories of calls in a file.", "anchors": ["bant/explore/query-utils.cc: TargetFinder::VisitFunCall"]}
{"id": "C25", "title": "Building the dependency graph terminates", "statement": "For every set of BUILD files that mention finitely many labels, cyclic or not, with unresolvable references or not, building the dependency graph to any depth terminates, and beyond some depth nothing changes any more. If the BUILD files that can be found are readable, have no syntax errors and do not call functions by the name of a variable, it does not crash.", "quantifier": "every project, workspace, file system, pattern and depth limit", "why_tests_cant": "All graphs including cycles.", "anchors": ["bant/explore/dependency-graph.cc: BuildDependencyGraph"]}
{"id": "C26", "title": "has-dependents is the exact converse of depends-on", "statement": "In the computed graph, b occurs in depends_on[a] exactly as often as a occurs in has_dependents[b].", "quantifier": "every project, every pair of targets", "why_tests_cant": "All graphs.", "anchors": ["bant/explore/dependency-graph.cc: BuildDependencyGraph"]}
{"id": "C27", "title": "The dependency graph contains exactly the reachable targets", "statement": "With unlimited depth the keys of depends_on are exactly the targets that match the pattern or are reachable from those by dependency edges, and have a rule; with depth limit n, exactly those reachable in at most n steps. The dependencies of each are those the first rule of that name mentions in deps and actual, in that order, leaving out invalid labels.", "quantifier": "every project, pattern and depth", "why_tests_cant": "Reachability over all graphs.", "anchors": ["bant/explore/dependency-graph.cc: BuildDependencyGraph"]}
{"id": "C28", "title": "A package is located where it lives", "statement": "The BUILD file of package @p//a/b is looked up below the project's root at a/b/BUILD, then a/b/BUILD.bazel; conversely the package of a BUILD file is the directory it is in, so a file looked up for a package belongs to that package. Exceptions: the top package of the main project is looked up at /BUILD and /BUILD.bazel of the host file system; leading dots of a directory are dropped, so ./.foo/BUILD is taken for //foo. The sources of a package are found in the same directory.", "quantifier": "every workspace, package and file", "why_tests_cant": "All paths.", "anchors": ["bant/explore/dependency-graph.cc: PathForPackage", "bant/frontend/parsed-project.cc: TargetPathFromBuildFile, AddBuildFile", "bant/util/file-utils.cc: FilesystemPath"]}
{"id": "C29", "title": "Fuzzy header lookup returns the best match", "statement": "FindBySuffix returns an exact match with score 0 if there is one; otherwise an entry that shares the largest number of trailing path components with the query among all entries of the index, provided that number reaches the threshold, with that number as score; otherwise nothing.", "quantifier": "every index, every query path, every threshold", "why_tests_cant": "Optimality over all indices; only two neighbours in sort order are inspected.", "anchors": ["bant/explore/header-providers.cc: FindBySuffix, CommonSlashes, KeyTransform"]}
{"id": "C30", "title": "Header to library mapping is sound and complete", "statement": "In the header index a target is listed under a name iff a rule of the project makes it provide that header: a cc_library or grpc_cc_library (or an alias of one) lists it in hdrs, textual_hdrs or public_hdrs and the name is what include_prefix, strip_include_prefix, includes or the package path make of it; or it is the first cc_proto_library (cc_grpc_library) of the file made from a proto_library with the corresponding .proto source.", "quantifier": "every project", "why_tests_cant": "All projects, all combinations of attributes.", "anchors": ["bant/explore/header-providers.cc: ExtractHeaderToLibMapping, AppendCCLibraryHeaders, AppendProtoLibraryHeaders, IterateCCLibraryHeaders"]}
{"id": "C31", "title": "The minimized dependency sets still cover every include", "statement": "For every list of non-empty alternative sets (one per included header), each alternative set has a subset among the minimized sets and no minimized set is empty: picking any one library of each minimized set provides every header; the internal consistency checks never fail.", "quantifier": "every list of non-empty finite sets", "why_tests_cant": "All set families.", "anchors": ["bant/tool/dwyu.cc: MinimizeDependencySet"]}
{"id": "C32", "title": "DWYU does not swap dependencies that are good enough", "statement": "If for any two includes the sets of usable providers are equal or disjoint, no declared dependency that provides an included header is removed. (Without that condition it does not hold: with three headers provided by {a,b}, {c,d} and {b,c}, and dependencies b and d, bant replaces d by c.)", "quantifier": "every target, every project, every source content", "why_tests_cant": "Order dependent, needs several overlapping providers.", "anchors": ["bant/tool/dwyu.cc: MinimizeDependencySet, CreateEditsForTarget"]}
{"id": "C33", "title": "DWYU removes a dependency exactly when that is safe", "statement": "A remove edit is emitted only for a label in the deps of the target, only if all sources of the target could be read and every include is attributed to the target's own files or a provider, the dependency is a known library that is not alwayslink, and its line has no comment with 'keep' (or keep comments are to be ignored). Conversely each such dependency that provides no included header is removed.", "quantifier": "every target, every project state, every source content", "why_tests_cant": "All combinations of conditions.", "anchors": ["bant/tool/dwyu.cc: CreateEditsForTarget, DependenciesNeededBySources, IsAlwayslink"]}
{"id": "C34", "title": "After applying DWYU's edits every attributed include is satisfied or reported", "statement": "For each include that has providers the target may use, one of these providers is a declared dependency that is not removed, or is added, or there is a message: that there are several alternatives, or that the provider is for tests only (and the target is not).", "quantifier": "every target, every project state, every source content", "why_tests_cant": "All combinations.", "anchors": ["bant/tool/dwyu.cc: CreateEditsForTarget"]}
{"id": "C35", "title": "DWYU adds only dependencies Bazel would accept", "statement": "Every added dependency provides a header included by the target's sources, is not deprecated and visible to the target (or unknown), is compatible with respect to testonly, and is not declared yet; alternatives are only reported if none of them is declared. (It can be the target itself: a library whose sources include its own textual_hdrs.)", "quantifier": "every target, every project state, every source content", "why_tests_cant": "All combinations.", "anchors": ["bant/tool/dwyu.cc: CreateEditsForTarget, CanSee, IsTestonlyCompatible"]}
{"id": "C36", "title": "Every include directive outside of string literals is seen", "statement": "Extracting includes from a source yields, once each and in order, exactly the paths of the lines of the form #include \"path\" (optional white space, path of letters, digits and +-_/. ending in a known header suffix) that come after an even number of double quotes. (Quotes in comments count: a single quote in a comment hides the include lines that follow.)", "quantifier": "every source text", "why_tests_cant": "All texts.", "anchors": ["bant/tool/dwyu.cc: ExtractCCIncludes"]}
{"id": "C37", "title": "glob() file matching means include minus exclude", "statement": "A non-empty path is selected iff one of the include patterns matches it and none of the exclude patterns does, where '**/' stands for any newline-free text, any other '*' for text without '/', and every other character for itself; a pattern without '*' selects just the file of that name. Neither the order in which patterns are added nor adding one twice matters. (The empty path is also selected if no include pattern has a '*'.)", "quantifier": "every sequence of AddIncludePattern/AddExcludePattern calls, every path", "why_tests_cant": "All pattern sets and paths; patterns pass through quoting, substitution and regular expression compilation.", "anchors": ["bant/util/glob-match-builder.cc: BuildFileMatchPredicate, MakeFilenameMatcher"]}
{"id": "C38", "title": "A single glob pattern selects the paths Bazel selects", "statement": "With Bazel's meaning of patterns ('*' inside a path segment, a segment '**' for any number of segments): a pattern whose last segment is not '**' selects every newline-free path it matches in Bazel; without '**/' in it, it selects no others. (With '**/' it can select more: '**/foo.h' selects 'barfoo.h'; and a trailing '**' does not descend: 'foo/**' misses 'foo/a/b'.)", "quantifier": "every pattern, every path", "why_tests_cant": "All patterns and paths.", "anchors": ["bant/util/glob-match-builder.cc: MakeFilenameMatcher"]}
{"id": "C39", "title": "Directory pruning never hides a matching file", "statement": "Every directory on the way to a selected file is accepted by the directory predicate, if its path has no newline. The directories accepted are exactly the prefixes of what the directory parts of the include patterns match.", "quantifier": "every pattern set, every path", "why_tests_cant": "All patterns and paths; needs two different regex translations to agree.", "anchors": ["bant/util/glob-match-builder.cc: BuildDirectoryMatchPredicate, MakeDirectoryMatcher"]}
{"id": "C40", "title": "Arena allocations never overlap", "statement": "Over any history of allocations, if the system gives memory that is not in use, the memory handed out has the sizes asked for, lies in blocks owned by the arena, no two regions share a byte, and blocks stay where they are; bytes and allocations are counted, and there is at most one block per allocation. (Alignment is not guaranteed: after 3 bytes, 8 bytes are not aligned to 8.)", "quantifier": "every sequence of allocation sizes, every block size, every behaviour of the system allocator", "why_tests_cant": "All histories.", "anchors": ["bant/util/arena.h: Arena::Alloc, NewBlock"]}
{"id": "C41", "title": "ArenaDeque behaves like a list", "statement": "Over any sequence of Append() calls and assignments to elements, iteration from begin() to end() yields exactly the elements in order, operator[](i) the i-th, size() the count, and references to elements stay valid, for every minimum and maximum block size. (An end() taken before an Append() can be missed by an iteration.)", "quantifier": "every history of appends and assignments, all block size parameters", "why_tests_cant": "All histories, block boundaries.", "anchors": ["bant/util/arena-container.h: ArenaDeque"]}
{"id": "C42", "title": "Source ranges resolve to the source they came from", "statement": "After inserting pairwise disjoint non-empty ranges in any order, looking up any part of a range gives the value of that range, and nothing is found for what is in no single range. (Except: the empty part at the beginning of a range that directly follows another one gives the other one.)", "quantifier": "every insertion history, every query range", "why_tests_cant": "All histories and queries.", "anchors": ["bant/util/disjoint-range-map.h: DisjointRangeMap"]}
{"id": "C43", "title": "Machine-readable table output can be parsed back", "statement": "From CSV, S-expression and property list output exactly the rows that were added, in order, are recovered by a reader of that format with C escapes, for cells of arbitrary bytes. JSON output has one line per row, which is a valid JSON object with exactly the contents of the row when headers and cells consist of tab, newline, carriage return and printable ASCII other than the single quote; with any other byte in a cell the line is not valid JSON.", "quantifier": "every table content, every history of added rows", "why_tests_cant": "All byte strings in cells and all histories.", "anchors": ["bant/util/table-printer.cc: SExprTablePrinter, JSonTablePrinter, CSVTablePrinter, TablePrinter::Create"]}
{"id": "C44", "title": "The aligned table keeps columns apart", "statement": "In native (and graphviz) format there is one line per row in order; all cells of a column start at the same offset, which is one more than the widest cell of the column before needs; every cell of a non-last column is followed only by blanks, at least one, up to the next column; the last cell ends the line; a row with a wrong number of columns stops the program. In S-expressions and property lists repeated values start below each other.", "quantifier": "every table content", "why_tests_cant": "All widths and histories.", "anchors": ["bant/util/table-printer.cc: AlignedTextColumnPrinter, SExprTablePrinter::AddRowWithRepeatedLastColumn"]}
{"id": "C45", "title": "Walking a directory tree ends", "statement": "Collecting files ends in every file system that limits the length of paths, links and cycles of links notwithstanding; where directories have inode numbers it does so after looking at no more directories than there are inodes, and one. Without either it need not end. The result does not depend on how long it takes.", "quantifier": "every file system graph, every order of entries, every pair of predicates", "why_tests_cant": "All graphs.", "anchors": ["bant/util/file-utils.cc: CollectFilesRecursive"]}
{"id": "C46", "title": "The files a walk finds", "statement": "The result has only files (no directories) that the file predicate accepts, in directories reached through accepted directories, no path twice, each under the path of its directory and its name; and all of these if no accepted directory has a second path. With several paths and all directories accepted, the files of each directory are found under one of its paths. A directory rejected under one path (for instance a link) is, if listed first, also not found under another where it would be accepted.", "quantifier": "every file system graph, every order of entries, every pair of predicates", "why_tests_cant": "Depends on the order in which the operating system lists entries, and on all links.", "anchors": ["bant/util/file-utils.cc: CollectFilesRecursive, FilesystemPath", "bant/util/file-utils.h: FilesystemPath"]}
{"id": "C47", "title": "Reading a file is all or nothing", "statement": "However the operating system splits reads, reading a file returns exactly as many bytes as the file was said to have, in order, or nothing (error, early end). What a file has beyond the size reported (files in /proc report 0) is not read.", "quantifier": "every sequence of read results", "why_tests_cant": "All short-read schedules.", "anchors": ["bant/util/file-utils.cc: ReadFileToString"]}
{"id": "C48", "title": "External project lookup", "statement": "FindPathByProject(name) finds an entry iff some version of the project is in the workspace; with or without leading '@' gives the same answer; it is the entry with the (textually) smallest version. Augmenting the workspace from a directory never changes entries for projects already known (unless their own name starts with '@'), adds only directories listed, and afterwards every project with a listed directory is known.", "quantifier": "every workspace, name and directory listing", "why_tests_cant": "All insertion orders.", "anchors": ["bant/workspace.cc: FindEntryByProject, BestEffortAugmentFromExternalDir"]}
{"id": "C49", "title": "Command names resolve to the unique command with that prefix", "statement": "A command word is accepted iff it is a prefix of exactly one command name, and then stands for that command; ambiguous and unknown words are rejected. Every full command name is accepted.", "quantifier": "every command word", "why_tests_cant": "All strings.", "anchors": ["bant/cli-commands.cc: RunCliCommand"]}
{"id": "C50", "title": "Prewarm work queue runs jobs once, in order, without deadlock", "statement": "Under every schedule (with wake-ups for no reason): at most one thread at a time is between lock and unlock, and only there the queue and the exit flag change; jobs start in the order they were queued; every started job is finished exactly once or being worked on by one worker; nothing starts after cancellation; cancellation comes only from the cancelling job or from the destructor; once the cancelling job has finished, every job was started and none is left; no wake-up is lost; some thread can always go on until the destructor has joined all threads, and the number of steps is bounded apart from wake-ups for no reason. If the program ends before the cancelling job runs, the jobs not yet started are dropped. For whatever lines the file of remembered names has: if the workers get to where they cannot go on before the program ends, each line's file has been looked at exactly once.", "quantifier": "every number of threads and jobs, every interleaving", "why_tests_cant": "Schedules are unbounded.", "anchors": ["bant/util/filesystem-prewarm-cache.cc: ThreadPool, FilesystemPrewarmCache::InitCacheFile"]}
{"id": "C51", "title": "Emitted edit scripts execute exactly the intended edits", "statement": "A POSIX shell that reads the script runs, for each edit in order, exactly one command: buildozer with two arguments, the intended edit command and the target; buildozer splits that command at blanks into operation, attribute and labels. This holds for labels without single quotes (and without blanks) and targets of plain characters. With a single quote in a label of a BUILD file, the script can contain arbitrary commands.", "quantifier": "every list of edits", "why_tests_cant": "All label strings.", "anchors": ["bant/tool/edit-callback.cc: CreateBuildozerDepsEditCallback"]}
{"id": "C52", "title": "Compilation database", "statement": "compilation-db writes one entry for each file in srcs and hdrs of a matching cc rule, in order and without repetition; an entry names the file, the current directory and a command with the options of the .bazelrc and one -iquote for each include directory. The include directories are '.', 'bazel-bin' and exactly those for which a cc or proto rule of the project has a reason (includes, include_prefix, protobuf, external projects of dependencies); each needed directory is listed unless a directory is called like a project. compile-flags prints the same options and directories, one per line. The output is JSON only for readers that allow a comma after the last item, and only if no text has a quote, backslash or control character. The only crashes are: a rule with an unusable name, or an include_prefix in a project without a name (the main project), which throws.", "quantifier": "every project, workspace, pattern, .bazelrc and current directory", "why_tests_cant": "All projects, all names of files and directories, all orders in which directories come up; the output must be read back.", "anchors": ["bant/tool/compilation-db.cc", "CollectIncDirs", "ExtractOptionsFromBazelrc", "WriteCompilationFlags"]}
{"id": "C53", "title": "Aliases are attributed to what they point to", "statement": "aliased-by lists alias a under target t iff an alias rule named a has actual = t; each alias is listed exactly once per alias rule.", "quantifier": "every project", "why_tests_cant": "All projects.", "anchors": ["bant/explore/aliased-by.cc: ExtractAliasedBy"]}
{"id": "C54", "title": "Each project package is parsed at most once", "statement": "However often a package is referenced or a BUILD file is added, the project holds one parsed file per package, the first one added stays, and its content, tree and locations stay unchanged.", "quantifier": "every history of additions", "why_tests_cant": "All histories.", "anchors": ["bant/frontend/parsed-project.cc: AddBuildFileContent, AddBuildFile"]}
{"id": "C55", "title": "The kind of a token is determined by its text", "statement": "Every token the scanner produces has the kind its text calls for: a fixed word or operator text gets exactly its own kind, text starting with a quote (after an optional r) is a string literal, text starting with a digit is a number, other words are identifiers; and an operator token is never the beginning of a longer operator present in the text.", "quantifier": "every file content (any bytes)", "why_tests_cant": "Tests list a few keywords and operators; a swapped kind for one operator in one context (before EOF, before another operator) is only excluded by ranging over all contents.", "anchors": ["bant/frontend/scanner.cc:Scanner::Next", "bant/frontend/scanner.cc:Scanner::HandleIdentifierKeywordRawStringLiteralOrInvalid", "bant/frontend/scanner.h:TokenType"]}
{"id": "C56", "title": "The parser accepts exactly the grammar and returns its tree", "statement": "A file parses without error exactly if its token sequence belongs to the BUILD-file grammar (statements, calls with keyword arguments, lists, maps, tuples, comprehensions, subscripts and slices, if-expressions, right-associative binary operators, unary operators), and the tree returned is the one tree the grammar assigns to it, with each leaf and operator at its own token; no file has two trees.", "quantifier": "every file content", "why_tests_cant": "Tests compare single trees; swapped operands, a lost element in one nesting or an input accepted in one context only are excluded for all nestings only by relating all token sequences to all trees.", "anchors": ["bant/frontend/parser.cc:Parser::Impl::parse", "bant/frontend/parser.cc:ParseExpression", "bant/frontend/parser.cc:ParseList", "bant/frontend/parser.cc:ParseComprehensionFor"]}
{"id": "C57", "title": "Locations survive elaboration", "statement": "After evaluating a file (constants, '+', glob()), every text in it, including all names, sources and dependencies handed out by queries, has a location within that same file: a text that was in the file is where it was and reads the same there; a text put together by '+' is at a '+' of the file joining texts of the file; the name of a file found by glob() is at the word glob of a call in the file.", "quantifier": "all file contents (with or without syntax errors), all results of globbing, all queries", "why_tests_cant": "Tests look at single lines and columns; the claim is about any nesting of concatenations, substituted variables and globs", "anchors": ["bant/frontend/elaboration.cc", "bant/frontend/ast.h", "bant/frontend/parsed-project.cc: GetLocation"]}
{"id": "C58", "title": "Rules and files of a package are named by their labels", "statement": "A rule called n in package p is the target that label ':n' denotes inside p and '//p:n' denotes anywhere, and only an empty name gives none; a file f of package p has the path components of p followed by those of f; a leading ':' makes no difference.", "quantifier": "every well-formed package, name and file", "why_tests_cant": "All names and packages.", "anchors": ["bant/types-bazel.cc: QualifiedTarget, QualifiedFile, ParseFrom"]}
{"id": "C59", "title": "Generated files belong to the first genrule", "statement": "The index of generated files maps a file to the genrule that has it in its outs; if there are several, to the first one in the order of packages and of rules in the file; nothing else is in the index.", "quantifier": "every project", "why_tests_cant": "All projects; which of several rules wins depends on the order of all of them.", "anchors": ["bant/explore/header-providers.cc: ExtractGeneratedFromGenrule"]}
{"id": "C60", "title": "DWYU reports only about matching C++ rules", "statement": "The edits for a pattern are the edits of the cc_library, cc_binary and cc_test rules in packages and with labels that match the pattern, in order of packages and of the file, each rule once; the number reported is the number of these rules. For all projects that were parsed into trees in order there is a result (no internal check fails).", "quantifier": "every project, every pattern, every file system content", "why_tests_cant": "All projects.", "anchors": ["bant/tool/dwyu.cc: CreateEditsForPattern, CreateDependencyEdits"]}
{"id": "C61", "title": "glob() is the list of matching files", "statement": "A call of glob() evaluates to the list of names, relative to the directory of the package, of files in it or below that match one of the include patterns (the last list given, by keyword or by position) and none of the exclude patterns, each once; and of all such files, if directories have one path each and names have no newline. It never fails an internal check. Files of packages below are not left out (as Bazel would).", "quantifier": "every file system, package, workspace and argument list", "why_tests_cant": "All directory trees and pattern lists.", "anchors": ["bant/frontend/elaboration.cc: HandleGlob, MultiGlob", "bant/types-bazel.cc: FullyQualifiedFile"]}
{"id": "C62", "title": "BUILD files of a pattern", "statement": "For a pattern the files named BUILD or BUILD.bazel in the directory of its package (in its project, if known) are read, and with \"...\" those in all directories below, except links and directories named _tmp, .cache and .git; all of them if no directory has a second path. (A link listed before the directory it leads to hides the BUILD files of that directory.)", "quantifier": "every file system, workspace and pattern", "why_tests_cant": "All directory trees, and the order of their entries.", "anchors": ["bant/frontend/parsed-project.cc: CollectBuildFiles, DetermineSearchDirFromPattern"]}
{"id": "C63", "title": "canonicalize renames exactly the labels that are not canonical", "statement": "canonicalize emits a rename for a dependency label iff it belongs to a rule that matches the pattern and can be read and is not spelled canonically; the edits come once for each occurrence in the order of packages, rules and dependencies; labels that cannot be read are reported. The new spelling names the same target, and running the command again after the rename gives no edit for it (exceptions: see C02).", "quantifier": "every project, every pattern", "why_tests_cant": "All BUILD files and all labels.", "anchors": ["bant/tool/canon-targets.cc: CreateCanonicalizeEdits"]}
{"id": "C64", "title": "workspace lists the external projects a pattern needs", "statement": "With a pattern, the workspace command lists exactly the entries of external projects that the load() statements of matching packages, or the dependencies and actual targets of matching rules, refer to (first version of each, not the package's own project), once each in order; without pattern it lists all of them.", "quantifier": "every workspace, project and pattern", "why_tests_cant": "All BUILD files and workspaces.", "anchors": ["bant/tool/workspace.cc: CreateFilteredWorkspace, PrintMatchingWorkspaceExternalRepos"]}
{"id": "C65", "title": "list-targets lists the matching targets and where they are", "statement": "list-targets prints a row for each rule with a name (without colon) that matches the pattern, in the order of packages and rules, with the file, line and column range where the name is written (or the operator that computed it), the kind of rule and the label. It succeeds in every output format if files have no syntax errors. (Files with a \"not in\" split over lines are excepted: see C09.)", "quantifier": "every project, pattern and output format", "why_tests_cant": "All BUILD files.", "anchors": ["bant/cli-commands.cc: RunCommand kListTargets", "bant/frontend/source-locator.cc: Loc", "bant/frontend/linecolumn-map.cc"]}
{"id": "C66", "title": "print shows the matching rules", "statement": "print shows, in the order of packages and rules, each rule that matches the pattern with a comment giving its location and, if it has one, its visibility, followed by the rule as the printer writes it; with -g exactly the rules in which the search finds something are shown, with unchanged text; colours do not change the visible text. Two exceptions: an expression that can match the empty text makes the program run forever, and one with unbalanced parentheses (such as \"a)(b\") can drop text.", "quantifier": "every project, pattern, search expression and colour setting", "why_tests_cant": "All BUILD files and all search expressions.", "anchors": ["bant/frontend/parsed-project.cc: PrintProject", "bant/frontend/print-visitor.cc: PrintVisitor"]}
{"id": "C67", "title": "Tables of the commands are right, end to end", "statement": "Read back as CSV, the output of depends-on, has-dependents, lib-headers, genrule-outputs, aliased-by, list-packages, list-targets and workspace consists of exactly the rows that the files on disk imply: the external projects of the workspace files, the BUILD files of the pattern, the dependencies followed to the requested depth, restricted to what matches the pattern (everything if dependencies are followed). Without a workspace file nothing is printed and the command fails.", "quantifier": "every file system, option setting and pattern", "why_tests_cant": "All file systems and options.", "anchors": ["bant/cli-commands.cc: RunCommand, PrintOneToN", "bant/explore/header-providers.cc: PrintProvidedSources"]}
{"id": "C68", "title": "Exit status", "statement": "The exit status is 2 and nothing is printed iff the command word is missing, unknown or ambiguous; 1 and nothing printed iff the pattern is invalid, required but missing, there are more arguments, or no workspace file is readable; 3 iff dwyu or canonicalize printed an edit; otherwise 0.", "quantifier": "every command line, every file system", "why_tests_cant": "All command lines and projects.", "anchors": ["bant/cli-commands.cc: RunCliCommand, RunCommand", "bant/cli-commands.h: CliStatus"]}
{"id": "C69", "title": "The command line", "statement": "A command is run iff the command line can be read as options and other words (short options, joined or separate, in any order; only words after --) and all options are acceptable (known format, directories that can be entered, output that can be opened, no -h/-V); then settings are what the options say: the last -r, -f, -g, -o count, -v are counted, all -C are applied in order. Otherwise nothing is done and the exit status is 1 for a directory, file or format that cannot be used and 0 else. Options may be moved past other words; formats may be abbreviated; -r0 is the same as no -r. (The described option -E is not accepted by any command line.)", "quantifier": "every command line", "why_tests_cant": "All orders, abbreviations and joinings of options.", "anchors": ["bant/bant.cc: main, usage"]}
{"id": "C70", "title": "External projects of the workspace files", "statement": "Loading the workspace succeeds iff one of the four workspace files is readable; an external project is known under a name and version iff an http_archive or bazel_dep in one of these files declares it (repo_name taking precedence over name) and it is extracted: in name~version, name, name~override or the first of other versions, in this order; the last declaration counts. It never crashes if the files have no syntax errors.", "quantifier": "every file system and content of the workspace files", "why_tests_cant": "All workspace files and directory trees.", "anchors": ["bant/workspace.cc: LoadWorkspace"]}
{"id": "C71", "title": "Prewarm file: what is looked at, and its name", "statement": "For every content of the prewarm file the jobs are one look at each line that names a file or directory, in order, and one cancelling job. For every sequence of accesses (names not empty and without newline) the file written makes the next run look at each name once, in the order of first access, as the kind it was first accessed as. The number in the file's name depends on the arguments without -v -q -vq -qv -k and without -C -o -f and their values, not on their order; it is not unique for the arguments: one that is given twice does not count.", "quantifier": "every file content, every sequence of accesses, every command line, every hash function", "why_tests_cant": "Contents, access histories and argument lists are unbounded.", "anchors": ["bant/util/filesystem-prewarm-cache.cc: InitCacheFile, WritePrefixed, FilesystemPrewarmCacheInit"]}
{"id": "C72", "title": "Results do not depend on the order of directory listings", "statement": "Whatever order the operating system lists the entries of directories in, the same files are found by walks and by glob() (possibly in another order), and every command prints the same output with the same exit status, if glob() is not used, no directory is reached in two ways (links included) and no package has two BUILD files (that is so if no directory has both BUILD and BUILD.bazel and those with BUILD files have no leading dot in their names). Without one of these conditions the output can depend on the order: proved by examples.", "quantifier": "all file systems with finitely many directories, all permutations of every directory's listing, all commands, flags and arguments", "why_tests_cant": "readdir() gives one order on the machine the tests run on; other file systems give others", "anchors": ["bant/util/file-utils.cc:CollectFilesRecursive", "bant/frontend/parsed-project.cc:FillFromPattern", "bant/frontend/parsed-project.cc:AddBuildFile", "bant/frontend/elaboration.cc:HandleGlob", "bant/cli-commands.cc:RunCommand"]}
{"id": "C73", "title": "Every command comes to an end and none crashes on proper files", "statement": "Whatever the command, its flags and arguments: if no BUILD file that is read has a syntax error or calls a function by the name of a variable, every BUILD file that access() permits to read can be read, and the directories of external projects are not written with trailing slashes, then bant comes to an end with an output and an exit status; it neither crashes nor goes on for ever. The exceptions: compilation-db and compile-flags crash on a rule whose name is just ':' or that has include_prefix in the main project; -g with an expression that can match the empty text does not come to an end; -r with a number that is no int is undefined. Workspace files may have syntax errors. Each condition is needed: proved by examples.", "quantifier": "all file systems (finitely many directories for the walks), all commands, flags, arguments and command lines", "why_tests_cant": "Tests run a few commands on a few trees; that nothing is ever dereferenced that is missing has to hold for every combination of command, flags and file contents.", "anchors": ["bant/bant.cc: main", "bant/cli-commands.cc: RunCommand, RunCliCommand", "bant/frontend/parsed-project.cc: FillFromPattern, AddBuildFile", "bant/explore/dependency-graph.cc: BuildDependencyGraph", "bant/workspace.cc: LoadWorkspace"]}
{"id": "C74", "title": "Following the advice of dwyu once is enough", "statement": "If every dependency dwyu says to remove is removed and every one it says to add is added, with nothing else in the project changed in meaning and comments that keep a dependency left at it, then running dwyu again with the same pattern gives nothing to add or remove, however the lists are ordered and the files are laid out. This holds where no two rules looked at have the same name and the labels of targets are understood in each other's packages; a label of the main project in a rule of another project is not, and is to be added again and again.", "quantifier": "all projects, workspaces, file contents, patterns, orders of lists and layouts of the edited files", "why_tests_cant": "It relates two runs on different projects through every possible way to carry out the edits; tests run the tool once on a few hand-made projects", "anchors": ["bant/tool/dwyu.cc:CreateEditsForTarget", "bant/tool/dwyu.cc:MinimizeDependencySet", "bant/explore/header-providers.cc:ExtractHeaderToLibMapping", "bant/types-bazel.cc:ToStringRelativeTo"]}
{"id": "C75", "title": "Comments and layout do not change what a file means", "statement": "If two versions of a file have the same tokens, none of them in error, and differ only in blanks, backslashes, line breaks and comments between them, then they are parsed to the same tree up to positions, with syntax errors at the same tokens, evaluate to the same values, and the same rules with the same attributes are found in them. If any number of files is changed like this, every command that does not show positions (all but print, list-targets and parse with -p) prints the same with the same exit status; dwyu, if it comes to an end, gives the same edits when -k is given or neither version of a changed file has the word 'keep', and the C++ sources include the same. Three things must be left as they were: tokens that were apart stay apart, an opening bracket after the first token stays on its line (or off it), and a word starting with 'in' must not come directly after 'not'. Each condition is needed: proved by examples.", "quantifier": "all file contents, all ways to insert, remove or change white space and comments between tokens, all kinds of rules queried, all file systems, commands, flags and arguments", "why_tests_cant": "There are unboundedly many ways to lay out a file; tests have a handful of files, each in one layout", "anchors": ["bant/frontend/scanner.cc:Next", "bant/frontend/scanner.cc:SkipSpace", "bant/frontend/parser.cc:Parser::Impl", "bant/frontend/elaboration.cc:Elaborate", "bant/explore/query-utils.cc:FindTargets", "bant/cli-commands.cc:RunCommand", "bant/tool/dwyu.cc:CreateEditsForTarget"]}
{"id": "C76", "title": "How dependencies are spelled does not matter, and canonicalize has to be followed only once", "statement": "If dependencies are written in another way that names the same targets (or is as little understood as before), in any number of BUILD files, and the rest of the rules is the same, then every command that does not show them as written or shows positions (all but print, list-targets, parse with -p, dwyu and canonicalize) prints the same with the same exit status, if both runs come to an end; and dwyu says the same things in the same order, but for the spelling of the dependencies it names. Doing all renames canonicalize asks for is such a change; afterwards it asks for no rename with the same pattern, and complains about the same labels as before. This is so unless a label names a project with an empty name or a target without package and name.", "quantifier": "all projects, file systems, commands, flags, patterns and ways to write labels that name the same targets", "why_tests_cant": "It relates runs on two versions of a project through every way labels can be written; tests run the tool once on a few labels", "anchors": ["bant/types-bazel.cc:ParseFrom", "bant/types-bazel.cc:ToStringRelativeTo", "bant/tool/canon-targets.cc:CreateCanonicalizeEdits", "bant/explore/dependency-graph.cc:BuildDependencyGraph", "bant/tool/dwyu.cc:CreateEditsForTarget"]}
{"id": "C77", "title": "dwyu says why it does not act, where, and the same or more with -v", "statement": "What dwyu writes to the info stream is exactly determined, message by message and in order: files of the main project that two genrules make; then for every target it looks at, source by source, include by include, what is unreadable, included by another name, relative to the file, or not provided by anything known; then what is wrong with its dependencies, and what it can not add and why; then the number of targets and of edits. Each message has the place of the source, include, dependency or rule it is about. It can always be printed if the files parse without error; -v never changes the edits and only adds messages, and below -vvv a terminal makes no difference. A source that can not be read and an include of a file made by a genrule that no library offers are always named; with -v so is every include that nobody provides, so a dependency that is kept because something is unknown comes with the reason. Without -v it may be kept with no word about it; and of a dependency that is not added because it is only for tests, -vv also says that it is not visible.", "quantifier": "all projects, file systems, workspaces, patterns and verbosities", "why_tests_cant": "The messages depend on the interplay of all BUILD files, sources and flags; tests look for the edits of a few targets, and at no message", "anchors": ["bant/tool/dwyu.cc:DependenciesNeededBySources", "bant/tool/dwyu.cc:CreateEditsForTarget", "bant/tool/dwyu.cc:IsTestonlyCompatible", "bant/tool/dwyu.cc:CreateDependencyEdits", "bant/explore/header-providers.cc:ExtractGeneratedFromGenrule", "bant/types.h:SourceLocator"]}
{"id": "C78", "title": "What is said about a BUILD file that does not parse", "statement": "For a BUILD file that does not parse, one message is printed for each complaint, in the order met: the file name, the true line and column range of a token of the file, the text of that token, and what was expected, in the fixed wording of its kind. The text before the token of the first message is never at fault: it can be continued to a file that parses. The token itself is: every file that starts with the same tokens up to and including it fails to parse with the same first message. The advice of the first message is good: each operator, bracket or keyword it names (or a variable, where it asks for an identifier or a value) can be written in place of the token, and the text so far can be continued to a file that parses. The exception are the two messages about array access: after 'a[' the message is Expected ':' or ']', and after 'a[:' it is Expected closing ']', but no file that goes on with ']' there parses.", "quantifier": "all file contents without a 'not in' broken over lines (for the places) and below 2 GiB; all contents for the rest, and all possible continuations", "why_tests_cant": "Tests show the message for a handful of broken files; that the text before the complaint is always completable, and that following the advice can always lead to a correct file, quantifies over all broken files and asserts the existence of continuations.", "anchors": ["bant/frontend/parser.cc:ErrAt", "bant/frontend/parser.cc:Parser::Impl", "bant/frontend/scanner.cc:operator<<", "bant/frontend/source-locator.cc:operator<<", "bant/frontend/parsed-project.cc:AddBuildFileContent"]}
{"id": "C79", "title": "What is said in a run", "statement": "Apart from its output, a run says on the standard error: nothing but the reason, if the command line is not understood (unknown or ambiguous command, missing or invalid pattern, more than one pattern); otherwise, in order, what is wrong with the workspace files that do not parse, which declared projects are not extracted (only if there are such in the old and in the new kind of workspace files), then for each BUILD file of the pattern, in the order found, whether its package is not known, it can not be read, its package was already read from another file (which is named), or it does not parse (with the messages of C78), that there is no file for the pattern, then of the files read for dependencies, what the dependency graph misses and how it grew (-v), and last what the command itself has to say (dwyu as in C77, genrule outputs made twice, dependencies that are no labels, a bad regular expression). Each file of the project that does not parse is mentioned exactly once. The status is failure or a request for clarification exactly if the reason is said. Every file of the pattern is read without complaint or there is a message about it. Messages do not change the output and the status, they can be said wherever the run ends (C73), and more -v only adds some. An option that ends the program gives the reason; with -q only unknown projects, files without package, unreadable files, bad patterns, and options are still mentioned.", "quantifier": "all command lines, options, workspaces, file contents (without a 'not in' broken over lines, below 2 GiB), patterns and verbosity levels", "why_tests_cant": "Messages come from a dozen places in loops over files and dependencies; that none is lost, doubled or changes the result, and that every failure has a reason shown, is about all runs.", "anchors": ["bant/bant.cc:main", "bant/cli-commands.cc:RunCliCommand", "bant/cli-commands.cc:CliCommandExecute", "bant/workspace.cc:LoadWorkspace", "bant/frontend/parsed-project.cc:AddBuildFile", "bant/frontend/parsed-project.cc:AddBuildFileContent", "bant/frontend/parsed-project.cc:FillFromPattern", "bant/session.h:SessionStreams", "bant/tool/canon-targets.cc:CreateCanonicalizeEdits"]}
{"id": "C80", "title": "What a dependency graph misses", "statement": "With -v, following dependencies from a pattern to a depth lists exactly the targets that are within that many steps of a matching target and do not exist (there is no BUILD file for the package, or no rule of that name in it), each once and in order; and exactly the packages of these that have no BUILD file, each once and in order. Each target listed is a dependency of an existing target. Nothing is listed without -v or if nothing is missing.", "quantifier": "all projects, workspaces, contents of the disk, patterns and depths", "why_tests_cant": "Which targets are missing depends on all paths through the graph up to the depth and on files read on the way; a test sees one graph.", "anchors": ["bant/explore/dependency-graph.cc:BuildDependencyGraph", "bant/explore/dependency-graph.cc:PrintList", "bant/explore/dependency-graph.cc:FindAndParseMissingPackages"]}
{"id": "C81", "title": "What the statistics say", "statement": "With -v a run ends with one line for each part of the program that was used, in the order of first use, even with -q, and without -v (or if the command was not understood) with none; counting changes neither output nor status. The numbers are true: the walk for the pattern; BUILD files read (those of the project, those left out as a package's second file, and those that could not be read) and parsed (all but the last), with the size of the project if no file was left out; packages elaborated (all of the project, or without -e only those found by following dependencies); rounds of following dependencies (the least number after which nothing is left to follow, but not more than the depth allows), with at least one check for existence per file found; for dwyu the number of known labels, and number and size of those sources and headers of matching targets that can be opened; for canonicalize the dependencies of matching targets. Parts that were not used are not mentioned. Sizes are rounded down to KiB.", "quantifier": "all command lines, workspaces, contents of the disk, flags, times", "why_tests_cant": "The numbers are kept in objects shared by all parts of the program and added to along every path of a run; a test sees the numbers of one run.", "anchors": ["bant/session.h:Session::GetStatsFor", "bant/util/stat.cc:Stat::ToString", "bant/bant.cc:main", "bant/frontend/parsed-project.cc:ParsedProject::AddBuildFile", "bant/explore/dependency-graph.cc:BuildDependencyGraph", "bant/tool/dwyu.cc:CreateDependencyEdits", "bant/tool/canon-targets.cc:CreateCanonicalizeEdits"]}
{"id": "C82", "title": "Threads of the clang-tidy script do not disturb each other or the cache", "statement": "run-clang-tidy-cached works on the files that need it with as many threads as there are cores. Whatever the threads do in whatever order, and wherever all of it is stopped: a file in the directory of results is as it was, or has a name ending with .tmp, or is the result for one of the files, made of all that clang-tidy printed. Every file to be processed is waiting, worked on by exactly one thread, done, or was being processed by a clang-tidy that got Ctrl-C. No thread ever waits for another for good, and when all have returned there is a result for every file except one for each Ctrl-C (provided one thread was left). This needs names of results to be different: with two files of the same name and hash the script can abort, or keep an empty result for two files of which clang-tidy complained.", "quantifier": "all queues, numbers of threads, interleavings, points where the program stops, what clang-tidy prints and how much at a time, earlier contents of the cache", "why_tests_cant": "Interleavings of threads and the moment of a crash can not be chosen in a test.", "anchors": ["scripts/run-clang-tidy-cached.cc:ClangTidyRunner::RunClangTidyOn", "scripts/run-clang-tidy-cached.cc:ClangTidyRunner::RepairFilenameOccurences", "scripts/run-clang-tidy-cached.cc:ContentAddressedStore::PathFor"]}
{"id": "C83", "title": "A cached clang-tidy report is made of what clang-tidy said", "statement": "After any sessions of the script one after the other, each of them finished, interrupted or stopped, with sources, clang-tidy and directories changing in between, each result in the cache is all that clang-tidy said in one of these sessions of a file with that name and hash. The report of a session that came to its end, not interrupted and with names of results all different, is made of such a text for each file of interest. If clang-tidy always says the same of files with the same name and hash, it is the report a first session with an empty cache would make. To be done are exactly the files without a result and those with complaints from before the last change of the build, so no complaint in a report is older than that. A session started right after it has nothing to do (if the clock does not run backwards).", "quantifier": "all histories of sessions, schedules and stops within each, sources, outputs of clang-tidy", "why_tests_cant": "A cache is right or wrong over a history of changes; tests try a short one.", "anchors": ["scripts/run-clang-tidy-cached.cc:main", "scripts/run-clang-tidy-cached.cc:FileGatherer::BuildWorkList", "scripts/run-clang-tidy-cached.cc:ContentAddressedStore::NeedsRefresh", "scripts/run-clang-tidy-cached.cc:FileGatherer::CreateReport"]}
{"id": "C84", "title": "Which files are checked again after a change", "statement": "A result is kept under the last path element of the file and sixteen hexadecimal digits; two files share it just if both are the same. When a header changes (to a content with another hash), another file is looked at again just if its text mentions headers of that last path element an odd number of times: so not if it includes two headers of that name from different directories (as bant/cli-commands.cc does), or the header only by way of others. When a file changes but not what it includes, it is looked at again itself, unless it is a header mentioning its own name an odd number of times (as bant/tool/workspace.h does). A change of any other file has no influence on others.", "quantifier": "all trees of files, contents and hash functions to 64 bits", "why_tests_cant": "The answer depends on all files of the project and the hashes of all contents.", "anchors": ["scripts/run-clang-tidy-cached.cc:FileGatherer::BuildWorkList", "scripts/run-clang-tidy-cached.cc:ContentAddressedStore::PathFor", "scripts/run-clang-tidy-cached.cc:ToHex"]}
{"id": "C85", "title": "The report of the clang-tidy script", "statement": "The details are, for each file with a non-empty result in the order of the files found, its path and the result. The summary has one line for each check, [name] of letters, dots and dashes, at the end of a line of a result, with the number of all such lines, more frequent ones first and equally frequent ones in alphabetical order; it does not depend on the order in which files are found. The script succeeds just if there is no such line; a complaint with a digit or a comma in the name of the check is in the details but not counted.", "quantifier": "all results, files and orders of files", "why_tests_cant": "Counting with a regular expression over any text; a test has a few lines.", "anchors": ["scripts/run-clang-tidy-cached.cc:FileGatherer::CreateReport"]}
{"id": "C86", "title": "Files, includes, lines and directories of the clang-tidy script", "statement": "Looked at are the regular files ending with one of seven extensions outside of .git, .github and build. The includes seen in a text are exactly the parts # include \"path.ext\", from left to right. From each line of a result exactly the first of Bazel's execution root and the current directory that it starts with is removed, then ./; so the result does not depend on the checkout. The directory of results is named by clang-tidy's major version (digits after the first 'version ' followed by some) and eight digits: two configurations share it just if the version and 32 bits of the hash of version, arguments and configuration are the same. Whatever the names of file, arguments and directory are, as long as no quote is in them the shell runs clang-tidy with exactly these as its arguments and its output into the temporary file. The script starts just if there is .clang-tidy, MODULE.bazel and compile_commands.json or compile_flags.txt, and takes the later change of the last two for the change of the build. It is beneath CACHE_DIR if that is set, otherwise beneath .cache in HOME if that is there, otherwise beneath TMPDIR or /tmp.", "quantifier": "all file names, texts, directories, versions and configurations", "why_tests_cant": "They are regular expressions over arbitrary text.", "anchors": ["scripts/run-clang-tidy-cached.cc:FileGatherer::BuildWorkList", "scripts/run-clang-tidy-cached.cc:ClangTidyRunner::RepairFilenameOccurences", "scripts/run-clang-tidy-cached.cc:ClangTidyRunner::AssembleProjectCacheDir", "scripts/run-clang-tidy-cached.cc:ConsiderExtension"]}
{"id": "C87", "title": "The format of a table does not change what it says", "statement": "If one of the commands that print tables (list-packages, list-targets, workspace, lib-headers, aliased-by, genrule-outputs, has-dependents, depends-on) succeeds with one output format, it succeeds with every output format, and there is one list of entries, with the columns of the command, that all of the texts say: CSV reads back as the header and the rows of the entries, S-expressions and property lists read back as exactly the entries, JSON has one line per entry that reads back as it (or is no JSON if a string of the entry has characters that C and JSON escape differently), and the aligned formats have one line per row with the columns aligned. An entry without values (a library without dependencies) is in the S-expressions, property lists and JSON, but has no row in CSV and in aligned text. All other commands print the same text whatever the format is.", "quantifier": "all files on disk, flags, patterns, commands and formats", "why_tests_cant": "Tests print one small table per format; that the rows agree in all formats for every project cannot be enumerated.", "anchors": ["bant/cli-commands.cc: RunCommand, PrintOneToN", "bant/util/table-printer.cc: TablePrinter::Create", "bant/explore/header-providers.cc: PrintProvidedSources", "bant/workspace.cc: PrintMatchingWorkspaceExternalRepos"]}
{"id": "C88", "title": "list-packages lists every directory with a BUILD file, once", "statement": "In a file system with finitely many directories, none reached in two ways: list-packages for a pattern of the main project (dependencies not followed) has exactly one row for every directory looked at (that of the pattern, with ... those below it, except links, _tmp, .cache and .git) that has a readable BUILD or BUILD.bazel: a path of such a file in it, and the label made of the names of the directories on the way. The packages listed for //a/... are exactly those of //... whose label is //a or begins with //a/. Exception: directories in the current one whose names begin with a dot are listed without the dots.", "quantifier": "all file systems, patterns of the main project, flags and outputs", "why_tests_cant": "The unit tests use a handful of directories; which packages are found for every tree of directories cannot be enumerated.", "anchors": ["bant/cli-commands.cc: RunCommand", "bant/frontend/parsed-project.cc: CollectBuildFiles, TargetPathFromBuildFile, FillFromPattern, AddBuildFile", "bant/util/file-utils.cc: CollectFilesRecursive"]}
{"id": "C89", "title": "Following dependencies deeper never hides rows", "statement": "For the same flags, pattern and files, a run of depends-on, list-packages, list-targets or lib-headers with a depth of -r that is at least as large prints every row the run with the smaller depth printed; for has-dependents, where a depth of 0 or less means no limit, the same holds for positive depths and towards no limit. For genrule-outputs every generated file shown stays shown, but if two rules generate the same file the rule shown for it may change with the depth (with depths of 0 and less it does not).", "quantifier": "all files, workspaces, patterns, flags and pairs of depths (also negative)", "why_tests_cant": "A test compares two depths on one project; the property is about how the rounds of loading continue for any project and any two depths.", "anchors": ["bant/cli-commands.cc:CommandlineExecute", "bant/explore/dependency-graph.cc:BuildDependencyGraph", "bant/explore/header-providers.cc:ExtractGeneratedFromGenrule"]}
{"id": "C90", "title": "A directory as the pattern shows the part of the tables about it", "statement": "In a file system where no directory is reached in two ways and no directory has two BUILD files, and with dependencies not followed, list-targets and depends-on for //dir/... print the rows that the same command prints for //... and that are about targets of packages in dir or below, in the same order and number; only the ./ in front of the file names of list-targets is missing. It is not so for lib-headers: an alias in dir of a library elsewhere is not shown for dir alone.", "quantifier": "all file systems with these properties, directories, BUILD files and flags", "why_tests_cant": "A test has one directory tree; the property compares two walks, two projects and two graphs for any tree.", "anchors": ["bant/frontend/parsed-project.cc:CollectBuildFiles", "bant/cli-commands.cc:CommandlineExecute", "bant/cli-commands.cc:PrintTargets", "bant/explore/dependency-graph.cc:BuildDependencyGraph"]}
{"id": "C91", "title": "Only files of the workspace and BUILD files matter", "statement": "What a command prints and its exit status depend on the contents of the files WORKSPACE, WORKSPACE.bazel, WORKSPACE.bzlmod and MODULE.bazel and of files named BUILD and BUILD.bazel only: with any other contents of any other files they are the same. Besides, compilation-db and compile-flags depend on .bazelrc, and dwyu on which files are there and what they include, but on nothing else in them. If no BUILD file uses glob(), files with other names can also be added to and removed from any directory without changing anything printed by a command other than dwyu.", "quantifier": "all pairs of file systems that agree on those files, flags, command lines", "why_tests_cant": "A test can change a few files and see no difference; that no other file is ever read is a statement about all file systems and all commands.", "anchors": ["bant/workspace.cc:LoadWorkspace", "bant/frontend/parsed-project.cc:AddBuildFile", "bant/explore/dependency-graph.cc:FindAndParseMissingPackages", "bant/tool/dwyu.cc:TryOpenFile", "bant/util/file-utils.cc:CollectFilesRecursive", "bant/tool/compilation-db.cc"]}
{"id": "C92", "title": "A change in one BUILD file concerns only its package", "statement": "If one BUILD file of the main project is changed, or becomes readable or unreadable, and everything else stays as it is, then, as long as dependencies are not followed, the output of list-targets, list-packages, print and canonicalize is the same except for one stretch in which all rows, blocks or lines before and after are about the package of that file; in depends-on all targets of other packages have the same dependencies as before. In aliased-by, at any depth, the aliases declared in other packages are listed for the same targets as before. (If dependencies are followed this is not so: packages can come and go.)", "quantifier": "all file systems, all contents of the file before and after, all patterns of the main project, all flags", "why_tests_cant": "Needs all pairs of workspaces that differ in one file; tests look at single workspaces.", "anchors": ["bant/frontend/parsed-project.cc:FillFromPattern", "bant/cli-commands.cc:RunCommand", "bant/tool/canon-targets.cc:CreateCanonicalizeEdits"]}
{"id": "C93", "title": "The order of attributes does not matter", "statement": "If in any number of BUILD, WORKSPACE or MODULE.bazel files without syntax errors rules are rewritten with their attributes in another order (and laid out in any way), every command that does not show places in files prints exactly the same with the same exit status; so does dwyu when no comments that say keep count and the C++ sources include the same. Needed is that each attribute is given once: of one that is given twice the last counts.", "quantifier": "all file systems, all sets of rewritten files, all permutations of the attributes of all rules, all flags, patterns and commands", "why_tests_cant": "There are unboundedly many permutations over unboundedly many rules and files, and every command reads attributes through a visitor with state; tests only fix one order.", "anchors": ["bant/explore/query-utils.cc (TargetFinder, FindTargets)", "bant/frontend/elaboration.cc (Elaborate)", "bant/cli-commands.cc (RunCliCommand)"]}
{"id": "C94", "title": "The order of the rules in a BUILD file does not matter to what depends on what", "statement": "If in any number of BUILD files without syntax errors the rules after some beginning (which may hold loads, package(), variables and rules too) are put in another order, depends-on prints exactly the same in every format and to every depth, with the same exit status, and has-dependents lists the same pairs; a run that succeeds before succeeds afterwards, and the other way round. Moved rules are calls with attributes only, each given once, with a name of their own that is written out; the workspace files stay as they are. Of two rules with the same name the first counts, and a variable must be assigned before it is used, so those may not change places.", "quantifier": "all file systems, all sets of changed files, all permutations of all moved rules, all flags, patterns and depths", "why_tests_cant": "There are unboundedly many permutations, and the graph is followed through packages that are loaded on the way, in an order that depends on what was found before; a test fixes one order.", "anchors": ["bant/explore/query-utils.cc (FindTargets)", "bant/frontend/elaboration.cc (Elaborate)", "bant/explore/dependency-graph.cc (BuildDependencyGraph)", "bant/cli-commands.cc (RunCliCommand)"]}
{"id": "C95", "title": "What is added to the end of BUILD files takes nothing away", "statement": "If any number of BUILD files get more statements at their end (rules, also with names that are there already, variables, package(), macros; the statements before may be laid out anew), are then without syntax errors and do not call a variable as a function, every target that depends-on listed is still listed with exactly the same dependencies, to every depth, and every row of has-dependents, list-packages, lib-headers and aliased-by is still there, as is every rule and target in list-targets, when both runs succeed. So is every file in genrule-outputs if all rules are shown (dependencies followed, or a pattern that matches all), perhaps as made by another rule. The workspace files stay as they are. In front of the other rules it is not so: of two rules with the same name the first counts.", "quantifier": "all file systems, all sets of changed files, all added statements, all flags, patterns and depths", "why_tests_cant": "There are unboundedly many things to add, and what is added can make packages be loaded on the way that were not loaded before, so that later rounds work on other sets; a test fixes one addition.", "anchors": ["bant/explore/query-utils.cc (FindTargets)", "bant/frontend/elaboration.cc (Elaborate)", "bant/explore/dependency-graph.cc (BuildDependencyGraph)", "bant/cli-commands.cc (RunCliCommand)"]}
{"id": "C96", "title": "With dependencies followed, list-packages, list-targets, lib-headers and genrule-outputs list exactly what is within reach", "statement": "list-packages -r d (d at least 0) has exactly one row for each package loaded for the pattern and each package of a target at most d dependencies away from a target of the pattern that has a BUILD file, with the path of that file; a package within reach is left out only if no BUILD file of it can be read. list-targets -r d lists, by rule and target, exactly the rules in the BUILD files of these packages: with d = 0 those of the pattern, with more also rules in these packages that nothing depends on. lib-headers -r d lists exactly the headers that rules in these files provide, themselves or by an alias in these files. genrule-outputs -r d lists only outputs of genrules in these files, none twice, and all of them if all rules are shown.", "quantifier": "all file contents, workspaces, patterns, depths of at least 0 and dependency graphs, cyclic ones and such with missing targets included; runs that succeed, CSV", "why_tests_cant": "Packages are loaded in rounds as targets are discovered; that none within reach is skipped and none beyond it is loaded, also with cycles, targets that do not exist and packages met twice, is about every graph and every depth.", "anchors": ["bant/explore/dependency-graph.cc:BuildDependencyGraph", "bant/explore/dependency-graph.cc:FindAndParseMissingPackages", "bant/cli-commands.cc:CommandlineExecute"]}
