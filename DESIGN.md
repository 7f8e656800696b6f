# Formal model of bant: design

The model is written in Gallina (Coq 8.16.1, standard library only) in
`rocq/theories`. It is a function-by-function transcription of the C++ in
`/repo/bant`; every model definition cites the file and lines it models.

## Layout

| kind | files | content |
|------|-------|---------|
| model | `M_*.v` | executable Gallina functions; no proofs |
| specification | `S_*.v` | small, independent definitions used in theorem statements |
| proofs | `P_*.v` | lemmas |
| properties | `C_*.v` | only `Theorem Cnn_... . Proof. exact ... . Qed.` with `Print Assumptions`, plus `Example`s showing that the hypotheses are met |
| tests | `T_*.v` | the repository's own unit tests replayed on the model (fidelity check) |

All files are flat in `rocq/theories`.

## Modelling conventions

* Bytes are `ascii`, strings and string views are `list ascii` (`str`), compared
  with the unsigned byte-wise lexicographic order of `std::string`.
* String views that must be located in a source carry their offset.
* `absl::btree_map/set` are sorted association lists; hash maps whose iteration
  order is never observed are association lists.
* Null pointers are `option`; dereferencing `None` gives an explicit `UB`
  outcome; exceptions and failed `CHECK`s are explicit outcomes.
* Loops that do not follow the structure of the data use fuel and return an
  explicit out-of-fuel result; the termination theorems show a sufficient
  (computable) amount of fuel, so the out-of-fuel result is unreachable.
* Recursion depth, memory exhaustion, and the machine stack are not modelled.
* File system, readdir order, read(2) results and thread schedules are
  universally quantified inputs.
* RE2 is modelled by an explicit regular expression type with a
  denotational semantics, for exactly the syntax bant generates.

## Per-property plan

| id | model | proof idea |
|----|-------|------------|
| C01, C02 | label parser/printer of types-bazel.cc | case analysis on splitting at ':' and '/'; counterexamples for degenerate labels |
| C03, C04, C06 | BazelPattern parse/match | component-wise specification via splitting |
| C05 | GlobbingToRE2 + regex semantics | glob specification; a tail with operators is a regular expression of its own (shifting the parse stack); refutations for the rest |
| C07-C10 | scanner state machine over the remaining text | induction on the text |
| C11, C12 | FromLiteral functions | case analysis; positional value by induction on digits |
| C13, C14 | LineColumnMap, NamedContent | induction, sortedness of newline list |
| C15-C18 | parser over the scanner, fuel | measure = remaining tokens; invariants over produced trees |
| C17 (elaboration) | the parser loop, elaboration and queries on incomplete trees | only the last statement can be incomplete; invariant "nothing is missing where it is used" |
| C19 | PrintVisitor, parser, print | mutual induction over trees that need no parentheses (S_Roundtrip): the printed text splits into pieces that are scanned as the tokens of a grammar derivation; every grammar derivation of a file without the listed exceptions yields such a tree |
| C20-C22 | elaborator as tree rewriting with UB outcome | denotational evaluator as specification |
| C23, C24 | TargetFinder visitor | specification by list functions on statements |
| C25-C27 | BuildDependencyGraph over an abstract project | measure = unresolved targets; BFS invariants |
| C28 | path construction | equational; refutations |
| C29 | FindBySuffix over a sorted list | longest-common-prefix neighbours lemma |
| C30, C53 | header-providers, aliased-by | membership characterisation |
| C31-C36 | dwyu | set cover invariants; refutations |
| C37-C39 | glob-match-builder | regex semantics |
| C40-C42 | arena, deque, range map | invariants over histories |
| C43, C44 | table printer | decoder functions as specification |
| C45-C47 | file walk, file read | graph measure; induction over read results |
| C48 | workspace map | sorted map lemmas |
| C49 | command lookup | sorted list lemmas |
| C50 | small-step thread pool | invariant over reachable states; a measure that decreases with each step |
| C51 | edit printer | shell word-splitting spec; refutation |
| C52 | compilation db | what rules ask for as relations; a JSON reader; crash condition with witness |
| C54 | project map | history induction |
| C55, C56 | scanner, parser | token kinds from their text; grammar as an inductive relation, sound and complete |
| C57 | locations after elaboration | invariant of elaboration |
| C58 | QualifiedTarget, QualifiedFile | inverse of label parsing |
| C59, C60 | generated files, dwyu driver | membership characterisation |
| C61, C62 | glob(), BUILD files of a pattern | from the walk (C45, C46) and the patterns (C37-C39) |
| C63 | canonicalize | membership characterisation over the deps of matching rules |
| C64, C65, C67, C68 | commands of the command line (workspace, list-targets, tables, exit status) | composition of the lookups above with the table read-back of C43 |
| C66 | print, with search and colours | an inductive relation for what is shown; colours by removing escape sequences |
| C69 | `main`, `getopt` | a grammar of command lines and the meaning of its options; both directions |
| C70 | LoadWorkspace | `the_workspace` characterises the file system lookups |
| C71 | prewarm file | round trip by induction over the accesses; relation for the arguments that count |
| C72 | everything, over one file system (`M_System.v`) | walks give permutations (from C46); adding BUILD files commutes if their packages differ; evaluation does not use glob() if no identifier is called so |
| C73 | the same | each command on files that are parsed without errors (`perform_ends`), the files being those on disk (`prepare_ends`); calls made by the parser always have a name and arguments (`P_Shape.v`) |
| C74 | the same (`M_Dwyu.v`, `M_Headers.v`) | what a rule needs, the index of headers and what is known of libraries do not depend on deps (`S_Converge.v`: what it means to follow the advice), so the second run strikes what the first one added (`rerun`) |
| C75 | the same (`M_Scanner.v`, `M_Parser.v`, `M_Elab.v`, `M_Query.v`) | a file is words with gaps (`S_Layout.v`); the scanner finds the words whatever the gaps (`tokens_again`), the parser runs in step on both token lists (`parse_again`), and evaluation and queries do not look at places (`elaborate_bare`, `find_targets_in_bare`); then every command of `M_System.v` on two file systems that differ in layout (`S_Relaid.v`, `run_relaid`, `dwyu_alike`) |
| C76 | the same (`M_DepGraph.v`, `M_Headers.v`, `M_CompDb.v`, `M_Dwyu.v`, `M_Edits.v`, `M_Commands.v`, `M_System.v`) | two projects with the same rules whose dependencies are related one by one (`S_Respell.v`); every consumer of dependencies only uses the targets they name (`P_Respell.v`, `P_Respell2.v`), files read while the graph is built included; the renames of C63 keep the meaning and are their own fixed point (`P_Respell3.v`); then all commands (`P_RespellRun.v`) |
| C77 | dwyu.cc again with the messages as text and -v (`M_Messages.v`) | `S_Messages.v` says which messages belong to an include, a source, a dependency and a need, with the places of C09 and C65; erasing the messages gives the run of `M_Dwyu.v` (`P_Messages.v`), what is told is as specified, by induction over the loops (`P_Messages2.v`, `P_Messages3.v`), is defined, and grows with -v (`P_Messages4.v`); then what is missing is told (`P_Messages5.v`) |
| C78 | the parser with the reason of each complaint (`M_Parser.v`), the text of the messages (`M_ParseErrors.v`) | `S_ParseErrors.v` gives the wording and the words named; the first complaint depends only on the tokens up to it (`P_ErrLocal.v`); the tokens used before it can be completed to a sentence of the grammar of C56, by induction over the parser (`P_Viable.v`), and to a text (`P_ViableText.v`) |
| C79 | the run of C67-C70 again with what it writes to the standard error (`M_Told.v`) | `S_Told.v` says which message belongs to what; erasing the messages gives `M_Commands.v` and `M_Main.v` (`P_Told.v`, `P_Told8.v`); the workspace and the files of a pattern by induction over the files read (`P_Told2.v`, `P_Told3.v`, `P_Told5.v`), the commands (`P_Told6.v`), failure, files passed over and -v (`P_Told7.v`), that all can be said and the options (`P_Told8.v`); theorems in `C_Told.v` |
| C80 | `BuildDependencyGraph()` with its list of what is missing (`M_Told.v`) | an invariant over the rounds: what is in the two sets is what was looked for and not found (`P_Told4.v`), with the reachability of C25 |
| C81 | the run again with every operation on a `Stat` object, the table of `Session`, the lines written by `main()` (`M_Stats.v`) | `S_Stats.v` says what each number should be in terms of the project, the notes of C79, the depth needed for the graph and the sources that can be opened; erasing the operations gives `M_Commands.v` (`P_Stats.v`, `P_Stats3.v`), a name is followed through the list of operations (`P_Stats.v`, `P_Stats2.v`), reading, elaboration and rounds by induction (`P_Stats2.v`), tools (`P_Stats3.v`), the run and the lines (`P_Stats4.v`, `P_Stats5.v`); theorems in `C_Stats.v` |
| C82 | `RunClangTidyOn()` of `scripts/run-clang-tidy-cached.cc`: the queue, the threads and the files of the result directory as a machine with one step per thing a thread does (`M_Tidy.v`) | an invariant of all schedules (`P_Tidy2.v`), what follows at any point and at the end, and a measure for going on (`P_Tidy3.v`); theorems in `C_Tidy.v` |
| C83 | sessions of the script one after the other on one directory (`M_Tidy.v`, `S_Tidy.v`: `history`) | induction on the history (`P_Tidy3.v`, `P_Tidy5.v`); theorems in `C_Tidy.v` |
| C84 | `BuildWorkList()`, the names of results (`M_Tidy.v`; the hash function is a parameter) | hashes as sums in the group of numbers with exclusive or (`P_Tidy4.v`); theorems in `C_Tidy.v` |
| C85 | `CreateReport()` (`M_Tidy.v`) | counts of matches against a count of occurrences (`P_Tidy.v`), the order (`P_Tidy4.v`); theorems in `C_Tidy.v` |
| C86 | the expressions for includes and checks, `RepairFilenameOccurences()`, `AssembleProjectCacheDir()` (`M_Tidy.v`) | matches against a relation between text and parts (`P_Tidy.v`), other checkouts and configurations (`P_Tidy5.v`); theorems in `C_Tidy.v` |
| C87 | the commands that print tables (`M_Commands.v`, `M_Table.v`) | every such command is a table of its own, independent of the format, that is then printed; C43 and C44 say what each format says of it (`C_Formats.v`) |
| C88 | list-packages in a file system (`M_System.v`, `M_Walk.v`, `M_Project.v`) | `S_Packages.v` says which directories are packages by the names on the way; the walk (C62), the project (C67) and depth 0 of the graph together give the table, and paths that begin alike the part of it (`P_Packages.v`, `C_Packages.v`) |
| C89 | two runs with different depths (`M_Commands.v`, `M_DepGraph.v`) | the runs are the same until dependencies are followed; more rounds continue fewer rounds, so files and entries only grow (`P_Deeper.v`, `C_Deeper.v`); the exception of genrule-outputs is a concrete run |
| C90 | list-targets and depends-on in a file system (`M_System.v`) | the files loaded for a directory are, up to ./, those loaded for everything whose package is there (`P_Part.v`, from the walk of C88); rows and entries follow file by file (`C_Part.v`) |
| C91 | all commands in two file systems that agree on some files (`M_System.v`) | every place where a file is read is given one of the names (`P_Reads.v`); the walk over a directory is the walk over its entries without the other files (`P_Beside.v`) |
| C92 | list-targets, list-packages, print, canonicalize, depends-on and aliased-by in two file systems that differ in one BUILD file (`M_System.v`) | the files loaded are the same for other packages (`P_Local.v`, from the specification of loading in `S_Run.v`), sorted lists that agree but for a key differ in one stretch, and what is printed is made of parts, one for each file; the witness of `C92_deeper_refuted` is computed |
| C93 | all commands that do not show places, and dwyu, in two file systems whose files have the same statements but for places and the order of attributes (`M_System.v`, `S_Attributes.v`) | assignments of different attributes commute in the visitor of queries, in glob() and in elaboration below the top level (`P_Attributes.v`); everything after it is the proof of C75 (`P_Layout*.v`, `P_Relaid.v`), which only needs that the rules found are alike |
| C94 | depends-on and has-dependents in two file systems whose BUILD files have the same statements but for places and the order of plain rules at the end (`M_System.v`, `S_Moved.v`) | a plain rule is visited and elaborated without effect on the others, so the rules found are permuted (`P_Moved.v`); names are distinct, so the first rule of a name is the same; dependencies and reachability of `S_DepGraph.v` only look at that, and C67 says that the graph is made of those; a run succeeds if the trees it visits are usable and the rules it follows have usable lists, which is the same for both, round by round (`P_MovedRun.v`, `C_Moved.v`) |
| C95 | depends-on, has-dependents, list-packages, list-targets, lib-headers, aliased-by and genrule-outputs in two file systems, where BUILD files of the second have more statements at the end (`M_System.v`, `S_Extended.v`) | the walk only appends to the rules found and elaboration of a statement only looks at those before, so the rules of the first file are a prefix of those of the second; the first rule of a name is then the same, and dependencies and reachability of `S_DepGraph.v` grow (`P_Extended.v`); by C16 elaboration of the longer file is defined, and C67 says what the graph is made of (`C_Extended.v`); the files known after following are those of C96, so each is still known and has grown, and what it provides (C30's relation, `P_ExtendedFiles.v`) only has more |
| C96 | list-packages, list-targets, lib-headers and genrule-outputs with dependencies followed (`M_Commands.v`, `M_DepGraph.v`) | `P_Loaded.v`: an invariant of the rounds beside that of C25 to C27: every target reachable in fewer rounds has its package loaded or without a BUILD file, those reachable in exactly as many are also in the work list, and what is loaded was in the project or is the package of a reachable target; then the rows, as in C67 |

## Trusted base

* The kernel of Coq 8.16.1 (type checker, `vm_compute` conversion included: it
  is used in examples, replayed tests and a few refutations) and `coqc`. No
  plugins, no native compilation, no extracted code.
* Axioms: none. `Print Assumptions` is run after every theorem named in
  `MANIFEST.json` (in the `C_*.v` file that has it) and prints
  "Closed under the global context" for each of them. Loading the standard
  library brings in the seven constants `Coq.ssr.ssrunder.Under_rel.*` (an
  opaque module of the standard library that lists such constants as
  parameters); no theorem depends on them.
* The transcription from C++ to Gallina, done by hand. It is checked by
  replaying the repository's own unit tests on the model (`T_*.v`) and by
  the citations beside each definition.
* The specifications in `S_*.v` (and those given inline in `C_*.v`), which say
  what the English statements of `properties.jsonl` mean.
* The behaviour of what the code calls and the model takes as given:
  `absl::btree_map`/`btree_set` as sorted maps and sets without duplicates,
  `absl::string_view` functions by their documentation, RE2 by the semantics in
  `M_Regex.v` for the syntax that bant builds, POSIX calls as quantified oracles.
  In the commands (`M_Commands.v`, `M_Main.v`) these are parameters of the
  model, so theorems hold for all of them: existence and content of files and
  directories, the directory listings of glob(), the BUILD files found for a pattern (modelled
  and proved on their own in `M_Walk.v`), the text of compilation flags (modelled in `M_CompDb.v`, put together in C52_command), and the
  search of the expression given to -g (a function from text to the position
  and length of the first match). `getopt` is the one of the GNU C library without
  `POSIXLY_CORRECT`: options and words can be mixed.

## What is modelled

| code | model |
|------|-------|
| `types-bazel.{h,cc}` | `M_Types.v`; `QualifiedTarget` and file names in `M_Types.v`, `M_Workspace.v` |
| `frontend/scanner.{h,cc}`, `linecolumn-map`, `named-content.cc` | `M_Scanner.v` |
| `frontend/ast.{h,cc}` (nodes, literals, casts, visitors) | `M_Ast.v` |
| `frontend/parser.cc` | `M_Parser.v` |
| `frontend/print-visitor.cc` | `M_Printer.v` |
| `frontend/elaboration.cc` | `M_Elab.v`; MultiGlob in `M_Walk.v` |
| `explore/query-utils.cc` | `M_Query.v` |
| `frontend/parsed-project.cc` | `M_Project.v`; CollectBuildFiles in `M_Walk.v` |
| `workspace.cc` | `M_Workspace.v` |
| `explore/dependency-graph.cc`, `aliased-by.cc` | `M_DepGraph.v`, `M_Headers.v` |
| `explore/header-providers.cc` | `M_Headers.v` |
| `tool/dwyu.cc` (and its internal header) | `M_Includes.v`, `M_Dwyu.v`; with its messages `M_Messages.v` |
| `util/glob-match-builder.cc` | `M_Glob.v`, `M_Regex.v` |
| `util/file-utils.cc` | `M_Walk.v` |
| `util/arena.h`, `arena-container.h`, `disjoint-range-map.h` | `M_Arena.v` |
| `util/table-printer.cc` (and `absl::CEscape`) | `M_Table.v` |
| `tool/edit-callback.cc`, `tool/canon-targets.cc` | `M_Edits.v` |
| `frontend/print-visitor.cc` with colour and highlighting | `M_Highlight.v` |
| `cli-commands.cc`, `tool/workspace.cc` and PrintProject, tables of the commands | `M_Commands.v` |
| `tool/compilation-db.cc` | `M_CompDb.v` |
| `util/filesystem-prewarm-cache.cc` | `M_Pool.v` (steps of threads between synchronisation points; not the order of destruction of `pool_` itself, nor memory orders beyond those of the mutex) |
| `bant.cc` (main) and the `getopt` it calls | `M_Main.v` |
| what all of these write to the standard error in a run | `M_Told.v` (with `M_Messages.v`, `M_ParseErrors.v`) |
| `session.h`, `util/stat.{h,cc}` and all that is counted in a run | `M_Stats.v` |
| `scripts/run-clang-tidy-cached.cc` | `M_Tidy.v`: the files of interest and their hashes, the work list, the threads with every access to the result directory, the repair of lines, the report, the directory of a configuration; left out: progress output, the symlinks to the reports, `--fix` changing sources during a run, characters of directory names that mean something in an expression |
| all of it, over one file system: the parameters of the commands given by the walks, glob() and compilation flags | `M_System.v` |

Not modelled: timers (times and speeds are parameters of what `M_Stats.v` prints), the reading of environment variables, memory exhaustion and the depth of the
machine stack, encodings (bytes are bytes), the exact wording of error messages
unless a property is about it (C77: dwyu; C78: the parser; C79: a run, but not the usage page, what `getopt()` itself writes, and the
texts of RE2 and of pattern errors, which are parameters). Simplifications of single functions are stated
in the comment of the definition.
