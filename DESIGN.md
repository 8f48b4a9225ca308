# Formal model of cstar (the `cxy` compiler, runtime and standard library)

The subject is `dccarter/cstar` at the pinned commit, source in `/repo`.  It is read as text only: nothing is built
or run.  The model is written in Rocq (Coq 8.16.1) under `rocq/theories`, logical name `Verif`.

## Conventions

* `XxxModel.v` – executable Gallina transcription of the code, one definition per function, each with the file and
  lines it transcribes and the simplifications made.  No proofs.
* `XxxSpec.v` – the independent specification (finite map, sequence, grammar, UTF-8, trace semantics ...).  It does not
  mention the model.  Short specifications live at the head of the property file instead.
* `XxxProofs.v` – lemmas.
* `XxxProps.v` – the property theorems only: `Theorem ... exact lemma.`, a non-vacuity `Example` beside each, and
  `Print Assumptions`.
* Names: `..._partial` = the theorem proves part of the property (what is missing is said beside it),
  `..._refuted` = the property is false of the faithful model; a concrete witness is given.  A refuted property is
  normally accompanied by the positive theorem under the exact guard which makes it true.
* Undefined behaviour, non-termination (fuel exhaustion), out-of-bounds access and failed assertions are distinct
  outcomes (`Err`/`None` values) in the model; no theorem gets its truth from a totalised default.
* Machine arithmetic is `N`/`Z` with explicit wrap where the property depends on it; otherwise sizes are
  unbounded `nat`, which is noted in the definition.

## Trusted base

* Coq's kernel (and `coqchk`).
* What `Print Assumptions` prints for each property theorem: the aim is "Closed under the global context" for all of
  them.  Exceptions are listed in the section *Assumptions* below.
* The reading of the source: the model is tied to `/repo` only by the citations.
* C and cxy semantics used while reading: 64-bit `size_t`, 8-bit bytes, little endian where bytes of integers are
  hashed, IEEE-754 binary64 `f64` with round-to-nearest-even.

## Assumptions

Every property theorem is "Closed under the global context" unless listed here.  (none listed)

`coqchk -o` also lists the axioms of loaded libraries that no theorem here uses: the `Under_rel` and `Over_rel`
declarations of `Coq.ssr.ssrunder` (standard library, loaded by std++).

## Property by property

| id | modelled | how |
|----|----------|-----|
| C01 | stdlib `HashMap` table: slots, stored hash, Robin-Hood displacement, back-shift removal, resize | refinement to a finite map over arbitrary op histories; invariant "every earlier slot of a probe path is occupied and at least as far from its home (as the code computes it)" |
| C02 | slot scan of `..`, `each`, `map` | each/.. list = entries; `map` refuted (index never advanced) |
| C03 | intrusive list with heap of link cells | refinement to a queue |
| C04 | `Vector` buffer with capacity, out-of-bounds write an error | refinement to list for capacity >= 2; refuted for 0/1 |
| C05 | trie nodes | longest-prefix spec; refuted for empty key |
| C06 | buffer, flush log | guard (no append exactly fills a non-empty buffer), refuted without |
| C07 | `encodeBuffer`, `decodeBuffer` with reads outside the input as errors | round trip for non-empty, empty refuted |
| C08 | `urlEncodeBuffer`, `urlEncodeSize`, `urlDecodeBuffer` | refuted |
| C09 | percent-encoder of fetch.cxy | round trip |
| C10 | multipart encoder | length equality |
| C11 | `appendChar` | 1–3 byte classes proved, 4 byte class refuted |
| C12 | search loops | first/last occurrence; `rIndexOf` refuted at index 0 |
| C13 | `compare` | refuted on embedded NUL; order laws on NUL-free strings |
| C14 | FNV loops | refuted for the runtime (last byte ignored); compiler hash proved |
| C15 | heap of counted blocks | trace invariant over acquire/release histories |
| C16 | path functions | law under guard, refuted for doubled separators |
| C17 | `fileExists` with `realpath` as parameter | refuted (sibling directory), containment under guard |
| C18 | copy loop with transfer schedule | refuted for partial transfers, proved for full ones |
| C19 | send/receive loops against a schedule oracle | exact-prefix theorem; wait bug refuted |
| C20 | `Mutex` on the scheduler model of C21 | exclusion, FIFO and hand-over under the discipline of C21; an unlocked mutex is never free again (exact, all programs) |
| C21 | coroutine scheduler as a trace semantics: ready list, waits, sleeps, polls given by an oracle | discipline on traces (rely) implies owed conditions on traces (guarantee); refuted for > 103 waiting coroutines and for two waiters on a descriptor |
| C22 | timer list and `processTimeEvents` with callback oracle | exact fired set |
| C23 | event table | history invariant |
| C24 | routes, registration in the trie, method names, parameters, find and dispatch | exact characterisation (longest literal part) for well-formed routes; refuted for prefixed methods, shadowed routes, root parameters |
| C25 | Command.parse, addParam, validateParams, populateRest, App.parse of args.cxy; texts as byte lists, maps as lists of pairs | grammar of argument vectors; parser succeeds iff in the grammar, with the stated result; exact condition for the crash; lost argument and others refuted |
| C26 | toJSON and JSONParser of json.cxy at bool, integers, String, optionals, tuples, structs; strtod as rounding to 53 bits, casts out of range as undefined | round trip iff integers fit a double and i64, strings hold no bare quote or final backslash, no optional holds an absent one; refutations outside |
| C27 | bswap | byte reversal, involution |
| C28 | compiler hash table | refinement for insert/find/clear/enumerate; remove guarded; wrap refuted |
| C29 | compiler hmap | refuted; guarded positive |
| C30 | string pool | interning theorem relative to hash; refuted on prefix collision |
| C31 | memory pool | disjointness/alignment invariant over histories |
| C32 | DynArray, StringBuilder | list refinement |
| C33 | FormatState chunk list | concatenation theorem |
| C34 | escapeString | refuted; positive on texts without doubled backslashes |
| C35 | readChar / wcharToStr | round trip |
| C36 | binarySearch | correctness on sorted arrays |
| C37 | core/args.c parser over arbitrary option tables and validators (functions), error buffer size, rewriting of argv | accepted iff spelled (Spell/Line relations), values = fold of the uses + defaults; refuted: `--`, valueless defaults, argv shift, overflow |
| C38 | findLineBegin / findLineEnd | line spec |
| C39 | lexer | progress/termination, refuted at EOF |
| C40 | comment scanner | nesting spec |
| C41 | prefix/postfix/binary/assign/ternary of parser.c on token lists | parser = layered grammar (sound, complete, unambiguous); parse(print t) = t |
| C42 | isTypeAssignableFrom on primitives | sound pairs; refuted for signed -> unsigned |
| C43 | promoteType | refuted |
| C44 | literal typing | fit/minimality |
| C45 | folding through f64 | exact below 2^53; refuted above; UB of division |
| C46 | comparison folding | same |
| C47 | bindEnumDecl | numbering spec |
| C48 | comparator truncation | refuted; guarded order |
| C49 | sema/switch.c comparison, adjacent check and type range check; qsort a parameter (its C contract), glibc merge sort as an instance | accepts disjoint cases; finds duplicates among values / among ranges; mixed lists refuted |
| C50 | mangle.c over type trees; a specification of types by declarations and instances | unique readability of the text for all types over declarations without underscores; six ways to collide refuted |
| C51 | env.c/scope.c: environment, scopes, overload chains, aliases | refinement to a stack of finite maps over the shared keyed table (KTable); refuted for imports into and aliases across overload chains |
| C52 | defer.c visitors over structured statements, with the wrapping of bodies done by shake.c before them | two big-step semantics with traces, choices and loop bounds; the lowered body has the run of the source; cases without braces refuted |
| C53 | the pass that places releases and drop flags (manage.c, finalize.c) over declarations, assignments, moves, branches, loops, switch, jumps | ghost ownership invariant, mutual induction on programs and induction on loop rounds, under a syntactic discipline; refuted outside it |
| C54 | ast.c list functions and the modifiers of visitor.c over a heap of next pointers | representation of lists (chains); modifiers refine a cursor on a list under guards; replaceAstNodeInList, astModifierAddHead on blocks and two call orders refuted |
| C55 | capture.c; captureSymbol and the binder on a cut-down language | capture list = variables used inside and declared outside by lexical scoping, in order of first use; refuted for variables of match cases and for the field a nested use resolves to |
| C56 | defines.c: table of macros, initCompilerPreprocessor | last definition in the history, for all histories |
| C57 | driver/stages.c, compileProgram, fixCmdDevOptions as a sequence of executors over a 16-bit mask; bodies are an oracle | exact list of bodies that run; every body after its prerequisites; stage names; print-ir, bars and internal names refuted |
| C58 | hashType, compareTypes, the make functions and getOrInsertType of ttable.c over the model of htable.c; types as trees | for all histories under a stated discipline, same object iff same normal form; comparison = equality of normal forms, hash respects it; six kinds of confusion refuted |
| C59 | compile-time loops | spec; non-termination refuted |
| C60 | FixedWidth | width theorem |
| C61 | string literals in generated C | re-lexing the emitted literal gives the text |
| C62 | class `String` with its block, `File.readAll` | list refinement; refuted for resize, self append, trimLeft |
| C63 | printing integers | exact range |
| C71 | castIntegerLiteral | congruent value in range |
| C72 | choice of cast instruction in the LLVM backend, with the semantics of those instructions on integers | value preservation; refuted for int to float |
| C73 | choice of binary instruction in the LLVM backend | mathematical result; refuted for comparisons of equal signed types, shifts |
| C75 | integer branch of the lexer with strtoumax | value = digits read in the base; refuted without digits and on overflow |
| C77 | Levenshtein distance and name suggestion of the binder | least number of edits (all edit scripts); the suggestion is a name in scope one edit away, whenever there is one |
| C78 | findEnclosingLoop/Function and binding of break/continue | innermost enclosing loop of the same function; refuted through closures |
| C79 | matchOverloadedFunctionPerfectMatch | accepting overload of least cost; refuted after a variadic overload |
| C80 | sendResponse through the buffered stream, status table | framing for all responses without an exact fill; refuted for every exact fill |
| C81 | callbacks of the HTTP parser, reads of a connection | induction over fragments; refuted for pipelined requests and trailers |
| C82 | setjmp/longjmp exceptions: frames, jump slots, stages (e4c.c, e4c.h) | mutual induction on programs with an invariant of the frame stack, against an inductive semantics; refuted for try in finally and for deep nesting |
| C83 | the try blocks of the parser over sources of parsed and erroneous pieces | induction on sources with an invariant of lost frames; refuted for errors behind a block in error and for sixteen blocks in error |
| C84 | lowering of for loops to while loops with updates (simplify.c), the loops and jumps of the C backend | induction on executions against a semantics that goes through the list of values; exact termination conditions by Bezout; refuted for steps that pass the end, empty ranges, changing bounds, break in switch |
| C85 | lowering of for loops over arrays and strings | induction on the rest of the array; refuted for every string |
| C86 | the temporaries of arguments and indices and where they are put, assertions of casts of unions, bodies as blocks, loop conditions; expressions in C with any order of operands, over any host program | footprints of evaluations and their commutation, mutual induction on expressions and statements against left-to-right evaluation; refuted by traces of calls |
| C87 | the text of each kind of expression as characters, C11's tokens by longest match and its grammar of expressions | tokens of text without runs of operators by induction; readings of C by fuel-free derivations; the grammar theorem of C41 for trees of the parser; refuted by concrete sources |
| C88 | inherited members, the flag virtual, the member vtable, the order of members in C | lengths of lists for the exact condition, prefixes of layouts by induction on bases; refuted by classes |
| C89 | the function __defaults_init of each class, when it is made and what it calls | induction on bases over assignments with distinct keys; refuted by a class without defaults of its own |
| C90 | tables of virtual functions, the table of an object, which calls go through it and at which place | tables of bases are prefixes; slots are the most derived functions, by induction; refuted by classes |
| C91 | ctx->returnState through all statements and expressions that hold statements; hasUnreachable, reportUnreachable | set of outcomes and traces of each piece of code by combinators; mutual induction with congruence of combinators; refuted by && with a returning block, by ? : and by defer |
| C92 | the return added to functions of type !void, acceptance of bodies by checkFunctionBody | as C91; the added return is sequential composition also with deferred code before it |
| C93 | conditionalTopLevelDecl, parseTopLevelDecl, skipUntil and the parts they call, on tokens | chains printed to tokens; induction on chains and lists of declarations; the exact condition by what skipUntil leaves; refuted by printed chains |
| C94 | parseImportDecl, parseImportEntity, skipImportTestDecl on tokens | case analysis with induction on lists of entities; exact condition; refuted for lists and aliases |
| C95 | visitMacroCall, substituteAstNode, lookups and definitions in the scopes, with fuel for the depth | relational expansion with lexical parameters; both directions by induction (fuel, derivation), from the lemma that expanded code is visited to itself; refuted by tables of one or two macros |
| C96 | visitIfStmt, visitBlockStmt with its repeated visits, substituteAstNode, replaceAstNode as splicing, preprocessorAsBoolean | relation of members selected under every outcome of open conditions; induction on fuel with the lemma that visited nodes are visited to themselves; end of the run exactly if no taken branch is empty; refuted by two programs |
| C97 | the loop of shakeFuncDecl, the counts of matchOverloadedFunction, the end of checkFunctionCallEpilogue, lookup of function types | induction on parameter lists; completion exact for all lists; the table keeps the first of its kind (invariant against the list of declarations); refuted by two function types |
| C98 | addUnionDecl, findUnionTypeIndex, transformToUnionValue, the checks of cases, the switch statement generated, its unreachable default | numbers of members shown to stand for base types one to one; checks, C labels and handling each characterised exactly (iff); refuted by a missing case, an alias and a const member |

Not modelled: LLVM and C code generation (but for string literals and the choice of instructions for casts and binary operators on primitive types), C importer, sockets/SSL/DNS internals, threads, real file systems.

## Results

Generated from MANIFEST.json: what has been proved, in which file, and what is missing.

| id | property | status | files | note |
|----|----|----|----|----|
| C01 | HashMap is a finite map | partial | HashMapProps.v | Full statement is false of the code: removing a key can make another key unreachable when the back-shift crosses the end of the table (probe distances there wrap as u64). Proved for every history in which no removal crosses, in particular for every history without remove. |
| C02 | HashMap traversal visits every entry exactly once | partial | HashMapProps.v | Iteration and each are exact on every reachable map under the C01 guard; map never returns (loop variable not advanced). |
| C03 | List is a FIFO queue | proved | ListProps.v | any number of lists over any shared set of items |
| C04 | Vector is a growable sequence and never writes outside its storage | partial | VectorProps.v | refinement to sequences holds exactly when no push meets a full vector of capacity 0 or 1 (overflow refuted there); map/filter/find/indexOf proved. Destructor calls not modelled |
| C05 | Trie returns the longest registered prefix | partial | TrieProps.v | exact: wrong iff the empty key is registered and no longer prefix is; the children map is an abstract finite map (its implementation is C01) |
| C06 | Buffered output preserves order and content | partial | OutStreamProps.v | Refuted: an append that exactly fills the room behind buffered bytes is delivered before them. Proved: order for every history without such an append, exact effect of each append, no loss or duplication ever, sync. |
| C07 | Base64 decoding inverts encoding | partial | Base64Props.v | encoding proved equal to RFC 4648 for all inputs; round trip exact iff non-empty ASCII; empty input and lengths not a multiple of 4 read out of bounds, bytes >= 128 are not restored, text after padding is accepted (refuted) |
| C08 | URL-safe base64 decoding inverts encoding | partial | Base64Props.v | round trip holds exactly for two ASCII bytes, advertised size exactly for odd lengths; everything else refuted |
| C09 | Percent-encoding is lossless | proved | FetchProps.v | all byte strings |
| C10 | Multipart Content-Length equals the bytes sent | proved | FetchProps.v | sizes as unbounded numbers; sendFile is taken to send the whole file (see C19) |
| C11 | Character output is valid UTF-8 | partial | Utf8Props.v | False for every code point from 0x10000 on (shift by 16 instead of 18, builtins.cxy:609); proved exact: right iff below 0x10000. |
| C12 | Substring search finds the first / last occurrence | partial | StrProps.v | find/rfind right exactly for non-empty patterns; rIndexOf never reports index 0 (exact condition proved); startswith/endswith right for texts without NUL; indexOf and trim fully proved. |
| C13 | String comparison is a total order consistent with equality | partial | StrProps.v | Order laws hold for views; equality is refuted for texts with NUL (exact condition proved). String.compare is right below 2^31 bytes and refuted at a size difference of 2^32. |
| C14 | Hashing of strings covers the whole content | partial | FnvProps.v | Holds for the compiler's hashes, for NUL-terminated strings, slices and integers. False for the runtime String: hash_fnv1a_bytes leaves the last byte out and reads out of bounds when the size is 0 (builtins.cxy:317-327, range loops exclude the end); the exact behaviour is proved. |
| C15 | Reference counted objects are destroyed exactly once, and only when unreachable | partial | SmartPtrProps.v | Proved for all histories of fewer than 2^32-2 actions with nested destructors; refuted beyond (32-bit counter). Destructors are modelled as releasing the fields of the object; single threaded. |
| C16 | Path join, dirname and basename agree | partial | PathProps.v | exact statements for paths with and without separator; refuted for plain names and for suffixes starting with a separator |
| C17 | The static file server never serves a file outside its root | partial | FServerProps.v | Containment is false: a sibling directory whose name extends the root's name is served (C17_sibling_refuted), and a root that does not resolve turns the check off (C17_missing_root_refuted). Proved: served files are regular and lie in the root or in such a sibling; without such siblings they lie in the root; files in the root are found. realpath and the regular-file test are arbitrary functions constrained only to return canonical absolute paths. |
| C18 | os.copy copies every byte | partial | TransferProps.v | False for partial transfers: sendfile advances the offset and the loop adds the count again, so every second chunk is skipped (C18_copy_refuted). C18_copy_exact characterises when a successful copy is complete. Model of the Linux branch; kernel answers are arbitrary. |
| C19 | Socket send and receive transfer an exact prefix | partial | TransferProps.v | receive is proved for all schedules; a successful sendBuffer is proved exact. False: a would-block result always fails the send because the wait for writability waits for readability (C19_blocked_refuted, universal), sendFile never succeeds (C19_sendfile_refuted, universal) and repeats the start of the file. |
| C20 | Coroutine mutex: mutual exclusion, and unlock lets others in | partial | CoroProps.v | Exclusion, FIFO order and hand-over proved for programs that keep to the discipline of C21 and unlock only what they own; that an unlocked mutex can be locked again is false: C20_free_once proves that a mutex is found free at most once in any program, C20_relock_refuted gives the witness. |
| C21 | Coroutine scheduler is fair and loses no coroutine | partial | CoroProps.v | Proved for programs that resume only suspended coroutines, have one waiter per descriptor and at most 103 coroutines alive while descriptors are registered (no bound without descriptors); each guard is needed: three refuted theorems. Descriptor waits have no timeout; context switching itself is not modelled. |
| C22 | Timers fire only when due, each once per arming, and none is lost | partial | TimerProps.v | Full behaviour (refinement to a table of armed timers, each call due and for a live timer, each armed timer looked at exactly once per round, fresh ids) proved for loops whose file events have no timeouts and whose events array starts zeroed; both guards are needed: the two refuted theorems show a timer lost through a stale unlink and a wild pointer followed in the uninitialised array. |
| C23 | File-event registration tracks interests exactly | proved | FileEvProps.v | For all histories over descriptors that are not negative (a negative one reads outside the table: C23_negative_refuted). The kernel's interest list (epoll) is modelled; callbacks and timers are in TimerModel. |
| C24 | HTTP routing reaches the registered handler | partial | HttpProps.v | Exact characterisation for routes "/literal/{a}/{b}": registration succeeds iff literal parts are distinct; the handler called is that of the longest literal part in front of the path. Refuted: routes written with a method are never reached; a longer literal part hides a matching route; "/{id}" is never found; "/user" and "/user/{id}" abort registration; with assertions disabled parameter names keep the brace. Middlewares are not modelled. |
| C25 | Program argument parser delivers every argument | partial | ProgArgsProps.v | Proved for all parameter sets and all argument vectors: parsing succeeds exactly on the vectors of a stated grammar (exact names, each parameter once, no needed parameter missing), with exactly the given values, defaults and positional arguments in order; the assertion failure is characterised exactly; adding parameters keeps names distinct. Missing: delivery behind two dashes, which is false (refuted: the first argument is dropped, and two dashes as last argument end the program, because the index is one too far and range loops end on equality); also refuted: required options are not reported, empty values swallow the next argument, help with a missing parameter. Hash maps are finite maps here (C01, nothing is removed); messages left out. |
| C26 | JSON output parses back to the same value | partial | JsonProps.v | Exact characterisation of the values that survive (iff), what any text can be parsed to, and survival of parsed values; eight refutations: quotes and backslashes in strings (also setting another field), integers that no double holds, u64 of 2^63 or more, nested optionals, null String. Not modelled: floating point and char types, base64 fields, partial structs and skipValue, own fromJSON methods; arrays, slices and Vector are printed but the parser has no case for them, so their types do not compile with fromString. |
| C27 | Byte-order conversion is an involution | proved | BswapProps.v | All three widths, both byte orders. |
| C28 | Compiler hash table is a finite map | partial | HTableProps.v | False in general: removal across the table end loses elements (witness). Proved for all histories without a wrong move, in particular for all histories without removals. |
| C29 | Compiler Robin-Hood map keeps one value per key | partial | CHmapProps.v | False in general: putting a present key can store it twice (witness). Proved for histories without such a tie, in particular when only fresh keys are put, as the drop analysis does. |
| C30 | Interned strings are equal exactly when their pointers are | partial | StrPoolProps.v | False for texts colliding in 31 bits of FNV-1a (witness i / irighbbn). Proved exactly: correct iff no two different requested texts collide. |
| C31 | Memory pool blocks never overlap | partial | MemPoolProps.v | Proved for every history of allocations, resets and releases with sizes below 2^63, and with caches for clients that respect the stated discipline. False for sizes within 31 of 2^64 (rounding wraps to 0), for a reset while a cache holds memory, and for caches serving different sizes. |
| C32 | Dynamic array and string builder keep their contents | partial | BufProps.v | Dynamic array: proved for all histories (the pointer returned by push is one past the element: refuted). String builder: proved for all histories except two misuses that are refuted (released builder given the empty text then more text: endless loop; release of a new builder: unterminated memory). |
| C33 | Formatted output equals the concatenation of its pieces | proved | FormatProps.v | All sequences of append and format calls (text, newline, braces, indentation, s, sl, c, cl, b, u32, u64, i64, switched-off styles). Floats, pointers, types and style escapes are not modelled as pieces; {sEl} (unused) is shown not to work. |
| C34 | Escape sequences in literals are decoded correctly | partial | EscapeProps.v | False of the code: escaped backslashes and single quotes are kept escaped (or swallow the next character). Exact characterisation of the texts unescaped correctly; the buffer always suffices. |
| C35 | UTF-8 encode/decode round-trip in the compiler | proved | Utf8Props.v | All scalar values except the backslash, which starts an escape sequence. Overlong texts are accepted by the reader (extra refutation, not part of the claim). |
| C36 | Sorted lookup finds every member | proved | SearchProps.v | For tables below 2^31 entries and any output of qsort; names without NUL. With several members of one name some one of them is found. |
| C37 | Command line options are parsed exactly | partial | ArgsProps.v | Accepted command lines are exactly the spelled ones, values and defaults exact, unknown options refused, for all tables and validators. False: arguments after two dashes are lost, defaults of valueless options ignored, files shifted when the program is named like the default command or the first argument is empty, error buffer overflow. Validators are arbitrary functions; their messages are not modelled. |
| C38 | Diagnostics show the source line of the position | partial | DiagProps.v | All files, positions and locations (begin/end rows and offsets inside the file, rows below 2^32), colours left out. Exact output of printDiagnostic for files without zero bytes; refuted for a line with a zero byte, whose rest is dropped and followed by the next line. The file is taken not to change between lexing and reporting. |
| C39 | The lexer terminates and consumes the whole input | partial | LexProps.v | All byte strings, lexer.c:95-613 without include buffers, rows and columns. Covering, order and the single end of file token hold for every text that is read to its end; termination is proved for ASCII texts whose last line ends with a line break not behind a backslash (for other bytes: no endless loop). Refuted in general: unterminated strings, characters and based numbers at the end of file loop for ever; a character literal ending the file is measured by a wild pointer difference; an assertion fails on some multi-byte character literals; an empty character literal is accepted. Keyword lookup and values of floating point literals are not modelled. |
| C40 | Block comments nest | proved | LexProps.v | All comment texts; the nesting counter (64 bits in the code) is taken as unbounded. |
| C41 | Operator precedence and associativity | proved | ParseProps.v | All token sequences over identifiers, integers, symbols, prefix and postfix operators, index and call expressions, parentheses, tuples, all 21 binary operators, assignment and the conditional; other primaries (paths, literals of other kinds, closures, structs, macros, member access) are not modelled. The grammar theorem leaves out casts (which take everything behind them) and catch discard, both shown by examples. The refuted theorem is an extra finding: a symbol between ? and : is read as the operator ?:. |
| C42 | Implicit integer conversions preserve values | partial | PrimProps.v | Refuted: permitted conversions from signed to unsigned lose negative values, wide to narrow characters and integer to float lose values. Exact: among integers signed-to-unsigned is the only loss; the full list of lossy permitted pairs of primitive types is proved; every value-preserving integer conversion is permitted; the relation is a preorder. |
| C43 | Arithmetic type promotion is well-behaved | partial | PrimProps.v | Refuted: the result depends on operand order for equal-size types of different sign (and wchar/float), and cannot always hold both operands. Exact conditions proved for both, and the exact set of pairs with no common type. |
| C44 | Integer literals get a type that holds them | partial | PrimProps.v | Exact: a literal gets a type that holds it, the smallest signed one, iff it fits in i64; larger ones wrap (refuted). Acceptance in a switch is exact for single literals that fit i64 and for ranges on signed types; refuted for ranges starting below 0 on unsigned types, literals >= 2^63, and reversed ranges (assertion). |
| C45 | Compile-time integer arithmetic equals run-time arithmetic | partial | FoldProps.v | Proved: expressions over integer literals whose intermediate values stay below 2^53 fold to the mathematical value (exact condition for one operation). Refuted: larger values are rounded through f64, division by zero and other operators are undefined or rejected. Floats, strings and enum literals are not modelled. |
| C46 | Compile-time comparisons and boolean logic are correct | partial | FoldProps.v | Proved for comparisons of integers below 2^53 and boolean connectives of literals; exact condition for comparisons. Refuted: rounding, unsigned literals, bitwise operators on booleans, grouped operands. |
| C47 | Implicit enum values count up from the previous one | partial | CtLoopProps.v | Proved for integer literals in the i64 range, with the exact condition for success. Refuted: i64 max overflows the counter, other expressions stop the compiler, literals of the u64 range turn negative. |
| C48 | Enum option lookup by value is right | partial | SearchProps.v | False of the code: the 64-bit difference is cut to 32 bits. Proved for values that span less than 2^31. |
| C49 | Duplicate switch cases are rejected, distinct ones accepted | partial | SwitchProps.v | Disjoint cases accepted for every conforming qsort; duplicates among values found for every qsort; overlapping ranges found with glibc's merge sort. False for values mixed with ranges (inverted sign), descending ranges (assertion), u64 values from 2^63 on, ranges partly outside an unsigned type. Strings and enums left out. |
| C50 | Mangled names are unambiguous | partial | MangleProps.v | Proved for every name without underscore and every list of types (primitives, arrays, tuples, unions, functions, pointers, references, literals, named types and nested instances of generics, const), over declarations whose namespace and name read together are distinct and have no underscore, using const or char but not both, and for overloads of one name whatever it is. Refuted without these: const and char share a letter, namespace and name run together, underscores in names, results/optionals/maps all have the same text, other flags are dropped, a zero character cuts the text. |
| C51 | Name lookup finds the innermost visible declaration | partial | ScopeProps.v | Scopes answer as a stack of frames for every history in which functions are entered by defineFunctionDecl; closing a scope restores everything; overload chains exact when no function is entered twice. False otherwise: importing a function by name and overloading it writes through NULL; an extern alias mixes the overloads of two names. |
| C52 | Deferred statements run on every exit, in reverse order | partial | DeferProps.v | Proved for all function bodies of blocks, conditionals, loops, switches, defers and jumps in which no case of a switch or match is itself a jump or defer without braces, for all executions: the lowered code performs the tests and actions of the source semantics (each block runs its deferred statements in reverse whenever it is left) and ends the same way. Missing: cases without braces, for which it is false (refuted: deferred statements hoisted before the switch, run when the case is not taken, later defers dropped). Not modelled: block expressions, blocks inside deferred statements, the return expression itself (it is evaluated after the deferred statements). |
| C53 | Owned variables are released exactly once on every path | partial | MemProps.v | Proved for every execution of every accepted function (warnings as errors) that follows the discipline of MemSpec (classes Steady, Late, Mobile). Refuted for: assignment by name, x = f(x), parameters moved on one path, returns of variables from loops, moved variables at break/return in loops, moves and late assignments in cases of a switch, break in a switch, uses that are only warned about. Not modelled: members, delete, temporaries, conditions that move. |
| C54 | AST list edits keep all other nodes | partial | EditProps.v | Counting, indexing, insertion, insertion after, unlinking and replaceAstNode right for all lists. Modifiers: for every sequence of calls in a traversal that meets stated guards the list is the one of a cursor specification, no node is lost and the old nodes keep their order. Refuted: replaceAstNodeInList drops everything behind a replaced inner node; astModifierAddHead on a block closes a cycle; adding after the current node was removed loses the nodes to come; adding while nothing is behind the cursor loses nodes put in front. replaceAstNodeWith (flags) and the AddAsNext/AddAsLast calls without current node are modelled but not specified. |
| C55 | Closure captures keep their order and identity | partial | CaptureProps.v | Capture sets: all sequences of captures in which a name means one variable, every hash: slots in order of first use, ordered list complete. Binder: for all functions without variables of match cases, each closure captures exactly the variables used inside and declared outside, in order of first use, and no assertion fails. Refuted: the variable of a match case is captured by the closures around the match, and two such cases with the same name stop the compiler; a use in a nested closure resolves to the field of the outermost closure. Missing: struct fields, this/super, default values of closure parameters; up to 2^32 uses. |
| C56 | Preprocessor macro table: last definition wins | proved | MacroProps.v | All histories of definitions and lookups, for every hash function: each lookup gives the latest definition of the name, each definition reports whether it is new and what it replaces; also the table after initCompilerPreprocessor for all options. The code has no operation that undefines a macro. The parser applied to -D values is a parameter. |
| C57 | Compilation stages run in dependency order | partial | StageProps.v | Stage order and prerequisites proved for every selection, dump option and failure; last-stage names exact. False: a list of stages joined by bars is undefined behaviour, internal stages can be selected with a leading blank, print-ir never succeeds. Stage bodies are an oracle. |
| C58 | Types are interned: structurally equal types are identical | partial | InternProps.v | Proved for all histories of make calls over the real hash table: when the types asked for obey a discipline (one declaration per name and namespace, one namespace per name of opaque types and untagged unions, one name per module path, flags of wrappers disjoint from flags of the wrapped types, no extern aliases, no anonymous structs, no named function types without declaration, no NaN or negative zero literals), two calls return the same object exactly when the types are the same; the comparison is type equality there and equal types hash equally. Missing: the rest, where it is false (refuted: const pointer against pointer to const, alias of const, two structs or opaque types of one name, function types with and without scope, extern aliases, anonymous structs). Not modelled: containers, literals under casts, replacement and removal of types, later changes of members, the 16-bit parameter count. |
| C59 | Compile-time range loops iterate the range | partial | CtLoopProps.v | Proved without step. Refuted: every explicit step is rejected (inverted test), step 0 never terminates, negative steps never deliver, the last addition can overflow. The expansion of the body is not modelled. |
| C60 | Fixed width log fields have exactly the requested width | proved | LogFieldProps.v | width in bytes |
| C61 | String literals keep their value in the generated C | partial | EscapeProps.v | False of the code: bytes above 127 stop the compiler, backslash before x/X/digit is not escaped, NUL ends the literal. Proved for all other strings, also from the source text on. |
| C62 | The growable text holds exactly what was appended | partial | RtStringProps.v | Histories of append/trim/trimRight/clear/reserve proved; refuted: readAll of files of 1..15 bytes (inverted assertion in resize), trimLeft alone, self append, resize. |
| C63 | Integers are printed in decimal | partial | OutStreamProps.v | Right exactly below 2^63 (u64 values are cast to i64). |
| C64 | URL-encoded form length equals the bytes sent | partial | FetchProps.v | exact: lengths agree iff every name and value has odd length; names or values shorter than 2 are read out of bounds |
| C65 | The file server's cache returns the content of the requested file | partial | FServerProps.v | False when two requested paths differ only in letter case (C65_content_refuted); proved for every request sequence without such a pair. |
| C71 | Casts of integer literals truncate to the target type | partial | PrimProps.v | Proved for every integer type but u64; refuted for u64 literals >= 2^63, whose value is afterwards read as negative. |
| C72 | Run-time casts between primitive types preserve fitting values | partial | LlvmProps.v | Proved between integer and character types and from float to integer. Refuted: integer to float uses the signed instruction for unsigned operands and vice versa (exact: right iff the top bit is clear); a permitted boolean-to-integer cast reaches unreachable(). Float rounding is not modelled. |
| C73 | Run-time operators on integers compute the mathematical result | partial | LlvmProps.v | Proved: modular operators always; division, mixed-type comparison and left shift when the promoted type holds both operands; equality; unsigned order. Refuted with exact conditions: order within one signed type (unsigned instruction; right iff same sign), right shift of negative numbers (logical shift), division of equal-size types of different sign, comparison of floats of one type (integer instruction). |
| C75 | Value of integer literals | partial | LexProps.v | All integer tokens of all texts: the value is that of the digits, cut off at 2^64 - 1, if there are digits. Refuted: a prefix without digits takes its value from the text behind the token (0b -1 is 2^64 - 1), and too large numbers saturate silently. strtoumax of the C library is modelled. |
| C77 | Suggested names are the near misses | proved | SuggestProps.v | Edit distance characterised by scripts of insertions, deletions and replacements. |
| C78 | break and continue belong to a loop of the same function | partial | ScopeProps.v | The innermost open loop is found; false that it belongs to the same function: break in a closure inside a loop is accepted. Positive where no function stands inside a loop. |
| C79 | An overloaded call resolves to the best overload | partial | OverloadProps.v | Proved when a variadic overload with fewer fixed parameters than arguments can only stand last; refuted otherwise (the argument count is cut down for all later overloads: an exact match is missed, an overload taking fewer arguments is chosen). Conversions between types are parameters. |
| C80 | HTTP responses are well-formed messages | partial | HttpRespProps.v | Proved when no append exactly fills the stream buffer and files have the announced size; whenever head and body together are 1024 bytes the body is sent first. Connection: close (any case but Close) yields contradictory Connection fields. Assumes sockets accept all bytes. |
| C81 | A request is collected the same however it arrives in pieces | partial | HttpReqProps.v | Collection proved for all fragmentations. All messages are served when each read holds parts of one message only; of two messages in one read the first is always lost. The last trailer of a chunked message is lost. llhttp itself is not modelled. |
| C82 | Exceptions of the compiler reach the right handler | partial | ExcProps.v | Proved for at most 16 nested try blocks, no try block in a finally block and no break out of a try block. A try block in a finally block replaces the exception on its way; a seventeenth nested try block raises RuntimeException. |
| C83 | The parser goes on behind syntax errors | partial | ExcProps.v | The break in the catch clause of a block leaves a frame behind. Recovery proved while lost frames and nesting add up to at most 16 and no declaration has an own error behind a block in error. An error of a declaration behind a block in error jumps into a function that has returned. What synchronize skips is not modelled. |
| C84 | Run-time for loops over ranges run once for each value | partial | LoopProps.v | The loop tests x != end. Proved for ranges whose steps meet the end exactly, with bounds and step that do not change and a variable that is not assigned. When the step passes the end or the range is empty the loop wraps around or never ends (exact conditions proved). End and step are evaluated again each round. break in a switch leaves the switch only (C backend). Not modelled: floating point ranges, conversions between bounds. |
| C85 | Run-time for loops over arrays and strings visit each element once | partial | LoopProps.v | Proved for arrays when the body does not assign the index. The length of a string is read from the type of strings, where it is 0: loops over strings never run. Not modelled: the value of the range being a temporary. |
| C86 | Operands are evaluated once, in order, and only when they are needed | partial | OrdProps.v | Temporaries go before the whole statement. Proved under a computable condition: what is moved is apart from what it is moved over and harmless where it may not be needed; for any order of C if also operands that stay are apart. Refuted without it: 0 && f(g()) calls g, both branches of ?: and the condition of else if are evaluated early, i < n && f(a[i] + 1) reads out of bounds, casts of unions evaluate twice, f(x++, g(x)). Not modelled: members and references, virtual calls, conversions, overflow. |
| C87 | A C compiler reads the text of an expression as the tree the parser built | partial | CPrProps.v | Exact: a tree of the parser is read back iff no assignment is the condition or last operand of ?:, given no casts in the source and no unary operators that run together; a tree of any pass iff its operands bind tightly enough for C. Refuted: a = b ? c : d assigns the choice in C, a ? b : c = d is an error in C, <T> a + b casts only a, - -x decrements x. Not modelled: tuples, members, symbols, casts of unions and of references, is, catch, ranges, await, delete, move, ptrof. |
| C88 | An object of a class is laid out as an object of each of its bases | partial | InhProps.v | Exact: fields are there once iff no class above the direct base has fields, since a base passes its inherited members on as its own; places agree iff class and base both have a table or neither, or the base is empty. Refuted: the third class of a line has the root's fields twice; the first virtual function below a base with fields moves them; a table is lost two classes below. Not modelled: static fields, generic bases, alignment. |
| C89 | The fields of a new object have the defaults of their declarations | partial | InhProps.v | Exact: all defaults hold iff every class in the line that declares no default and no virtual function, and whose direct base declares no virtual function, has only zero defaults above it. Refuted: class A { x = 5 }, class B: A {} makes B with x = 0. Defaults are numbers. |
| C90 | A virtual call runs the function of the most derived class | partial | InhProps.v | Exact condition for each call; it holds if all bases of the object's class declare virtual functions and the function found is marked virtual. Refuted: an override in the third class of a line whose second declares nothing virtual (no table); overrides not marked virtual are called directly; a class that leaves a virtual function without a body is not abstract and calls null. Names of functions of one class are distinct: overloads, which share a place in the table, are not modelled, nor signatures. |
| C91 | Code dropped as unreachable is never reached | partial | FlowProps.v | Holds if no operand of && or || on the right, no branch of ? : and nothing deferred is code that always returns. Refuted: the state leaks out of operands that may be skipped, so all after c && ({ return x; }) is dropped; of two branches of ? : that return the second loses its return; after defer { return } all but one statement is dropped. Runs that do not end are covered by their beginnings. Types, errors and compile-time cases are not modelled. |
| C92 | A function with a return type returns on every path | partial | FlowProps.v | Holds for type !void under the condition of C91. Refuted: a body c && ({ return; }) gets no return; for every other type the state is never asked for, so a function whose type is written is accepted whatever its paths do. |
| C93 | Of a conditional block exactly the branch whose condition holds is compiled | partial | CondProps.v | Exact: holds iff no branch passed over has an import of a list of entities (skipUntil stops at its closing brace) and imports marked test of the taken branch can be left out (C94). Refuted also: an else without braces is accepted only if the condition is false. Not modelled: the expression of the condition (C45, C46, C56), cSources, modules that fail to compile. |
| C94 | An import marked test is read when testing and left out otherwise | partial | CondProps.v | Exact: holds iff testing, or the import is not marked, or it is of one entity or a whole module without an alias. Refuted: a list in braces is always an error (its closing brace is not taken), so is an entity with an alias; the alias of a module is left in the input. |
| C95 | A call of a macro is replaced by its body with the arguments in place of the parameters | partial | ExpandProps.v | Proved for parameters that are distinct and unlike all macros, and code that uses no parameters of other macros. Refuted beyond: a macro hides a parameter of its name, a builtin macro in an argument is captured by a parameter, parameters are visible in the bodies of macros called, recursion never ends. Not modelled: variadic macros, empty and multi-node bodies, compile-time if, the parameter "_", public declarations of the builtin module. |
| C96 | Compile-time conditions among members keep the members of the branch that holds | partial | CtIfProps.v | Proved if no taken branch is empty (the compiler reads a null pointer otherwise, exactly then) and branches that stay do not begin with a decided #if of more than one node (all but its first node are lost); without open conditions the second condition is not needed. Not modelled: #if among statements, whose branch is one node, #for and #while, conditions that declare a variable. |
| C97 | Arguments left out of a call are the defaults of its parameters | partial | DefArgProps.v | Proved for functions without variadic parameter. Refuted for function types: the place of their defaults is not checked, so calls stay too short or the compiler follows a null pointer, and types that differ in defaults only are the same type, with the defaults of the first; exact otherwise. Not modelled: choice among overloads (C79), types of arguments, variadic parameters, [this]. |
| C98 | A match runs the case of the type its union holds | partial | UMatchProps.v | The choice of the case is proved for all inputs. Refuted: a match without default that leaves out a member is accepted and aborts at run time; two cases for one type under different names are accepted and give equal C labels; a wrapped (const) member is never found by number, so a value of it fails an assertion. All three exact otherwise. Not modelled: types of bodies, returns, unions reached through pointers or references, forward declared types, whether a const member can be written directly (it comes from the type of a const variable). |
