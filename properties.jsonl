{"id": "C01", "title": "HashMap is a finite map", "statement": "Starting from HashMap(n) for any n, after any sequence of insert (with or without replace), `[]=`, remove, clear, get, contains and size calls, every call returns what a mathematical finite map would return: insert reports true exactly for a new key, get returns the most recently stored value for the key or null, remove deletes that key and no other, size is the number of distinct keys.", "quantifier": "all key types with a hash consistent with equality, all hash functions, all initial capacities, all operation histories", "why_tests_cant": "the answer depends on which keys collide and on where a probe sequence wraps round the table; there are unboundedly many histories and hash functions", "anchors": ["src/cxy/stdlib/hash.cxy: HashMap.insert/insertInternal/getInternal/remove/rehash/idealSize/probe/clear"]}
{"id": "C02", "title": "HashMap traversal visits every entry exactly once", "statement": "Iterating a HashMap with `..` or `each` yields exactly the key/value pairs currently stored, each once, and terminates; `map` returns the vector of the transformed pairs.", "quantifier": "all reachable maps", "why_tests_cant": "depends on the table layout produced by an arbitrary history", "anchors": ["src/cxy/stdlib/hash.cxy: HashMap.`..`, each, map"]}
{"id": "C03", "title": "List is a FIFO queue", "statement": "For any sequence of push/pop/empty calls on an intrusive List, with an element pushed only while it is not linked, pop returns the elements in push order, null exactly when every pushed element was popped, and never loses or repeats one.", "quantifier": "all operation histories", "why_tests_cant": "aliasing of link fields; unbounded histories", "anchors": ["src/cxy/stdlib/list.cxy: List.push/pop"]}
{"id": "C04", "title": "Vector is a growable sequence and never writes outside its storage", "statement": "For any sequence of push, pop, shift, index, assignment, resize and shrink calls on a Vector, the contents equal those of the mathematical sequence under the same operations, no call writes past the allocated capacity, and map, filter, find and indexOf agree with the sequence.", "quantifier": "all initial capacities and all operation histories", "why_tests_cant": "overflow depends on the capacity reached by an arbitrary history; an out-of-bounds write is silent in a test", "anchors": ["src/cxy/stdlib/vector.cxy: Vector.grow/push/pop/shift/resize/shrink/[]/[]=/map/filter/find/indexOf"]}
{"id": "C05", "title": "Trie returns the longest registered prefix", "statement": "After any sequence of add calls with distinct keys, find(s) returns the data of the longest added key that is a prefix of s together with its length, or null if there is none.", "quantifier": "all sets of keys and all query strings", "why_tests_cant": "quantifies over all key sets and all queries", "anchors": ["src/cxy/stdlib/trie.cxy: Trie.add/find"]}
{"id": "C06", "title": "Buffered output preserves order and content", "statement": "The bytes delivered to flush, followed by the bytes still buffered, are the concatenation of all appended data in call order, for any append sizes and buffer capacity; after sync nothing remains buffered.", "quantifier": "all capacities, all sequences of append/sync", "why_tests_cant": "the failing boundary (data exactly filling the remaining room) depends on the history of sizes", "anchors": ["src/cxy/runtime/builtins.cxy: BufferedOutputStream.append/sync"]}
{"id": "C07", "title": "Base64 decoding inverts encoding", "statement": "base64 decode(encode(b)) yields b, the encoding has the advertised length and only alphabet characters and '=' padding; decode rejects text containing a character outside the alphabet; reads stay inside the input.", "quantifier": "all byte strings of every length", "why_tests_cant": "all inputs of all lengths mod 3, including empty", "anchors": ["src/cxy/stdlib/base64.cxy: encodeBuffer/decodeBuffer/encodeSize"]}
{"id": "C08", "title": "URL-safe base64 decoding inverts encoding", "statement": "urlDecode(urlEncode(b)) = b for every byte string and urlEncodeSize(n) is the number of characters urlEncode produces for n bytes.", "quantifier": "all byte strings", "why_tests_cant": "all inputs of all lengths", "anchors": ["src/cxy/stdlib/base64.cxy: urlEncodeBuffer/urlEncodeSize/urlDecodeBuffer"]}
{"id": "C09", "title": "Percent-encoding is lossless", "statement": "The percent-encoded query text of any string contains only unreserved characters and %XX triples and a standard percent-decoder maps it back to the original string.", "quantifier": "all byte strings", "why_tests_cant": "all byte values in all positions", "anchors": ["src/cxy/stdlib/fetch.cxy: urlEncode"]}
{"id": "C10", "title": "Multipart Content-Length equals the bytes sent", "statement": "For every form, the length announced for a multipart body equals the number of bytes the multipart encoder writes.", "quantifier": "all numbers of data items and uploads, all names, values, boundaries and file sizes", "why_tests_cant": "the sum ranges over arbitrarily many parts of arbitrary size; an off-by-one hangs or truncates a peer", "anchors": ["src/cxy/stdlib/fetch.cxy: Form.multipartEncodeSize/multipartEncode"]}
{"id": "C11", "title": "Character output is valid UTF-8", "statement": "Appending a Unicode scalar value to a stream emits exactly its UTF-8 encoding.", "quantifier": "all code points 0..0x10FFFF", "why_tests_cant": "over a million code points and four length classes", "anchors": ["src/cxy/runtime/builtins.cxy: OutputStream.appendChar"]}
{"id": "C12", "title": "Substring search finds the first / last occurrence", "statement": "find(part) returns the smallest index at which part occurs and rfind the largest; indexOf/rIndexOf return the first/last index of a character; null exactly when there is no occurrence.", "quantifier": "all strings and patterns", "why_tests_cant": "quantifies over all strings, including matches at index 0 and empty patterns", "anchors": ["src/cxy/runtime/builtins.cxy: __string.find/rfind/indexOf/rIndexOf/startswith/endswith"]}
{"id": "C13", "title": "String comparison is a total order consistent with equality", "statement": "compare(a,b)==0 exactly when a and b have the same bytes; compare is antisymmetric and transitive.", "quantifier": "all pairs and triples of strings", "why_tests_cant": "transitivity over all triples; embedded NUL bytes and lengths beyond 31 bits", "anchors": ["src/cxy/runtime/builtins.cxy: __string.compare, String.compare"]}
{"id": "C14", "title": "Hashing of strings covers the whole content", "statement": "Equal byte strings have equal hashes, and every byte of the string takes part in the hash: changing any one byte of a string changes the value mixed into the hash.", "quantifier": "all byte strings", "why_tests_cant": "all lengths, including the empty string", "anchors": ["src/cxy/runtime/builtins.cxy: hash_fnv1a_bytes/hash_fnv1a_*", "src/cxy/core/hash.c: hashRawBytes/hashStr"]}
{"id": "C15", "title": "Reference counted objects are destroyed exactly once, and only when unreachable", "statement": "For any sequence of allocations, reference acquisitions and releases in which every release matches an owned reference, an object's destructor runs exactly when its last reference is released, exactly once, and no access happens after it.", "quantifier": "all histories of acquire/release over any number of objects", "why_tests_cant": "double free and leaks depend on the interleaving of references in an arbitrary history", "anchors": ["src/cxy/runtime/builtins.cxy: __smart_ptr_alloc/__smart_ptr_get/__smart_ptr_drop"]}
{"id": "C16", "title": "Path join, dirname and basename agree", "statement": "join(dirname(p), basename(p)) names p again, and join never doubles a separator.", "quantifier": "all path strings", "why_tests_cant": "all strings, including trailing, leading and repeated separators", "anchors": ["src/cxy/stdlib/path.cxy: Path.`/`/dirname/basename"]}
{"id": "C17", "title": "The static file server never serves a file outside its root", "statement": "For every request path and every directory layout, a file is served only if its resolved absolute path lies inside the configured root directory.", "quantifier": "all roots, all request paths, all filesystem resolutions", "why_tests_cant": "quantifies over every name an attacker can choose, including siblings whose name extends the root's name", "anchors": ["src/cxy/stdlib/fserver.cxy: FileServer.fileExists"]}
{"id": "C18", "title": "os.copy copies every byte", "statement": "When copy succeeds, the destination holds exactly the bytes of the source, whatever number of bytes each system call transfers.", "quantifier": "all file contents, all schedules of partial transfers", "why_tests_cant": "short transfers are chosen by the kernel and rarely seen in a test", "anchors": ["src/cxy/stdlib/os.cxy: copy"]}
{"id": "C19", "title": "Socket send and receive transfer an exact prefix", "statement": "sendBuffer's successful result equals the number of bytes handed to the peer and these are the buffer's bytes in order, each once; receive fills the buffer with exactly the bytes received; for all patterns of partial transfers and would-block results. When the socket becomes writable a blocked send continues.", "quantifier": "all buffers, all schedules of partial sends/receives, would-block and error results", "why_tests_cant": "the kernel chooses the schedule", "anchors": ["src/cxy/stdlib/tcp.cxy: TcpSocket.sendBuffer/receive/sendFile/Socket_sendfile", "src/cxy/stdlib/net.cxy: Socket.wait"]}
{"id": "C20", "title": "Coroutine mutex: mutual exclusion, and unlock lets others in", "statement": "At every point of every schedule at most one coroutine is between a completed lock and its unlock; waiters obtain the mutex in arrival order; once unlocked with no waiters, the mutex can be locked again.", "quantifier": "all schedules of all sets of coroutines", "why_tests_cant": "interleavings are unbounded", "anchors": ["src/cxy/stdlib/coro.cxy: Mutex.lock/tryLock/unlock"]}
{"id": "C21", "title": "Coroutine scheduler is fair and loses no coroutine", "statement": "Every ready coroutine runs in the order it became ready; no ready coroutine is dropped or run twice for one resumption.", "quantifier": "all histories of spawn/yield/suspend/resume", "why_tests_cant": "unbounded schedules", "anchors": ["src/cxy/stdlib/coro.cxy: suspend/resume/yld/Scheduler ready list"]}
{"id": "C22", "title": "Timers fire only when due, each once per arming, and none is lost", "statement": "Processing time events calls exactly the callbacks of live timers whose deadline has passed and that existed when processing began; a deleted timer's callback is never invoked again; a non-repeating timer never fires twice; every other timer stays armed.", "quantifier": "all sets of timers, all clocks, all callback behaviours including callbacks that create or delete timers", "why_tests_cant": "timers created or deleted by callbacks during iteration; arbitrary clock values", "anchors": ["src/cxy/stdlib/native/evloop/ae.c: processTimeEvents/aeCreateTimeEvent/aeDeleteTimeEvent/aeSearchNearestTimer"]}
{"id": "C23", "title": "File-event registration tracks interests exactly", "statement": "After any sequence of registrations and removals, the loop's interest mask for each descriptor is the union of registered and not yet removed interests, and maxfd is the largest descriptor with an interest (or -1).", "quantifier": "all histories over all descriptors", "why_tests_cant": "maxfd recomputation depends on history", "anchors": ["src/cxy/stdlib/native/evloop/ae.c: aeCreateFileEvent/aeDeleteFileEvent"]}
{"id": "C24", "title": "HTTP routing reaches the registered handler", "statement": "A request whose method and path match a registered route is dispatched to that route's handler with the path arguments bound in order; requests matching no route get an error status.", "quantifier": "all sets of routes and all request paths", "why_tests_cant": "quantifies over route tables and paths", "anchors": ["src/cxy/stdlib/http.cxy: Router.add/find/parseParams/parseRouteArgs, methodFromString"]}
{"id": "C25", "title": "Program argument parser delivers every argument", "statement": "Arguments after `--` are delivered to the rest parameter completely and in order; options are matched by exact name; required parameters that are missing are reported.", "quantifier": "all argument vectors", "why_tests_cant": "all argument lists", "anchors": ["src/cxy/stdlib/args.cxy: Command.parse/populateRest"]}
{"id": "C26", "title": "JSON output parses back to the same value", "statement": "For every value of every supported type, parsing its JSON serialisation at that type yields the same value.", "quantifier": "all values of all types built from bool, integer, string, optional, tuple/struct and vector", "why_tests_cant": "strings with quotes or backslashes, integers above 2^53, nested optionals", "anchors": ["src/cxy/stdlib/json.cxy: toJSON/JSONParser"]}
{"id": "C27", "title": "Byte-order conversion is an involution", "statement": "bswap16/32/64 reverse the bytes of any value; applying ntohs(htons x) returns x.", "quantifier": "all 16/32/64-bit values", "why_tests_cant": "2^64 values", "anchors": ["src/cxy/runtime/builtins.cxy: bswap16/bswap32/bswap64", "src/cxy/stdlib/net.cxy: htons/htonl/ntohs"]}
{"id": "C28", "title": "Compiler hash table is a finite map", "statement": "For any sequence of insert/find/remove/clear on the compiler's hash table, find returns the element inserted and not removed since; remove deletes exactly one element; enumeration visits each element once.", "quantifier": "all hash functions, all histories", "why_tests_cant": "collisions at the wrap-round point of the table", "anchors": ["src/cxy/core/htable.c: insertInHashTable/findInHashTable/removeFromHashTable/enumerateHashTable/clearHashTable"]}
{"id": "C29", "title": "Compiler Robin-Hood map keeps one value per key", "statement": "After any sequence of put/get/remove on the compiler's hash map, get returns the most recently put value for a key and the map holds at most one entry per key.", "quantifier": "all hash functions, all histories", "why_tests_cant": "depends on collisions between equal-distance keys", "anchors": ["src/cxy/core/hmap.c: hmapPut/hmapGet/hmapRemove/hmapClear"]}
{"id": "C30", "title": "Interned strings are equal exactly when their pointers are", "statement": "Two strings obtained from the string pool are the same pointer if and only if they have the same content, and a pooled string always has the content it was requested with.", "quantifier": "all sequences of requests, all strings including colliding hashes", "why_tests_cant": "needs hash collisions, including between a string and its extension", "anchors": ["src/cxy/core/strpool.c: makeString/makeStringSized"]}
{"id": "C31", "title": "Memory pool blocks never overlap", "statement": "All allocations made from a memory pool since the last reset are aligned to 16 bytes, lie inside blocks owned by the pool, are at least as large as requested, and are pairwise disjoint; after a reset the pool reuses its blocks without breaking this.", "quantifier": "all sequences of allocation sizes and resets", "why_tests_cant": "unbounded histories; overlap is silent", "anchors": ["src/cxy/core/mempool.c: allocFromMemPool/resetMemPool/freeMemPool"]}
{"id": "C32", "title": "Dynamic array and string builder keep their contents", "statement": "For any sequence of pushes, pops and appends, the dynamic array holds the pushed elements in order and the string builder holds the concatenation of the appended text, and no write exceeds the allocated capacity.", "quantifier": "all histories", "why_tests_cant": "growth boundaries at every size", "anchors": ["src/cxy/core/array.c: pushOnDynArray/popDynArray", "src/cxy/core/sb.c: stringBuilderAppendCstr/stringBuilderGrow"]}
{"id": "C33", "title": "Formatted output equals the concatenation of its pieces", "statement": "Text accumulated through the formatter is the concatenation of appended pieces in order whatever the internal buffering, with newlines followed by the current indentation.", "quantifier": "all sequences of appends/indents/newlines of all sizes", "why_tests_cant": "buffer boundaries at arbitrary positions", "anchors": ["src/cxy/core/format.c: format, write, reserveBuf, formatArg, append, formatStateToString"]}
{"id": "C34", "title": "Escape sequences in literals are decoded correctly", "statement": "The text of a string literal is mapped to the string obtained by replacing each escape sequence by the character it denotes and keeping all other characters.", "quantifier": "all literal texts", "why_tests_cant": "interaction of adjacent backslashes", "anchors": ["src/cxy/core/utils.c: escapeString/convertEscapeSeq"]}
{"id": "C35", "title": "UTF-8 encode/decode round-trip in the compiler", "statement": "Reading a character literal's UTF-8 text gives the code point, and writing a code point gives its UTF-8 text; the two are inverse on all scalar values.", "quantifier": "all code points", "why_tests_cant": "over a million code points", "anchors": ["src/cxy/core/utils.c: readChar", "src/cxy/core/sb.c/utils.c: wcharToStr"]}
{"id": "C36", "title": "Sorted lookup finds every member", "statement": "Looking up a name among the sorted members of a type finds the member with that name if there is one, and nothing otherwise.", "quantifier": "all member lists and names", "why_tests_cant": "all list lengths and positions", "anchors": ["src/cxy/core/utils.c: binarySearch", "src/cxy/lang/frontend/ast.c: makeSortedNodes/findInSortedNodes"]}
{"id": "C37", "title": "Command line options are parsed exactly", "statement": "Every option is recognised by its exact long or short name, `--name=value`, `--name value`, `-xVALUE` forms deliver the value, unknown options are rejected, positionals keep their order, and defaults fill in unspecified options.", "quantifier": "all command lines and all option tables", "why_tests_cant": "all argument vectors, including names that are prefixes of each other", "anchors": ["src/cxy/core/args.c: parseCommandLineArguments and helpers"]}
{"id": "C38", "title": "Diagnostics show the source line of the position", "statement": "The text quoted in a diagnostic for a byte position is exactly the line containing that position.", "quantifier": "all file contents and positions", "why_tests_cant": "first line, last line without newline, empty lines", "anchors": ["src/cxy/core/log.c: findLineBegin/findLineEnd"]}
{"id": "C39", "title": "The lexer terminates and consumes the whole input", "statement": "For every input the lexer reaches end of file after finitely many tokens, every token's text is the next slice of the input after skipping blanks and comments, and token extents never overlap.", "quantifier": "all byte strings", "why_tests_cant": "unterminated literals and comments at the end of input", "anchors": ["src/cxy/lang/frontend/lexer.c: advanceLexer/getChar/lexString/lexNumber/skipBlockComment"]}
{"id": "C40", "title": "Block comments nest", "statement": "A block comment ends at the matching terminator, taking nested comments into account.", "quantifier": "all comment texts", "why_tests_cant": "arbitrary nesting depth", "anchors": ["src/cxy/lang/frontend/lexer.c: skipBlockComment"]}
{"id": "C41", "title": "Operator precedence and associativity", "statement": "An expression built from binary operators is parsed into the unique tree determined by the precedence table with left associativity; printing a tree with minimal parentheses and parsing it gives the tree back.", "quantifier": "all expressions of any size over all binary operators", "why_tests_cant": "all operator combinations at all depths", "anchors": ["src/cxy/lang/frontend/parser.c: binary/assign/ternary/prefix", "src/cxy/lang/frontend/operator.h: precedence table"]}
{"id": "C42", "title": "Implicit integer conversions preserve values", "statement": "If a value of one integer type may be implicitly assigned to another integer type, the value is representable in the target.", "quantifier": "all pairs of primitive types and all values", "why_tests_cant": "all values of all types", "anchors": ["src/cxy/lang/frontend/types.c: isTypeAssignableFrom/isPrimitiveTypeBigger"]}
{"id": "C43", "title": "Arithmetic type promotion is well-behaved", "statement": "The type chosen for a binary operation on two primitive types is independent of the operand order and can represent all values of both operands.", "quantifier": "all pairs of primitive types, all values", "why_tests_cant": "all pairs and values", "anchors": ["src/cxy/lang/frontend/ttable.c: promoteType", "src/cxy/lang/frontend/types.c"]}
{"id": "C44", "title": "Integer literals get a type that holds them", "statement": "The type inferred for an integer literal can represent the literal, and it is the smallest of its signedness that does; a literal is accepted for a declared type exactly when in range.", "quantifier": "all 64-bit literals", "why_tests_cant": "2^64 values, boundaries at each width", "anchors": ["src/cxy/lang/frontend/ttable.c: getIntegerTypeForLiteral/isIntegerTypeInRange", "src/cxy/lang/frontend/types.c: getIntegerTypeMinMax"]}
{"id": "C45", "title": "Compile-time integer arithmetic equals run-time arithmetic", "statement": "Folding an integer constant expression gives the value the program would compute: sum, difference, product, quotient, remainder, shifts and bit operations on 64-bit integers; division by zero is reported rather than crashing the compiler.", "quantifier": "all operators and all operand values", "why_tests_cant": "2^128 operand pairs; precision loss appears only above 2^53", "anchors": ["src/cxy/lang/middle/eval/binary.c: evalBinaryArithmeticOp", "src/cxy/lang/middle/eval/literal.c: nodeSetNumericLiteral/nodeGetNumericLiteral", "src/cxy/lang/middle/preprocess/evaluate.c"]}
{"id": "C46", "title": "Compile-time comparisons and boolean logic are correct", "statement": "Folding a comparison or logical operator gives the truth value of the mathematical relation on the operands.", "quantifier": "all operators and operand values", "why_tests_cant": "2^128 operand pairs", "anchors": ["src/cxy/lang/middle/eval/binary.c: evalComparisonOp/evalEqualityOp/evalLogicalOp", "src/cxy/lang/middle/eval/unary.c"]}
{"id": "C47", "title": "Implicit enum values count up from the previous one", "statement": "An enum option without explicit value has the previous option's value plus one (the first has 0); explicit values are kept.", "quantifier": "all enum declarations", "why_tests_cant": "all mixtures of explicit and implicit options", "anchors": ["src/cxy/lang/middle/bind/resolve.c: bindEnumDecl"]}
{"id": "C48", "title": "Enum option lookup by value is right", "statement": "Sorting and searching the options of an enum by value respects the order of the 64-bit values.", "quantifier": "all lists of 64-bit option values", "why_tests_cant": "differences beyond 32 bits", "anchors": ["src/cxy/lang/middle/sema/enum.c: compareEnumOptionsByValue"]}
{"id": "C49", "title": "Duplicate switch cases are rejected, distinct ones accepted", "statement": "A switch whose case values/ranges overlap is rejected and one whose cases are pairwise disjoint is accepted.", "quantifier": "all lists of integer and range cases", "why_tests_cant": "depends on the whole list and on the sorting order", "anchors": ["src/cxy/lang/middle/sema/switch.c: compareCases/checkSwitchStmt"]}
{"id": "C50", "title": "Mangled names are unambiguous", "statement": "Two distinct generic instantiations (name plus list of distinct type arguments) never share a mangled name.", "quantifier": "all names and all lists of types", "why_tests_cant": "infinitely many types; a collision merges two functions silently", "anchors": ["src/cxy/lang/middle/mangle.c: makeMangledName/mangleType"]}
{"id": "C51", "title": "Name lookup finds the innermost visible declaration", "statement": "After any sequence of scope pushes, pops and definitions, looking a name up yields the declaration in the innermost open scope defining it, otherwise a public builtin, otherwise nothing; closing a scope restores exactly the outer meaning; redefinition in one scope is rejected.", "quantifier": "all histories of push/pop/define/find", "why_tests_cant": "unbounded nesting and shadowing", "anchors": ["src/cxy/lang/middle/bind/scope.c: defineSymbol/findSymbol/pushScope/popScope"]}
{"id": "C52", "title": "Deferred statements run on every exit, in reverse order", "statement": "Executing the code after defer lowering performs, on every exit of a block (fall through, return, break, continue), exactly the deferred statements reached in that block and all blocks being left, in reverse order of registration, before the exit takes effect.", "quantifier": "all programs built from blocks, conditionals, loops, defers and jumps, and all executions", "why_tests_cant": "all nestings and all execution paths", "anchors": ["src/cxy/lang/middle/defer.c"]}
{"id": "C53", "title": "Owned variables are released exactly once on every path", "statement": "On every execution path each owned variable that holds a value when it goes out of scope is released exactly once and moved-from or unassigned variables are not released.", "quantifier": "all programs over assignments, moves, conditionals, loops, and all paths", "why_tests_cant": "all control-flow paths", "anchors": ["src/cxy/lang/middle/mem/manage.c", "src/cxy/lang/middle/mem/finalize.c"]}
{"id": "C54", "title": "AST list edits keep all other nodes", "statement": "Inserting, replacing or unlinking a node of a statement list leaves every other node in place and in order.", "quantifier": "all lists and positions", "why_tests_cant": "all lengths and positions", "anchors": ["src/cxy/lang/frontend/ast.c: insertAstNode/insertAstNodeAfter/replaceAstNodeInList/unlinkAstNode/getNodeAtIndex", "src/cxy/lang/frontend/visitor.c: astModifierAdd/astModifierAddHead/astModifierAddAsNext"]}
{"id": "C55", "title": "Closure captures keep their order and identity", "statement": "Each captured variable gets one slot, numbered by first use, and the ordered capture list lists every captured variable at its slot.", "quantifier": "all sequences of captures", "why_tests_cant": "all histories", "anchors": ["src/cxy/lang/frontend/capture.c: addClosureCapture/getOrderedCapture"]}
{"id": "C56", "title": "Preprocessor macro table: last definition wins", "statement": "Defining, redefining and undefining macros behaves as a map from names to definitions, lookup returning the latest definition.", "quantifier": "all histories of definitions", "why_tests_cant": "unbounded histories", "anchors": ["src/cxy/lang/frontend/defines.c: preprocessorOverrideDefinedMacro/preprocessorHasMacro"]}
{"id": "C57", "title": "Compilation stages run in dependency order", "statement": "Selecting dump or stop stages on the command line never runs a stage without its prerequisites having run and every stage name maps to its own stage.", "quantifier": "all stage selections", "why_tests_cant": "all subsets of stages", "anchors": ["src/cxy/driver/stages.c: parseNextCompilerStage/executeCompilerStage"]}
{"id": "C58", "title": "Types are interned: structurally equal types are identical", "statement": "Constructing the same type twice yields the same object, and different types yield different objects, for any construction history.", "quantifier": "all construction histories", "why_tests_cant": "infinitely many types; hash/compare consistency", "anchors": ["src/cxy/lang/frontend/ttable.c: getOrInsertType/compareTypes/hashType"]}
{"id": "C59", "title": "Compile-time range loops iterate the range", "statement": "A compile-time for loop over a range executes its body once for each value start, start+step, ... below end, and terminates.", "quantifier": "all ranges and steps", "why_tests_cant": "all bounds, including empty and non-positive steps", "anchors": ["src/cxy/lang/middle/eval/for.c: evalForStmtWithRange", "src/cxy/lang/middle/eval/eval.c: evalRangeExpr"]}
{"id": "C60", "title": "Fixed width log fields have exactly the requested width", "statement": "A fixed-width field always prints exactly its width characters: the text truncated or padded with spaces.", "quantifier": "all texts and widths", "why_tests_cant": "all lengths", "anchors": ["src/cxy/stdlib/log.cxy: FixedWidth"]}
{"id": "C61", "title": "String literals keep their value in the generated C", "statement": "For every string literal the C backend writes a C string literal which the C compiler reads as the same string.", "quantifier": "all literal strings", "why_tests_cant": "there are unboundedly many strings; the failures need particular byte pairs or bytes outside ASCII", "anchors": ["src/cxy/lang/backend/c/generate.c:821-832", "src/cxy/core/format.c: printUtf8"]}
{"id": "C62", "title": "The growable text holds exactly what was appended", "statement": "After any sequence of appends, trims, clears and reservations the text is the concatenation/trim of the data given, it is NUL terminated, no memory outside its block is touched; appending a text to itself doubles it; File.readAll returns the bytes of the file.", "quantifier": "all operation sequences and contents", "why_tests_cant": "depends on the capacity history; aliasing and the size classes are not covered by a finite set of cases", "anchors": ["src/cxy/runtime/builtins.cxy: class String grow/append/resize/trimLeft/trimRight", "src/cxy/stdlib/os.cxy: File.readAll"]}
{"id": "C63", "title": "Integers are printed in decimal", "statement": "out << z writes the decimal notation of z for a value of any integer type.", "quantifier": "all integers of i8..i64 and u8..u64", "why_tests_cant": "the failing half of the u64 range is 2^63 values", "anchors": ["src/cxy/runtime/builtins.cxy: OutputStream.<< and appendSignedInt"]}
{"id": "C64", "title": "URL-encoded form length equals the bytes sent", "statement": "For every form without uploads, the Content-Length announced for the URL-encoded body equals the number of bytes the encoder writes, and encoding reads only the names and values.", "quantifier": "all forms", "why_tests_cant": "depends on the parity of every name and value", "anchors": ["src/cxy/stdlib/fetch.cxy: Form.urlEncodedSize/urlEncode"]}
{"id": "C65", "title": "The file server's cache returns the content of the requested file", "statement": "For every sequence of requests, the answer to each request is the content of the file it names, whatever was requested and cached before.", "quantifier": "all request sequences and all file contents", "why_tests_cant": "depends on the history of the cache and on pairs of names that differ only in letter case", "anchors": ["src/cxy/stdlib/fserver.cxy: CachedFiles, FileServer.loadFile", "src/cxy/runtime/builtins.cxy: HashCase, EqualsCase"]}
{"id": "C71", "title": "Casts of integer literals truncate to the target type", "statement": "Casting an integer literal to an integer type at compile time gives the value of that type congruent to the literal modulo 2^bits; a literal in range is unchanged.", "quantifier": "all 64-bit literals with sign, all integer types", "why_tests_cant": "2^65 literals times eight types", "anchors": ["src/cxy/lang/middle/sema/cast.c: castIntegerLiteral"]}
{"id": "C72", "title": "Run-time casts between primitive types preserve fitting values", "statement": "The instruction the LLVM backend picks for a permitted cast between primitive types converts every value that fits the target to itself, and wraps others around for integer targets.", "quantifier": "all pairs of primitive types, all values", "why_tests_cant": "all values of all pairs; only the top bit is affected", "anchors": ["src/cxy/lang/backend/llvm/context.cpp: generateCastExpr", "src/cxy/lang/frontend/types.c: isTypeCastAssignable"]}
{"id": "C73", "title": "Run-time operators on integers compute the mathematical result", "statement": "The instruction the LLVM backend picks for a binary operator on integers gives the mathematical result (modulo the size of the promoted type for + - * & | ^ <<), and comparisons order the operands as numbers.", "quantifier": "all pairs of integer types, all operand values", "why_tests_cant": "all operand values; errors only when the top bit is set", "anchors": ["src/cxy/lang/backend/llvm/binary.cpp: generateBinaryExpr", "src/cxy/lang/middle/sema/binary.c: checkBinaryExpr"]}
{"id": "C75", "title": "Value of integer literals", "statement": "The value of an integer literal token is the number its digits denote in its base; a literal without digits, or one that does not fit 64 bits, is rejected.", "quantifier": "all source texts and all integer literals in them", "why_tests_cant": "Only a handful of literals can be tried; the failing ones (a prefix followed by blanks and a sign, saturation) need adversarial texts.", "anchors": ["src/cxy/lang/frontend/lexer.c:566-610", "src/cxy/lang/frontend/lexer.c:95-157"]}
{"id": "C77", "title": "Suggested names are the near misses", "statement": "For an undefined name of three characters or more, the compiler suggests a declared name at most one insertion, deletion or replacement away whenever one is in scope, and never any other; the pruned distance recursion is the edit distance up to its budget.", "quantifier": "all names, all scope histories", "why_tests_cant": "infinitely many names; the pruning only matters for particular mismatches", "anchors": ["src/cxy/lang/middle/bind/scope.c: levenshteinDistance/suggestSimilarSymbol"]}
{"id": "C78", "title": "break and continue belong to a loop of the same function", "statement": "A break or continue statement is bound to the innermost enclosing loop, and that loop is opened inside the function or closure that contains the statement.", "quantifier": "all nestings of scopes", "why_tests_cant": "all nestings", "anchors": ["src/cxy/lang/middle/bind/scope.c: findEnclosingLoop/findEnclosingScope", "src/cxy/lang/middle/bind/resolve.c: bindBreakOrContinueStmt"]}
{"id": "C79", "title": "An overloaded call resolves to the best overload", "statement": "Overload resolution chooses a declared overload that accepts the arguments of the call with the fewest conversions, and fails only if no overload accepts them.", "quantifier": "all chains of overloads, argument lists and conversion relations", "why_tests_cant": "unbounded chains and any order of declaration", "anchors": ["src/cxy/lang/middle/sema/function.c: matchOverloadedFunctionPerfectMatch"]}
{"id": "C80", "title": "HTTP responses are well-formed messages", "statement": "The bytes the server sends for a response are the status line, the header fields, an empty line and the content, in that order; the content is what the handler gave (or the reason of an error without one) and Content-Length is the number of its bytes.", "quantifier": "all responses: status, headers, bodies, lists of chunks and files, server configurations", "why_tests_cant": "all sizes around the buffer of the stream and all mixtures of chunks", "anchors": ["src/cxy/stdlib/http.cxy: sendResponse, Response", "src/cxy/stdlib/stdio.cxy: OutputBuffer"]}
{"id": "C81", "title": "A request is collected the same however it arrives in pieces", "statement": "For every way the parser may cut the path, the header names and values and the body of a message into fragments, the request handed to the router holds the whole path, the whole body and for every header name the value of its last field; every message on a connection is answered once, in order.", "quantifier": "all messages, all fragmentations, all distributions over reads", "why_tests_cant": "unbounded number of ways to cut a message", "anchors": ["src/cxy/stdlib/http.cxy: requestParserOn*, Request.feed/clear, receive"]}
{"id": "C82", "title": "Exceptions of the compiler reach the right handler", "statement": "A program with try, catch and finally blocks performs the actions its structure says: the first clause whose type is a supertype of the exception runs, finally blocks always run, and an exception nobody catches ends the process with its type.", "quantifier": "all programs, all type hierarchies", "why_tests_cant": "unbounded nesting and combinations of throwing bodies, clauses and finally blocks", "anchors": ["src/cxy/core/e4c.c", "src/cxy/core/e4c.h:66-83"]}
{"id": "C83", "title": "The parser goes on behind syntax errors", "statement": "Each block and each declaration reports its first own syntax error, and what follows the block or the declaration is parsed as if nothing had happened.", "quantifier": "all sources, any number of errors at any depth", "why_tests_cant": "unbounded combinations of errors and nesting; the frames that are lost show after many errors only", "anchors": ["src/cxy/lang/frontend/parser.c:183-215, 1387-1411, 3690-3708", "src/cxy/core/e4c.h:70-83"]}
{"id": "C84", "title": "Run-time for loops over ranges run once for each value", "statement": "A for loop over range(a, b, c) runs its body once for each of the values from a on, in steps of c, before b is reached or passed; the bounds are evaluated once; break and continue belong to the innermost loop.", "quantifier": "all programs with nested loops, all bounds and steps, all integer types", "why_tests_cant": "unbounded programs and values; wrong bounds only show as loops that do not end", "anchors": ["src/cxy/lang/middle/simplify/simplify.c:121-187", "src/cxy/lang/backend/c/generate.c:1518-1548, 1616-1637"]}
{"id": "C85", "title": "Run-time for loops over arrays and strings visit each element once", "statement": "A for loop over an array or a string runs its body once for each element, in order, with the index in the second variable.", "quantifier": "all arrays, all strings, all bodies", "why_tests_cant": "unbounded lengths and bodies", "anchors": ["src/cxy/lang/middle/simplify/simplify.c:189-347", "src/cxy/lang/frontend/ttable.c:508"]}
{"id": "C86", "title": "Operands are evaluated once, in order, and only when they are needed", "statement": "The operands of expressions, the arguments of calls and the conditions of statements are evaluated in the order of the source, exactly once, and those of &&, ?: and else if only when they are needed; what a program reads, writes, calls and returns is the same after lowering, and does not depend on the compiler of the generated C code.", "quantifier": "all programs, all functions they call, all states, all orders of operands that C allows", "why_tests_cant": "unbounded programs; the order of calls depends on the compiler of C and on temporaries put before whole statements", "anchors": ["src/cxy/lang/middle/simplify/simplify.c:53-66, 604-741, 1070-1137", "src/cxy/lang/middle/shake/shake.c:448-562", "src/cxy/lang/backend/c/generate.c:871-905", "src/cxy/lang/frontend/ast.c:1683-1727, 3037-3064"]}
{"id": "C87", "title": "A C compiler reads the text of an expression as the tree the parser built", "statement": "The C text the backend writes for an expression is read by a C compiler as the same tree that the parser of Cxy built from the source: no operator changes its operands and no two operators run together.", "quantifier": "all token lists, all expressions", "why_tests_cant": "unbounded expressions; the backend writes no parentheses of its own, so the precedences of both languages and the spacing must agree everywhere", "anchors": ["src/cxy/lang/backend/c/generate.c:64-81, 796-811, 871-1003, 1046-1069", "src/cxy/lang/frontend/operator.h:15-76", "src/cxy/lang/frontend/parser.c:669-932"]}
{"id": "C88", "title": "An object of a class is laid out as an object of each of its bases", "statement": "The struct of a class holds every field of the class and its bases exactly once, and the members of each base are at the same places as in objects of that base, so that functions of the base work on it.", "quantifier": "all classes with any number of bases", "why_tests_cant": "unbounded depth of inheritance; a wrong place shows only as memory read as something else", "anchors": ["src/cxy/lang/middle/sema/class.c:15-115, 260-412", "src/cxy/lang/middle/sema/inheritance.c:196-242", "src/cxy/lang/backend/c/generate.c:183-214"]}
{"id": "C89", "title": "The fields of a new object have the defaults of their declarations", "statement": "When an object is made, before its init runs, each field that was declared with a default, in the class or a base, holds that default.", "quantifier": "all classes with any number of bases and defaults", "why_tests_cant": "unbounded depth; a lost default reads as zero", "anchors": ["src/cxy/lang/middle/sema/node.c:151-183, 252-279, 597-699", "src/cxy/lang/middle/sema/class.c:312-382"]}
{"id": "C90", "title": "A virtual call runs the function of the most derived class", "statement": "A call of a virtual function on an object runs the function of the class of the object or of the nearest base that declares it, whichever base the variable has as its type; no object can be made whose virtual functions lack a body.", "quantifier": "all classes with any number of bases, all functions and types of variables", "why_tests_cant": "unbounded depth of inheritance and tables built class by class", "anchors": ["src/cxy/lang/middle/sema/inheritance.c:10-277", "src/cxy/lang/middle/simplify/simplify.c:68-121, 770-801", "src/cxy/lang/middle/sema/path.c:29-62", "src/cxy/lang/middle/sema/member.c:98-131"]}
{"id": "C91", "title": "Code dropped as unreachable is never reached", "statement": "When the type checker cuts off statements as unreachable, the function does exactly what it would have done with them: same outcomes, same effects, in the same order.", "quantifier": "all bodies of functions, of any depth, all outcomes of conditions", "why_tests_cant": "the code is gone without an error; only runs that would reach it differ", "anchors": ["src/cxy/lang/middle/sema/check.c:52-69, 122-205, 361-377, 418-421, 766-770", "src/cxy/lang/middle/sema/if.c:45-62", "src/cxy/lang/middle/sema/switch.c:228-253", "src/cxy/lang/middle/sema/match.c:92-116", "src/cxy/lang/middle/sema/binary.c:163-251"]}
{"id": "C92", "title": "A function with a return type returns on every path", "statement": "A function of a type other than void cannot be left at its end without a return.", "quantifier": "all bodies of functions", "why_tests_cant": "paths are unbounded; falling off the end is undefined in C and often goes unnoticed", "anchors": ["src/cxy/lang/middle/sema/check.c:36-50, 173-191", "src/cxy/lang/middle/sema/function.c:375-425"]}
{"id": "C93", "title": "Of a conditional block exactly the branch whose condition holds is compiled", "statement": "A chain ##if (c) { ... } else ##if (d) { ... } else { ... } at the top of a file contributes the declarations of the first branch whose condition is true, or of the else branch, and the parser goes on right behind the chain.", "quantifier": "all chains of branches with any declarations, any code behind them", "why_tests_cant": "each build of the compiler takes one branch; the others are never read in a test", "anchors": ["src/cxy/lang/frontend/parser.c:379-391, 429-437, 3288-3313, 3571-3652"]}
{"id": "C94", "title": "An import marked test is read when testing and left out otherwise", "statement": "import test ... has the meaning of the same import when tests are compiled and none otherwise; the code behind it is read the same either way.", "quantifier": "all imports and code behind them", "why_tests_cant": "the same line is read by two paths of the parser, of which a test run takes one", "anchors": ["src/cxy/lang/frontend/parser.c:3464-3556"]}
{"id": "C95", "title": "A call of a macro is replaced by its body with the arguments in place of the parameters", "statement": "After preprocessing every call of a macro has become the body of the macro, with each parameter replaced by the argument as it is expanded at the call, and no macro or parameter is left; a wrong number of arguments is an error.", "quantifier": "all tables of macros, expressions and depths of nesting", "why_tests_cant": "the interplay of nested calls, scopes and repeated visits depends on the whole table of macros; a test fixes one", "anchors": ["src/cxy/lang/middle/preprocess/preprocessor.c:15-36, 84-166", "src/cxy/lang/frontend/bind/scope.c:103-128, 220-248, 408-417"]}
{"id": "C96", "title": "Compile-time conditions among members keep the members of the branch that holds", "statement": "Where #if with a literal condition stands among the members of a type or among declarations, the preprocessor puts the members of the branch that holds in its place, in order; conditions it cannot decide stay with both branches, so that the members selected in the end do not depend on the preprocessor.", "quantifier": "all lists of members with nested conditions, all outcomes of conditions decided later", "why_tests_cant": "the loss depends on the position of a condition in a branch that is decided only later, when a generic type is used", "anchors": ["src/cxy/lang/middle/preprocess/preprocessor.c:15-36, 178-219", "src/cxy/lang/middle/preprocess/evaluate.c:341-371", "src/cxy/lang/frontend/visitor.c:296-304", "src/cxy/lang/frontend/ast.c:2031-2039"]}
{"id": "C97", "title": "Arguments left out of a call are the defaults of its parameters", "statement": "A function with defaults is accepted exactly if they stand at the end; a call is accepted exactly if every argument left out has a default, and is completed with those defaults, in order.", "quantifier": "all parameter lists, numbers of arguments and sequences of function types", "why_tests_cant": "which default is taken depends on all function types met before; tests write few of them", "anchors": ["src/cxy/lang/middle/shake/shake.c:563-620", "src/cxy/lang/middle/sema/function.c:88-101, 303-323, 422-456", "src/cxy/lang/middle/sema/call.c:125-158", "src/cxy/lang/frontend/ttable.c:302-317"]}
{"id": "C98", "title": "A match runs the case of the type its union holds", "statement": "A match on a union runs the case for the type of the value the union was made of, with that value in its variable, and else its default; a match the compiler accepts is accepted by the C compiler and handles every value of the union.", "quantifier": "all unions, case lists, aliases and const types, and values", "why_tests_cant": "the choice goes through numbers given by two different ways of following aliases; tests use plain member types with a default", "anchors": ["src/cxy/lang/middle/sema/match.c:13-146", "src/cxy/lang/middle/sema/type.c:15-32, 156-190", "src/cxy/lang/frontend/types.c:1292-1302", "src/cxy/lang/frontend/ttable.c:542-618", "src/cxy/lang/middle/sema/node.c:580-595", "src/cxy/lang/middle/simplify/simplify.c:1152-1207", "src/cxy/lang/backend/c/generate.c:1114-1125, 1550-1614"]}
