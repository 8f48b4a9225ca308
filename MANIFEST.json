{
 "claims": [
  {
   "property": "C01",
   "status": "partial",
   "theorems": [
    "hashmap_is_finite_map_refuted",
    "hashmap_is_finite_map_statement_refuted",
    "hashmap_duplicate_key_refuted",
    "hashmap_is_finite_map_partial",
    "hashmap_without_remove_is_finite_map"
   ],
   "note": "Full statement is false of the code: removing a key can make another key unreachable when the back-shift crosses the end of the table (probe distances there wrap as u64). Proved for every history in which no removal crosses, in particular for every history without remove."
  },
  {
   "property": "C02",
   "status": "partial",
   "theorems": [
    "hashmap_iteration_exact",
    "hashmap_map_terminates_refuted"
   ],
   "note": "Iteration and each are exact on every reachable map under the C01 guard; map never returns (loop variable not advanced)."
  },
  {
   "property": "C03",
   "status": "proved",
   "theorems": [
    "C03_queue"
   ],
   "note": "any number of lists over any shared set of items"
  },
  {
   "property": "C04",
   "status": "partial",
   "theorems": [
    "C04_exact_partial",
    "C04_capacity_2_partial",
    "C04_overflow",
    "C04_map",
    "C04_filter",
    "C04_indexOf",
    "C04_find",
    "C04_overflow_refuted"
   ],
   "note": "refinement to sequences holds exactly when no push meets a full vector of capacity 0 or 1 (overflow refuted there); map/filter/find/indexOf proved. Destructor calls not modelled"
  },
  {
   "property": "C05",
   "status": "partial",
   "theorems": [
    "C05_longest_prefix_exact_partial",
    "C05_find_partial",
    "C05_add_distinct",
    "C05_empty_key_refuted"
   ],
   "note": "exact: wrong iff the empty key is registered and no longer prefix is; the children map is an abstract finite map (its implementation is C01)"
  },
  {
   "property": "C06",
   "status": "partial",
   "theorems": [
    "C06_order_partial",
    "C06_append_exact_partial",
    "C06_content",
    "C06_sync",
    "C06_order_refuted"
   ],
   "note": "Refuted: an append that exactly fills the room behind buffered bytes is delivered before them. Proved: order for every history without such an append, exact effect of each append, no loss or duplication ever, sync."
  },
  {
   "property": "C07",
   "status": "partial",
   "theorems": [
    "C07_encode",
    "C07_encode_form",
    "C07_round_trip_exact_partial",
    "C07_rejects_partial",
    "C07_empty_refuted",
    "C07_short_refuted",
    "C07_reject_refuted",
    "C07_high_byte_refuted"
   ],
   "note": "encoding proved equal to RFC 4648 for all inputs; round trip exact iff non-empty ASCII; empty input and lengths not a multiple of 4 read out of bounds, bytes >= 128 are not restored, text after padding is accepted (refuted)"
  },
  {
   "property": "C08",
   "status": "partial",
   "theorems": [
    "C08_encode_exact_partial",
    "C08_round_trip_exact_partial",
    "C08_size_exact_partial",
    "C08_round_trip_refuted",
    "C08_short_refuted",
    "C08_size_refuted",
    "C08_alphabet_refuted"
   ],
   "note": "round trip holds exactly for two ASCII bytes, advertised size exactly for odd lengths; everything else refuted"
  },
  {
   "property": "C09",
   "status": "proved",
   "theorems": [
    "C09_lossless"
   ],
   "note": "all byte strings"
  },
  {
   "property": "C10",
   "status": "proved",
   "theorems": [
    "C10_length"
   ],
   "note": "sizes as unbounded numbers; sendFile is taken to send the whole file (see C19)"
  },
  {
   "property": "C11",
   "status": "partial",
   "theorems": [
    "runtime_appendChar_utf8_refuted",
    "runtime_appendChar_utf8_exact",
    "runtime_appendChar_utf8_partial"
   ],
   "note": "False for every code point from 0x10000 on (shift by 16 instead of 18, builtins.cxy:609); proved exact: right iff below 0x10000."
  },
  {
   "property": "C12",
   "status": "partial",
   "theorems": [
    "C12_find_exact_partial",
    "C12_rfind_exact_partial",
    "C12_indexOf",
    "C12_rIndexOf_exact_partial",
    "C12_startswith_partial",
    "C12_endswith_partial",
    "C12_trim",
    "C12_rIndexOf_refuted",
    "C12_find_empty_refuted",
    "C12_startswith_refuted"
   ],
   "note": "find/rfind right exactly for non-empty patterns; rIndexOf never reports index 0 (exact condition proved); startswith/endswith right for texts without NUL; indexOf and trim fully proved."
  },
  {
   "property": "C13",
   "status": "partial",
   "theorems": [
    "C13_view_equality_exact_partial",
    "C13_view_equality_partial",
    "C13_view_order",
    "C13_String_partial",
    "C13_view_refuted",
    "C13_String_refuted"
   ],
   "note": "Order laws hold for views; equality is refuted for texts with NUL (exact condition proved). String.compare is right below 2^31 bytes and refuted at a size difference of 2^32."
  },
  {
   "property": "C14",
   "status": "partial",
   "theorems": [
    "compiler_hash_is_fnv1a",
    "fnv1a_covers_every_byte",
    "compiler_hash_covers_every_byte",
    "cstring_hash_is_hash_of_content",
    "slice_hash_is_hash_of_content",
    "integer_hash_is_hash_of_bytes",
    "String_hash_covers_every_byte_refuted",
    "String_hash_exact",
    "String_hash_covers_partial",
    "String_hash_empty_refuted"
   ],
   "note": "Holds for the compiler's hashes, for NUL-terminated strings, slices and integers. False for the runtime String: hash_fnv1a_bytes leaves the last byte out and reads out of bounds when the size is 0 (builtins.cxy:317-327, range loops exclude the end); the exact behaviour is proved."
  },
  {
   "property": "C15",
   "status": "partial",
   "theorems": [
    "C15_destroyed_iff_unreferenced_partial",
    "C15_no_leak_partial",
    "C15_overflow_refuted"
   ],
   "note": "Proved for all histories of fewer than 2^32-2 actions with nested destructors; refuted beyond (32-bit counter). Destructors are modelled as releasing the fields of the object; single threaded."
  },
  {
   "property": "C16",
   "status": "partial",
   "theorems": [
    "C16_round_trip_partial",
    "C16_plain_name",
    "C16_join_exact_partial",
    "C16_round_trip_refuted",
    "C16_join_refuted"
   ],
   "note": "exact statements for paths with and without separator; refuted for plain names and for suffixes starting with a separator"
  },
  {
   "property": "C17",
   "status": "partial",
   "theorems": [
    "C17_served_partial",
    "C17_contained_partial",
    "C17_found",
    "C17_sibling_refuted",
    "C17_missing_root_refuted"
   ],
   "note": "Containment is false: a sibling directory whose name extends the root's name is served (C17_sibling_refuted), and a root that does not resolve turns the check off (C17_missing_root_refuted). Proved: served files are regular and lie in the root or in such a sibling; without such siblings they lie in the root; files in the root are found. realpath and the regular-file test are arbitrary functions constrained only to return canonical absolute paths."
  },
  {
   "property": "C18",
   "status": "partial",
   "theorems": [
    "C18_copy_exact",
    "C18_copy_partial",
    "C18_copy_refuted"
   ],
   "note": "False for partial transfers: sendfile advances the offset and the loop adds the count again, so every second chunk is skipped (C18_copy_refuted). C18_copy_exact characterises when a successful copy is complete. Model of the Linux branch; kernel answers are arbitrary."
  },
  {
   "property": "C19",
   "status": "partial",
   "theorems": [
    "C19_send_prefix",
    "C19_send_done",
    "C19_send_ok",
    "C19_blocked_refuted",
    "C19_sendfile_refuted",
    "C19_sendfile_repeats_refuted",
    "C19_receive"
   ],
   "note": "receive is proved for all schedules; a successful sendBuffer is proved exact. False: a would-block result always fails the send because the wait for writability waits for readability (C19_blocked_refuted, universal), sendFile never succeeds (C19_sendfile_refuted, universal) and repeats the start of the file."
  },
  {
   "property": "C20",
   "status": "partial",
   "theorems": [
    "C20_exclusion_partial",
    "C20_fifo_partial",
    "C20_waiting_partial",
    "C20_handover_partial",
    "C20_first_lock",
    "C20_free_once",
    "C20_relock_refuted"
   ],
   "note": "Exclusion, FIFO order and hand-over proved for programs that keep to the discipline of C21 and unlock only what they own; that an unlocked mutex can be locked again is false: C20_free_once proves that a mutex is found free at most once in any program, C20_relock_refuted gives the witness."
  },
  {
   "property": "C21",
   "status": "partial",
   "theorems": [
    "C21_scheduler_partial",
    "C21_fifo_partial",
    "C21_pending_partial",
    "C21_one_runs_partial",
    "C21_resume_partial",
    "C21_idle_partial",
    "C21_overload_refuted",
    "C21_two_waiters_refuted",
    "C21_double_resume_refuted"
   ],
   "note": "Proved for programs that resume only suspended coroutines, have one waiter per descriptor and at most 103 coroutines alive while descriptors are registered (no bound without descriptors); each guard is needed: three refuted theorems. Descriptor waits have no timeout; context switching itself is not modelled."
  },
  {
   "property": "C22",
   "status": "partial",
   "theorems": [
    "C22_refine_partial",
    "C22_fire_when_due_partial",
    "C22_round_exact_partial",
    "C22_ids_partial",
    "C22_nearest",
    "C22_refine_refuted",
    "C22_uninitialised_refuted",
    "C22_due_time"
   ],
   "note": "Full behaviour (refinement to a table of armed timers, each call due and for a live timer, each armed timer looked at exactly once per round, fresh ids) proved for loops whose file events have no timeouts and whose events array starts zeroed; both guards are needed: the two refuted theorems show a timer lost through a stale unlink and a wild pointer followed in the uninitialised array."
  },
  {
   "property": "C23",
   "status": "proved",
   "theorems": [
    "C23_interests",
    "C23_success",
    "C23_negative_refuted"
   ],
   "note": "For all histories over descriptors that are not negative (a negative one reads outside the table: C23_negative_refuted). The kernel's interest list (epoll) is modelled; callbacks and timers are in TimerModel."
  },
  {
   "property": "C24",
   "status": "partial",
   "theorems": [
    "C24_register_exact",
    "C24_dispatch_partial",
    "C24_reached_partial",
    "C24_method",
    "C24_only_slash",
    "C24_method_route_refuted",
    "C24_shadow_refuted",
    "C24_root_param_refuted",
    "C24_same_literal_refuted",
    "C24_disable_assert_refuted"
   ],
   "note": "Exact characterisation for routes \"/literal/{a}/{b}\": registration succeeds iff literal parts are distinct; the handler called is that of the longest literal part in front of the path. Refuted: routes written with a method are never reached; a longer literal part hides a matching route; \"/{id}\" is never found; \"/user\" and \"/user/{id}\" abort registration; with assertions disabled parameter names keep the brace. Middlewares are not modelled."
  },
  {
   "property": "C25",
   "status": "partial",
   "theorems": [
    "C25_parse_partial",
    "C25_crash",
    "C25_params",
    "C25_app",
    "C25_rest_refuted",
    "C25_required_refuted",
    "C25_empty_value_refuted",
    "C25_dash_value_refuted",
    "C25_help_refuted",
    "C25_app_default",
    "C25_app_unknown"
   ],
   "note": "Proved for all parameter sets and all argument vectors: parsing succeeds exactly on the vectors of a stated grammar (exact names, each parameter once, no needed parameter missing), with exactly the given values, defaults and positional arguments in order; the assertion failure is characterised exactly; adding parameters keeps names distinct. Missing: delivery behind two dashes, which is false (refuted: the first argument is dropped, and two dashes as last argument end the program, because the index is one too far and range loops end on equality); also refuted: required options are not reported, empty values swallow the next argument, help with a missing parameter. Hash maps are finite maps here (C01, nothing is removed); messages left out."
  },
  {
   "property": "C26",
   "status": "partial",
   "theorems": [
    "C26_round_trip_partial",
    "C26_parsed",
    "C26_again",
    "C26_quote_refuted",
    "C26_backslash_refuted",
    "C26_injection_refuted",
    "C26_precision_refuted",
    "C26_max_refuted",
    "C26_unsigned_refuted",
    "C26_nested_refuted",
    "C26_null_refuted",
    "C26_space"
   ],
   "note": "Exact characterisation of the values that survive (iff), what any text can be parsed to, and survival of parsed values; eight refutations: quotes and backslashes in strings (also setting another field), integers that no double holds, u64 of 2^63 or more, nested optionals, null String. Not modelled: floating point and char types, base64 fields, partial structs and skipValue, own fromJSON methods; arrays, slices and Vector are printed but the parser has no case for them, so their types do not compile with fromString."
  },
  {
   "property": "C27",
   "status": "proved",
   "theorems": [
    "bswap16_reverses_bytes",
    "bswap32_reverses_bytes",
    "bswap64_reverses_bytes",
    "bswap16_involution",
    "bswap32_involution",
    "bswap64_involution",
    "hton_is_big_endian",
    "ntoh_hton"
   ],
   "note": "All three widths, both byte orders."
  },
  {
   "property": "C28",
   "status": "partial",
   "theorems": [
    "htable_is_finite_set_refuted",
    "htable_is_finite_set_partial",
    "htable_without_remove_is_finite_set",
    "htable_remove_right_inside",
    "htable_capacity"
   ],
   "note": "False in general: removal across the table end loses elements (witness). Proved for all histories without a wrong move, in particular for all histories without removals."
  },
  {
   "property": "C29",
   "status": "partial",
   "theorems": [
    "chmap_is_map_refuted",
    "chmap_put_after_clear_refuted",
    "chmap_is_map_partial",
    "chmap_fresh_puts_is_map"
   ],
   "note": "False in general: putting a present key can store it twice (witness). Proved for histories without such a tie, in particular when only fresh keys are put, as the drop analysis does."
  },
  {
   "property": "C30",
   "status": "partial",
   "theorems": [
    "strpool_interning_refuted",
    "strpool_interning_partial",
    "strpool_interning_exact"
   ],
   "note": "False for texts colliding in 31 bits of FNV-1a (witness i / irighbbn). Proved exactly: correct iff no two different requested texts collide."
  },
  {
   "property": "C31",
   "status": "partial",
   "theorems": [
    "mempool_layout_partial",
    "mempool_caches_layout_partial",
    "mempool_reset_with_cache_refuted",
    "mempool_cache_size_refuted",
    "mempool_huge_size_refuted"
   ],
   "note": "Proved for every history of allocations, resets and releases with sizes below 2^63, and with caches for clients that respect the stated discipline. False for sizes within 31 of 2^64 (rounding wraps to 0), for a reset while a cache holds memory, and for caches serving different sizes."
  },
  {
   "property": "C32",
   "status": "partial",
   "theorems": [
    "dynarray_is_sequence",
    "dynarray_with_size_is_sequence",
    "dynarray_push_result_refuted",
    "string_builder_concatenates_partial",
    "string_builder_hang_refuted",
    "string_builder_release_empty_refuted"
   ],
   "note": "Dynamic array: proved for all histories (the pointer returned by push is one past the element: refuted). String builder: proved for all histories except two misuses that are refuted (released builder given the empty text then more text: endless loop; release of a new builder: unterminated memory)."
  },
  {
   "property": "C33",
   "status": "proved",
   "theorems": [
    "C33_formatted_output",
    "C33_format_call",
    "C33_decimal_exists",
    "C33_escaped_length_refuted",
    "C33_escaped_char"
   ],
   "note": "All sequences of append and format calls (text, newline, braces, indentation, s, sl, c, cl, b, u32, u64, i64, switched-off styles). Floats, pointers, types and style escapes are not modelled as pieces; {sEl} (unused) is shown not to work."
  },
  {
   "property": "C34",
   "status": "partial",
   "theorems": [
    "C34_escape_fits",
    "C34_escape_exact_partial",
    "C34_escape_refuted",
    "C34_single_quote_refuted"
   ],
   "note": "False of the code: escaped backslashes and single quotes are kept escaped (or swallow the next character). Exact characterisation of the texts unescaped correctly; the buffer always suffices."
  },
  {
   "property": "C35",
   "status": "proved",
   "theorems": [
    "compiler_writes_utf8",
    "compiler_reads_utf8",
    "compiler_utf8_round_trip",
    "compiler_reads_only_utf8_refuted"
   ],
   "note": "All scalar values except the backslash, which starts an escape sequence. Overlong texts are accepted by the reader (extra refutation, not part of the claim)."
  },
  {
   "property": "C36",
   "status": "proved",
   "theorems": [
    "C36_lookup_finds_members",
    "C36_strcmp_order",
    "C36_builtin_macros"
   ],
   "note": "For tables below 2^31 entries and any output of qsort; names without NUL. With several members of one name some one of them is found."
  },
  {
   "property": "C37",
   "status": "partial",
   "theorems": [
    "C37_sound",
    "C37_complete",
    "C37_unknown",
    "C37_files_partial",
    "C37_collect",
    "C37_buffer_partial",
    "C37_dashes_refuted",
    "C37_default_refuted",
    "C37_files_refuted",
    "C37_buffer_refuted"
   ],
   "note": "Accepted command lines are exactly the spelled ones, values and defaults exact, unknown options refused, for all tables and validators. False: arguments after two dashes are lost, defaults of valueless options ignored, files shifted when the program is named like the default command or the first argument is empty, error buffer overflow. Validators are arbitrary functions; their messages are not modelled."
  },
  {
   "property": "C38",
   "status": "partial",
   "theorems": [
    "C38_line_unique",
    "C38_line_found",
    "C38_single",
    "C38_multi",
    "C38_zero_refuted"
   ],
   "note": "All files, positions and locations (begin/end rows and offsets inside the file, rows below 2^32), colours left out. Exact output of printDiagnostic for files without zero bytes; refuted for a line with a zero byte, whose rest is dropped and followed by the next line. The file is taken not to change between lexing and reporting."
  },
  {
   "property": "C39",
   "status": "partial",
   "theorems": [
    "C39_covers",
    "C39_ordered",
    "C39_terminates_partial",
    "C39_no_hang_partial",
    "C39_steps",
    "C39_terminates_refuted",
    "C39_char_refuted",
    "C39_empty_char_refuted"
   ],
   "note": "All byte strings, lexer.c:95-613 without include buffers, rows and columns. Covering, order and the single end of file token hold for every text that is read to its end; termination is proved for ASCII texts whose last line ends with a line break not behind a backslash (for other bytes: no endless loop). Refuted in general: unterminated strings, characters and based numbers at the end of file loop for ever; a character literal ending the file is measured by a wild pointer difference; an assertion fails on some multi-byte character literals; an empty character literal is accepted. Keyword lookup and values of floating point literals are not modelled."
  },
  {
   "property": "C40",
   "status": "proved",
   "theorems": [
    "C40_matching",
    "C40_unique",
    "C40_lexer",
    "C40_plain"
   ],
   "note": "All comment texts; the nesting counter (64 bits in the code) is taken as unbounded."
  },
  {
   "property": "C41",
   "status": "proved",
   "theorems": [
    "C41_total",
    "C41_grammar",
    "C41_prefix",
    "C41_unique",
    "C41_print",
    "C41_two_operators",
    "C41_left_associative",
    "C41_symbol_refuted",
    "C41_levels"
   ],
   "note": "All token sequences over identifiers, integers, symbols, prefix and postfix operators, index and call expressions, parentheses, tuples, all 21 binary operators, assignment and the conditional; other primaries (paths, literals of other kinds, closures, structs, macros, member access) are not modelled. The grammar theorem leaves out casts (which take everything behind them) and catch discard, both shown by examples. The refuted theorem is an extra finding: a symbol between ? and : is read as the operator ?:."
  },
  {
   "property": "C42",
   "status": "partial",
   "theorems": [
    "C42_integers_exact",
    "C42_complete",
    "C42_exact",
    "C42_preorder",
    "C42_negative_refuted",
    "C42_char_refuted",
    "C42_float_refuted"
   ],
   "note": "Refuted: permitted conversions from signed to unsigned lose negative values, wide to narrow characters and integer to float lose values. Exact: among integers signed-to-unsigned is the only loss; the full list of lossy permitted pairs of primitive types is proved; every value-preserving integer conversion is permitted; the relation is a preorder."
  },
  {
   "property": "C43",
   "status": "partial",
   "theorems": [
    "C43_integers",
    "C43_holds_exact",
    "C43_order_exact",
    "C43_defined_exact",
    "C43_order_refuted",
    "C43_holds_refuted"
   ],
   "note": "Refuted: the result depends on operand order for equal-size types of different sign (and wchar/float), and cannot always hold both operands. Exact conditions proved for both, and the exact set of pairs with no common type."
  },
  {
   "property": "C44",
   "status": "partial",
   "theorems": [
    "C44_literal_partial",
    "C44_literal_exact",
    "C44_big_literal_refuted",
    "C44_accept_partial",
    "C44_range_signed",
    "C44_range_unsigned_exact",
    "C44_accept_refuted"
   ],
   "note": "Exact: a literal gets a type that holds it, the smallest signed one, iff it fits in i64; larger ones wrap (refuted). Acceptance in a switch is exact for single literals that fit i64 and for ranges on signed types; refuted for ranges starting below 0 on unsigned types, literals >= 2^63, and reversed ranges (assertion)."
  },
  {
   "property": "C45",
   "status": "partial",
   "theorems": [
    "C45_arithmetic_partial",
    "C45_rounding",
    "C45_literal_exact",
    "C45_zero_refuted",
    "C45_precision_refuted",
    "C45_others_refuted"
   ],
   "note": "Proved: expressions over integer literals whose intermediate values stay below 2^53 fold to the mathematical value (exact condition for one operation). Refuted: larger values are rounded through f64, division by zero and other operators are undefined or rejected. Floats, strings and enum literals are not modelled."
  },
  {
   "property": "C46",
   "status": "partial",
   "theorems": [
    "C46_boolean_partial",
    "C46_comparison_exact",
    "C46_precision_refuted",
    "C46_unsigned_refuted",
    "C46_bits_inverted_refuted",
    "C46_group_refuted"
   ],
   "note": "Proved for comparisons of integers below 2^53 and boolean connectives of literals; exact condition for comparisons. Refuted: rounding, unsigned literals, bitwise operators on booleans, grouped operands."
  },
  {
   "property": "C47",
   "status": "partial",
   "theorems": [
    "C47_numbering_partial",
    "C47_success_exact",
    "C47_last_value_refuted",
    "C47_expression_refuted",
    "C47_unsigned_refuted"
   ],
   "note": "Proved for integer literals in the i64 range, with the exact condition for success. Refuted: i64 max overflows the counter, other expressions stop the compiler, literals of the u64 range turn negative."
  },
  {
   "property": "C48",
   "status": "partial",
   "theorems": [
    "C48_enum_order_partial",
    "C48_enum_order_refuted",
    "C48_different_values_equal_refuted",
    "C48_not_transitive_refuted"
   ],
   "note": "False of the code: the 64-bit difference is cut to 32 bits. Proved for values that span less than 2^31."
  },
  {
   "property": "C49",
   "status": "partial",
   "theorems": [
    "C49_accepts",
    "C49_values",
    "C49_ranges_partial",
    "C49_mixed_refuted",
    "C49_type_check",
    "C49_beyond_refuted",
    "C49_types_refuted"
   ],
   "note": "Disjoint cases accepted for every conforming qsort; duplicates among values found for every qsort; overlapping ranges found with glibc's merge sort. False for values mixed with ranges (inverted sign), descending ranges (assertion), u64 values from 2^63 on, ranges partly outside an unsigned type. Strings and enums left out."
  },
  {
   "property": "C50",
   "status": "partial",
   "theorems": [
    "C50_instances_partial",
    "C50_overloads_partial",
    "C50_alias",
    "C50_const_char_refuted",
    "C50_namespace_refuted",
    "C50_underscore_refuted",
    "C50_unnamed_refuted",
    "C50_flags_refuted",
    "C50_zero_refuted"
   ],
   "note": "Proved for every name without underscore and every list of types (primitives, arrays, tuples, unions, functions, pointers, references, literals, named types and nested instances of generics, const), over declarations whose namespace and name read together are distinct and have no underscore, using const or char but not both, and for overloads of one name whatever it is. Refuted without these: const and char share a letter, namespace and name run together, underscores in names, results/optionals/maps all have the same text, other flags are dropped, a zero character cuts the text."
  },
  {
   "property": "C51",
   "status": "partial",
   "theorems": [
    "C51_import_refuted",
    "C51_scopes_partial",
    "C51_restores",
    "C51_alias_refuted",
    "C51_overloads_partial"
   ],
   "note": "Scopes answer as a stack of frames for every history in which functions are entered by defineFunctionDecl; closing a scope restores everything; overload chains exact when no function is entered twice. False otherwise: importing a function by name and overloading it writes through NULL; an extern alias mixes the overloads of two names."
  },
  {
   "property": "C52",
   "status": "partial",
   "theorems": [
    "C52_lowering_partial",
    "C52_order",
    "C52_case_return_refuted",
    "C52_case_defer_refuted",
    "C52_case_drops_refuted"
   ],
   "note": "Proved for all function bodies of blocks, conditionals, loops, switches, defers and jumps in which no case of a switch or match is itself a jump or defer without braces, for all executions: the lowered code performs the tests and actions of the source semantics (each block runs its deferred statements in reverse whenever it is left) and ends the same way. Missing: cases without braces, for which it is false (refuted: deferred statements hoisted before the switch, run when the case is not taken, later defers dropped). Not modelled: block expressions, blocks inside deferred statements, the return expression itself (it is evaluated after the deferred statements)."
  },
  {
   "property": "C53",
   "status": "partial",
   "theorems": [
    "C53_released_once_partial",
    "C53_never_bad_partial",
    "C53_assign_by_name_refuted",
    "C53_assign_from_itself_refuted",
    "C53_parameter_leaks_refuted",
    "C53_return_in_loop_refuted",
    "C53_return_of_loop_variable_refuted",
    "C53_moved_then_break_refuted",
    "C53_moved_then_return_in_loop_refuted",
    "C53_assigned_and_moved_in_loop_refuted",
    "C53_break_before_move_refuted",
    "C53_moved_in_case_refuted",
    "C53_moved_in_two_cases_refuted",
    "C53_assigned_in_case_refuted",
    "C53_warning_only_refuted",
    "C53_break_in_switch_refuted"
   ],
   "note": "Proved for every execution of every accepted function (warnings as errors) that follows the discipline of MemSpec (classes Steady, Late, Mobile). Refuted for: assignment by name, x = f(x), parameters moved on one path, returns of variables from loops, moved variables at break/return in loops, moves and late assignments in cases of a switch, break in a switch, uses that are only warned about. Not modelled: members, delete, temporaries, conditions that move."
  },
  {
   "property": "C54",
   "status": "partial",
   "theorems": [
    "C54_index",
    "C54_insert",
    "C54_insert_after",
    "C54_unlink",
    "C54_replace_node",
    "C54_replace_in_list_partial",
    "C54_replace_in_list_refuted",
    "C54_modifier_partial",
    "C54_add_head_refuted",
    "C54_add_after_remove_refuted",
    "C54_add_after_head_refuted"
   ],
   "note": "Counting, indexing, insertion, insertion after, unlinking and replaceAstNode right for all lists. Modifiers: for every sequence of calls in a traversal that meets stated guards the list is the one of a cursor specification, no node is lost and the old nodes keep their order. Refuted: replaceAstNodeInList drops everything behind a replaced inner node; astModifierAddHead on a block closes a cycle; adding after the current node was removed loses the nodes to come; adding while nothing is behind the cursor loses nodes put in front. replaceAstNodeWith (flags) and the AddAsNext/AddAsLast calls without current node are modelled but not specified."
  },
  {
   "property": "C55",
   "status": "partial",
   "theorems": [
    "C55_slots",
    "C55_clash",
    "C55_binder_partial",
    "C55_case_refuted",
    "C55_field_refuted"
   ],
   "note": "Capture sets: all sequences of captures in which a name means one variable, every hash: slots in order of first use, ordered list complete. Binder: for all functions without variables of match cases, each closure captures exactly the variables used inside and declared outside, in order of first use, and no assertion fails. Refuted: the variable of a match case is captured by the closures around the match, and two such cases with the same name stop the compiler; a use in a nested closure resolves to the field of the outermost closure. Missing: struct fields, this/super, default values of closure parameters; up to 2^32 uses."
  },
  {
   "property": "C56",
   "status": "proved",
   "theorems": [
    "C56_last_definition",
    "C56_find",
    "C56_command_line"
   ],
   "note": "All histories of definitions and lookups, for every hash function: each lookup gives the latest definition of the name, each definition reports whether it is new and what it replaces; also the table after initCompilerPreprocessor for all options. The code has no operation that undefines a macro. The parser applied to -D values is a parameter."
  },
  {
   "property": "C57",
   "status": "partial",
   "theorems": [
    "C57_runs",
    "C57_order",
    "C57_guard",
    "C57_marks",
    "C57_last_stage",
    "C57_stage_list_partial",
    "C57_bar_refuted",
    "C57_print_ir_refuted"
   ],
   "note": "Stage order and prerequisites proved for every selection, dump option and failure; last-stage names exact. False: a list of stages joined by bars is undefined behaviour, internal stages can be selected with a leading blank, print-ir never succeeds. Stage bodies are an oracle."
  },
  {
   "property": "C58",
   "status": "partial",
   "theorems": [
    "C58_interned_partial",
    "C58_compare_partial",
    "C58_const_refuted",
    "C58_alias_const_refuted",
    "C58_names_refuted",
    "C58_scopes_refuted",
    "C58_extern_alias_refuted",
    "C58_anonymous_refuted"
   ],
   "note": "Proved for all histories of make calls over the real hash table: when the types asked for obey a discipline (one declaration per name and namespace, one namespace per name of opaque types and untagged unions, one name per module path, flags of wrappers disjoint from flags of the wrapped types, no extern aliases, no anonymous structs, no named function types without declaration, no NaN or negative zero literals), two calls return the same object exactly when the types are the same; the comparison is type equality there and equal types hash equally. Missing: the rest, where it is false (refuted: const pointer against pointer to const, alias of const, two structs or opaque types of one name, function types with and without scope, extern aliases, anonymous structs). Not modelled: containers, literals under casts, replacement and removal of types, later changes of members, the 16-bit parameter count."
  },
  {
   "property": "C59",
   "status": "partial",
   "theorems": [
    "C59_range_partial",
    "C59_step_partial",
    "C59_step_refuted",
    "C59_backward_refuted",
    "C59_zero_step_refuted",
    "C59_downward_empty",
    "C59_overflow_refuted"
   ],
   "note": "Proved without step. Refuted: every explicit step is rejected (inverted test), step 0 never terminates, negative steps never deliver, the last addition can overflow. The expansion of the body is not modelled."
  },
  {
   "property": "C60",
   "status": "proved",
   "theorems": [
    "C60_width",
    "C60_line"
   ],
   "note": "width in bytes"
  },
  {
   "property": "C61",
   "status": "partial",
   "theorems": [
    "C61_emitted_literal_partial",
    "C61_source_to_c_partial",
    "C61_non_ascii_aborts",
    "C61_emitted_literal_refuted",
    "C61_nul_refuted"
   ],
   "note": "False of the code: bytes above 127 stop the compiler, backslash before x/X/digit is not escaped, NUL ends the literal. Proved for all other strings, also from the source text on."
  },
  {
   "property": "C62",
   "status": "partial",
   "theorems": [
    "C62_history_partial",
    "C62_append_self_exact_partial",
    "C62_readAll_exact_partial",
    "C62_readAll_refuted",
    "C62_trimLeft_refuted",
    "C62_append_self_refuted",
    "C62_resize_refuted"
   ],
   "note": "Histories of append/trim/trimRight/clear/reserve proved; refuted: readAll of files of 1..15 bytes (inverted assertion in resize), trimLeft alone, self append, resize."
  },
  {
   "property": "C63",
   "status": "partial",
   "theorems": [
    "C63_exact_partial",
    "C63_refuted"
   ],
   "note": "Right exactly below 2^63 (u64 values are cast to i64)."
  },
  {
   "property": "C64",
   "status": "partial",
   "theorems": [
    "C64_written_exact_partial",
    "C64_length_exact_partial",
    "C64_length_refuted",
    "C64_short_refuted"
   ],
   "note": "exact: lengths agree iff every name and value has odd length; names or values shorter than 2 are read out of bounds"
  },
  {
   "property": "C65",
   "status": "partial",
   "theorems": [
    "C65_content_partial",
    "C65_content_refuted"
   ],
   "note": "False when two requested paths differ only in letter case (C65_content_refuted); proved for every request sequence without such a pair."
  },
  {
   "property": "C71",
   "status": "partial",
   "theorems": [
    "C71_cast",
    "C71_cast_id",
    "C71_u64_refuted"
   ],
   "note": "Proved for every integer type but u64; refuted for u64 literals >= 2^63, whose value is afterwards read as negative."
  },
  {
   "property": "C72",
   "status": "partial",
   "theorems": [
    "C72_integers",
    "C72_fitting",
    "C72_to_float_exact",
    "C72_from_float",
    "C72_unreachable_exact",
    "C72_to_float_refuted",
    "C72_bool_refuted"
   ],
   "note": "Proved between integer and character types and from float to integer. Refuted: integer to float uses the signed instruction for unsigned operands and vice versa (exact: right iff the top bit is clear); a permitted boolean-to-integer cast reaches unreachable(). Float rounding is not modelled."
  },
  {
   "property": "C73",
   "status": "partial",
   "theorems": [
    "C73_modular",
    "C73_division",
    "C73_comparison_mixed",
    "C73_equality",
    "C73_order_unsigned",
    "C73_order_signed_exact",
    "C73_shl",
    "C73_shr_exact",
    "C73_signed_order_refuted",
    "C73_shift_refuted",
    "C73_division_refuted",
    "C73_float_refuted",
    "C73_float_ordered"
   ],
   "note": "Proved: modular operators always; division, mixed-type comparison and left shift when the promoted type holds both operands; equality; unsigned order. Refuted with exact conditions: order within one signed type (unsigned instruction; right iff same sign), right shift of negative numbers (logical shift), division of equal-size types of different sign, comparison of floats of one type (integer instruction)."
  },
  {
   "property": "C75",
   "status": "partial",
   "theorems": [
    "C75_value",
    "C75_exact",
    "C75_value_refuted"
   ],
   "note": "All integer tokens of all texts: the value is that of the digits, cut off at 2^64 - 1, if there are digits. Refuted: a prefix without digits takes its value from the text behind the token (0b -1 is 2^64 - 1), and too large numbers saturate silently. strtoumax of the C library is modelled."
  },
  {
   "property": "C77",
   "status": "proved",
   "theorems": [
    "C77_distance",
    "C77_suggestion"
   ],
   "note": "Edit distance characterised by scripts of insertions, deletions and replacements."
  },
  {
   "property": "C78",
   "status": "partial",
   "theorems": [
    "C78_innermost_loop",
    "C78_break_refuted",
    "C78_break_partial"
   ],
   "note": "The innermost open loop is found; false that it belongs to the same function: break in a closure inside a loop is accepted. Positive where no function stands inside a loop."
  },
  {
   "property": "C79",
   "status": "partial",
   "theorems": [
    "C79_choice_partial",
    "C79_choice_refuted"
   ],
   "note": "Proved when a variadic overload with fewer fixed parameters than arguments can only stand last; refuted otherwise (the argument count is cut down for all later overloads: an exact match is missed, an overload taking fewer arguments is chosen). Conversions between types are parameters."
  },
  {
   "property": "C80",
   "status": "partial",
   "theorems": [
    "C80_message_partial",
    "C80_sent",
    "C80_exact_fill",
    "C80_order_refuted",
    "C80_connection_refuted",
    "C80_status"
   ],
   "note": "Proved when no append exactly fills the stream buffer and files have the announced size; whenever head and body together are 1024 bytes the body is sent first. Connection: close (any case but Close) yields contradictory Connection fields. Assumes sockets accept all bytes."
  },
  {
   "property": "C81",
   "status": "partial",
   "theorems": [
    "C81_collected",
    "C81_served_partial",
    "C81_pipelined_refuted",
    "C81_trailer_refuted"
   ],
   "note": "Collection proved for all fragmentations. All messages are served when each read holds parts of one message only; of two messages in one read the first is always lost. The last trailer of a chunked message is lost. llhttp itself is not modelled."
  },
  {
   "property": "C82",
   "status": "partial",
   "theorems": [
    "C82_run_iff_partial",
    "C82_one_meaning_partial",
    "C82_finally_catches_refuted",
    "C82_seventeen_nested_refuted"
   ],
   "note": "Proved for at most 16 nested try blocks, no try block in a finally block and no break out of a try block. A try block in a finally block replaces the exception on its way; a seventeenth nested try block raises RuntimeException."
  },
  {
   "property": "C83",
   "status": "partial",
   "theorems": [
    "C83_recovers_partial",
    "C83_error_behind_block_refuted",
    "C83_sixteen_blocks_refuted"
   ],
   "note": "The break in the catch clause of a block leaves a frame behind. Recovery proved while lost frames and nesting add up to at most 16 and no declaration has an own error behind a block in error. An error of a declaration behind a block in error jumps into a function that has returned. What synchronize skips is not modelled."
  },
  {
   "property": "C84",
   "status": "partial",
   "theorems": [
    "C84_loops_keep_meaning_partial",
    "C84_exact_ranges_mean_the_same",
    "C84_unsigned_ends_iff",
    "C84_signed_ends_iff",
    "C84_step_passes_end_refuted",
    "C84_step_wraps_refuted",
    "C84_empty_range_refuted",
    "C84_end_again_refuted",
    "C84_variable_assigned_refuted",
    "C84_break_in_switch_refuted"
   ],
   "note": "The loop tests x != end. Proved for ranges whose steps meet the end exactly, with bounds and step that do not change and a variable that is not assigned. When the step passes the end or the range is empty the loop wraps around or never ends (exact conditions proved). End and step are evaluated again each round. break in a switch leaves the switch only (C backend). Not modelled: floating point ranges, conversions between bounds."
  },
  {
   "property": "C85",
   "status": "partial",
   "theorems": [
    "C85_array_loop_partial",
    "C85_string_loop_refuted"
   ],
   "note": "Proved for arrays when the body does not assign the index. The length of a string is read from the type of strings, where it is 0: loops over strings never run. Not modelled: the value of the range being a temporary."
  },
  {
   "property": "C86",
   "status": "partial",
   "theorems": [
    "C86_order_kept_partial",
    "C86_any_order_partial",
    "C86_order_kept_refuted",
    "C86_defined_kept_refuted",
    "C86_any_order_refuted"
   ],
   "note": "Temporaries go before the whole statement. Proved under a computable condition: what is moved is apart from what it is moved over and harmless where it may not be needed; for any order of C if also operands that stay are apart. Refuted without it: 0 && f(g()) calls g, both branches of ?: and the condition of else if are evaluated early, i < n && f(a[i] + 1) reads out of bounds, casts of unions evaluate twice, f(x++, g(x)). Not modelled: members and references, virtual calls, conversions, overflow."
  },
  {
   "property": "C87",
   "status": "partial",
   "theorems": [
    "C87_one_reading",
    "C87_tree_partial",
    "C87_source_partial",
    "C87_tables_agree",
    "C87_assign_condition_refuted",
    "C87_last_assign_refuted",
    "C87_cast_refuted",
    "C87_glue_refuted"
   ],
   "note": "Exact: a tree of the parser is read back iff no assignment is the condition or last operand of ?:, given no casts in the source and no unary operators that run together; a tree of any pass iff its operands bind tightly enough for C. Refuted: a = b ? c : d assigns the choice in C, a ? b : c = d is an error in C, <T> a + b casts only a, - -x decrements x. Not modelled: tuples, members, symbols, casts of unions and of references, is, catch, ranges, await, delete, move, ptrof."
  },
  {
   "property": "C88",
   "status": "partial",
   "theorems": [
    "C88_fields_once_partial",
    "C88_base_places_partial",
    "C88_all_bases_partial",
    "C88_fields_once_refuted",
    "C88_base_places_refuted",
    "C88_table_lost_refuted"
   ],
   "note": "Exact: fields are there once iff no class above the direct base has fields, since a base passes its inherited members on as its own; places agree iff class and base both have a table or neither, or the base is empty. Refuted: the third class of a line has the root's fields twice; the first virtual function below a base with fields moves them; a table is lost two classes below. Not modelled: static fields, generic bases, alignment."
  },
  {
   "property": "C89",
   "status": "partial",
   "theorems": [
    "C89_defaults_partial",
    "C89_defaults_refuted"
   ],
   "note": "Exact: all defaults hold iff every class in the line that declares no default and no virtual function, and whose direct base declares no virtual function, has only zero defaults above it. Refuted: class A { x = 5 }, class B: A {} makes B with x = 0. Defaults are numbers."
  },
  {
   "property": "C90",
   "status": "partial",
   "theorems": [
    "C90_call_partial",
    "C90_marked_partial",
    "C90_slots_partial",
    "C90_no_table_refuted",
    "C90_override_refuted",
    "C90_abstract_refuted"
   ],
   "note": "Exact condition for each call; it holds if all bases of the object's class declare virtual functions and the function found is marked virtual. Refuted: an override in the third class of a line whose second declares nothing virtual (no table); overrides not marked virtual are called directly; a class that leaves a virtual function without a body is not abstract and calls null. Names of functions of one class are distinct: overloads, which share a place in the table, are not modelled, nor signatures."
  },
  {
   "property": "C91",
   "status": "partial",
   "theorems": [
    "C91_dropped_partial",
    "C91_state_partial",
    "C91_after_return_partial",
    "C91_shortcut_refuted",
    "C91_ternary_refuted",
    "C91_defer_refuted"
   ],
   "note": "Holds if no operand of && or || on the right, no branch of ? : and nothing deferred is code that always returns. Refuted: the state leaks out of operands that may be skipped, so all after c && ({ return x; }) is dropped; of two branches of ? : that return the second loses its return; after defer { return } all but one statement is dropped. Runs that do not end are covered by their beginnings. Types, errors and compile-time cases are not modelled."
  },
  {
   "property": "C92",
   "status": "partial",
   "theorems": [
    "C92_void_result_partial",
    "C92_void_result_refuted",
    "C92_missing_return_refuted"
   ],
   "note": "Holds for type !void under the condition of C91. Refuted: a body c && ({ return; }) gets no return; for every other type the state is never asked for, so a function whose type is written is accepted whatever its paths do."
  },
  {
   "property": "C93",
   "status": "partial",
   "theorems": [
    "C93_branch_partial",
    "C93_list_refuted",
    "C93_else_lost_refuted",
    "C93_bare_else_refuted"
   ],
   "note": "Exact: holds iff no branch passed over has an import of a list of entities (skipUntil stops at its closing brace) and imports marked test of the taken branch can be left out (C94). Refuted also: an else without braces is accepted only if the condition is false. Not modelled: the expression of the condition (C45, C46, C56), cSources, modules that fail to compile."
  },
  {
   "property": "C94",
   "status": "partial",
   "theorems": [
    "C94_import_partial",
    "C94_list_refuted",
    "C94_alias_refuted"
   ],
   "note": "Exact: holds iff testing, or the import is not marked, or it is of one entity or a whole module without an alias. Refuted: a list in braces is always an error (its closing brace is not taken), so is an entity with an alias; the alias of a module is left in the input."
  },
  {
   "property": "C95",
   "status": "partial",
   "theorems": [
    "C95_macros_expand_partial",
    "C95_more_time_same_result",
    "C95_arity_checked",
    "C95_parameter_named_like_macro_refuted",
    "C95_arguments_are_captured_refuted",
    "C95_scope_is_dynamic_refuted",
    "C95_recursion_is_reported_refuted"
   ],
   "note": "Proved for parameters that are distinct and unlike all macros, and code that uses no parameters of other macros. Refuted beyond: a macro hides a parameter of its name, a builtin macro in an argument is captured by a parameter, parameters are visible in the bodies of macros called, recursion never ends. Not modelled: variadic macros, empty and multi-node bodies, compile-time if, the parameter \"_\", public declarations of the builtin module."
  },
  {
   "property": "C96",
   "status": "partial",
   "theorems": [
    "C96_members_partial",
    "C96_decided",
    "C96_empty_branch_refuted",
    "C96_first_of_branch_refuted"
   ],
   "note": "Proved if no taken branch is empty (the compiler reads a null pointer otherwise, exactly then) and branches that stay do not begin with a decided #if of more than one node (all but its first node are lost); without open conditions the second condition is not needed. Not modelled: #if among statements, whose branch is one node, #for and #while, conditions that declare a variable."
  },
  {
   "property": "C97",
   "status": "partial",
   "theorems": [
    "C97_functions_partial",
    "C97_required",
    "C97_complete_exact",
    "C97_first_type_used",
    "C97_own_defaults_partial",
    "C97_function_types_refuted",
    "C97_own_defaults_refuted"
   ],
   "note": "Proved for functions without variadic parameter. Refuted for function types: the place of their defaults is not checked, so calls stay too short or the compiler follows a null pointer, and types that differ in defaults only are the same type, with the defaults of the first; exact otherwise. Not modelled: choice among overloads (C79), types of arguments, variadic parameters, [this]."
  },
  {
   "property": "C98",
   "status": "partial",
   "theorems": [
    "C98_members",
    "C98_store_exact",
    "C98_check_exact",
    "C98_code_exact",
    "C98_runs",
    "C98_one_outcome",
    "C98_handled_exact",
    "C98_handled_refuted",
    "C98_code_refuted",
    "C98_store_refuted"
   ],
   "note": "The choice of the case is proved for all inputs. Refuted: a match without default that leaves out a member is accepted and aborts at run time; two cases for one type under different names are accepted and give equal C labels; a wrapped (const) member is never found by number, so a value of it fails an assertion. All three exact otherwise. Not modelled: types of bodies, returns, unions reached through pointers or references, forward declared types, whether a const member can be written directly (it comes from the type of a const variable)."
  }
 ]
}
