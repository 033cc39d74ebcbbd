{
 "claims": [
  {
   "property": "C01",
   "status": "proved",
   "theorems": [
    "url_decode_encode",
    "url_encode_alphabet"
   ],
   "note": "all byte strings"
  },
  {
   "property": "C02",
   "status": "proved",
   "theorems": [
    "url_decode_exact",
    "unescaped_functional"
   ],
   "note": "the specification relation is shown functional"
  },
  {
   "property": "C03",
   "status": "proved",
   "theorems": [
    "url_parse_exact",
    "url_parse_rejects",
    "url_text_functional",
    "host_port_functional"
   ],
   "note": "parts are unique by the functional theorems"
  },
  {
   "property": "C04",
   "status": "partial",
   "theorems": [
    "url_query_round_trip_partial",
    "url_query_multi_partial",
    "url_query_round_trip_refuted"
   ],
   "note": "false for keys containing NUL bytes (refuted); proved for NUL-free keys and arbitrary values"
  },
  {
   "property": "C05",
   "status": "proved",
   "theorems": [
    "mem_write_digits",
    "mem_read_after_write",
    "mem_read_any",
    "mem_write_in_place",
    "mem_read_in_place"
   ],
   "note": "All integer widths, signedness and byte orders of std/mem, plus the in-place C accessors of utils/helper.h with their frame. Floats are moved through the same integer functions by memmove and are represented by their bits."
  },
  {
   "property": "C06",
   "status": "proved",
   "theorems": [
    "C06_sort_orders_and_permutes"
   ],
   "note": "The whole of vec.sort (pdqsort with insertion sort, heap sort and pattern breaking), any length, any strict weak order, stateful comparators allowed."
  },
  {
   "property": "C07",
   "status": "proved",
   "theorems": [
    "C07_sort_safe_with_any_comparator"
   ],
   "note": "No hypothesis on the comparator except that it does not itself modify the vector while it is being sorted."
  },
  {
   "property": "C08",
   "status": "proved",
   "theorems": [
    "C08_search_finds_first",
    "C08_search_total"
   ],
   "note": "Binary search with a monotone predicate; totality with any predicate."
  },
  {
   "property": "C09",
   "status": "partial",
   "theorems": [
    "vec_values_partial",
    "vec_slice_contents",
    "vec_isolation",
    "vec_thrown_no_change",
    "vec_new_refuted",
    "vec_append_refuted",
    "vec_values_refuted"
   ],
   "note": "Value semantics for all histories of new, cap_of, push, append, index read/write, concat, copy, len, up to 2^30-1 elements per vector and default elements of at most 8 bytes. Slices: contents at creation, isolation between sharing groups, no change on throw, for all programs. The full statement is false: vec.new over-reads for wide elements and append truncates its capacity to 32 bits (refuted theorems)."
  },
  {
   "property": "C10",
   "status": "proved",
   "theorems": [
    "vec_slice_aliasing",
    "vec_slice_push_keeps_parent"
   ],
   "note": "Any interleaving of pushes and index writes on parent and slice, from any reachable state."
  },
  {
   "property": "C11",
   "status": "partial",
   "theorems": [
    "map_finite_map_partial",
    "map_int_keys_partial",
    "map_string_keys_partial"
   ],
   "note": "Full refinement to a finite map for every history, hash function and key type; int keys and NUL-free string keys compare by value. Missing: the runtime may abort after four deletions (C12) and keys with equal C-string texts are conflated (C13)."
  },
  {
   "property": "C12",
   "status": "partial",
   "theorems": [
    "map_no_abort_partial",
    "map_no_abort_refuted"
   ],
   "note": "False of the code: 21 operations with 4 deletions abort. Proved for histories with at most 3 deletions, which is sharp."
  },
  {
   "property": "C13",
   "status": "partial",
   "theorems": [
    "key_texts_differ_partial",
    "string_keys_refuted",
    "struct_keys_refuted"
   ],
   "note": "Holds for integers and NUL-free strings; false for strings with NUL bytes and for structs. Sets use the same key texts."
  },
  {
   "property": "C14",
   "status": "partial",
   "theorems": [
    "set_partial",
    "set_int_partial",
    "set_delete_then_add_refuted",
    "set_delete_chain_refuted",
    "set_delete_absent_refuted"
   ],
   "note": "Exact for histories without deletion; deletion is broken in three ways, each refuted with a witness."
  },
  {
   "property": "C15",
   "status": "proved",
   "theorems": [
    "channel_fifo",
    "channel_runs"
   ],
   "note": "Every run of any number of coroutines over any channels: send, recv, try forms, close, select. Wait queues are lists in the model; the linked-list code and thread-level interleaving inside one locked section are trusted."
  },
  {
   "property": "C16",
   "status": "proved",
   "theorems": [
    "channel_capacity",
    "channel_capacity_new"
   ],
   "note": ""
  },
  {
   "property": "C17",
   "status": "proved",
   "theorems": [
    "channel_close_wakes",
    "channel_closed"
   ],
   "note": "A select send case on a closed channel is chosen without effect instead of throwing."
  },
  {
   "property": "C18",
   "status": "partial",
   "theorems": [
    "select_locks",
    "select_no_deadlock",
    "select_park_unlocks_partial",
    "select_one_case",
    "channel_runs",
    "select_park_double_unlock_refuted",
    "select_repeated_channel_refuted"
   ],
   "note": "Locks in one global order and at most one case proved. \"Releases each exactly once\" is false when a channel appears twice with another between: selpark_commit unlocks it twice."
  },
  {
   "property": "C19",
   "status": "proved",
   "theorems": [
    "mutex_exclusion"
   ],
   "note": "Any number of coroutines, one shared access per step, all interleavings, both modes. The retry loops of can_semacquire and atomic_add_int64 are single steps; sequentially consistent memory."
  },
  {
   "property": "C20",
   "status": "partial",
   "theorems": [
    "await_exactly_once_partial",
    "scheduler_sound",
    "await_two_awaiters_refuted"
   ],
   "note": "Exactly once, not before the end, not lost: proved for every history in which no second coroutine awaits the same one after it; with a second awaiter the first is forgotten for good (await_two_awaiters_refuted). scheduler_sound: at most once in the run queues, never resumed while its stack is in use."
  },
  {
   "property": "C21",
   "status": "partial",
   "theorems": [
    "gc_concurrent_partial",
    "gc_concurrent_filling_partial",
    "gc_concurrent_refuted"
   ],
   "note": "False in general: the write barrier shades the object written to instead of the reference it overwrites, so an object held only by an already scanned stack is freed (refuted with a trace). Proved for every interleaving in which no store overwrites a reference to an object the collector has not found yet, in particular when stores only fill nil fields. Missing: the other stores. Stack frames are abstracted to lists of variables."
  },
  {
   "property": "C22",
   "status": "partial",
   "theorems": [
    "gc_paused_exact_partial",
    "gc_paused_runs",
    "gc_paused_ends",
    "gc_starts_unmarked",
    "gc_crossing_refuted"
   ],
   "note": "Marking and sweeping keep exactly the objects reachable from the roots, for every history, every distribution of roots and every order of turns, and marking ends. Missing: objects that cross an arena (refuted: the collector leaves the bitmap), and the finding of roots on stacks and in globals, which are an argument."
  },
  {
   "property": "C23",
   "status": "partial",
   "theorems": [
    "sizeclass_fits",
    "sizeclass_smallest_partial",
    "sizeclass_smallest_refuted",
    "spanclass_packs"
   ],
   "note": "Fit and span layout hold for every size from 1 to 32768. \"No smaller class\" holds for every size but 2, where the fast path picks class 2 (16 bytes) although class 1 (8 bytes) suffices: refuted."
  },
  {
   "property": "C24",
   "status": "proved",
   "theorems": [
    "pages_sound",
    "pages_alloc_free"
   ],
   "note": "All histories of allocations and frees, any kernel answers: live runs disjoint, aligned, inside the heap and kernel mappings; used bits = live runs; alloc then free restores every used bit. Requests are at most 2^40 pages."
  },
  {
   "property": "C25",
   "status": "proved",
   "theorems": [
    "summaries_exact",
    "summary_unique"
   ],
   "note": "All five levels, after every history; the specification fixes the three numbers uniquely."
  },
  {
   "property": "C26",
   "status": "partial",
   "theorems": [
    "pages_found_partial",
    "demand_16g_partial",
    "window_refuted"
   ],
   "note": "False as stated: after 16 GiB in use, the next page aborts (32 GiB per summary entry in the window computation, 16 GiB in fact; assert on the first entry). Proved for runs inside the first 16 GiB and histories with total demand up to 16 GiB."
  },
  {
   "property": "C27",
   "status": "proved",
   "theorems": [
    "objects_apart",
    "malloc_apart",
    "sweep_keeps_marked"
   ],
   "note": "Invariant over all histories of allocations (any processor), marks anywhere in a span and sweeps; requests up to 2 GiB."
  },
  {
   "property": "C28",
   "status": "partial",
   "theorems": [
    "pointer_map_exact_partial",
    "pointer_map_frame",
    "pointer_map_array",
    "pointer_map_exact_refuted",
    "collector_reads_map_partial",
    "collector_visits_mask",
    "collector_crossing_refuted"
   ],
   "note": "Writing is exact for every type with a mask, for all positions and sizes and across arenas, through any history of allocations; no other word changes. The storage of vectors is marked as all pointers: nothing is missed, but 'exactly' is refuted. On the reading side the collector is exact inside one arena and reads out of bounds for every object that crosses into another arena (refuted)."
  },
  {
   "property": "C29",
   "status": "partial",
   "theorems": [
    "counter_small_partial",
    "counter_refuted",
    "counter_stray_refuted"
   ],
   "note": "Exact while only small objects are allocated and only allocated slots are marked; false in general: one object of 32769 bytes makes the counter wrap below zero on its first sweep."
  },
  {
   "property": "C30",
   "status": "partial",
   "theorems": [
    "bitmap_set_one",
    "bitmap_clear_one",
    "bitmap_set_range",
    "bitmap_clear_range",
    "bitmap_test_bit",
    "bitmap_empty_prefix",
    "bitmap_last_write",
    "bitmap_grow_set_partial",
    "bitmap_grow_set_refuted",
    "bitmap_count_first_eighth",
    "bitmap_count_refuted"
   ],
   "note": "The stated property is proved for every bitmap, index and range. Partial only because of two further functions: growing a bitmap of size 0 writes out of bounds, and the population count looks at the first eighth of the bits."
  },
  {
   "property": "C31",
   "status": "partial",
   "theorems": [
    "fixalloc_disjoint_partial",
    "fixalloc_disjoint_refuted"
   ],
   "note": "Proved for every history when the block size is at most 8192 bytes; for larger sizes a fresh chunk is one page and the block runs past it: refuted at 8200."
  },
  {
   "property": "C32",
   "status": "partial",
   "theorems": [
    "arena_sound_partial",
    "arena_alloc_succeeds",
    "arena_free_last",
    "arena_free_other",
    "arena_reset",
    "arena_sound_refuted"
   ],
   "note": "Proved for capacities and request sizes below 2^62; a request of 2^63-1 bytes wraps the end address, arena_sound_refuted gives the history."
  },
  {
   "property": "C33",
   "status": "partial",
   "theorems": [
    "find_first_occurrence_refuted",
    "find_after_first_occurrence_partial",
    "find_first_occurrence_partial",
    "contains_iff_occurs_partial",
    "starts_with_iff_prefix",
    "ends_with_iff_suffix",
    "rfind_last_occurrence"
   ],
   "note": "find/contains use libc strstr for patterns of two or more bytes, so NUL bytes break them (refuted with a witness). Proved for NUL-free strings and one-byte patterns; rfind, starts_with and ends_with proved for all strings. An empty pattern returns -1 by design of the code and is outside the statement."
  },
  {
   "property": "C34",
   "status": "partial",
   "theorems": [
    "replace_all_occurrences_partial",
    "replaced_deterministic",
    "replace_all_occurrences_refuted"
   ],
   "note": "Same NUL restriction as C33; refuted without it."
  },
  {
   "property": "C35",
   "status": "partial",
   "theorems": [
    "join_split_refuted",
    "join_split_partial",
    "split_join_single_partial",
    "join_is_joined"
   ],
   "note": "split drops a trailing empty field, so join(split(s)) = s is refuted; proved up to one missing trailing separator."
  },
  {
   "property": "C36",
   "status": "partial",
   "theorems": [
    "to_int_accepts_exactly",
    "to_int_all_ints_refuted",
    "int_round_trip_partial",
    "int_round_trip_large_throws",
    "int_round_trip_refuted"
   ],
   "note": "round trip proved for |n| <= 2147483649; to_int rejects larger magnitudes (refuted)"
  },
  {
   "property": "C37",
   "status": "partial",
   "theorems": [
    "itos_with_numeral_partial",
    "utos_with_numeral_partial",
    "hex_numeral_partial",
    "numerals_functional",
    "itos_min_refuted",
    "itos_min_i64_refuted",
    "itos_blank_zero_refuted"
   ],
   "note": "refuted for the minimum of a signed type and for 0 padded with blanks; proved for all other values, widths and both fills"
  },
  {
   "property": "C38",
   "status": "proved",
   "theorems": [
    "ltrim_maximal_prefix",
    "rtrim_maximal_suffix",
    "trim_both_ends",
    "to_lower_letters",
    "to_upper_letters",
    "case_preserves_length",
    "case_idempotent",
    "reverse_involution"
   ],
   "note": "The cut characters are the first bytes of the listed strings; an empty string in the list panics (hypothesis). The cut set is modelled as a list of members."
  },
  {
   "property": "C39",
   "status": "proved",
   "theorems": [
    "string_comparisons",
    "string_order_total"
   ],
   "note": "memcmp is modelled after ISO C (first differing byte, unsigned)."
  },
  {
   "property": "C40",
   "status": "partial",
   "theorems": [
    "path_base_last_name",
    "path_join_follows",
    "path_join_absolute",
    "path_dir_base_partial",
    "path_dir_trailing_slash",
    "path_dir_base_refuted"
   ],
   "note": "base and join fully; the dir/base law holds for paths not ending in a slash and for all-slash paths, and is refuted for \"a/b/\"."
  },
  {
   "property": "C41",
   "status": "proved",
   "theorems": [
    "json_string_round_trip",
    "repaired_valid",
    "json_valid_string_round_trip",
    "json_strings_read_are_utf8"
   ],
   "note": "All byte strings."
  },
  {
   "property": "C42",
   "status": "proved",
   "theorems": [
    "json_parse_exact",
    "json_parse_total",
    "json_document_functional",
    "json_value_round_trip",
    "json_too_deep",
    "json_deep_value_rejected"
   ],
   "note": "Dynamic values (any): null, bool, string, json.number, [any], {string:any}. parse is proved to accept exactly an inductively defined grammar (RFC 8259 plus the documented U+FFFD leniency). Error messages and the machine stack are not modelled; the depth bound is what keeps the recursion finite."
  },
  {
   "property": "C43",
   "status": "proved",
   "theorems": [
    "json_number_exact",
    "json_number_token_taken",
    "json_number_token_only"
   ],
   "note": ""
  },
  {
   "property": "C44",
   "status": "partial",
   "theorems": [
    "json_i64_round_trip_refuted",
    "json_signed_round_trip_partial",
    "json_unsigned_round_trip_partial",
    "json_smallest_lost_refuted"
   ],
   "note": "False in general: integers pass through f64, so 2^53+1 changes, the largest i64 leaves the range and the smallest value of every signed type is not written as a number. Proved for |n| <= 2^53. The proofs use Flocq and so the axioms of the standard library's real numbers."
  },
  {
   "property": "C45",
   "status": "proved",
   "theorems": [
    "json_reader_chunking",
    "json_reader_chunking_later",
    "json_reader_total"
   ],
   "note": ""
  },
  {
   "property": "C46",
   "status": "proved",
   "theorems": [
    "reader_delivers_the_stream",
    "reader_error_only_at_the_end",
    "reader_error_only_at_the_end_refuted"
   ],
   "note": "History theorem for any buffer size, any underlying answers (data, short reads, empty reads, EOF, failures) and any calls. Errors are reported only at the end when the underlying reader always answers with bytes and no call asks for zero bytes; a zero-length read marks end of file early (refuted theorem)."
  },
  {
   "property": "C47",
   "status": "partial",
   "theorems": [
    "until_bytes_stay_partial",
    "until_bytes_stay_refuted"
   ],
   "note": "False as stated: the vector returned by read_until shares the internal buffer and the next fetch overwrites it. Partial: it keeps its bytes while later calls are answered from bytes already fetched."
  },
  {
   "property": "C48",
   "status": "proved",
   "theorems": [
    "writer_passes_on_what_it_accepts",
    "writer_flush_leaves_nothing",
    "writer_throws_only_when_refused"
   ],
   "note": "Any buffer size and any underlying writer that accepts part of what it is given or throws after part of it."
  },
  {
   "property": "C49",
   "status": "proved",
   "theorems": [
    "buffer_is_a_queue",
    "buffer_write_byte_count_refuted"
   ],
   "note": "Over the shared heap of vectors, with the calling program changing its own vectors; total bytes written below 2^31-1 (the limit of C09). The count returned by the module-private write_byte is wrong (refuted theorem)."
  },
  {
   "property": "C50",
   "status": "proved",
   "theorems": [
    "blowfish_inverse",
    "blowfish_keys",
    "blowfish_injective"
   ],
   "note": "For every key schedule, block and destination; every key of 1 to 56 bytes gives such a schedule."
  },
  {
   "property": "C51",
   "status": "proved",
   "theorems": [
    "bcrypt_accepts",
    "base64_lossless"
   ],
   "note": "For every password, cost and salt. The random salt is an argument."
  },
  {
   "property": "C52",
   "status": "partial",
   "theorems": [
    "bcrypt_rejects_partial",
    "bcrypt_rejects_refuted",
    "bcrypt_long_refuted"
   ],
   "note": "Proved up to the cryptographic assumption that different key texts have different digests, for passwords without NUL. Refuted for p and p NUL p, and for a password of 72 bytes with more behind it."
  },
  {
   "property": "C53",
   "status": "proved",
   "theorems": [
    "to_hex_denotes",
    "to_hex_injective"
   ],
   "note": ""
  },
  {
   "property": "C54",
   "status": "partial",
   "theorems": [
    "chunked_body_delivered_partial",
    "chunked_reader_is_a_source_partial",
    "chunked_text_partial",
    "chunked_body_refuted"
   ],
   "note": "Size and trailer lines must fit the connection's 4096-byte buffer; a longer size line is refuted with a witness."
  },
  {
   "property": "C55",
   "status": "partial",
   "theorems": [
    "server_response_framed_partial",
    "server_response_framed_refuted",
    "server_to_client"
   ],
   "note": "Headers set by the program must be single lines and must not be a Content-Length themselves; both cases are refuted with witnesses."
  },
  {
   "property": "C56",
   "status": "proved",
   "theorems": [
    "runq_order",
    "runq_no_leak",
    "waitlist_order",
    "waitlist_nodes_distinct"
   ],
   "note": "runq_*: the run queues (rt_linked.h) at pointer level. waitlist_*: the mutex's lists (linkco.h) with the per-processor caches and the global chain their nodes move between (linkco.c)."
  },
  {
   "property": "C57",
   "status": "proved",
   "theorems": [
    "malloc_zeroed",
    "sweep_preserves"
   ],
   "note": "Every allocation returns zeroed memory and a sweep changes no byte of a marked object; requests up to 2 GiB."
  },
  {
   "property": "C58",
   "status": "proved",
   "theorems": [
    "gcbits_private",
    "gcbits_disjoint"
   ],
   "note": "The calls are made with the memory lock held or the world stopped, so each is one step; span slot counts up to 524160 (real spans have at most 1024)."
  },
  {
   "property": "C59",
   "status": "partial",
   "theorems": [
    "bytes_to_string_partial",
    "bytes_to_string_refuted"
   ],
   "note": "Proved for vectors without zero bytes under any history; false for vectors with zero bytes of at most 7 bytes."
  },
  {
   "property": "C60",
   "status": "partial",
   "theorems": [
    "sprintf_concatenates_partial",
    "sprintf_total_refuted"
   ],
   "note": "proved for well-formed formats with matching non-float arguments; a format ending inside a directive panics (refuted)"
  },
  {
   "property": "C61",
   "status": "proved",
   "theorems": [
    "map_iteration"
   ],
   "note": "For every history that does not abort."
  },
  {
   "property": "C62",
   "status": "partial",
   "theorems": [
    "huge_object_refuted"
   ],
   "note": "False: an object of more than 2 GiB overflows the int loop of mheap_set_spans."
  },
  {
   "property": "C63",
   "status": "partial",
   "theorems": [
    "channel_successful_refuted"
   ],
   "note": "False: the flag is never set to true."
  },
  {
   "property": "C64",
   "status": "proved",
   "theorems": [
    "mutex_no_lost_wakeup"
   ],
   "note": "Progress is: somebody holds the mutex or can take a step. Fair scheduling is outside the model."
  },
  {
   "property": "C65",
   "status": "partial",
   "theorems": [
    "mutex_never_breaks",
    "mutex_assertions_partial",
    "mutex_assertions_refuted"
   ],
   "note": "Proved for builds without assertions. With assertions the one at rt_mutex.c:270, evaluated without the list lock, can fail (witness); no other can."
  },
  {
   "property": "C66",
   "status": "partial",
   "theorems": [
    "await_error_delivered_partial",
    "await_error_refuted"
   ],
   "note": "Holds when the wait began before the failure; if the coroutine fails first the program exits (await_error_refuted)."
  },
  {
   "property": "C67",
   "status": "proved",
   "theorems": [
    "lookup_finds_objects"
   ],
   "note": "Holds after every history, marks and write barrier included, whatever the kernel grants."
  },
  {
   "property": "C68",
   "status": "proved",
   "theorems": [
    "gc_garbage_freed"
   ],
   "note": "For every interleaving, without any condition on the stores."
  },
  {
   "property": "C69",
   "status": "partial",
   "theorems": [
    "json_reader_agrees_refuted",
    "json_reader_agrees_partial",
    "json_reader_not_early",
    "json_reader_value_is_parse"
   ],
   "note": "False for a bare number or literal at the end of the input, which the reader never reports complete. Proved for every other document."
  },
  {
   "property": "C70",
   "status": "partial",
   "theorems": [
    "read_line_returns_the_lines_partial",
    "read_line_returns_the_lines_refuted"
   ],
   "note": "False as stated: a line as long as the buffer (4096) comes back as two lines. Partial: all streams whose runs without a line feed are shorter than the buffer, with an underlying reader that answers every call with bytes until the end."
  },
  {
   "property": "C71",
   "status": "partial",
   "theorems": [
    "truncation_reported_partial",
    "truncation_reported_refuted"
   ],
   "note": "Proved for bodies announced by Content-Length, for every behaviour of the connection; refuted for chunked bodies."
  },
  {
   "property": "C72",
   "status": "partial",
   "theorems": [
    "client_reads_response_partial",
    "client_reads_response_refuted"
   ],
   "note": "Header lines that fit the buffer, spaces (not tabs) around values, lengths up to 2147483649, names spelled Content-Length and Transfer-Encoding; other spellings, bodies delimited by the end of the connection and larger lengths are refuted."
  },
  {
   "property": "C73",
   "status": "partial",
   "theorems": [
    "client_request_framed_partial",
    "client_request_framed_refuted"
   ],
   "note": "Headers must be single lines; a length header in other letters is refuted."
  },
  {
   "property": "C74",
   "status": "partial",
   "theorems": [
    "handler_sees_request_partial",
    "handler_sees_request_refuted"
   ],
   "note": "Proved when each part of the request arrives in one read, realloc does not move the buffer and there are at most 100 headers. Refuted for a body in two reads and for two requests in one read."
  },
  {
   "property": "C75",
   "status": "partial",
   "theorems": [
    "server_reads_in_bounds_partial",
    "server_memory_safe_refuted"
   ],
   "note": "Reads and callbacks stay in bounds for fewer than 100 headers. Refuted: the 101st header is written past the array, and a moved buffer leaves the recorded addresses dangling."
  },
  {
   "property": "C76",
   "status": "partial",
   "theorems": [
    "words_partial",
    "words_refuted"
   ],
   "note": "True for all words except eleven (e32, e64, eor, ealse, v8, v16, v32, v64, vint, vnion, meturn), which missing breaks turn into keywords; refuted with v8."
  },
  {
   "property": "C77",
   "status": "proved",
   "theorems": [
    "scan_grammar",
    "grammar_unambiguous"
   ],
   "note": "The grammar of Scanner_spec.v counts the eleven accidental words and the comment slash-star-slash, which C76 and C81 refute. Columns are not modelled."
  },
  {
   "property": "C78",
   "status": "proved",
   "theorems": [
    "string_literals",
    "string_spellings"
   ],
   "note": ""
  },
  {
   "property": "C79",
   "status": "proved",
   "theorems": [
    "radix_literals",
    "radix_overflow"
   ],
   "note": ""
  },
  {
   "property": "C80",
   "status": "partial",
   "theorems": [
    "scan_safe_partial",
    "scan_safe_lines_partial",
    "scan_safe_refuted"
   ],
   "note": "True unless the source ends inside a string that is not closed; then the scanner steps over the NUL byte. In particular true for sources that end with a line feed and have no back quote."
  },
  {
   "property": "C81",
   "status": "partial",
   "theorems": [
    "comments_partial",
    "comments_refuted"
   ],
   "note": "Stated for a comment between two words; true unless the comment text begins with a slash, because slash-star-slash is taken as a whole comment. In any other place of a program comments are covered by C77."
  },
  {
   "property": "C82",
   "status": "proved",
   "theorems": [
    "layout_rule",
    "member_offsets",
    "members_apart",
    "elements_apart"
   ],
   "note": "Sizes are unbounded integers; overflow of int64_t for arrays larger than memory is not modelled."
  },
  {
   "property": "C83",
   "status": "partial",
   "theorems": [
    "gc_maps_partial",
    "globals_scanned_partial",
    "object_maps",
    "gc_map_any_refuted",
    "gc_map_struct_refuted"
   ],
   "note": "Proved for every type except any, structs of 64 KiB and more, and the handles fn, chan and coroutine whose description is of the object pointed to. The two refutations are bugs of the code: rtype_any marks the wrong word only, rtype_struct keeps the end of the last pointer in a uint16_t."
  },
  {
   "property": "C84",
   "status": "proved",
   "theorems": [
    "dominators_exact",
    "immediate_dominators",
    "frontiers_exact"
   ],
   "note": "For functions of at most 65535 blocks; with more the code writes behind an array (calc_dom_blocks in the model is then undefined)."
  },
  {
   "property": "C85",
   "status": "partial",
   "theorems": [
    "liveness_partial",
    "liveness_right",
    "liveness_ends_refuted"
   ],
   "note": "Exact whenever it ends, and it ends with fewer than 256 variables. The analysis never ends for a function with 256 variables needed at one place: liveness_ends_refuted."
  },
  {
   "property": "C86",
   "status": "partial",
   "theorems": [
    "ssa_meaning_partial",
    "ssa_meaning_refuted",
    "ssa_aborts_refuted"
   ],
   "note": "Proved for functions in which every variable is assigned in one block only or needs a phi; without that condition the renaming leaks a name into the sibling branch (refuted with a witness)."
  },
  {
   "property": "C87",
   "status": "partial",
   "theorems": [
    "ssa_single_assignment_partial",
    "ssa_single_assignment_refuted",
    "ssa_aborts_refuted"
   ],
   "note": "Proved within the sizes the code has room for; 129 assignments of one variable give one name to two places."
  },
  {
   "property": "C88",
   "status": "proved",
   "theorems": [
    "cfg_meaning",
    "cfg_total"
   ],
   "note": ""
  },
  {
   "property": "C89",
   "status": "proved",
   "theorems": [
    "cfg_graph"
   ],
   "note": ""
  },
  {
   "property": "C90",
   "status": "partial",
   "theorems": [
    "critical_edges_gone_partial",
    "critical_edges_refuted"
   ],
   "note": "False in general: the loop over the predecessors skips one after each split. Proved for blocks with at most one critical edge into them."
  },
  {
   "property": "C91",
   "status": "proved",
   "theorems": [
    "return_check_exact",
    "accepted_returns"
   ],
   "note": "ret_check, the similar check for match and catch, is not modelled."
  },
  {
   "property": "C92",
   "status": "partial",
   "theorems": [
    "parallel_moves_partial",
    "parallel_moves_refuted"
   ],
   "note": "False in general. Proved when every operation depends on at most one place another one writes. Sizes of operands are left out."
  },
  {
   "property": "C93",
   "status": "proved",
   "theorems": [
    "edge_moves"
   ],
   "note": "Constants that are computed again instead of moved are not modelled, nor where in the block the moves are put."
  },
  {
   "property": "C94",
   "status": "proved",
   "theorems": [
    "interval_covers",
    "interval_add_range",
    "interval_meeting",
    "interval_overlap",
    "interval_split",
    "interval_split_position",
    "interval_uses",
    "interval_next_use"
   ],
   "note": "interval_add_range says \"exactly\" for ranges added from the back to the front, as the compiler does; otherwise the gap before is filled too."
  },
  {
   "property": "C95",
   "status": "proved",
   "theorems": [
    "allocation_ends",
    "allocation_complete"
   ],
   "note": "The preferred register is an argument. The intervals, hints and moves at splits are not modelled, nor variables that have a register before; failed assertions are an outcome of their own."
  },
  {
   "property": "C96",
   "status": "partial",
   "theorems": [
    "allocation_distinct_partial",
    "allocation_distinct_refuted"
   ],
   "note": "False in general; proved for runs in which the positions handled never go back. Whether they do is read off the run."
  },
  {
   "property": "C97",
   "status": "partial",
   "theorems": [
    "c97_code_does_what_it_says_partial",
    "c97_store_word_refuted",
    "c97_add_zero_refuted",
    "c97_load_offset_refuted",
    "c97_shift_word_refuted",
    "c97_call_refuted",
    "c97_jump_range_refuted"
   ],
   "note": "False for the operands listed in the refuted theorems; proved for all others. The decoder and the effect of instructions are a specification written from the RISC-V manual; floating-point arithmetic and the system call are arbitrary functions."
  },
  {
   "property": "C98",
   "status": "proved",
   "theorems": [
    "c98_load_constant",
    "c98_stack_pointer_refuted"
   ],
   "note": ""
  },
  {
   "property": "C99",
   "status": "partial",
   "theorems": [
    "C99_assembling_always_succeeds",
    "C99_other_instructions_are_kept",
    "C99_jumps_reach_their_labels_partial",
    "C99_jumps_reach_other_modules_partial",
    "C99_entries_for_the_linker_partial",
    "C99_jumps_reach_their_labels_refuted",
    "C99_jumps_reach_other_modules_refuted",
    "C99_jump_to_itself_refuted"
   ],
   "note": "Missing: names whose address was used earlier in the text (false of the code), and jumps to themselves (false of the code)."
  },
  {
   "property": "C100",
   "status": "partial",
   "theorems": [
    "C100_branches",
    "C100_compressed_branches",
    "C100_compressed_jumps",
    "C100_jumps_partial",
    "C100_jumps_refuted",
    "C100_address_pairs_partial",
    "C100_address_pairs_refuted",
    "C100_address_parts_partial",
    "C100_address_parts_refuted",
    "C100_absolute_addresses_partial",
    "C100_absolute_addresses_refuted",
    "C100_thread_local_partial",
    "C100_numbers",
    "C100_six_bit_numbers",
    "C100_sixteen_bit_numbers_refuted",
    "C100_grouped_numbers_partial",
    "C100_grouped_numbers_refuted"
   ],
   "note": "Missing: targets out of range (accepted by the code, refuted) and grouped numbers that get shorter (refuted). Relocations through the tables for shared libraries are not modelled."
  },
  {
   "property": "C101",
   "status": "partial",
   "theorems": [
    "C101_other_instructions_are_kept",
    "C101_jumps_reach_their_labels_partial",
    "C101_calls_and_jumps_elsewhere_partial",
    "C101_entries_for_the_linker_partial",
    "C101_jumps_reach_their_labels_refuted",
    "C101_far_jumps_refuted"
   ],
   "note": "Missing: names whose address was used earlier in the text (false of the code), and jumps over more than 1 MiB (false of the code)."
  },
  {
   "property": "C102",
   "status": "partial",
   "theorems": [
    "C102_amd64_encode_partial",
    "C102_amd64_encode_safe",
    "C102_amd64_usual_encode",
    "C102_amd64_encode_injective",
    "C102_amd64_rsp_refuted",
    "C102_amd64_r13_refuted",
    "C102_amd64_add_byte_refuted",
    "C102_amd64_xor_high_xmm_refuted",
    "C102_amd64_high_byte_refuted",
    "C102_amd64_xor_memory_refuted"
   ],
   "note": "Missing: exactly the six cases refuted, which the code gets wrong; shifts by a register other than cl, which do not exist."
  },
  {
   "property": "C103",
   "status": "partial",
   "theorems": [
    "C103_amd64_address",
    "C103_amd64_address_encodable_partial",
    "C103_amd64_address_r13_refuted",
    "C103_amd64_address_far_refuted",
    "C103_amd64_stack_slot",
    "C103_amd64_number",
    "C103_amd64_small_number",
    "C103_amd64_load_number"
   ],
   "note": "Missing: offsets beyond 32 bits, and rbp or r13 with index and offset (both false of the code). Floats are not modelled."
  },
  {
   "property": "C104",
   "status": "partial",
   "theorems": [
    "C104_amd64_patch_place_partial",
    "C104_amd64_patched_meaning",
    "C104_amd64_patch_place_refuted"
   ],
   "note": "Missing: instructions that end with a number of the untyped kind (false of the code)."
  },
  {
   "property": "C105",
   "status": "partial",
   "theorems": [
    "C105_scanf_reads",
    "C105_scanf_total",
    "C105_scanf_safe",
    "C105_scanf_overflow_refuted",
    "C105_scanf_width_refuted"
   ],
   "note": "Missing: widths of 2^31 and more (false of the code for %c). For %f the digits and the sign stored are modelled, not the floating-point arithmetic that makes a number of them. The refuted theorems are the parts of the claim that are false."
  },
  {
   "property": "C106",
   "status": "partial",
   "theorems": [
    "C106_scanf_back_partial",
    "C106_scanf_back_string_refuted",
    "C106_scanf_back_empty_refuted",
    "C106_scanf_back_blank_refuted",
    "C106_scanf_back_width_refuted"
   ],
   "note": "Missing: directives with a width (false in general), strings that are not words and the blank (false), floats."
  },
  {
   "property": "C107",
   "status": "partial",
   "theorems": [
    "c107_word_does_what_it_says_partial",
    "c107_wide_constant_refuted",
    "c107_mvn_refuted",
    "c107_ldrb_refuted",
    "c107_ldrsb_refuted",
    "c107_offset_refuted",
    "c107_pair_refuted",
    "c107_zero_refuted",
    "c107_far_branch_refuted"
   ],
   "note": "Missing: the operands outside [covered] in Arm_spec.v, most of which are wrong (the refuted theorems). Floating-point arithmetic and system calls are parameters of the machine."
  },
  {
   "property": "C108",
   "status": "proved",
   "theorems": [
    "c108_fmov_constant"
   ],
   "note": ""
  },
  {
   "property": "C109",
   "status": "partial",
   "theorems": [
    "c109_read_as_written_partial",
    "c109_accepts_only_expressions_partial",
    "c109_one_reading",
    "c109_parser_ends",
    "c109_tree_or_error_partial",
    "c109_less_than_shift_refuted",
    "c109_not_between_operands_refuted"
   ],
   "note": "Missing: texts where a < is taken for the start of type arguments (an oracle in the model; the full statement is false there), forms of expression with a body or a leading keyword (struct literals, go, match, fn, new, catch, is, macros, map and set literals), casts to types other than built-in ones."
  },
  {
   "property": "C110",
   "status": "partial",
   "theorems": [
    "c110_value_partial",
    "c110_out_of_range_partial",
    "c110_literal_partial",
    "c110_literal_out_of_range_partial",
    "c110_division_by_zero_kept",
    "c110_circular_rejected",
    "c110_ends",
    "c110_large_literal_refuted",
    "c110_negative_u64_refuted",
    "c110_leading_zero_refuted",
    "c110_unsigned_operand_refuted",
    "c110_overflow_refuted"
   ],
   "note": "Proved for plainly written literals and intermediate values in the signed 64-bit range (single literals: any value); the full statement is false outside (refuted). Not modelled: float constants, casts."
  },
  {
   "property": "C111",
   "status": "partial",
   "theorems": [
    "c111_concatenation_partial",
    "c111_nul_refuted"
   ],
   "note": "Proved for literals without NUL; false otherwise (refuted)."
  },
  {
   "property": "C112",
   "status": "partial",
   "theorems": [
    "c112_compiled_partial",
    "c112_any_code_partial",
    "c112_return_after_defer_refuted",
    "c112_operand_order_refuted",
    "c112_if_nan_refuted"
   ],
   "note": "Proved for every body that ends, under side conditions (`ok`, `patient` in Lin_spec.v) that exclude the refuted cases: no `g op call()` with a global on the left, no ordered float comparison as an if condition, `return x` only if no waiting deferred body assigns x, throw not inside a try body, deferred bodies that cannot fail and do not jump out. Missing: bodies that do not end, and match, catch expressions, iteration over containers, select, values of more than one word."
  },
  {
   "property": "C113",
   "status": "partial",
   "theorems": [
    "c113_reverse_order_partial",
    "c112_any_code_partial",
    "c113_failing_defer_refuted"
   ],
   "note": "Under the side conditions of C112 for any nesting (c112_any_code_partial has the defers in its meaning); c113_reverse_order_partial spells out order and number for any list of deferred calls before any statement. False for deferred calls that may fail (refuted)."
  },
  {
   "property": "C114",
   "status": "partial",
   "theorems": [
    "c114_caught_partial",
    "c114_uncaught_partial",
    "c114_throw_in_try_refuted",
    "c114_error_lost_in_defer_refuted"
   ],
   "note": "Under the side conditions of C112; false for throw inside a try body and for deferred calls of functions that handle errors (refuted)."
  },
  {
   "property": "C115",
   "status": "partial",
   "theorems": [
    "c115_keeps_instructions",
    "c115_same_effect_partial",
    "c115_global_refuted",
    "c115_register_readers_refuted"
   ],
   "note": "Proved for every block: it ends, and every instruction stays, once, between the same fixed ones. Same effect is proved for blocks that are `orderly` (Sched_spec.v, decidable): memory shared by two instructions is reached by address and not by the name of a global, a register is read at most once between two writes, a variable is written again only by an instruction that reads it. Without this it is false (refuted). Missing: that the lowerings produce only orderly blocks (amd64 does not, because of globals)."
  },
  {
   "property": "C116",
   "status": "proved",
   "theorems": [
    "c116_encode",
    "c116_round_trip"
   ],
   "note": "For vectors of at most 2^62 bytes (int lengths). Out-of-buffer writes are UB in the model and excluded."
  },
  {
   "property": "C117",
   "status": "proved",
   "theorems": [
    "c117_decode",
    "c117_unique",
    "c117_canonical_refuted"
   ],
   "note": "The refutation shows that text no encoder writes is accepted (bits left over), as the statement says."
  },
  {
   "property": "C118",
   "status": "proved",
   "theorems": [
    "c118_amd64_same"
   ],
   "note": "For blocks typed consistently (operands of an arithmetic instruction share its kind). Memory, calls and all other instructions are arbitrary functions."
  },
  {
   "property": "C119",
   "status": "partial",
   "theorems": [
    "c119_one_round_same",
    "c119_arm64_same_partial",
    "c119_double_refuted",
    "c119_fused_refuted"
   ],
   "note": "One round is right for every block; the whole pass is right for blocks in which nothing is multiplied by two, if fused float instructions are exact. Both conditions are needed: a*b*2 is compiled to code that reads an unassigned variable (c119_double_refuted), and an IEEE fused multiply-add rounds once (c119_fused_refuted)."
  },
  {
   "property": "C120",
   "status": "partial",
   "theorems": [
    "c120_number_tells_types_apart_partial",
    "c120_names_collide_refuted",
    "c120_function_attributes_refuted",
    "c120_union_order_refuted"
   ],
   "note": "Proved for every string hash that does not confuse two of the strings it is given. The 32-bit hash in use confuses main.pckxa and main.ndtrw; a function type that may throw has the number of the one that may not; int|string and string|int are accepted for one another but have different numbers."
  },
  {
   "property": "C121",
   "status": "partial",
   "theorems": [
    "c121_accepted_values_fit_partial",
    "c121_type_accepts_itself",
    "c121_union_named_twice_refuted",
    "c121_union_in_union_refuted",
    "c121_parameters_refuted",
    "c121_shared_vector_refuted"
   ],
   "note": "Proved for destinations that do not name a declared union twice nor inside another union, ignoring parameters of functions and later writes through a shared container. The full claim is refuted in each of these cases; with type num = int|string|bool the checker accepts (num, string) for (num, num)."
  },
  {
   "property": "C122",
   "status": "partial",
   "theorems": [
    "c122_union",
    "c122_any",
    "c122_interface",
    "c122_union_to_any",
    "c122_tagged",
    "c122_tagged_bare",
    "c122_any_fx_refuted",
    "c122_any_fx_partial"
   ],
   "note": "Proved for unions, interfaces, tagged unions, and `any` outside fx code. In fx code an `any` made from a struct or another indirect value refers to the variable itself, so a later write to the variable shows in the box (refuted with a witness); what holds there is that the assertion gives the bytes the variable has at that time."
  },
  {
   "property": "C123",
   "status": "partial",
   "theorems": [
    "c123_first_case_that_fits_partial",
    "c123_subject_evaluated_twice_refuted",
    "c123_field_named_as_member_refuted",
    "c123_last_condition_skipped_refuted"
   ],
   "note": "Proved when the enum conditions written .name are the constants of the enum, the last case of an enum match without default holds nothing else, and a subject whose value is bound is a call or has no effect. Each of the three is needed: match v[next()] { is int x } evaluates the subject twice and can stop with a type error; o.red counts as covering the member red although o.red may hold green; a call in the last case is skipped."
  },
  {
   "property": "C124",
   "status": "partial",
   "theorems": [
    "c124_container_loop",
    "c124_every_element_once",
    "c124_channel_loop_partial",
    "c124_range_loop_partial",
    "c124_closed_channel_refuted",
    "c124_delete_in_loop_refuted",
    "c124_moving_end_refuted"
   ],
   "note": "Containers: proved in full, for bodies with any effect. Channels: proved as long as messages come; on a closed channel the loop never ends and the body is run with values nobody sent (refuted). Ranges: proved for an end that stays the same; the end is evaluated again in front of every round, so its effects repeat and a moving end is followed (refuted). Deleting the visited keys of a map in a loop passes over keys (refuted)."
  },
  {
   "property": "C125",
   "status": "partial",
   "theorems": [
    "c125_ways_out_partial",
    "c125_error_lost_refuted",
    "c125_checked_index_in_defer_refuted",
    "c125_failing_defer_refuted",
    "c125_throw_in_try_refuted",
    "c125_returned_variable_refuted"
   ],
   "note": "Complements C112 to C114, which have flat code with labels and full expressions but no ret, blocks with values, catch expressions, index checks or bodies that do not end. Proved (compilation ends and the code agrees with the meaning, equal for any number of rounds) when deferred blocks cannot fail, do not change a variable returned by name, and throw does not stand inside a try of its function. Each is needed: a catch expression in a deferred block swallows the error that is on its way; an index check in a deferred block together with return makes the compiler recurse for ever; a failing deferred block skips the earlier ones; throw inside try leaves the function; return x returns what a deferred block left in x."
  },
  {
   "property": "C126",
   "status": "partial",
   "theorems": [
    "c126_select",
    "c126_messages_partial",
    "c126_first_ready",
    "c126_message_changed_refuted",
    "c126_no_variable_refuted",
    "c126_closed_refuted"
   ],
   "note": "Complements C18 (locks of the runtime). Proved: compilation, dispatch, default, and that the first pass of the runtime takes the first operation that can go on. False: a variable sent is not copied, so a later case that changes it changes the message; a receive without a variable aborts when a sender is waiting; on a closed channel the body of a receive is run though nothing was received. Pass 2 and 3 of the runtime (parking) are an oracle here, see C15 to C18."
  },
  {
   "property": "C127",
   "status": "partial",
   "theorems": [
    "c127_call",
    "c127_apart",
    "c127_result",
    "c127_result_partial",
    "c127_mixed_result_refuted",
    "c127_mixed_result_swapped_refuted"
   ],
   "note": "Proved: classification, arguments on both sides, disjointness, agreement of results. False for results that mix an integer and a float eightbyte: they are not where C expects them (xmm1 instead of xmm0, rdx instead of rax). Values with an array inside are passed in memory on both sides, where C would use registers for small ones. Not modelled: Windows, the operand kinds of the moves, register allocation behind the hints."
  },
  {
   "property": "C128",
   "status": "partial",
   "theorems": [
    "c128_pair",
    "c128_set",
    "c128_sub",
    "c128_refused",
    "c128_addend_refuted"
   ],
   "note": "Proved with the operand of SUB as symbol minus addend, as the header of the code says. The RISC-V ABI document says symbol plus addend, so the pair is wrong for a SUB with an addend (c128_addend_refuted). Another implementation of ULEB128 writing is in C100. The callers in ld_elf_reloc.c and ld_elf_debug.c are not modelled."
  },
  {
   "property": "C129",
   "status": "proved",
   "theorems": [
    "c129_digest",
    "c129_once",
    "c129_one_digest"
   ],
   "note": "The round constants are checked against the cube roots and the initial values against the square roots of the primes. Messages of 2^64 bits and more are outside the standard."
  }
 ]
}