{"id": "C01", "title": "URL percent-encoding is lossless", "statement": "For every byte string s, url.decode(url.encode(s)) returns s and does not throw; and url.encode(s) contains only unreserved characters, '+' and %XX triples.", "quantifier": "all byte strings of any length, including non-ASCII bytes, '%' and NUL", "why_tests_cant": "The input space is all byte strings; a test picks finitely many and misses bytes such as '%', '+', 0xFF next to a truncated escape.", "anchors": ["std/net/url.n: encode, decode, hex_to_int, int_to_hex"]}
{"id": "C02", "title": "URL decoding replaces exactly the well-formed escapes", "statement": "url.decode never fails; its result is its input with every '%' followed by two hexadecimal digits replaced by the byte they denote, every '+' replaced by a space, and every other byte (including a '%' that starts no well-formed escape) kept.", "quantifier": "all byte strings", "why_tests_cant": "Malformed and truncated escapes at every position, including at the very end of the string, cannot be enumerated.", "anchors": ["std/net/url.n: decode, hex_to_int"]}
{"id": "C03", "title": "URL parsing loses nothing", "statement": "url.parse(u) succeeds exactly when u has the form scheme '://' rest with no ':' in scheme; then u is the scheme, '://', the authority, the path (possibly written as nothing for '/'), an optional '?' and query, an optional '#' and fragment, with each component free of the delimiters that end it; and the authority is the host name, optionally followed by ':' and a port text.", "quantifier": "all byte strings u", "why_tests_cant": "The parser is a state machine over arbitrary input; each delimiter may appear or be absent in any combination.", "anchors": ["std/net/url.n: parse, parse_authority"]}
{"id": "C04", "title": "Query parameters keep their values", "statement": "Parsing a query string built by joining url-encoded key=value pairs with '&' gives back, for each key, the value that was encoded.", "quantifier": "all lists of key/value byte strings with distinct keys", "why_tests_cant": "Values may contain any byte, including '=', '&' and '%'; tests cover a few.", "anchors": ["std/net/url.n: query, query_t.get, encode, decode", "std/http/client.n: request_t.form"]}
{"id": "C05", "title": "Fixed-width integer reads return what was written", "statement": "For every width (8, 16, 32, 64), signedness and byte order, reading an integer at an address just written with the same width and order returns the written value; the bytes written are exactly the two's-complement base-256 digits of the value, and no other byte of the buffer changes.", "quantifier": "all values of the type, all buffers, all offsets", "why_tests_cant": "2^64 values times all buffer contents.", "anchors": ["std/mem/mem.n: read_u16_le .. write_i64_be", "utils/helper.h: read16le/write16le .. read64le/write64le"]}
{"id": "C06", "title": "sort produces an ordered permutation", "statement": "For every vector and every comparison that is a strict weak order, vec.sort terminates, leaves the vector with the same multiset of elements, and no element is less than its predecessor.", "quantifier": "all element sequences of every length, all strict weak orders, including the branch that falls back to heap sort and the pattern-breaking swaps", "why_tests_cant": "The algorithm (pdqsort) chooses between insertion sort, partition and heap sort by data-dependent balance counters; adversarial inputs that reach the fallback are hard to hit by testing.", "anchors": ["std/builtin/vec.n: vec.sort, pdqsort, insertion_sort, heap_sort, sift_down, partition, break_patterns"]}
{"id": "C07", "title": "sort never reads out of range, whatever the comparator", "statement": "vec.sort never indexes outside the vector and always terminates with a permutation of its input, even when the comparator is inconsistent (not an order).", "quantifier": "all vectors, all Boolean-valued comparators", "why_tests_cant": "A test cannot enumerate inconsistent comparators; unguarded partition loops are the classic failure.", "anchors": ["std/builtin/vec.n: partition, pdqsort, sift_down"]}
{"id": "C08", "title": "search finds the first match", "statement": "For every vector whose elements satisfy the predicate on a suffix only, vec.search returns the length of the longest prefix not satisfying it, having evaluated only in-range indices.", "quantifier": "all vectors, all predicates monotone along the vector", "why_tests_cant": "Off-by-one faults of binary search depend on length and position.", "anchors": ["std/builtin/vec.n: vec.search"]}
{"id": "C09", "title": "A vector behaves as a sequence", "statement": "Under any history of push, append, index read, index write, slice, concat and copy, a vector holds exactly the sequence of values those operations denote; an out-of-range index throws and changes nothing; an operation on one vector never changes another vector that does not share storage with it.", "quantifier": "all finite histories of operations on any number of vectors, all element values", "why_tests_cant": "Growth points, shared storage between slices and appends of a vector to itself interact over histories.", "anchors": ["runtime/nutils/vec.c: rti_vec_grow, rt_vec_push, rt_vec_append, rt_vec_slice, rt_vec_copy, rti_vec_access, rti_vec_assign, rt_vec_concat"]}
{"id": "C10", "title": "Slices alias, and pushes to a slice do not clobber the parent", "statement": "A slice shares elements with its parent (a write through one is seen through the other inside the common range), and pushing to a slice never changes any element of the parent.", "quantifier": "all vectors, all valid slice ranges, all later histories of push and index write", "why_tests_cant": "Depends on capacity of the slice and growth over a history.", "anchors": ["runtime/nutils/vec.c: rt_vec_slice, rt_vec_push, rti_vec_grow"]}
{"id": "C11", "title": "A map behaves as a finite map", "statement": "After any history of assignments, deletions and lookups, m[k] returns the value last assigned to k since its last deletion, throws if there is none, contains agrees, and len is the number of keys present.", "quantifier": "all finite histories, all keys and values, all hash functions (so all collision patterns)", "why_tests_cant": "Correctness depends on probe chains, tombstones and rehashing over long histories and adversarial collisions.", "anchors": ["runtime/nutils/map.c: rt_map_assign, rt_map_access, rt_map_delete, rt_map_contains, map_grow", "runtime/nutils/hash.h: find_hash_slot"]}
{"id": "C12", "title": "Map operations never abort", "statement": "No history of map assignments, deletions and lookups makes the runtime abort with 'hash table is full'.", "quantifier": "all finite histories", "why_tests_cant": "Needs a specific long interleaving of inserts and deletes that leaves no never-used slot.", "anchors": ["runtime/nutils/hash.h: find_hash_slot", "runtime/nutils/map.c: rt_map_delete, rt_map_assign"]}
{"id": "C13", "title": "Distinct keys are distinct", "statement": "Two keys that compare different with == are different keys of a map or set: assigning to one never changes the value found under the other.", "quantifier": "all pairs of keys of every supported key type (integers, strings, structs)", "why_tests_cant": "The space of keys is unbounded; keys with embedded NUL bytes or zero fields are rarely tested.", "anchors": ["runtime/nutils/nutils.c: rtype_value_to_str", "runtime/nutils/hash.h: key_hash, key_equal"]}
{"id": "C14", "title": "A set behaves as a finite set", "statement": "After any history of add and delete, contains(k) holds exactly when k was added and not deleted since, and add reports whether k was new.", "quantifier": "all finite histories, all keys, all hash functions", "why_tests_cant": "Deletion inside a probe chain needs particular collisions and a particular order.", "anchors": ["runtime/nutils/set.c: rt_set_add, rt_set_contains, rt_set_delete, rt_set_grow"]}
{"id": "C15", "title": "Channels deliver in order, exactly once", "statement": "For every execution of any number of senders and receivers on a channel, the sequence of values received is a prefix of the sequence of values whose send was accepted, in the same order, with nothing lost or duplicated.", "quantifier": "all interleavings of any number of tasks doing send, recv, try-variants and close, all capacities", "why_tests_cant": "Depends on scheduling; tests see a handful of schedules.", "anchors": ["runtime/rt_chan.c: rt_chan_send, rt_chan_recv, rt_send, rt_recv, waitq_push, waitq_pop", "std/builtin/chan.n"]}
{"id": "C16", "title": "Channel capacity is what was asked for", "statement": "A channel made with capacity n lets exactly n sends complete before any receive; the n+1st blocks (or try-send fails). Capacity 0 hands over only to a waiting receiver.", "quantifier": "all n, all interleavings", "why_tests_cant": "Ring-buffer wrap-around at every head/tail position.", "anchors": ["std/builtin/chan.n: chan.new", "runtime/rt_chan.c: rt_chan_new, buf_push, buf_pop, buf_full"]}
{"id": "C17", "title": "Closing a channel", "statement": "After close, every send fails, buffered values are still received in order and only then receive fails; every task blocked on the channel is woken with failure; a second close throws.", "quantifier": "all interleavings and all channel states at the time of close", "why_tests_cant": "Close can hit any combination of blocked senders, blocked receivers and buffered values.", "anchors": ["runtime/rt_chan.c: rt_chan_close, rt_chan_send, rt_chan_recv"]}
{"id": "C18", "title": "select takes exactly one ready case and locks consistently", "statement": "A select over any list of channels acquires the channel locks in one global order, each at most once, and releases each exactly once on every path; at most one of its cases takes effect.", "quantifier": "all case lists (with repeated channels), all interleavings", "why_tests_cant": "Deadlocks and double unlocks appear only for particular lists of channels and schedules.", "anchors": ["runtime/rt_chan.c: rt_chan_select, sellock, selunlock, selpark_commit"]}
{"id": "C19", "title": "Mutex mutual exclusion", "statement": "At any moment at most one coroutine is between a returned lock (or successful try_lock) and its unlock, in every interleaving, in normal and starvation mode.", "quantifier": "all numbers of coroutines and all interleavings of the atomic steps of lock, try_lock and unlock", "why_tests_cant": "Starvation mode and barging races need rare schedules.", "anchors": ["runtime/rt_mutex.c: rt_mutex_lock, rt_mutex_try_lock, rt_mutex_unlock, mutex_waiter_acquire, mutex_waiter_release"]}
{"id": "C20", "title": "await always returns", "statement": "A coroutine that awaits another is made runnable after the awaited one ends, exactly once, for every interleaving of the end of the one and the await of the other.", "quantifier": "all interleavings, any number of awaiters", "why_tests_cant": "The lost-wakeup window is a few instructions wide.", "anchors": ["runtime/processor.c: rt_coroutine_await, coroutine_wrapper"]}
{"id": "C21", "title": "The collector never frees a reachable object", "statement": "At the end of a collection cycle no object reachable from a root (stack, global, pool) has been returned to the allocator, for every interleaving of mutator reads, writes and allocations with marking.", "quantifier": "all heaps, all root sets, all interleavings of mutator and collector steps", "why_tests_cant": "A missing or misdirected write barrier shows only when a store races with marking at one point.", "anchors": ["runtime/collector.c: runtime_gc, gc_work, handle_gc_ptr, shade_obj_grey, gc_mark_done, sweep_span", "runtime/nutils/nutils.c: rti_write_barrier_ptr, rti_write_barrier_rtype"]}
{"id": "C22", "title": "The collector frees only garbage when the program is paused", "statement": "With no mutator steps during marking, sweeping frees exactly the objects not reachable from the roots.", "quantifier": "all heaps (including cyclic), all root sets, all worklist orders", "why_tests_cant": "Graph shapes are unbounded.", "anchors": ["runtime/collector.c: handle_gc_ptr, handle_gc_worklist, sweep_span"]}
{"id": "C23", "title": "A size class is adequate and tight", "statement": "For every request of at most 32 KiB the chosen size class holds at least the requested bytes, and no smaller class does; the span of that class holds at least one object.", "quantifier": "all sizes from 1 to 32768", "why_tests_cant": "Boundary values of 67 classes; the lookup uses two tables with different rounding.", "anchors": ["runtime/allocator.c: calc_sizeclass", "runtime/sizeclass.h"]}
{"id": "C24", "title": "Page allocation never hands out a page twice", "statement": "A page run returned by the page allocator lies entirely in free pages of the heap, is marked used, and stays disjoint from every other live run, for every history of allocations and frees; freeing and then allocating restores the same state.", "quantifier": "all histories of page allocations and frees, all run lengths", "why_tests_cant": "Corruption arises from chunk-boundary runs and summary staleness over histories.", "anchors": ["runtime/allocator.c: page_alloc_find, chunks_set, page_summary_update, mheap_alloc_span, mheap_free_span"]}
{"id": "C25", "title": "Summaries describe the bitmap", "statement": "The (start, max, end) summary of any range of pages equals the lengths of its leading, longest and trailing runs of free pages, at every level.", "quantifier": "all bitmaps, all ways of splitting a range into children", "why_tests_cant": "All 2^512 chunk bitmaps and all merges.", "anchors": ["runtime/allocator.c: chunk_summarize, merge_summarize, page_summary_update"]}
{"id": "C26", "title": "A heap larger than one summary window still allocates", "statement": "Whenever free address space remains, a page allocation succeeds: the search window covers every page ever added to the heap.", "quantifier": "all heap sizes", "why_tests_cant": "Needs heaps of 16 GiB and more.", "anchors": ["runtime/allocator.c: page_alloc_find, page_alloc_grow"]}
{"id": "C27", "title": "Two live objects never overlap", "statement": "In every history of allocations from a span, each returned address is that of a slot no live object occupies, slots do not overlap, and each lies inside the span.", "quantifier": "all histories of allocations, marks and sweeps on any number of processors; requests up to 2 GiB (see C62 for larger ones)", "why_tests_cant": "Needs alloc-bit and free-index states over histories.", "anchors": ["runtime/allocator.c: mcache_alloc, mcache_refill", "runtime/collector.c: sweep_span"]}
{"id": "C28", "title": "Pointer bitmap marks exactly the pointer words", "statement": "After an allocation with a type's pointer mask the heap bitmap says 'pointer' for exactly the words the mask marks (repeated per element), in every arena the object touches, and no bit of any other object changes.", "quantifier": "all masks, all object sizes and positions, including objects crossing an arena boundary", "why_tests_cant": "Bit-level boundary cases over positions and sizes.", "anchors": ["runtime/allocator.c: heap_arena_bits_set, heap_arena_bits_batch_handle", "runtime/memory.h: arena_bits_index"]}
{"id": "C29", "title": "Allocated-byte accounting never goes wrong", "statement": "The allocated-bytes counter equals the total size of live objects; in particular it never wraps below zero.", "quantifier": "all histories of allocations and sweeps", "why_tests_cant": "A per-object discrepancy shows only after many large objects are freed.", "anchors": ["runtime/allocator.c: large_malloc, std_malloc", "runtime/collector.c: sweep_span"]}
{"id": "C30", "title": "Bitmap operations touch exactly their bits", "statement": "Setting or clearing one bit or a range of bits changes exactly those bits; test reports the last value written.", "quantifier": "all bitmaps, all indices and ranges", "why_tests_cant": "Byte and word boundary cases over all indices.", "anchors": ["utils/bitmap.h: bitmap_set, bitmap_clear, bitmap_test, bitmap_batch_set, bitmap_batch_clear"]}
{"id": "C31", "title": "Fixed-size allocator blocks are disjoint", "statement": "Blocks returned by the runtime's fixed-size allocator and not yet freed never overlap and lie inside memory obtained from the system.", "quantifier": "all block sizes accepted at initialisation, all histories of alloc and free", "why_tests_cant": "Depends on size and history.", "anchors": ["runtime/fixalloc.c: fixalloc_init, fixalloc_alloc, fixalloc_free"]}
{"id": "C32", "title": "Arena allocator blocks are disjoint and aligned", "statement": "Every allocation from an arena is aligned as asked, lies inside one block of the arena, and overlaps no other live allocation; freeing the most recent allocation only reclaims that allocation; reset invalidates everything.", "quantifier": "all histories of alloc, dealloc and reset, all sizes and power-of-two alignments", "why_tests_cant": "Histories with block growth and tail frees are unbounded.", "anchors": ["std/allocator/arena.n: alloc, dealloc, reset, block_alloc, align_up"]}
{"id": "C33", "title": "Substring search is correct", "statement": "s.find(t) returns the least index at which t occurs in s, and -1 exactly when t does not occur; contains, starts_with, ends_with agree with it; rfind returns the greatest index.", "quantifier": "all byte strings s and t", "why_tests_cant": "All positions and overlaps, and bytes such as NUL.", "anchors": ["std/strings/strings.n: find, find_after, find_char, rfind, contains, starts_with, ends_with"]}
{"id": "C34", "title": "replace replaces every occurrence", "statement": "s.replace(a,b) equals s with the leftmost non-overlapping occurrences of a replaced by b, scanning from left to right.", "quantifier": "all byte strings s, a, b", "why_tests_cant": "Overlapping and adjacent occurrences of arbitrary patterns.", "anchors": ["std/strings/strings.n: replace"]}
{"id": "C35", "title": "split and join are inverse", "statement": "joining the fields of s.split(sep) with sep gives back s; no field contains sep.", "quantifier": "all byte strings s and non-empty sep", "why_tests_cant": "Fields can be empty anywhere, including at both ends.", "anchors": ["std/strings/strings.n: split, join"]}
{"id": "C36", "title": "Integer parsing inverts integer formatting", "statement": "For every int n, formatting n and parsing the result with to_int gives n; to_int of a string that is not an optionally signed decimal number throws; a number out of range throws.", "quantifier": "all integers of the int type, all byte strings", "why_tests_cant": "2^64 values, and boundary checks near the overflow limit.", "anchors": ["std/strings/strings.n: to_int", "std/fmt/utils.n: itos_with"]}
{"id": "C37", "title": "Integer formatting denotes the integer", "statement": "Formatting an integer of any integer type in decimal gives its canonical decimal numeral, padded on the left to the requested width; hexadecimal formatting gives its base-16 numeral.", "quantifier": "all values of all integer types, all widths and fill characters", "why_tests_cant": "Minimum values and zero with padding are missed by samples.", "anchors": ["std/fmt/utils.n: itos_with, utos_with, utos_hex_with", "std/fmt/fmt.n: sprintf"]}
{"id": "C38", "title": "Trimming and case conversion", "statement": "ltrim/rtrim/trim remove exactly the maximal prefix/suffix of listed characters; to_lower/to_upper change exactly ASCII letters and are idempotent; reverse is an involution.", "quantifier": "all byte strings, all character lists", "why_tests_cant": "All strings.", "anchors": ["std/strings/strings.n: ltrim, rtrim, trim, to_lower, to_upper, reverse"]}
{"id": "C39", "title": "String comparison is a total order", "statement": "<, <=, ==, >, >= on strings are one total order, the lexicographic order on bytes, and == holds exactly for equal strings.", "quantifier": "all pairs and triples of byte strings", "why_tests_cant": "Unbounded inputs.", "anchors": ["runtime/nutils/string.c: string_ee, string_ne, string_lt, string_le, string_gt, string_ge"]}
{"id": "C40", "title": "Path base and directory", "statement": "path.base(p) contains no '/' unless p is all slashes; path.dir(p) joined with path.base(p) denotes the same path as p; path.join yields an absolute path when its last absolute component is absolute.", "quantifier": "all byte strings as paths", "why_tests_cant": "Runs of slashes and dots anywhere.", "anchors": ["std/path/path.n: base, dir, join"]}
{"id": "C41", "title": "JSON string round trip", "statement": "Parsing the JSON text produced for a string gives back that string if it is valid UTF-8, and otherwise the string with each invalid byte replaced by U+FFFD; the text is pure valid UTF-8 with no raw control characters.", "quantifier": "all byte strings", "why_tests_cant": "All code points, malformed sequences and control characters in every position.", "anchors": ["std/json/json.n: serialize_string, parser_string, utf8_len, append_utf8, parser_hex4"]}
{"id": "C42", "title": "JSON value round trip", "statement": "For every JSON value of nesting depth at most the limit, parsing its serialisation gives back the value; deeper documents are rejected, never overflow the stack.", "quantifier": "all JSON values of any size", "why_tests_cant": "Unbounded trees.", "anchors": ["std/json/json.n: parse, parser_value, serialize_value, enter_container, leave_container"]}
{"id": "C43", "title": "JSON number grammar", "statement": "The JSON parser accepts as a number token exactly the strings of the RFC 8259 number grammar and consumes exactly that token.", "quantifier": "all byte strings", "why_tests_cant": "All strings over the number alphabet.", "anchors": ["std/json/json.n: parser_number_token"]}
{"id": "C44", "title": "JSON numbers keep 64-bit integers", "statement": "Deserialising the serialisation of any i64 gives the same i64.", "quantifier": "all 64-bit integers", "why_tests_cant": "Loss starts above 2^53.", "anchors": ["std/json/json.n: parser_number, serialize_value"]}
{"id": "C45", "title": "JSON streaming reader is independent of chunking", "statement": "Feeding a document to the incremental reader in any division into chunks gives the same result, at the same byte, as feeding it whole.", "quantifier": "all byte strings and all ways of cutting them into chunks", "why_tests_cant": "Exponentially many divisions.", "anchors": ["std/json/json.n: reader_t.write, reader_t.value"]}
{"id": "C46", "title": "Buffered reader delivers the stream", "statement": "Any history of read, read_exact, read_byte, read_until and read_line on a buffered reader yields exactly the bytes of the underlying stream, in order, without loss or repetition, whatever sizes the underlying reads return.", "quantifier": "all streams, all partitions of it into underlying reads, all histories of calls, all buffer sizes", "why_tests_cant": "Partial reads can split anywhere.", "anchors": ["std/io/buf.n: reader.fill, read, read_until, read_exact, read_byte, read_line"]}
{"id": "C47", "title": "Bytes handed out by the buffered reader stay put", "statement": "A byte vector returned by read_until keeps its contents while the program goes on reading.", "quantifier": "all streams and later calls", "why_tests_cant": "Shows only when the next fill reuses the buffer.", "anchors": ["std/io/buf.n: reader.read_until, reader.fill"]}
{"id": "C48", "title": "Buffered writer delivers every byte in order", "statement": "Bytes reaching the underlying writer followed by the bytes still buffered equal the bytes accepted; after a successful flush nothing is buffered; after an error no later write is accepted.", "quantifier": "all histories of write, write_byte and flush, all behaviours of the underlying writer (short writes, errors)", "why_tests_cant": "Short writes can happen at any call.", "anchors": ["std/io/buf.n: writer.write, write_byte, flush"]}
{"id": "C49", "title": "Byte buffer is a queue", "statement": "io.buffer returns the bytes written to it in the same order, each once; read_all and truncate leave what they claim.", "quantifier": "all histories of write, read, read_all, truncate, reset", "why_tests_cant": "Unbounded histories with offset bookkeeping.", "anchors": ["std/io/io.n: buffer.write, buffer.read, buffer.read_all, buffer.truncate, buffer.reset"]}
{"id": "C50", "title": "Blowfish decryption inverts encryption", "statement": "For every key schedule and every 8-byte block, decrypt(encrypt(block)) = block and the other way round.", "quantifier": "all key schedules (P array and S boxes), all blocks", "why_tests_cant": "2^64 blocks times all keys.", "anchors": ["std/crypto/blowfish.n: encrypt_block, decrypt_block, encrypt, decrypt"]}
{"id": "C51", "title": "bcrypt accepts the password it hashed", "statement": "verify(hash(p, cost), p) succeeds for every password and cost accepted by hash; parsing the printed hash recovers version, cost, salt and digest; the bcrypt base64 code is lossless.", "quantifier": "all passwords of at most 72 bytes, all salts, all costs 4..31", "why_tests_cant": "All byte strings; also a cost of one digit, NUL bytes.", "anchors": ["std/crypto/bcrypt.n: hash, verify, new_from_hash, hash_to_string, base64_encode, base64_decode, constant_time_compare"]}
{"id": "C52", "title": "bcrypt rejects other passwords", "statement": "verify(hash(p, cost), q) throws for every q different from p that leads to a different digest, and no two passwords of at most 72 bytes are equivalent for structural reasons (independent of the cipher).", "quantifier": "all pairs of passwords", "why_tests_cant": "Equivalent passwords (cyclic key repetition) are a vanishing fraction of pairs.", "anchors": ["std/crypto/bcrypt.n: expensive_blowfish_setup", "std/crypto/blowfish.n: expand_key, get_next_word"]}
{"id": "C53", "title": "Hex encoding is faithful", "statement": "crypto to_hex maps every byte string to twice as many lower-case hex digits that denote it; different strings give different texts.", "quantifier": "all byte strings", "why_tests_cant": "Unbounded inputs.", "anchors": ["std/crypto/utils.n: to_hex"]}
{"id": "C54", "title": "HTTP chunked bodies are reassembled", "statement": "Reading a chunked response body yields exactly the concatenation of the chunk data, for every division into chunks and every pattern of partial network reads and caller buffer sizes.", "quantifier": "all bodies, all chunkings, all read sizes", "why_tests_cant": "Two independent segmentations interact.", "anchors": ["std/http/client.n: chunked_reader_t.fill_staging, chunked_reader_t.read, hex_to_int"]}
{"id": "C55", "title": "HTTP response framing", "statement": "The serialised server response declares as Content-Length exactly the number of bytes following the blank line, whatever the body.", "quantifier": "all bodies and headers set through the API", "why_tests_cant": "All bodies.", "anchors": ["std/http/http.n: response_t.send, response_t.to_str", "std/http/utils.n: utos"]}
{"id": "C56", "title": "Run queues keep every coroutine exactly once", "statement": "The scheduler's queues return coroutines in the order they were put in, each exactly once, for every history of push and pop, including moves between the per-processor cache and the global list.", "quantifier": "all histories", "why_tests_cant": "Histories crossing the cache limit.", "anchors": ["runtime/rt_linked.h", "runtime/linkco.c", "runtime/processor.c: rt_coroutine_dispatch"]}
{"id": "C57", "title": "Freshly allocated memory is zero", "statement": "Memory returned by an allocation reads as zero, whether the span is fresh or reused.", "quantifier": "all histories of allocation, use and collection; requests up to 2 GiB (see C62 for larger ones)", "why_tests_cant": "Reuse of dirty spans depends on history.", "anchors": ["runtime/allocator.c: mspan_new, mcache_alloc, std_malloc, large_malloc", "runtime/collector.c: sweep_span"]}
{"id": "C58", "title": "Mark bits are not reused too early", "statement": "A mark/alloc bitmap handed to a span is not handed out again, or cleared, while that span still uses it, across collection epochs.", "quantifier": "all histories of spans and epochs", "why_tests_cant": "Needs several epochs and interleaved spans.", "anchors": ["runtime/gcbits.c"]}
{"id": "C59", "title": "Converting bytes to a string and back keeps the bytes", "statement": "For every byte vector v, (v as string) as [u8] equals v, whatever strings were converted earlier in the program.", "quantifier": "all byte vectors, all histories of earlier conversions", "why_tests_cant": "the interning pool makes the result depend on every earlier conversion; tests see a handful of histories", "anchors": ["runtime/nutils/string.c: string_new_with_pool, vec_to_string, string_to_vec"]}
{"id": "C60", "title": "sprintf prints its items in order", "statement": "sprintf of a format made of literal text, '%%' and directives returns the concatenation of the literal text and of the rendering of each argument under its directive (width and fill respected); it never fails.", "quantifier": "all formats, all argument lists", "why_tests_cant": "formats and arguments combine without bound", "anchors": ["std/fmt/fmt.n: sprintf", "std/fmt/utils.n"]}
{"id": "C61", "title": "Iterating a map visits every key exactly once", "statement": "A loop over a map that does not modify it ends after visiting every key present exactly once, together with the value a lookup of that key returns, and visits nothing else.", "quantifier": "all histories before the loop, all key and value types, all hash functions", "why_tests_cant": "what is visited depends on the whole history of insertions, deletions and growth", "anchors": ["runtime/nutils/nutils.c: iterator_next_key, iterator_take_value", "runtime/nutils/map.c"]}
{"id": "C62", "title": "Objects of any size can be allocated", "statement": "An allocation of any size either returns a block of that size or fails cleanly; it never corrupts the heap's page table.", "quantifier": "all request sizes, all heap states", "why_tests_cant": "needs objects of more than 2 GiB", "anchors": ["runtime/allocator.c: large_malloc, mheap_alloc_span, mheap_set_spans"]}
{"id": "C63", "title": "A program can tell a received value from a closed channel", "statement": "chan.is_successful() is true as long as the operations on the channel succeed, and false once an operation failed because the channel was closed.", "quantifier": "all channels, all histories", "why_tests_cant": "the flag is only meant to change once, on failure, so a test that looks at it after a failure always passes", "anchors": ["utils/type.h: n_chan_t.successful", "runtime/rt_chan.c: rt_chan_new, rt_chan_is_successful", "std/builtin/chan.n: is_successful"]}
{"id": "C64", "title": "A coroutine waiting for a mutex is never forgotten", "statement": "Whenever a coroutine waits for a mutex, another coroutine holds it, or is in the middle of a lock or unlock call that can go on; so no wake-up is lost between an unlock and a coroutine that is going to sleep.", "quantifier": "any number of coroutines, all interleavings of lock, try_lock and unlock, normal and starvation mode", "why_tests_cant": "a lost wake-up needs an exact interleaving of half a dozen atomic operations", "anchors": ["runtime/rt_mutex.c: rt_mutex_lock, rt_mutex_unlock, rt_mutex_waiter_acquire, rt_mutex_waiter_release"]}
{"id": "C65", "title": "Using a mutex never aborts the program", "statement": "A program in which only the holder unlocks a mutex never trips one of the assertions of the mutex code.", "quantifier": "any number of coroutines, all interleavings, builds with and without assertions", "why_tests_cant": "the assertion on the unlocked list fails only if two waiters arrive inside a window of two instructions", "anchors": ["runtime/rt_mutex.c: rt_mutex_waiter_release, rt_mutex_lock, rt_mutex_waiter_acquire"]}
{"id": "C66", "title": "An error of an awaited coroutine reaches the one that awaits it", "statement": "When a coroutine ends with an error and another coroutine awaits it, the error is thrown in the awaiting coroutine; the program does not exit because of it.", "quantifier": "all interleavings of the failure and the await", "why_tests_cant": "whether the failure comes before or after the await depends on the scheduler", "anchors": ["runtime/processor.c: coroutine_wrapper, rt_coroutine_await", "std/builtin/coroutine.n: await"]}
{"id": "C67", "title": "The collector's address lookup finds every live object", "statement": "For every address inside an object the program holds, the lookup used by marking, by the write barrier and by root scanning finds the block of memory that object belongs to. No live object is invisible to the collector because of where the kernel placed the memory.", "quantifier": "all histories of allocations, writes, marks and sweeps on any number of processors; all sequences of kernel grants and refusals; every byte of every live object", "why_tests_cant": "Depends on which reservations the kernel grants and on unbounded growth of the heap.", "anchors": ["runtime/memory.c: span_of, in_heap, take_arena_index", "runtime/allocator.c: mheap_sys_alloc, page_alloc_grow"]}
{"id": "C68", "title": "A collection that runs beside the program frees old garbage", "statement": "An object that no root could reach when a collection cycle began is freed at the end of that cycle, whatever the program loads, stores, allocates and spawns while marking is under way.", "quantifier": "all heaps and root sets at the start of the cycle, all interleavings of mutator and collector steps", "why_tests_cant": "Interleavings and heap shapes are unbounded; a barrier that shades too much shows only as memory that grows.", "anchors": ["runtime/collector.c: runtime_gc, gc_work, handle_gc_ptr, shade_obj_grey, gc_mark_done", "runtime/nutils/nutils.c: rti_write_barrier_ptr, rti_write_barrier_rtype"]}
{"id": "C69", "title": "JSON incremental reader agrees with parse", "statement": "If a document is written to the incremental JSON reader in any pieces, write answers true exactly when the whole root value has been seen, and value then gives what parse gives for the whole text.", "quantifier": "all documents and all ways of cutting them into pieces", "why_tests_cant": "Every document, every cut, and every prefix must be considered.", "anchors": ["std/json/json.n: reader_t.write, reader_t.value, parse"]}
{"id": "C70", "title": "read_line returns the lines of the stream", "statement": "Repeated calls of read_line on a buffered reader return the lines of the stream, in order, each without its line terminator (LF or CR LF), and throw end of file once there are no more.", "quantifier": "all streams, all ways the underlying reader cuts them into pieces, any number of calls", "why_tests_cant": "Lines interact with the buffer boundary at every possible offset.", "anchors": ["std/io/buf.n: read_line, read_until, fill"]}
{"id": "C71", "title": "A truncated HTTP response is not passed off as complete", "statement": "If the connection ends or fails before the response body announced by the server has arrived, text() throws; it never returns a shorter body as if it were complete.", "quantifier": "all responses, all points of truncation and all failures of the connection", "why_tests_cant": "Every prefix of every response must be considered, together with every way the bytes arrive.", "anchors": ["std/http/client.n: send, response_t.text, chunked_reader_t"]}
{"id": "C72", "title": "The HTTP client reads the response that was sent", "statement": "For a well-formed response the client reports its version, status, reason phrase and headers, and text() returns exactly the body, whether announced by Content-Length or sent in chunks.", "quantifier": "all responses, all header fields, all bodies, all ways the network divides the bytes", "why_tests_cant": "The parser works byte by byte over a buffer filled by the network; every split is a different execution.", "anchors": ["std/http/client.n: send, read_until_space, response_t.text", "std/io/buf.n"]}
{"id": "C73", "title": "HTTP request framing", "statement": "The serialised client request declares as Content-Length exactly the number of bytes that follow its blank line, whatever the method, URL, headers and body.", "quantifier": "all requests", "why_tests_cant": "Any combination of user headers and body is possible; the count must agree for all of them.", "anchors": ["std/http/client.n: tcp_buf, fill_headers"]}
{"id": "C74", "title": "The HTTP handler sees the request that was sent", "statement": "A handler of the HTTP server is called once for each request and sees its method, target, path, query, host, headers and complete body, however the network divides the request and whether or not the client sends several requests on one connection.", "quantifier": "all requests, all divisions of the request into network reads", "why_tests_cant": "The division is up to the network; a test sees the one division that loopback happens to produce.", "anchors": ["runtime/nutils/http.c: on_read_cb, http_alloc_buffer_cb, http_parser_on_*_cb", "std/http/http.n: request_new"]}
{"id": "C75", "title": "The HTTP server stays inside its memory", "statement": "No sequence of bytes sent to the HTTP server makes it read or write outside the memory it owns.", "quantifier": "all sequences of network reads", "why_tests_cant": "The offending accesses depend on the number of headers and on where realloc puts a block.", "anchors": ["runtime/nutils/http.c: http_alloc_buffer_cb, http_parser_on_header_field_cb, http_parser_on_header_value_cb"]}
{"id": "C76", "title": "A word in a program is a keyword exactly if the language says so", "statement": "Scanning a word, a letter or underscore followed by letters, digits and underscores, yields one token with the word as its text. The token is a keyword or a built-in type if and only if the word is one of those of the language, and an identifier otherwise.", "quantifier": "for all words of any length", "why_tests_cant": "there are infinitely many words; tests try the keywords and a few names, and no test tries names that differ from a keyword in the first letter only", "anchors": ["src/syntax/scanner.c:710-921", "src/syntax/scanner.c:388-394", "src/syntax/token.h:8-140"]}
{"id": "C77", "title": "The scanner reads exactly the lexical grammar", "statement": "The compiler accepts a source text as a list of tokens if and only if the text is built from the language's words, numbers, strings, operators, blanks and comments with the longest possible token taken each time; the tokens, their texts, their line numbers and the statement ends inserted at line breaks are those of the grammar, and no text can be read in two ways.", "quantifier": "for all source texts without NUL bytes, of any length", "why_tests_cant": "the set of programs is infinite, and what a token is depends on all characters around it", "anchors": ["src/syntax/scanner.c:535-647", "src/syntax/scanner.c:154-263", "src/syntax/scanner.c:401-447", "src/syntax/scanner.c:657-707"]}
{"id": "C78", "title": "String literals stand for exactly the bytes they spell", "statement": "Every string of bytes can be written as a literal with escapes, and scanning the literal gives back these bytes, NUL bytes included; every spelling of a string, between single, double or back quotes, gives the string it spells.", "quantifier": "for all byte strings and all spellings", "why_tests_cant": "there are infinitely many strings and each has many spellings", "anchors": ["src/syntax/scanner.c:276-386", "src/syntax/scanner.c:594-597"]}
{"id": "C79", "title": "Hexadecimal, octal and binary literals keep their value", "statement": "A literal with the prefix 0x, 0o or 0b whose value fits in 64 bits is read as the decimal numeral of the same number; one whose value does not fit is refused.", "quantifier": "for all rows of digits in each of the bases", "why_tests_cant": "there are more than 2^64 literals, and the refusal concerns literals of any length", "anchors": ["src/syntax/scanner.c:449-496", "src/syntax/scanner.c:564-591"]}
{"id": "C80", "title": "Scanning a source never reads outside of it", "statement": "Whatever the source text, the scanner either returns tokens or reports an error, and never looks at memory behind the NUL byte that ends the text.", "quantifier": "for all source texts without NUL bytes", "why_tests_cant": "a read behind the end usually goes unnoticed in a test, and the texts that cause it cannot be enumerated", "anchors": ["src/syntax/scanner.c:110-127", "src/syntax/scanner.c:276-386", "src/syntax/scanner.c:614-647"]}
{"id": "C81", "title": "Comments are not part of the program", "statement": "The text between slash-star and the next star-slash does not change the tokens around it, apart from the line numbers of those behind it.", "quantifier": "for all comment texts", "why_tests_cant": "comments can contain any text, including what looks like the beginning or end of a comment", "anchors": ["src/syntax/scanner.c:650-707"]}
{"id": "C82", "title": "Types are laid out as in C", "statement": "Every value of a type occupies a fixed number of bytes: scalars have their width, pointers and handles a word, arrays their elements one behind the other, and structs and tuples their members in order, each at the first offset that is a multiple of its alignment, rounded up to the largest alignment at the end. Members never overlap, never leave the object and are always aligned, also inside arrays. Looking a field up by name, a tuple element by index, the run-time table of fields and the code that builds and takes apart tuples all use the same offset.", "quantifier": "all types: structs, tuples, arrays, unions, tagged unions and enums nested to any depth with any number of members", "why_tests_cant": "Tests try a few structs; padding rules interact with nesting, so a disagreement between two of the offset computations shows only for particular combinations of members.", "anchors": ["utils/type.c:9-277", "utils/type.c:321-447", "utils/type.h:809-840", "src/linear.c:766-788", "src/linear.c:1354-1447", "src/linear.c:2958-2977", "src/rtype.h:800-822"]}
{"id": "C83", "title": "The collector knows where the pointers of every type are", "statement": "The description the compiler emits for a type marks every word of an object of the type that may hold the address of a heap object, before the recorded end of the last pointer; it marks no other word, apart from the words of a union, where the content is not known; and the end of the last pointer lies in the object and in the bitmap. So scanning a global of the type visits every pointer in it. (Fails for a variable of type any, whose second word is not marked, and for structs of 64 KiB and more, whose end of the last pointer is kept in sixteen bits.)", "quantifier": "all types, nested to any depth with any number of members and elements", "why_tests_cant": "A missing mark frees live memory, but only if a collection happens while that field is the only reference; tests with few types and rare collections do not see it.", "anchors": ["src/rtype.h:160-940", "utils/type.c:321-367", "utils/type.h:693-696", "runtime/collector.c:932-966"]}
{"id": "C84", "title": "The dominator analysis of the compiler is exact", "statement": "For every function whose blocks can all be reached from the entry, the compiler computes for each block exactly the blocks that every way from the entry to it passes, for each block other than the entry the one nearest such block before it, and for each block exactly the blocks where its influence ends: those it does not strictly dominate although it dominates one of their predecessors.", "quantifier": "for all control flow graphs of up to 65535 blocks in which every block is reachable and nothing jumps to the entry", "why_tests_cant": "The number of graphs is unlimited, and a wrong dominator only shows as a wrong value in a rarely taken branch of some compiled program; a test compares a few graphs with a drawing.", "anchors": ["src/ssa.c:28-200", "src/ssa.c:464-518"]}
{"id": "C85", "title": "The liveness analysis of the compiler is exact", "statement": "For every function the analysis ends, and says that a variable is live on entry of a block exactly if some execution from there can read it before it is assigned, and live at the end of a block exactly if it is live on entry of some successor.", "quantifier": "for all functions: any number of blocks, operations, loops and variables", "why_tests_cant": "Whether a variable can be read later depends on all paths through loops of the function, of which there are infinitely many; and the failure with 256 variables alive at once needs a function no ordinary test contains.", "anchors": ["src/ssa.c:208-235", "src/ssa.c:287-456"]}
{"id": "C86", "title": "Bringing a function into static single assignment form keeps its meaning", "statement": "For every function whose blocks and jumps fit together and in which no variable is read before it is assigned, the compiler's construction of the static single assignment form (dominators, frontiers, liveness, placing phi functions, renaming) yields a function that executes the same operations with the same values in the same order and takes the same jumps, for every meaning of the operations, every input and any number of executed blocks. The full claim is false: a variable that is assigned again in one branch, with no phi needed anywhere, is read under the wrong name in the other branch; the claim is proved for functions in which every variable is either assigned in one block only or needs a phi somewhere, within the sizes the code has room for.", "quantifier": "all control flow graphs, all operations with any operands, all machines, all start values, all numbers of steps", "why_tests_cant": "The result depends on the shape of the whole control flow graph; a wrong name shows only on particular paths through particular graphs, and test programs that happen to merge every variable never show it.", "anchors": ["src/ssa.c:68-95", "src/ssa.c:237-285", "src/ssa.c:388-456", "src/ssa.c:517-697", "src/ssa.c:716-730"]}
{"id": "C87", "title": "In static single assignment form every name is assigned at one place", "statement": "After the construction of the static single assignment form no name is assigned at two places of a function, phi functions included, and the assignments of every block are those of the function as written, in their order. The full claim is false: the number in a name is kept in eight bits and goes up by two, so a variable assigned 129 times gets the same name twice, and a phi function that gets such a number aborts the compiler; the claim is proved for at most 128 definitions of each variable.", "quantifier": "all control flow graphs and operations within the sizes the code has room for", "why_tests_cant": "Tests would need functions with more than 128 assignments of one variable, and a duplicate name has no visible effect until register allocation merges the two lifetimes.", "anchors": ["src/ssa.c:517-697", "src/ssa.h:25-28"]}
{"id": "C88", "title": "Building the control flow graph keeps the meaning of a function", "statement": "For every function given as linear code with unique labels, jumps that lead to labels and one end, the compiler builds a control flow graph without failing, and executing its blocks, written down in any order with the first one first, executes the same operations in the same order with the same outcomes of comparisons as the linear code, and ends exactly when the linear code ends. This covers inserting labels after jumps, dropping jumps that cannot be executed, dropping comparisons that lead to the next operation, removing unreachable blocks, merging blocks and splitting edges.", "quantifier": "all linear codes, all meanings of operations and comparisons, all start states, all numbers of steps, all orders of the blocks", "why_tests_cant": "The passes rewrite jumps depending on the shape of the whole graph; a wrong target shows only when that very edge is executed.", "anchors": ["src/cfg.c:8-65", "src/cfg.c:67-122", "src/cfg.c:234-355", "src/cfg.c:362-425", "src/cfg.c:464-491"]}
{"id": "C89", "title": "The successor and predecessor lists of the control flow graph agree with its jumps", "statement": "In the control flow graph the compiler builds, every block begins with its own label and has no other, names are unique, the successors of a block are exactly the places it jumps to, its predecessors are exactly the blocks that jump to it, each listed once; every block can be reached from the first one, the first block is that of the first label, and it has no predecessors unless the code jumps to the first label.", "quantifier": "all linear codes", "why_tests_cant": "Dominators, liveness and register allocation rely on these lists; an inconsistency after merging or splitting needs a particular graph to show and then miscompiles silently.", "anchors": ["src/cfg.c:8-65", "src/cfg.c:67-122", "src/cfg.c:331-355", "src/cfg.c:362-425"]}
{"id": "C90", "title": "Critical edges are split", "statement": "After the control flow graph is built there is no critical edge, that is, no edge from a block with several successors to a block with several predecessors, so that there is a place for the moves that belong to an edge. The claim is false: of several critical edges into one block every other one stays, already for a condition with two alternatives. Proved: no critical edge is added, and all are gone if no block had more than one into it.", "quantifier": "all linear codes", "why_tests_cant": "A critical edge that stays does no harm unless register allocation needs different moves on the two edges, which depends on the pressure on registers around it.", "anchors": ["src/cfg.c:67-122"]}
{"id": "C91", "title": "A function with a result is accepted only if every way through it returns", "statement": "The compiler rejects a function with a result exactly when its control flow graph has a way from the start to the end on which no block has a return; and every execution of an accepted function that comes to the end has executed one of its returns.", "quantifier": "all linear codes with one end, all meanings of operations and comparisons, all executions", "why_tests_cant": "The check walks the graph once with a shared table of blocks already handled; whether sharing loses a path depends on the order in which blocks are met.", "anchors": ["src/cfg.c:201-232", "src/cfg.c:464-491"]}
{"id": "C92", "title": "Moves that belong together happen as if at the same time", "statement": "When the compiler brings the moves and small operations that belong to one point of a function (passing the arguments of a call) into an order, running them one after the other leaves in every place written the value its operation computes from the values before, and changes nothing else but two registers kept for this. The claim is false for operations with two operands that are both overwritten by other moves: the value saved for one of them is lost, as for g(b - c, a, a) when a, b, c are in the registers of the arguments. Proved for any number of moves each of which depends on at most one place another one writes.", "quantifier": "all sets of moves with distinct places, all meanings of operations, all values", "why_tests_cant": "Whether the moves form a cycle, and which one, depends on the registers chosen for the values before the call.", "anchors": ["src/register/interval.c:1643-1876", "src/register/interval.c:1878-1923"]}
{"id": "C93", "title": "Values arrive in their new places on an edge between blocks", "statement": "When the variables that live across an edge between two blocks change their places, the compiler finds an order of moves for any set of such changes, without failing and in a number of rounds at most twice the number of changes; after the moves every new place holds the value the variable had, and every other place is unchanged, except stack slots of variables that were in registers. The counters of eight bits that say how often a register is still needed cannot overflow in a way that matters.", "quantifier": "all sets of changes of place (at most 254 registers, any number of stack slots), all values", "why_tests_cant": "Cycles of registers come up only under high register pressure and only on particular edges.", "anchors": ["src/register/interval.c:366-380", "src/register/interval.c:1516-1594"]}
{"id": "C94", "title": "Lifetime intervals have the meaning of sets of positions", "statement": "For lifetime intervals of any number of ranges: the test whether a position is in the interval, with or without the end of a range, answers exactly that; adding a range adds exactly its positions and keeps the ranges ordered; two intervals share no position before the one found as their first common one; the test for overlap is exact; splitting gives every position and every use to exactly one of the two parts; uses are kept in order and the next use after a position is the first one; the place chosen to split before a position is before it.", "quantifier": "all intervals, positions and lists of blocks", "why_tests_cant": "The searches start from the front or the back depending on the position and stop early; a wrong comparison shows only for particular holes.", "anchors": ["src/register/interval.c:811-1039", "src/register/interval.c:1049-1198", "src/register/interval.c:1232-1318"]}
{"id": "C95", "title": "Register allocation places every variable at every position", "statement": "Giving registers to the variables of a function ends, for any number of variables, registers and blocks. When it ends without a failed assertion, every position in which a variable lives lies in exactly one part of the variable, every use lies in a part, each part is either in a register of the right class or on the stack, a part with a use that needs a register is in a register, a part with a use that needs the stack is on the stack, and the times at which registers are reserved are unchanged.", "quantifier": "all functions (any variables, lifetimes, uses, blocks), any choice of preferred registers", "why_tests_cant": "Splits, spills and evictions interact only under register pressure, in orders a test cannot enumerate.", "anchors": ["src/register/allocate.c:99-731", "src/register/interval.c:1232-1384"]}
{"id": "C96", "title": "Two variables never share a register at the same position", "statement": "After register allocation two different intervals with the same register have no common position. The claim is false: when a variable with a use inside a loop is split before the loop, the part left over begins before positions already handled and may get a register that was given away there. Proved for all runs in which the positions handled never go back.", "quantifier": "all functions whose intervals are handled in order of position", "why_tests_cant": "The wrong register is given only when the split lands before a position already handled, and then another variable is overwritten silently.", "anchors": ["src/register/allocate.c:448-731", "src/register/interval.c:1017-1114"]}
{"id": "C97", "title": "RISC-V machine code does what each instruction says", "statement": "For every instruction the RISC-V back end can emit (integer and floating-point arithmetic, loads, stores, jumps, branches, calls, in the 16-bit and the 32-bit form and as sequences), running the encoded bytes on a RISC-V processor has exactly the effect the instruction names, on registers, memory and program counter. The claim is false for some operands: a 4-byte store at an offset that is 4 modulo 8 writes 4 bytes too low when both registers are in x8..x15; adding x0 to a register calls through it; offsets of loads, stores, jumps and calls that are out of range wrap; 32-bit shifts by 32..63 are illegal. Proved for all other operands.", "quantifier": "all instructions, registers, constants and machine states; any floating-point unit and any system", "why_tests_cant": "There are 2^64 constants and 32^3 register triples per instruction, and the short form is picked by a condition on the operands; a test sees a handful.", "anchors": ["src/binary/encoding/riscv64/opcode.h:34-275", "src/binary/encoding/riscv64/opcode.c:166-1071", "src/binary/encoding/riscv64/opcode.c:1278-1299"]}
{"id": "C98", "title": "RISC-V code can load every 64-bit constant", "statement": "For every 64-bit constant and every register other than x0 and the stack pointer, the code produced for loading the constant fits the 26-byte buffer, leaves exactly that constant in the register, and changes no other register and no memory. For the stack pointer this is false: loading 4096 adds 32 to it.", "quantifier": "all constants in [-2^63, 2^63) and registers", "why_tests_cant": "Each of the four nested cases corrects for the sign of the part below it; 2^64 values cannot be enumerated.", "anchors": ["src/binary/encoding/riscv64/opcode.c:548-606", "src/binary/encoding/riscv64/opcode.h:6-32"]}
{"id": "C99", "title": "amd64 jumps and calls go where the assembly says", "statement": "In the amd64 machine code of a module, every jump, conditional jump and call to a name defined in the module takes the processor to the instruction after that name, whether a short or a long form was chosen; one to a name from elsewhere gets a linker entry by which it goes to that name; all other instructions keep their bytes; no entry is missing or extra. False where the name's address was used earlier in the text before its definition, and for an instruction that jumps to itself.", "quantifier": "all lists of instructions, names, sizes and positions below 2 GiB, all load addresses", "why_tests_cant": "Shrinking a jump moves every later instruction, and which jumps shrink depends on all distances between them; sizes and orders are unbounded.", "anchors": ["src/binary/arch/amd64.h:81-157", "src/binary/arch/amd64.h:324-345", "src/binary/arch/amd64.h:475-676", "src/binary/encoding/amd64/opcode.c:18-71", "src/binary/elf/linker.c:831-851", "src/binary/elf/linker.c:1155-1189"]}
{"id": "C100", "title": "RISC-V relocations put the right address in place", "statement": "When the linker fills in an address for RISC-V, the branch, jump, call, load, store or number at the place refers to exactly the target and is otherwise unchanged, and nothing around it changes; a branch that cannot reach its target stops the linker. False where the range check is too wide or missing (jumps over 1 to 2 MiB, addresses over 2 GiB away), for 16-bit numbers, of which only the lower byte is written, and for grouped numbers that become shorter.", "quantifier": "all instructions of the format, all addresses and targets in 64 bits, all contents of the section", "why_tests_cant": "Offsets are scattered over up to eight bit fields of an instruction, and the carries between upper and lower parts depend on all bits.", "anchors": ["src/binary/arch/riscv64.h:161-436", "utils/helper.h:295-340"]}
{"id": "C101", "title": "RISC-V jumps and calls go where the assembly says", "statement": "In the RISC-V machine code of a module, every jump and branch to a name defined in the module goes to that name; every call, and every jump to a name from elsewhere, gets a linker entry by which it goes to that name, and a call leaves the return address and changes nothing else; all other instructions keep their bytes; no entry is missing or extra. False where the name's address was used earlier in the text before its definition, and for jumps over more than 1 MiB.", "quantifier": "all lists of instructions, names and positions, all load addresses", "why_tests_cant": "The positions of names depend on everything before them; orders and sizes are unbounded.", "anchors": ["src/binary/arch/riscv64.h:129-131", "src/binary/arch/riscv64.h:439-673"]}
{"id": "C102", "title": "amd64 machine code says what the assembly says", "statement": "The bytes the compiler writes for an amd64 instruction are read by the processor as that instruction, on those registers, addresses and numbers, and they end where the instruction ends, whatever follows; an instruction without an encoding stops the compiler. False for a plain reference through rsp or r12, for rbp or r13 with an index and a displacement, for adding a byte register to memory, for the exclusive or of floats with memory or in 64-bit registers from xmm8 on, and for ah, bh, ch, dh beside a register that needs a REX byte.", "quantifier": "all instruction names, all operands (registers, addresses, numbers), all following bytes", "why_tests_cant": "The table has 281 entries, each with many operand kinds, 16 registers in up to three places, and 32-bit displacements and numbers; one wrong bit makes another valid instruction.", "anchors": ["src/binary/encoding/amd64/opcode.c:18-1180", "src/binary/encoding/amd64/opcode.c:1181-2118", "src/binary/encoding/amd64/asm.h:130-330"]}
{"id": "C103", "title": "amd64 operands are the compiler's operands", "statement": "An address the compiler works with (base, index times scale, offset; a place in a stack slot; a spilled value) becomes an operand for exactly that address whatever the registers hold, and a number of any integer kind becomes an operand in which the processor sees that number. False of offsets beyond 32 bits, and after encoding of rbp or r13 as a base with both an index and an offset.", "quantifier": "all registers, scales, offsets in 32 bits, frames, and all 64-bit numbers", "why_tests_cant": "Which of four operand forms is chosen depends on the register numbers and the offset; numbers are cut to 32 bits and extended again.", "anchors": ["src/native/amd64.c:125-217", "src/binary/encoding/amd64/asm.h:145-230"]}
{"id": "C104", "title": "amd64 references are patched at the right place", "statement": "The place in an instruction where the linker or assembler writes the distance to a symbol is exactly where the four bytes of the distance are: with another distance the instruction is the same except for those bytes, and it then refers to that distance. False for an instruction ending with a number of the untyped kind.", "quantifier": "all instructions with a reference to a symbol, all distances in 32 bits", "why_tests_cant": "The place is computed from the end of the instruction and the size of its last operand, for every entry of the table.", "anchors": ["src/binary/arch/amd64.h:50-65", "src/binary/encoding/amd64/opcode.c:1630-2118"]}
{"id": "C105", "title": "sscanf reads what the format says", "statement": "Reading a text with a format stores, through the arguments in order, what the items of the format say: literals and %% must be found, a blank skips blanks, %d %x %X %o %s %c %f take the longest piece of their kind up to the width; it ends at the first item that is not there, and returns how many values were stored. It returns for every text and format, and only stores values the argument can hold. False: a number too large for its argument is stored cut down and counted as read; a huge width for %c ends the program.", "quantifier": "all texts below 2^62 bytes, all formats with widths below 2^31, all lists of arguments", "why_tests_cant": "Any text meets any format with any arguments; which characters a conversion takes depends on width, sign, kind and what follows.", "anchors": ["std/fmt/fmt.n:233-639"]}
{"id": "C106", "title": "sscanf reads back what sprintf prints", "statement": "With a format whose values are kept apart, reading the text that sprintf made gives every argument back: all integers in decimal and hexadecimal in either case, words, characters. False of strings with blanks, the empty string, the blank as a character, and numbers wider than the width asked for.", "quantifier": "all formats without widths whose values are kept apart, all arguments sprintf can print", "why_tests_cant": "The values, the literals around them and the blanks in the format combine without limit.", "anchors": ["std/fmt/fmt.n:6-231", "std/fmt/fmt.n:233-639", "std/fmt/utils.n:1-247"]}
{"id": "C107", "title": "arm64 machine code does what the assembler instruction says", "statement": "For every assembler instruction of the compiler's arm64 back end whose operands exist, the encoder either refuses or produces one 32-bit word that the processor decodes as an instruction with exactly the effect the mnemonic stands for: same registers, flags, memory and next address, in every machine state. False: constants over 16 bits, far branches and unaligned or far offsets are silently cut; mvn on w registers works on 64 bits; ldrb to an x register loads two bytes; ldrsb and ldrsh to an x register leave its upper half zero; ldp and stp of w registers use half the offset; the zero register is taken for sp.", "quantifier": "all instruction forms, all registers, all 64-bit immediates, all machine states, every floating-point arithmetic", "why_tests_cant": "2^64 immediates times registers times machine states; a wrong field shows only for some operands and only when the value matters.", "anchors": ["src/binary/encoding/arm64/opcode.c:1-1134", "src/binary/encoding/arm64/asm.h:371-649"]}
{"id": "C108", "title": "Floating-point constants loaded with one instruction are exact", "statement": "When the compiler decides that a double constant fits the 8-bit immediate of fmov, running the emitted instruction leaves exactly that double in the register and changes nothing else. It decides so for each of the doubles with such an immediate, except -1.9375. A single-precision constant is never loaded this way.", "quantifier": "all doubles, all destination registers, all machine states", "why_tests_cant": "There are 2^64 doubles; the test must be exact at every boundary of exponent and fraction.", "anchors": ["src/binary/encoding/arm64/fmov_imm8.h:13-72", "src/lower/arm64.c:58-96", "src/binary/encoding/arm64/opcode.c:558-614"]}
{"id": "C109", "title": "An expression is read with the precedence of its operators", "statement": "The compiler reads an expression as the precedence of its operators says: from loosest to tightest ?:, ||, &&, |, ^, &, == and !=, comparisons, shifts, + and -, * / and %, as, prefix operators, calls and indexing and selection; binary operators group to the left, ?: to the right, a minus before a number belongs to the number. Every text of the grammar is accepted with the tree of the grammar and without consuming what follows; nothing else is accepted; no text has two readings; the parser always ends, with a tree or an error message. False: in `a < b >> c` the compiler takes `<b>` for type arguments and stops on a failed assertion; for `a ! b` and `a ~ b` it calls a null pointer.", "quantifier": "all token sequences, of any length and depth of nesting", "why_tests_cant": "There are infinitely many combinations of operators; a wrong precedence shows only when two particular operators meet in a particular order.", "anchors": ["src/syntax/parser.c:3369-3473", "src/syntax/parser.c:1211-1229", "src/syntax/parser.c:1379-1497", "src/syntax/parser.c:1550-1599", "src/syntax/parser.c:1679-1799", "src/syntax/parser.h:12-31"]}
{"id": "C110", "title": "An integer constant has the value that was written", "statement": "An expression made of integer literals, named constants, + - * / % & | ^ << >>, unary - and ~ that is used as a value of an integer type gives its mathematical value if the type has that value, and a compile error otherwise. A constant division by zero is left to the running program. A constant defined through itself is rejected and the compiler always stops. False: a literal above 2^63 - 1 used as i64 silently becomes 2^63 - 1; u64 accepts negative constants; 010 is read as octal; operands above 2^63 - 1 are replaced before folding; overflow while folding is undefined behaviour of the compiler.", "quantifier": "all constant expressions, all sets of constant definitions, all integer types", "why_tests_cant": "There are infinitely many expressions and values; the wrong ones sit at the limits of 64-bit arithmetic and in particular spellings.", "anchors": ["src/semantic/analyzer.c:1682-1917", "src/semantic/analyzer.c:2080-2106", "src/semantic/infer.c:3293-3306", "utils/type.h:1084-1105", "src/linear.c:3854-3885"]}
{"id": "C111", "title": "Concatenated string constants keep all their text", "statement": "A string constant written as literals joined with + is the text of the literals one after the other. False for literals that contain a NUL byte: the rest of such a literal is lost.", "quantifier": "all trees of string literals, all bytes", "why_tests_cant": "The literals are arbitrary; a test tries a few printable ones.", "anchors": ["src/semantic/analyzer.c:1692-1712", "src/linear.c:3825-3827"]}
{"id": "C112", "title": "A compiled function does what its statements say", "statement": "When the statements of a function, run one after the other as written, come to an end - with a value, with nothing, or with an error - the code compiled for it comes to the same end, with the same local and global variables and the same calls in the same order with the same arguments. This covers operators, comparisons, && and || that skip their right side, ?:, calls, assignment, if, for, break, continue, return, try/catch, throw and defer, nested to any depth. False: a deferred body that assigns to a variable changes the value already returned by `return x`; in g + f() the global g is read after the call; `if a < b` on floats takes the first branch when one is NaN.", "quantifier": "all function bodies, all starting states, all behaviours of the other functions", "why_tests_cant": "There are infinitely many programs; a compiler test covers a few shapes, and jumps out of nested loops, scopes and handlers multiply.", "anchors": ["src/linear.c:44-172", "src/linear.c:903-937", "src/linear.c:1545-1601", "src/linear.c:1703-1833", "src/linear.c:2115-2376", "src/linear.c:3784-3814", "src/linear.c:4031-4058", "src/linear.c:4171-4349"]}
{"id": "C113", "title": "Deferred code runs once, last first, however the scope is left", "statement": "The bodies registered with defer in a scope are executed exactly once each, in the reverse of the order in which they were registered, after the rest of the scope, whether the scope is left at its end, by break, continue, return or by an error. A function with defers compiles. False when a deferred body calls a function that may fail: compiling such a function with a return after it never ends.", "quantifier": "all numbers of deferred bodies, all ways of leaving the scope", "why_tests_cant": "The exits multiply with nesting; a test tries one exit at a time.", "anchors": ["src/linear.c:53-172", "src/linear.c:4259-4277"]}
{"id": "C114", "title": "An error goes to the nearest handler and to nowhere else", "statement": "An error raised in the body of a try, by a call or by throw, goes to its catch, which receives that error; then execution carries on with the handler. An error outside every try ends the function with that same error, and a function whose statements end without error reports none. False: throw written directly in the body of a try leaves the function and skips the catch; an error that is on its way out of a function is lost when a deferred body calls a function that itself handles errors.", "quantifier": "all function bodies, all errors, all behaviours of the other functions", "why_tests_cant": "Errors can arise in any call of any nesting; a test raises one in one place.", "anchors": ["src/linear.c:903-937", "src/linear.c:3784-3814", "src/linear.c:4031-4058", "runtime/nutils.c:650-792"]}
{"id": "C115", "title": "Reordering instructions does not change what a block does", "statement": "The scheduler, which moves the instructions of a basic block so that slow ones start early, always ends, keeps every instruction exactly once, never moves one over a call, label, branch or return, and leaves a block that computes the same values in the same variables, registers and memory from every starting state. False: a global variable named in an instruction is not seen as memory, so `g = t; x = g` may read the old g (the amd64 lowering leaves such operands); and only the last of several readers of a register is kept before the next write to it.", "quantifier": "all instruction sequences, all states, all meanings of the instructions", "why_tests_cant": "The order chosen depends on every instruction of the block, its latencies and ties; a test sees a handful of orders.", "anchors": ["src/schedule.c:10-613", "src/schedule.h:13-55", "src/lir.h:456-521", "src/lir.h:632-694", "src/lir.h:1384-1428", "src/build/build.c:1681-1684"]}
{"id": "C116", "title": "base64.encode writes RFC 4648 text that decodes to the same bytes", "statement": "For every vector of bytes, encode returns exactly the base64 text RFC 4648 prescribes for it, with = padding and without line breaks; decode applied to that text, as it is or broken into lines with blanks at their ends, returns the original bytes. Neither writes outside the buffer it allocated.", "quantifier": "all byte vectors, all ways of breaking the text into lines", "why_tests_cant": "The group and padding cases combine with every byte value and every position of a line break.", "anchors": ["std/base64/base64.n:1-34", "runtime/mbedtls/base64.c:27-260", "runtime/mbedtls/constant_time_impl.h:391-405"]}
{"id": "C117", "title": "base64.decode accepts exactly base64 text", "statement": "decode returns the bytes a text stands for when it consists of groups of four digits of the alphabet, the last one possibly padded with = or ==, in lines that may end with blanks, and throws on every other text; it never returns partial data, panics or touches memory outside its buffer. A text stands for one sequence of bytes only. The bits left over before the padding need not be zero, so two texts may stand for the same bytes.", "quantifier": "all byte vectors", "why_tests_cant": "Malformed input comes in unbounded variety: misplaced padding, blanks, stray bytes, wrong lengths.", "anchors": ["std/base64/base64.n:22-34", "runtime/mbedtls/base64.c:42-58", "runtime/mbedtls/base64.c:133-260"]}
{"id": "C118", "title": "The amd64 peephole pass keeps what a program computes", "statement": "Compiling for amd64, folding a multiplication by 1, 2, 4 or 8 and an addition or subtraction of a constant into one address computation changes neither memory, nor registers, nor any variable that is read after the block, whatever the values, also when the arithmetic wraps.", "quantifier": "all blocks of instructions, all sets of variables read later, all values and memory contents", "why_tests_cant": "The rewrite is sound only if the dropped temporaries are dead, over all surrounding instructions, and the sums agree modulo 2^64.", "anchors": ["src/peephole/amd64.c:8-233", "src/peephole/peephole.h:11-90", "src/lir.h:456-521", "src/build/build.c:1675-1680"]}
{"id": "C119", "title": "The arm64 peephole pass keeps what a program computes", "statement": "Compiling for arm64, removing moves, turning multiplications by two into additions and fusing multiplications with additions and subtractions changes neither memory, nor registers, nor any variable that is read after the block, and the pass does not abort.", "quantifier": "all blocks of instructions, all sets of variables read later, all values and memory contents", "why_tests_cant": "The rewrites feed one another over five rounds while the table of uses they rely on is built once.", "anchors": ["src/peephole/arm64.c:22-521", "src/peephole/peephole.h:11-90", "src/lir.h:1231-1270", "src/lir.h:1346-1373", "src/lower/arm64.c:50-100", "src/lower/arm64.c:189-218"]}
{"id": "C120", "title": "The run-time number of a type tells types apart", "statement": "Two types get the same run-time number exactly when they are the same type: the same declaration applied to the same arguments, or the same kind built from the same types. `is` tests, casts out of a union and the garbage collector all rely on that number.", "quantifier": "all types, of any nesting, and all names", "why_tests_cant": "The number is a hash of a string made of hashes; whether the strings can be confused depends on every way a type can be written.", "anchors": ["src/rtype.h:24-158", "src/rtype.h:948-964", "utils/helper.h:272-290", "utils/type.h:148-200"]}
{"id": "C121", "title": "A value accepted for a type belongs to that type", "statement": "When the checker accepts an expression of one type where another type is expected, every value of the first type is a value of the second, and every type is accepted where it is expected itself.", "quantifier": "all pairs of types, of any nesting, with declared, generic, union, function and pointer types, and all values", "why_tests_cant": "Acceptance is decided by a recursive comparison with a table shared between branches; a wrong answer needs a particular pair of types.", "anchors": ["src/semantic/infer.c:227-247", "src/semantic/infer.c:439-721", "src/semantic/infer.c:3744-3798"]}
{"id": "C122", "title": "A boxed value comes back unchanged", "statement": "A value put into a union, an `any`, an interface or a tagged union comes back byte for byte when it is asserted with its own type, whatever is done meanwhile to the rest of memory and to the variable it came from. `is` says exactly that type, asserting any other type panics, and boxing changes no memory but the box and its fresh block.", "quantifier": "all values of all sizes and storage kinds, all memories, all addresses, and all changes made in between outside the box", "why_tests_cant": "Whether the bytes are copied or shared, and where they are looked for, depends on the storage kind, the size and later writes.", "anchors": ["runtime/nutils/nutils.c:217-302", "runtime/nutils/nutils.c:312-491", "utils/type.h:576-600"]}
{"id": "C123", "title": "match runs the first case that fits", "statement": "A match the compiler accepts evaluates its subject once, tries the conditions in the order they are written, runs the body of the first case that fits and no other, hands `is T v` the value that was tested, and never falls through all cases.", "quantifier": "all matches over unions, tagged unions, enums, any, interfaces, other values and bare conditions, with any number of cases and conditions, all effects of conditions and bodies", "why_tests_cant": "The last case is compiled without its test, so the result relies on the completeness check for every possible set of cases; conditions and bodies may have any effect.", "anchors": ["src/linear.c:3593-3707", "src/linear.c:3145-3195", "src/linear.c:1777-1791", "src/semantic/infer.c:1407-1535", "src/semantic/analyzer.c:736-782", "src/semantic/analyzer.c:837-902"]}
{"id": "C124", "title": "for .. in visits what there is to visit", "statement": "`for v in x` and `for k, v in x` over a vector, a string or a map run the body once for every position below the length, in order, with that position's element (or position or key, and element), until the body breaks or leaves; `for v in c` runs it for every message of a channel until the channel is closed; `for i in a..b` runs it for a, a+1, ... b-1.", "quantifier": "all containers, channels and ranges of any size, all bodies with any effect, including those that change the container, continue, break or return", "why_tests_cant": "The result depends on the interplay of labels, cursor and what the body changes, for every body and every length; non-ending loops cannot be observed by a test.", "anchors": ["src/linear.c:1616-1692", "src/linear.c:1731-1775", "src/astgen.h:6-61", "runtime/nutils/nutils.c:500-648", "runtime/rt_chan.c:343-405"]}
{"id": "C125", "title": "ret, catch expressions and failed index checks leave blocks properly, and loops end exactly when they should", "statement": "Beside break, continue, return and throw (C112 to C114): ret leaves the innermost block with a value or catch body, f() catch e { } handles exactly the errors of that call, an index out of range goes to the innermost catch of its function and stops the program when there is none; on each of these ways the defer blocks reached are run once, the last first. The compiled function comes to an end exactly if its statements do, so a loop that does not end does not end in the code either.", "quantifier": "all functions built of defer, if, loops, try and catch, blocks, break, continue, ret, return, throw, failing calls and index checks, nested to any depth, all effects of the calls", "why_tests_cant": "The code of deferred blocks is copied to every way out, chosen by nesting depths; programs and nestings are unbounded, and a lost error or a compiler that does not come back needs the right nesting.", "anchors": ["src/linear.c:53-167", "src/linear.c:903-933", "src/linear.c:1703-1801", "src/linear.c:3709-3813", "src/linear.c:4026-4057", "src/linear.c:4258-4350", "runtime/nutils/nutils.c:650-790", "src/semantic/analyzer.c:2280-2288"]}
{"id": "C126", "title": "select runs the body of the operation that took effect", "statement": "A select evaluates its channels and messages once, in the order written, asks the runtime about exactly those operations with each one's own channel and message, and runs the body of the operation the runtime performed and no other; the default is run only if none could go on; then execution continues behind the select. The message sent is the value it had when its case was evaluated, and the body of a receive has the message received.", "quantifier": "all lists of cases the compiler accepts, up to 32767 cases, all expressions, bodies and runtime answers, any code around the select, all channel states", "why_tests_cant": "Sends and receives are regrouped, so the number the runtime returns is not the position in the source; a wrong offset or map shows only for particular mixtures and orders of cases, which are unbounded.", "anchors": ["src/linear.c:1835-1973", "src/lir.h:1107-1135", "src/syntax/parser.c:2193-2266", "src/semantic/analyzer.c:904-921", "src/semantic/infer.c:3092-3114", "runtime/rt_chan.c:304-334", "runtime/rt_chan.c:562-602"]}
{"id": "C127", "title": "A call on amd64 and the function called agree on where arguments and results are", "statement": "On amd64 outside Windows the caller puts every argument exactly where the function called looks for it, following the System V convention: values of up to 16 bytes in registers by the class of each eightbyte as long as there are enough registers, others on the stack; a result returned in memory has its address passed in front of the arguments. No register and no stack byte is used for two things, and the stack places lie inside the room reserved for the call. Results are found where they were left, and results that do not mix integers and floats are where C expects them.", "quantifier": "all argument lists of any length, all nestings of structs laid out as in C, all result types", "why_tests_cant": "Which register or stack place an argument gets depends on all the arguments before it; the two sides are separate code, and a disagreement shows only for particular mixtures of structs, floats and integers around the point where the registers run out.", "anchors": ["src/lower/amd64_abi.c:80-155", "src/lower/amd64_abi.c:238-425", "src/lower/amd64_abi.c:590-914", "src/lower/amd64_abi.c:916-992", "utils/helper.h:486-492"]}
{"id": "C128", "title": "The RISC-V linker relocates ULEB128 fields in place", "statement": "A SET_ULEB128 and SUB_ULEB128 pair leaves the difference of its two operands in the ULEB128 field it points at, reduced to what the field can hold; the field keeps its length and no byte behind it changes. The same holds for each of the two alone. The pair succeeds exactly when there is a complete field of at most 64 bits and both operands are in the unsigned 64-bit range, and otherwise no byte changes.", "quantifier": "all fields of up to ten bytes, all bytes behind them, all 64-bit symbol values and addends", "why_tests_cant": "The intermediate value of a pair does not fit the field and must be cut so that the difference still comes out right; this depends on the width of the field and on all bits of both addresses.", "anchors": ["src/ld/ld_elf_riscv_uleb.c:16-134", "src/ld/ld_elf_riscv_uleb.h:17-38"]}
{"id": "C129", "title": "The linker's SHA-256 is the standard one for every message and every way of feeding it", "statement": "Whatever pieces a message is handed over in, the digest is the SHA-256 digest of FIPS 180-4 of the whole message; what the context held before does not matter.", "quantifier": "all messages of less than 2^64 bits, all divisions into pieces of any length including empty ones, any initial contents of the buffer", "why_tests_cant": "The code buffers partial blocks and pads across block borders; every remainder modulo 64 at every piece border is a different path, and a wrong constant or shift gives digests that only an independent definition can show to be wrong.", "anchors": ["src/ld/sha256.c:5-181", "src/ld/sha256.h:7-17"]}
