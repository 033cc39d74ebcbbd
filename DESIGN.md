# Formal model of the Nature language runtime and standard library

Subject: nature-lang/nature, source in /repo (C runtime, `.n` standard library). The model is
written in Coq 8.16.1 under `rocq/theories`. Nothing in /repo is built or run: the tie between
model and code is the citation (file and lines) on every definition.

## Conventions

* One component = four files: `X_model.v` (transcription of the code, function by function),
  `X_spec.v` (independent specification, readable from the English alone), `X_proof.v`
  (lemmas), `X_props.v` (only theorems closed by `exact`, the `Example`s showing that the
  hypotheses are met, and `Print Assumptions`).
* Bytes are `Z` with the predicate `0 <= b < 256`; strings are `list Z`; Nature `int` is Z, with
  wrap-around written out where the code can reach it.
* A C `assert` failure, a thrown error and undefined behaviour are separate outcomes in the
  model, never totalised away. Loops become structural recursion or fuel; running out of fuel is
  a separate outcome that theorems exclude.
* If the code violates a property, the theorem is `..._refuted` with a concrete witness, and a
  `..._partial` theorem states what does hold and under which hypothesis.

## Plan per property

| id | modelled | method |
|----|----------|--------|
| C01, C02 | url.n encode/decode byte by byte | induction on the string; finite sweep over bytes lifted by lemma |
| C03 | url.n parse state machine with index, start and state variables | loop invariant; reassembly relation; completeness |
| C04 | query(), split, map of lists keyed by C-string equality | induction on the pair list; refutation for NUL-bearing keys and raw '=' |
| C05 | mem.n and helper.h byte accessors | base-256 digits, read/write lemmas with frame |
| C06, C07 | vec.n sort family as index-based programs on lists with checked access | invariants for partition, heap, insertion; fuel bounds proved sufficient; arbitrary comparator for safety |
| C08 | vec.n search | loop invariant |
| C09, C10 | vec.c over a heap of arrays with headers (array, offset, length, capacity) | refinement to value lists, separation and aliasing lemmas |
| C11, C12 | map.c + hash.h open addressing with tombstones, arbitrary hash function | probe-chain invariant, refinement to a finite map; refutation of "never aborts" |
| C13 | rtype_value_to_str, key_equal | injectivity for scalars and NUL-free strings; refutations |
| C14 | set.c | refutations (deletion empties the slot, no compaction); partial theorem for histories without delete |
| C15-C17 | rt_chan.c channel under its lock: each API call is one atomic step plus park/wake | invariant over step sequences (ghost history of sent and received values) |
| C18 | select lock order (heap sort), unlock scan, commit | sortedness/permutation; refutation of single release in selpark_commit |
| C19 | rt_mutex.c as interleaving of atomic operations | inductive invariant over N threads |
| C20 | await/exit protocol under dead_locker | invariant; refutation for two awaiters |
| C21 | Gcconc: coroutines, write barriers in single accesses, per-processor and global work lists, stack walk, word by word scans, stop | refutation trace for the barrier that shades the slot's object; invariant: what scanned stacks, globals and marked objects refer to is marked or still within the collector's reach, preserved by every step whose overwritten reference is known |
| C22 | Gcmark: collector.c handle_gc_ptr, handle_gc_worklist, insert_gc_worklist, gc_mark_done on top of Spans and Heapbits; turns of processors as a list | invariant: reached = marked or pending, pending objects closed under pointer words; measure of unmarked objects for termination; reachability both inclusions; refutation for objects that cross an arena |
| C23 | calc_sizeclass and tables | finite sweep lifted to all sizes in the stated range |
| C24, C25, C26 | page bitmap, chunk summary, merge, find, set | run-length specification; refutation of the search window |
| C27 | mspan slot allocation with alloc bits and free index | invariant over histories |
| C28 | arena bitmap index, batch writer, mask writer, the loop of the collector that reads it; arena size is an argument | bit-level specification of one allocation, then histories; reading compared with the specification; refutations for vectors and for objects crossing arenas |
| C29 | allocated_bytes accounting | refutation (page rounding of large objects) |
| C30 | bitmap.h | testbit lemmas |
| C31 | fixalloc.c | disjointness invariant; refutation above half a chunk |
| C32 | arena.n | disjointness/alignment invariant |
| C33-C38 | strings.n, fmt/utils.n | specification by occurrence positions / numerals; refutations where the code differs |
| C39 | string.c comparisons | order laws |
| C40 | path.n | functional characterisation |
| C41 | json.n serialize_string, parser_string and helpers, byte by byte | code-point level UTF-8 specification (`Json_spec.v`): [chars] relates text to bytes; the loops are proved to follow it in both directions |
| C42 | json.n parse, parser_value and helpers, serialize_value on `any` | inductive JSON syntax [text]/[elements]/[members] with the nesting depth as an index; completeness by mutual induction on the syntax, soundness by induction on fuel |
| C43 | json.n parser_number_token | the four-part grammar of RFC 8259 as an inductive type |
| C44 | json.n parser_number, deserialize<integer>, serialize of integers, with Flocq's binary64 | refuted; partial: exactness of every f64 operation on integers up to 2^53 |
| C45 | json.n reader_t | the scan is a fold over bytes, so chunks compose |
| C69 | reader_t against parse | induction on the syntax: scanning a value inside a container returns to the same state |
| C46 | io/buf.n reader; the underlying reader is a list of answers (bytes, empty, EOF, failure) | invariant: buffer = consumed ++ unread ++ free; induction over the calls |
| C47 | read_until returns bounds in the internal buffer | refuted; partial: calls answered from the buffer leave it unchanged |
| C48 | io/buf.n writer; the underlying writer is a list of answers | invariant sink ++ held = handed over; sticky error |
| C49 | io/io.n buffer over Vec_model's heap, with the caller's vectors | refinement to a queue beside independent lists |
| C70 | read_line | induction on the lines of the stream; refuted for lines as long as the buffer |
| C50 | blowfish.n: tables, key expansion, block functions | the rounds run backwards (induction over the rounds); the key schedule keeps lengths and word size. The model gives the published result for the all-zero key and block (run once, not part of the build) |
| C51 | bcrypt.n: base64, printing, parsing, hash, verify; the salt is an argument | round trips for base64 and the printed form; every step is total. The model accepts the published vector for "U*U" at cost 5 (run once, not part of the build) |
| C52 | the same | verify compares exactly the digests; the digest depends only on 72 bytes of repeated key; refuted for NUL and for long passwords |
| C53 | crypto/utils.n to_hex | induction, with a separate reading of hexadecimal digits |
| C54 | http/client.n chunked reader over the buffered reader of C46 | refinement: the chunked reader answers every call as a plain source holding the body does; refuted for long size lines |
| C55 | http.n response writer, http/utils.n numbers | framing computed and compared with a separate grammar; refuted for user headers that break it |
| C71 | client.n text() | whatever the connection does, the bytes returned are as many as announced; refuted for chunked bodies |
| C72 | client.n send (reading half), text() | induction over the header lines of a response grammar; refuted for other spellings |
| C73 | client.n tcp_buf, fill_headers | framing as for C55 |
| C74 | http.c reading half with the parser's callbacks as input; http.n request_new | invariant: every recorded address still shows the bytes reported; refuted for split bodies and pipelined requests |
| C75 | the same, with blocks and generations | bounds invariant; refuted for 101 headers and for a moved block |
| C76 | scanner.c scanner_ident, the nested switch with its missing breaks, over words as byte lists | the switch equals a table lookup; refuted by eleven accidental words |
| C77 | all of scanner.c: scanner_item, scanner_special_char, numbers, strings, scanner_skip_space, statement ends; text as a list ending in NUL, columns left out | a grammar (Scanner_spec.v `reads`) with maximal munch; the scanner's result and the grammar coincide, both directions by induction |
| C78 | scanner_string_advance | relation `spells` between bytes and spellings; induction over the spelling |
| C79 | scanner_number_convert (strtoull, utoa) | relation `denotes` between digits and numbers; numerals are unique |
| C80 | every look at the text is checked against its end | outcome theorem by induction; refuted by an open string |
| C81 | scanner_skip_space | layout part of the grammar; refuted by slash-star-slash |
| C82 | type_sizeof, type_alignof, offsets of members (utils/type.c, src/linear.c, src/rtype.h) | equal to the layout relation `laid_out`/`offsets`, by induction on types |
| C83 | reflect_type and the *_gc_bits functions (src/rtype.h), scan_global | the walk sets exactly the bits of `holds`, by induction on types; refuted for any and for structs of 64 KiB |
| C84 | ssa_domers, ssa_imm_domer, ssa_df (src/ssa.c) | the rounds only remove non-dominators and end at the greatest fixed point, which is dominance by ways; tree and frontiers from it |
| C85 | ssa_use_def, ssa_live (src/ssa.c), with the count in a byte | sets grow inside `needed` and end closed under it; refuted: 256 live variables never end |
| C86 | ssa.c: placing phi functions with the work list, renaming along the tree of dominators with its stacks, numbers in bytes and incomplete popping (Ssa_model.v, on top of Dom_model.v and Live_model.v) | a machine that leaves operations and jumps open runs both forms (Ssa_spec.v); renaming yields, for every block, the names on entry and at the end (Ssa_rename_proof.v, Ssa_tree_proof.v); a variable that is needed and has no phi is not assigned between the immediate dominator and any predecessor (Ssa_graph_proof.v); simulation (Ssa_proof.v). Refuted without the condition on variables: the stack of a variable without phi is not popped |
| C87 | the same | numbers of a variable grow by two and are fresh; 129 assignments refute it without the bound |
| C88 | cfg.c: cutting linear code into blocks, edges, pruning, merging, splitting edges (Cfg_model.v); ret_check (131-193) is not modelled | a machine that leaves operations and comparisons open runs linear code (Cfg_spec.v); every pass keeps an equivalence of code under two ways of finding jump targets (Cfg_sim_proof.v, Cfg_build_proof.v, Cfg_graph_proof.v, Cfg_merge_proof.v, Cfg_split_proof.v), composed and written back to linear code in Cfg_proof.v |
| C89 | the same | invariant kept by every pass |
| C90 | broken_critical_edges | refuted by a witness; a block with at most one critical edge into it loses it (Cfg_loops_proof.v) |
| C91 | return_check on the finished graph | the table of handled blocks is closed under successors (Cfg_loops_proof.v); invariant over executions: a return was executed or the way so far has none (Cfg_proof.v) |
| C92 | interval.c: operand_conflicts_with_dst, move_one, parallel_moves, handle_parallel_moves for one group (Pmove_model.v) | operands, memory and operations have open meanings (Pmove_spec.v); invariant over the recursion with the chain of moves begun, of which only the first can be met again (Pmove_proof.v); refuted for two operands by a witness |
| C93 | interval.c: resolve_blocked, resolve_mappings (Pmove_model.v); constants that are computed again are not modelled | invariant: what is left to move still has its value; when all moves are blocked the registers left are permuted, so one spill lets the next round go on (Pmove_edge_proof.v) |
| C94 | interval.c: interval_add_range, interval_covered, interval_is_intersect, interval_next_intersect, interval_add_use_pos, interval_next_use_position, interval_find_optimal_split_pos, interval_split_at (Regalloc_model.v) | intervals as sets of positions (Regalloc_spec.v), by induction on the ranges (Regalloc_proof.v) |
| C95 | allocate.c: allocate_walk, allocate_free_reg, allocate_block_reg, spill_interval, assign_interval, sort into unhandled (Regalloc_model.v); the preferred register is an argument, moves at splits, stack slots, the building of intervals and preassigned variables are not modelled | invariant: the intervals are a partition of the variables and all but those waiting have a place (Regalloc_walk_proof.v, Regalloc_step_proof.v); each step adds an interval or takes one away, and each has at least one position (Regalloc_end_proof.v) |
| C96 | as C95 | invariant: what has a register and still lives is active or inactive, and the positions found for the registers are lower bounds of the next use (Regalloc_step_proof.v); refuted by a function with a loop |
| C97 | encoding/riscv64/opcode.h (instruction words) and opcode.c (asm_3r, asm_2ri, asm_2r, asm_mv, asm_li, asm_ld, asm_sd, asm_j, asm_jr, asm_jalr, asm_bxx, asm_call_d, asm_3fr, asm_2fr, asm_fcmp, asm_fld, asm_fsd, asm_fi, asm_if) (Rv_model.v); the matching of operand kinds is not modelled | specification: decoder and effect of RV64GC instructions from the manual (Rv_spec.v); bit-field lemmas (Rv_proof.v), decoding of every word form (Rv_dec_proof.v, Rv_dec16_proof.v), then the effect, instruction by instruction (Rv_run_proof.v, Rv_seq_proof.v, Rv_end_proof.v) |
| C98 | as C97: li_sub | induction on the recursion of li_sub; size by the four levels (Rv_seq_proof.v) |
| C99 | binary/arch/amd64.h: the two passes over the text (elf_amd64_operation_encodings), the shrinking of jumps, the symbol entries; encoding/amd64/opcode.c: the jumps and calls; elf/linker.c: PC32 (Jumps_model.v) | specification: what the jump bytes mean to the processor, positions of instructions (Jumps_spec.v); invariant of the first pass (symbol table, offsets, pending jumps), second pass by Forall2 (Jumps_proof.v) |
| C100 | binary/arch/riscv64.h elf_riscv64_relocate, helper.h reads and writes (Rvlink_model.v); relocations through GOT and PLT are left out | decoder of C97; bit-field lemmas for each patch (Rvlink_proof.v), ranges and the two parts of an address (Rvlink_reloc_proof.v), numbers and ULEB128 (Rvlink_data_proof.v) |
| C101 | binary/arch/riscv64.h elf_riscv64_operation_encodings (Rvlink_model.v) | as C99 (Rvlink_names_proof.v); linked calls by running the two instructions in the semantics of C97 |
| C102 | binary/encoding/amd64/opcode.c: the whole table of 281 entries, matching, sorting and selection, opcode_fill, writing of bytes (Amd_model.v) | specification: a decoder from the processor manuals, prefixes, ModRM, SIB, opcode maps (Amd_spec.v); a finite check of every entry and operand kind by computation in the kernel (Amd_check.v, `check_all_true`), then for all registers, displacements and numbers by nine forms of instruction (Amd_proof.v, Amd_dec_proof.v, Amd_enc_proof.v, Amd_main_proof.v, Amd_top_proof.v) |
| C103 | native/amd64.c: operands of the kinds stack, number, address (Amd_model.v); symbols and floats are left out | value of the address as a function of the registers (Amd_spec.v); case analysis, arithmetic of 32 bits (Amd_top_proof.v) |
| C104 | arch/amd64.h rip_offset (Amd_model.v) | relation between filling with two displacements: every field but one is the same (Amd_top_proof.v) |
| C105 | std/fmt/fmt.n 233-639 sscanf, all conversions (Scanf_model.v); the arithmetic of %f is left out, the digits are kept | specification: formats as lists of items, what each conversion reads as longest runs, a relation for reading a text (Scanf_spec.v); simulation of the loop position by position (Scanf_proof.v), the relation has an outcome for every text and every format has items (Scanf_back_proof.v) |
| C106 | sprintf (Fmt_model.v) and sscanf (Scanf_model.v) | the printed text lines up with the items of the format; blanks taken too early are accounted for by a stronger induction hypothesis (Scanf_back_proof.v) |
| C107 | src/binary/encoding/arm64/opcode.c and asm.h: table of operand kinds, matching, every encoding function (Arm_model.v) | an arm64 machine written from the architecture manual: decoding of words, effects, and the meaning of each mnemonic (Arm_spec.v); fields of words built by OR (Arm_bits_proof.v), decoding of every word (Arm_dec_proof.v), equality of effects (Arm_proof.v, Arm_int_proof.v, Arm_mem_proof.v) |
| C108 | src/binary/encoding/arm64/fmov_imm8.h (Arm_model.v) | the manual's expansion of 8-bit constants; both directions by splitting the double into its fields (Arm_fmov_proof.v) |
| C109 | src/syntax/parser.c: table of rules, parser_precedence_expr, parser_infix_token and the prefix and infix functions (Pratt_model.v); whether `<` opens type arguments is an oracle | a grammar with levels (Pratt_spec.v); fuel independence (Pratt_fuel_proof.v), soundness by induction on fuel (Pratt_proof.v), completeness by induction on the grammar (Pratt_comp_proof.v), no crash (Pratt_safe_proof.v) |
| C110 | src/semantic/analyzer.c constant folding and named constants, infer.c range check of a literal, linear.c reading of a literal; strtoll, strtoull, atoll and "%ld" as in glibc (Fold_model.v) | mathematical meaning of expressions as a relation (Fold_spec.v); induction on the meaning with the nesting depth of constants, print/read round trip (Fold_proof.v) |
| C111 | analyzer.c folding of string `+` with strlen/strcpy/strcat (Fold_model.v) | induction on the expression (Fold_proof.v) |
| C112 | src/linear.c: lowering of statements and expressions on words to linear code (Lin_model.v); arithmetic, float order and the other functions are an arbitrary `world` | big-step meaning of the source and small-step machine for the linear code (Lin_spec.v); freshness of labels (Lin_proof.v), forward simulation by induction on the derivation (Lin_sim.v), determinism of the machine |
| C113 | the same, linear.c:53-172 scopes and unwinding | corollary of the simulation for lists of deferred calls; induction on the depth for the refutation (Lin_props.v) |
| C114 | the same, with the three runtime error calls of nutils.c in the machine | corollaries of the simulation (Lin_props.v) |
| C115 | src/schedule.c: dependency graph, priorities, list scheduling, segments of a block (Sched_model.v); what an instruction computes is an arbitrary function of the places it reads | graph invariant by induction over the block (Sched_deps.v), the list scheduler returns a permutation that respects the edges (Sched_proof.v), clashing instructions are joined by a path (Sched_sound.v), reordering along a permutation that keeps clashing pairs leaves the state the same |
| C116 | std/base64/base64.n, runtime/mbedtls/base64.c encode and decode with the constant-time digit tables (Base64_model.v) | relation `written` from RFC 4648 and its uniqueness; induction over groups of three bytes; enumeration of the 64 digits and 256 bytes for the tables (Base64_proof.v) |
| C117 | the same, both passes of decode | relations `laid` (lines) and `b64` (groups); the first pass accepts exactly `laid` text, the second computes the bytes, whatever is left in the high bits of the accumulator |
| C118 | src/peephole/amd64.c, peephole.h (Peep_model.v) | instructions run on variables and an opaque machine (Peep_spec.v); states agree on what is live or still read; each rewrite keeps this, induction over the block and the rounds (Peep_proof.v) |
| C119 | src/peephole/arm64.c | the same, with occurrence counts that no rewrite but doubling increases (Peep_arm.v); full statement refuted twice, so the theorem is partial |
| C120 | src/rtype.h type_hash, utils/helper.h hash_string (Types_model.v) | sameness of types as an inductive relation (Types_spec.v); the hashed string splits in one way only into head, names and numbers, induction over the type (Types_hash.v); three refutations, so partial |
| C121 | src/semantic/infer.c type_compare_visited, type_union_compare | values of a type as a predicate (Types_spec.v); induction over the destination, the table of entered unions grows only by names of the destination (Types_proof.v); four refutations, so partial |
| C122 | runtime/nutils/nutils.c union_casting, any_casting, interface_casting, union_to_any, tagged_union_casting, the asserts and `is` (Box_model.v) | bytes at an address, regions kept between two memories (Box_spec.v); store then load, little-endian words round-trip by induction, then case analysis on the storage kind (Box_proof.v); one refutation for fx code, so partial |
| C123 | src/linear.c linear_match_expr, src/semantic/infer.c infer_match, src/semantic/analyzer.c analyzer_match (Match_model.v) | first case that fits, over arbitrary effects of conditions and bodies (Match_spec.v); the code with its labels and jumps is run by a small machine, induction over the cases with the labels of earlier cases out of the way; completeness check gives that the untested last case fits (Match_proof.v); three refutations, so partial |
| C124 | src/linear.c linear_for_iterator, linear_for_tradition on src/astgen.h astgen_for_range_rewrite, runtime/nutils/nutils.c iterator_next_key, iterator_next_value, iterator_take_value (Forin_model.v) | rounds by position, or by message, over arbitrary bodies (Forin_spec.v); the code with its labels is run by a small machine, both directions by induction on steps and on rounds (Forin_proof.v); closed channels, moving ends and deletion in a loop refuted, so partial |
| C125 | src/linear.c defer scopes and unwinding, linear_has_error, linear_bal_error, linear_break, linear_continue, linear_ret, linear_return, linear_throw, linear_try_catch_stmt, linear_catch_expr, linear_block_expr, linear_body, linear_fndef; runtime co_throw_error, co_has_error, co_remove_error (Defer_model.v) | structured meaning with "finally" (Defer_spec.v); the compiler copies deferred blocks by depth into code with jumps, run by a machine with the coroutine's error; mutual induction over statements with the pending scopes as invariant, equality for every bound on rounds (Defer_proof.v); five refutations, so partial |
| C126 | src/linear.c linear_select, src/lir.h lea_operand_pointer, the checks of parser_select_stmt, analyzer_select and infer_select, pass 1 of runtime/rt_chan.c rt_chan_select with rt_recv, rt_send, buf_pop (Select_model.v) | meaning over the list of operations offered (Select_spec.v); the code fills an array by byte offsets and dispatches on the returned number with labels; induction over the cases with the two offsets and cases_map as invariant, then over the dispatch chain, inside any function (Select_proof.v); three refutations, so partial |
| C127 | src/lower/amd64_abi.c: amd64_type_classify, amd64_lower_params, amd64_lower_args, amd64_lower_return, the result handling of amd64_lower_call and amd64_lower_fn_begin (Abi_model.v) | the System V rules over the flattened fields of a value and the lists of registers left (Abi_spec.v); classification by induction on types; the three loops of the caller and the two of the function called against one pass of the rules by induction over the arguments (Abi_proof.v); mixed results refuted, so partial |
| C128 | src/ld/ld_elf_riscv_uleb.c, all but the null checks and the messages (Uleb_model.v) | ULEB128 as a grammar with values (Uleb_spec.v); scanning, reading and writing by induction on it, then arithmetic modulo the capacity of the field, which divides or is 2^64 (Uleb_proof.v); the sign of the addend of SUB is refuted against the ABI document, so partial |
| C129 | src/ld/sha256.c, all of it (Sha_model.v) | FIPS 180-4 as a relation: constants by roots of primes, schedule as equations, blocks as a chain, padding by its defining property (Sha_spec.v); invariant of the context for the message so far, by induction over the update loop and over the pieces; uniqueness of the standard's digest shows that the relation is tight (Sha_proof.v) |
| C56 | rt_linked.h, linkco.c | refinement to queue / multiset conservation |
| C57 | needzero logic of spans | invariant over histories |
| C58 | gcbits.c epochs | invariant over histories |
| C59 | string.c conversions with the pool as an association list keyed by C string | pool invariant; refutation for NUL bytes |
| C60 | fmt.n sprintf directive by directive | induction on the item list |
| C61 | map iteration over the data arrays | corollary of the map invariant |
| C62 | span classes and page counts for objects of any size | invariants of the span allocator (Spans); refutation for sizes where the code overflows |
| C63 | chan.is_successful flag in rt_chan.c | refuted with a two-step run |
| C64 | rt_mutex.c, as C19 | the same invariant, with who still looks at the signal |
| C65 | rt_mutex.c with assertions as outcomes | the invariant; refutation for the assertion outside the lock |
| C66 | as C20, with the failure flag | case split on the order of failure and await |
| C67 | as C22; span_of and the arena index of Pages/Spans | invariant: every span lies below the end of the hinted reservation |
| C68 | as C21 | invariant: marked, queued and held objects were reachable at the start or are new |

## Trusted base

### Coq

* The kernel of Coq 8.16.1 and its standard library. No kernel check is switched off, no axiom is
  added, nothing is admitted. There are no functors, no module types and no plugins.
* `Print Assumptions` follows every theorem in the `_props.v` files. All but the five theorems
  below are closed under the global context.
* These five speak about floating point numbers through Flocq, whose reals are those of the
  standard library: `json_i64_round_trip_refuted`, `json_signed_round_trip_partial`,
  `json_unsigned_round_trip_partial`, `json_smallest_lost_refuted` (C44) and `c119_fused_refuted`
  (C119). `Print Assumptions` lists four axioms of the standard library for each of them:
  - `ClassicalDedekindReals.sig_not_dec`
  - `ClassicalDedekindReals.sig_forall_dec`
  - `FunctionalExtensionality.functional_extensionality_dep`
  - `Classical_Prop.classic`

### Reading of the source

* The transcription from C and `.n` to Coq is done by hand. Every definition of a `_model.v` file
  cites the lines it stands for and says where it simplifies.
* The meaning given to C: fixed-width integers wrap where the code relies on it; signed overflow,
  out-of-range shifts, out-of-range accesses and the like are the outcome `UB` where the code can
  reach them; a failed `assert` is `Abort`.
* The meaning given to `.n`: indexing and slicing are checked, `throw` is `Throw`, `panic` is
  `Panic`. The compiler is not assumed to be the one verified here; the `.n` files are read as
  source.
* The specifications in the `_spec.v` files: what a machine instruction does (Amd_spec, Arm_spec,
  Rv_spec), the published algorithms (Blowfish, bcrypt, base64, FNV), the grammar of expressions,
  JSON, URLs and HTTP messages. They are short and are to be read.

### Code that is modelled

| files | component | source |
|-------|-----------|--------|
| Abi | the amd64 calling convention | src/lower/amd64_abi.c, utils/type.h, utils/helper.h |
| Amd | amd64 encoder | src/binary/encoding/amd64/opcode.c, src/binary/arch/amd64.h, src/native/amd64.c, src/register/arch/amd64.c, src/lir.h |
| Arena | arena allocator | std/allocator/arena.n |
| Arm | arm64 encoder | src/binary/encoding/arm64/asm.h, src/binary/encoding/arm64/opcode.c |
| Await | await, coroutine switch | runtime/processor.c |
| Base64 | base64 | std/base64/base64.n, runtime/mbedtls/base64.c, runtime/mbedtls/constant_time_impl.h |
| Bcrypt | bcrypt | std/crypto/bcrypt.n |
| Bitmap | bitmaps | utils/bitmap.h |
| Blowfish | Blowfish | std/crypto/blowfish.n |
| Box | values in unions, any and interfaces | runtime/nutils/nutils.c, utils/type.h, runtime/rtype.c |
| Bufio | buffered reader | std/io/buf.n |
| Bufwriter | buffered writer | std/io/buf.n |
| Cfg | basic blocks | src/cfg.c, src/lir.h, src/types.h |
| Chan | channels and select | runtime/rt_chan.c, std/builtin/chan.n, utils/type.h |
| Chunked | chunked bodies | std/http/client.n |
| Defer | defer, errors and the ways out of a block | src/linear.c, runtime/nutils/nutils.c, src/semantic/analyzer.c |
| Dom | dominators | src/ssa.c, src/cfg.c |
| Fixalloc | fixed-size allocator | runtime/fixalloc.c, runtime/fixalloc.h |
| Fmt | integer formatting, sprintf | std/fmt/utils.n, std/fmt/fmt.n |
| Fold | constants | src/semantic/analyzer.c, src/semantic/infer.c, utils/type.h, src/linear.c |
| Forin | for loops over containers, channels and ranges | src/linear.c, runtime/nutils/nutils.c, runtime/rt_chan.c, src/astgen.h, src/semantic/infer.c |
| Gcbits | mark bits | runtime/gcbits.c, runtime/allocator.c, runtime/collector.c |
| Gcconc | concurrent collection | runtime/collector.c, runtime/nutils/nutils.c |
| Gcmark | marking | runtime/collector.c |
| Hash | hashing | runtime/nutils/hash.h, utils/helper.h |
| Heapbits | heap bits | runtime/allocator.c, runtime/memory.h, runtime/collector.c, utils/type.h |
| Hex | hex and padding helpers | std/crypto/utils.n |
| Httpmsg | HTTP messages | std/http/http.n, std/http/utils.n, std/http/client.n |
| Httpserve | HTTP server callbacks | runtime/nutils/http.c, std/http/http.n |
| Iobuf | in-memory buffer | std/io/io.n |
| Jreader | JSON text to tree | std/json/json.n |
| Json | JSON writer and reader | std/json/json.n, runtime/nutils/map.c |
| Jsonint | integers through JSON numbers | std/json/json.n |
| Jumps | amd64 jumps and linking | src/binary/arch/amd64.h, src/binary/encoding/amd64/opcode.c, src/binary/elf/linker.c |
| Layout | sizes, offsets, pointer maps | utils/type.c, utils/type.h, src/rtype.h, src/semantic/infer.c, utils/helper.h, src/linear.c, utils/custom_links.h, runtime/collector.c |
| Lin | statements to linear code | src/linear.c, src/lir.h, src/types.h |
| Linkco | run queues | runtime/linkco.h, runtime/linkco.c, runtime/runtime.h |
| Live | liveness | src/ssa.c, src/lir.h |
| Map | map | runtime/nutils/map.c, utils/type.h |
| Match | match | src/semantic/analyzer.c, src/semantic/infer.c, src/linear.c |
| Mem | integer accessors | std/mem/mem.n, utils/helper.h |
| Mutex | mutex | runtime/rt_mutex.c, std/co/mutex.n |
| Pages | page allocator | runtime/allocator.c, runtime/runtime.h, utils/bitmap.h |
| Path | paths | std/path/path.n, runtime/nutils/string.c |
| Peep | peephole passes | src/peephole/amd64.c, src/peephole/arm64.c, src/peephole/peephole.h |
| Pmove | parallel moves | src/register/interval.c, src/lir.h |
| Pratt | expression parser | src/syntax/parser.c, src/ast.h, src/syntax/token.h, src/syntax/parser.h |
| Regalloc | register allocation | src/register/interval.c, src/register/allocate.c, src/types.h, src/register/allocate.h, src/register/interval.h |
| Rlist | linked list | runtime/rt_linked.h, runtime/collector.c |
| Rv | RISC-V encoder | src/binary/encoding/riscv64/opcode.h, src/binary/encoding/riscv64/opcode.c |
| Rvlink | RISC-V linking | src/binary/arch/riscv64.h, utils/helper.h |
| Scanf | sscanf | std/fmt/fmt.n, utils/type.h |
| Scanner | scanner | src/syntax/scanner.c, src/syntax/token.h, utils/helper.h |
| Sched | instruction scheduler | src/schedule.c |
| Select | the select statement | src/syntax/parser.c, src/semantic/analyzer.c, src/semantic/infer.c, src/linear.c, runtime/rt_chan.c, src/ast.h, src/lir.h, utils/type.h, src/types.h |
| Sellock | lock order of select | runtime/rt_chan.c |
| Set | set | runtime/nutils/set.c, utils/type.h |
| Sha | SHA-256 in the linker | src/ld/sha256.c |
| Sizeclass | size classes | runtime/sizeclass.h, runtime/allocator.c, runtime/memory.h |
| Sort | sorting and searching | std/builtin/vec.n |
| Spans | spans | runtime/allocator.c, runtime/collector.c |
| Ssa | SSA form | src/ssa.c, src/ssa.h, src/lir.h |
| Strings | string functions | std/strings/strings.n, runtime/nutils/string.c |
| Strorder | string comparison | runtime/nutils/string.c |
| Strpool | string constants at run time | runtime/nutils/string.c, utils/sc_map.c |
| Types | type numbers and comparison | src/rtype.h, utils/helper.h, src/semantic/infer.c, utils/type.h |
| Uleb | ULEB128 fields in the RISC-V linker | src/ld/ld_elf_riscv_uleb.c |
| Url | URLs | std/net/url.n, runtime/nutils/hash.h |
| Vec | vectors | runtime/nutils/vec.c, std/builtin/vec.n, src/linear.c, utils/type.h, utils/array.h |

The line ranges stand beside the definitions.

### What stands behind an argument of the model

These are not modelled; the theorems hold for every behaviour of theirs unless a hypothesis says
otherwise.

* Memory of the operating system: the addresses that `sys_memory_alloc` and `realloc` return.
* Interleaving: the concurrent components are step relations in which any thread or coroutine may
  move next. Memory is sequentially consistent and a step is what the code does under one lock or
  in one atomic operation.
* Readers and writers under a buffer (Bufio, Bufwriter), network reads and the callbacks that the
  llhttp parser makes (Httpserve).
* Comparators given to `sort`, hash functions, the random salt of bcrypt.
* `ftos_with` (printing a float) in sprintf, the float arithmetic of `%f` in sscanf.
* libc: `strtoll`, `strtoull`, `atoll` and `printf` with `%ld` follow the C standard.
* The preferred register (`find_hint_reg`) in Regalloc.
* Whether `<` opens a list of type arguments in Pratt.
* Opaque parts of the machine: the world `W` of calls and memory in Lin, Sched and Peep, float
  arithmetic and `ecall` in the RISC-V and arm64 specifications.

### Code that is not modelled

* Type inference and generics, except the comparison and the number of reduced types (Types), the
  folding of constants (Fold) and the layout of types (Layout).
* Statements of the parser, except expressions (Pratt); `match`, catch expressions, iteration over
  containers and `select` in the lowering of statements (Lin).
* Lowering to machine operations and the choice of native instructions for all targets; the
  calling conventions; ELF and Mach-O output apart from the relocations in Jumps and Rvlink.
* The walk over stack frames in the collector, signal handling, preemption, timers, file and
  network input and output (libuv), TLS, processes.
* Third-party code: mbedtls apart from base64, llhttp, libuv, tree-sitter grammars, musl.
* The part of each modelled file that no definition cites.
