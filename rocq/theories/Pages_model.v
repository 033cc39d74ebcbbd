(** Model of the page allocator: runtime/allocator.c:51-832 and 1237-1267 (the parts that decide which pages
    a span gets), constants of runtime/runtime.h:78-150 for 64-bit Linux on amd64 (8 KiB pages).

    All callers hold memory->locker (allocator.c:799, collector.c:258), so every function is one step.
    Addresses and sizes are unbounded integers (all of them stay below 2^63, see op_small in Pages_spec.v);
    the 16- and 32-bit variables of the summaries are truncated as in C.  assert(false) is [Abort]; an
    access outside an array or through a null pointer is [UB].  A chunk (uint64_t blocks[8]) is kept as its
    64 bytes, since the bitmap functions of utils/bitmap.h write it byte by byte; blocks[k] reads 8 of them,
    low byte first.  The kernel is an argument: [grant addr size] says whether a reservation at addr may
    succeed; it never succeeds over an existing mapping or above the user address space.  The arena_t records
    (spans, heap bitmap) are modelled elsewhere; sys_memory_map/used/unused do not change any of this state. *)
From Verif Require Import Base Zlist Bitmap_model.

(** runtime.h:80-83, 110-133 *)
Definition ARENA_SIZE : Z := 67108864.
Definition PAGE : Z := 8192.
Definition BASE : Z := 824633720832.           (* ARENA_HINT_BASE = ARENA_BASE_OFFSET = 0xc000000000 *)
Definition HINT_SIZE : Z := 1099511627776.
Definition HINT_COUNT : nat := 128.
Definition USER_TOP : Z := 140737488355328.    (* 0x800000000000, the end of the user address space *)
Definition CHUNK_BITS : Z := 512.
Definition CHUNK_BYTES : Z := 4194304.         (* CHUNK_BITS_COUNT * ALLOC_PAGE_SIZE *)
Definition SPLIT : Z := 8192.                  (* PAGE_ALLOC_CHUNK_SPLIT *)

(** runtime.h:228-233, without the unused field `full` *)
Record summary := mk_sum { s_start : Z; s_max : Z; s_end : Z }.

(** memory.h:59-65 (summary_page_count), runtime.h:143-147 *)
Definition page_count (level : Z) : Z :=
  if level =? 0 then 2097152 else if level =? 1 then 262144 else if level =? 2 then 32768
  else if level =? 3 then 4096 else 512.

(** runtime.h:136-140, the sizes of the summary arrays (allocator.c:1282-1286) *)
Definition sum_count (level : Z) : Z :=
  if level =? 0 then 8192 else if level =? 1 then 65536 else if level =? 2 then 524288
  else if level =? 3 then 4194304 else 33554432.

(** page_alloc_t (runtime.h:249-267), current_arena and arena_hints (runtime.h:302-310).
    [present l1] is chunks[l1] != NULL.  [reserved] is the kernel's list of mappings made so far.
    [grown] is a ghost: the regions passed to page_alloc_grow. *)
Record heap := mk_heap {
  present : Z -> bool; chunk : Z -> list Z; summ : Z -> Z -> summary;
  hints : list Z; cursor : Z; end_ : Z; reserved : list (Z * Z); grown : list (Z * Z) }.

Definition set_summ (h : heap) (f : Z -> Z -> summary) : heap :=
  mk_heap (present h) (chunk h) f (hints h) (cursor h) (end_ h) (reserved h) (grown h).
Definition set_chunk (h : heap) (f : Z -> list Z) : heap :=
  mk_heap (present h) f (summ h) (hints h) (cursor h) (end_ h) (reserved h) (grown h).

(** summary[level][i] *)
Definition rd_sum (h : heap) (level i : Z) : res summary :=
  if (0 <=? i) && (i <? sum_count level) then Ok (summ h level i) else UB.
Definition wr_sum (h : heap) (level i : Z) (s : summary) : res heap :=
  if (0 <=? i) && (i <? sum_count level)
  then Ok (set_summ h (fun l j => if (l =? level) && (j =? i) then s else summ h l j)) else UB.

(** allocator.c:104-113 *)
Definition chunk_base (index : Z) : Z := index * CHUNK_BYTES + BASE.
Definition chunk_index (base : Z) : Z := (base - BASE) / CHUNK_BYTES.

(** chunks[l1][l2], allocator.c:115-135; each chunks[l1] has SPLIT elements, so only l1 can be out of range *)
Definition chunk_ok (h : heap) (index : Z) : bool :=
  (0 <=? index) && (index / SPLIT <? SPLIT) && present h (index / SPLIT).

(** blocks[k] of a chunk: eight bytes, low byte first *)
Fixpoint le (l : list Z) : Z := match l with [] => 0 | b :: l => b + 256 * le l end.
Definition block (c : list Z) (k : Z) : Z := le (sub_list c (8 * k) (8 * k + 8)).

(** allocator.c:51-100: the loop, from entry i, n entries left *)
Fixpoint find_loop (h : heap) (level count : Z) (n : nat) (i find_start find_max : Z) : res (bool * Z * Z) :=
  match n with
  | O => Ok (false, find_start, i)
  | S n =>
      s <- rd_sum h level i ;;
      let find_max := find_max + s_start s in
      if count <=? find_max then Ok (true, find_start, i)
      else
        let '(find_max, find_start) := if find_max <? s_max s then (s_max s, i) else (find_max, find_start) in
        if count <=? find_max then Ok (true, find_start, i)
        else
          let '(find_max, find_start) :=
            if negb (s_end s =? page_count level) then
              if 0 <? s_end s then (s_end s, i) else (0, i + 1)
            else (find_max, find_start) in
          find_loop h level count n (i + 1) find_start find_max
  end.
Definition summary_find_continuous (h : heap) (level start end_ count : Z) : res (bool * Z * Z) :=
  find_loop h level count (Z.to_nat (end_ - start)) start start 0.

(** __builtin_ctzll and __builtin_clzll on a nonzero 64-bit value *)
Fixpoint trailing (n : nat) (b i : Z) : Z :=
  match n with O => i | S n => if Z.testbit b i then i else trailing n b (i + 1) end.
Definition ctz (b : Z) : Z := trailing 64 b 0.
Fixpoint leading (n : nat) (b i : Z) : Z :=
  match n with O => 0 | S n => if Z.testbit b i then 0 else 1 + leading n b (i - 1) end.
Definition clz (b : Z) : Z := leading 64 b 63.

(** allocator.c:161-170, block_idx = k, n blocks left *)
Fixpoint start_loop (c : list Z) (n : nat) (k : Z) : Z :=
  match n with
  | O => 0
  | S n => if negb (block c k =? 0) then u16 (k * 64 + ctz (block c k)) else start_loop c n (k + 1)
  end.
(** allocator.c:173-181 *)
Fixpoint last_loop (c : list Z) (n : nat) (k : Z) : Z :=
  match n with
  | O => 0
  | S n => if negb (block c k =? 0) then u16 (k * 64 + (63 - clz (block c k))) else last_loop c n (k - 1)
  end.

(** (block >> bit) & 1 *)
Definition used_bit (b bit : Z) : bool := negb (Z.land (Z.shiftr b bit) 1 =? 0).

(** allocator.c:202-213 *)
Fixpoint max_bits (b : Z) (n : nat) (bit max current_free : Z) : Z * Z :=
  match n with
  | O => (max, current_free)
  | S n =>
      if used_bit b bit then max_bits b n (bit + 1) (if max <? current_free then current_free else max) 0
      else max_bits b n (bit + 1) max (u32 (current_free + 1))
  end.
(** allocator.c:188-215 *)
Fixpoint max_blocks (c : list Z) (n : nat) (k max current_free : Z) : Z * Z :=
  match n with
  | O => (max, current_free)
  | S n =>
      let b := block c k in
      let '(max, current_free) :=
        if b =? 0 then (max, u32 (current_free + 64))
        else if b =? 18446744073709551615 then ((if max <? current_free then current_free else max), 0)
        else max_bits b 64 0 max current_free in
      max_blocks c n (k + 1) max current_free
  end.

Fixpoint combine (c : list Z) (n : nat) (k acc : Z) : Z :=
  match n with O => acc | S n => combine c n (k + 1) (Z.lor acc (block c k)) end.

(** allocator.c:142-225 *)
Definition chunk_summarize (c : list Z) : summary :=
  if combine c 8 0 0 =? 0 then mk_sum CHUNK_BITS CHUNK_BITS CHUNK_BITS
  else
    let start := start_loop c 8 0 in
    let last_used_index := last_loop c 8 7 in
    let end_ := u16 (CHUNK_BITS - 1 - last_used_index) in
    let '(max, current_free) := max_blocks c 8 0 0 0 in
    let max := if max <? current_free then current_free else max in
    mk_sum start max end_.

(** allocator.c:243-264, the loop unrolled by two in the source *)
Fixpoint merge_max (P : Z) (l : list summary) (max continue_max : Z) : Z :=
  match l with
  | [] => max
  | s :: l =>
      let continue_max := continue_max + s_start s in
      let continue_max := if continue_max <? s_max s then s_max s else continue_max in
      let max := u32 (if max <? continue_max then continue_max else max) in
      let continue_max := if negb (s_end s =? P) then s_end s else continue_max in
      merge_max P l max continue_max
  end.
(** allocator.c:269-277 *)
Fixpoint merge_start (P : Z) (l : list summary) (start : Z) : Z :=
  match l with
  | [] => start
  | s :: l => let start := u32 (start + s_start s) in
              if negb (s_start s =? P) then start else merge_start P l start
  end.
(** allocator.c:280-288, over the entries from the last to the first *)
Fixpoint merge_end (P : Z) (l : list summary) (e : Z) : Z :=
  match l with
  | [] => e
  | s :: l => let e := u32 (e + s_end s) in
              if negb (s_end s =? P) then e else merge_end P l e
  end.
(** allocator.c:234-298 *)
Definition merge_summarize (level : Z) (l : list summary) : res summary :=
  let P := page_count (level + 1) in
  let max := merge_max P l 0 0 in
  let start := merge_start P l 0 in
  let e := merge_end P (rev l) 0 in
  if (start <=? page_count level) && (max <=? page_count level) && (e <=? page_count level)
  then Ok (mk_sum start max e) else Abort.

(** summary[level][i] .. summary[level][i + n - 1] *)
Fixpoint rd_sums (h : heap) (level : Z) (n : nat) (i : Z) : res (list summary) :=
  match n with
  | O => Ok []
  | S n => s <- rd_sum h level i ;; l <- rd_sums h level n (i + 1) ;; Ok (s :: l)
  end.

(** allocator.c:337-348 *)
Fixpoint update_lowest (h : heap) (n : nat) (index : Z) : res heap :=
  match n with
  | O => Ok h
  | S n =>
      if negb ((0 <=? index) && (index / SPLIT <? SPLIT)) then UB
      else if negb (present h (index / SPLIT)) then Abort
      else h <- wr_sum h 4 index (chunk_summarize (chunk h index)) ;; update_lowest h n (index + 1)
  end.
(** allocator.c:380-389 *)
Fixpoint update_level (h : heap) (level : Z) (n : nat) (i : Z) : res heap :=
  match n with
  | O => Ok h
  | S n =>
      l <- rd_sums h (level + 1) 8 (i * 8) ;;
      s <- merge_summarize level l ;;
      h <- wr_sum h level i s ;;
      update_level h level n (i + 1)
  end.
(** the number of iterations of `for (i = lo; i <= hi; ++i)` *)
Definition iters (lo hi : Z) : nat := Z.to_nat (hi - lo + 1).

(** allocator.c:329-390 *)
Definition page_summary_update (h : heap) (base size : Z) : res heap :=
  let e := base + size - 1 in
  let lo := chunk_index base in
  let hi := chunk_index e in
  h <- update_lowest h (iters lo hi) lo ;;
  h <- update_level h 3 (iters (lo / 8) (hi / 8)) (lo / 8) ;;
  h <- update_level h 2 (iters (lo / 64) (hi / 64)) (lo / 64) ;;
  h <- update_level h 1 (iters (lo / 512) (hi / 512)) (lo / 512) ;;
  update_level h 0 (iters (lo / 4096) (hi / 4096)) (lo / 4096).

(** allocator.c:404-433 *)
Fixpoint chunks_loop (h : heap) (base e : Z) (value : bool) (n : nat) (index : Z) : res heap :=
  match n with
  | O => Ok h
  | S n =>
      if negb (chunk_ok h index) then UB
      else
        let temp_base := chunk_base index in
        let bit_start := if temp_base <? base then (base - temp_base) / PAGE else 0 in
        let bit_end := (e - temp_base) / PAGE - 1 in
        let bit_end := if CHUNK_BITS - 1 <? bit_end then CHUNK_BITS - 1 else bit_end in
        let bit_count := bit_end - bit_start + 1 in
        c <- (if value then bitmap_batch_set (chunk h index) bit_start bit_count
              else bitmap_batch_clear (chunk h index) bit_start bit_count) ;;
        chunks_loop (set_chunk h (fun i => if i =? index then c else chunk h i)) base e value n (index + 1)
  end.
(** allocator.c:398-438; bit = 1 means used *)
Definition chunks_set (h : heap) (base size : Z) (value : bool) : res heap :=
  let e := base + size in
  h <- chunks_loop h base e value (iters (chunk_index base) (chunk_index (e - 1))) (chunk_index base) ;;
  page_summary_update h base size.

(** allocator.c:547-570: the bits of a mixed block; None in the first component: not found yet *)
Fixpoint scan_bits (b base_bit count : Z) (n : nat) (bit free_start free_count : Z) : option Z * Z * Z :=
  match n with
  | O => (None, free_start, free_count)
  | S n =>
      if used_bit b bit then scan_bits b base_bit count n (bit + 1) free_start 0
      else
        let free_start := if free_count =? 0 then base_bit + bit else free_start in
        let free_count := free_count + 1 in
        if count <=? free_count then (Some free_start, free_start, free_count)
        else scan_bits b base_bit count n (bit + 1) free_start free_count
  end.
(** allocator.c:523-575 *)
Fixpoint scan_blocks (c : list Z) (count : Z) (n : nat) (k free_start free_count : Z) : Z :=
  match n with
  | O => 0
  | S n =>
      let b := block c k in
      if b =? 0 then
        let free_start := if free_count =? 0 then k * 64 else free_start in
        let free_count := free_count + 64 in
        if count <=? free_count then free_start else scan_blocks c count n (k + 1) free_start free_count
      else if b =? 18446744073709551615 then scan_blocks c count n (k + 1) free_start 0
      else
        match scan_bits b (k * 64) count 64 0 free_start free_count with
        | (Some bit_start, _, _) => bit_start
        | (None, free_start, free_count) => scan_blocks c count n (k + 1) free_start free_count
        end
  end.

(** allocator.c:477-503: the levels below the first *)
Fixpoint find_levels (h : heap) (count : Z) (n : nat) (level start e : Z) : res (Z * Z) :=
  match n with
  | O => Ok (start, e)
  | S n =>
      ' (found, start, e) <- summary_find_continuous h level (start * 8) ((e + 1) * 8) count ;;
      if negb found then Abort else find_levels h count n (level + 1) start e
  end.

(** allocator.c:453-602; 0 is "not found" *)
Definition page_alloc_find (h : heap) (count : Z) (must_find : bool) : res (heap * Z) :=
  match hints h with
  | [] => UB
  | hint_addr :: _ =>
      let heap_used := hint_addr - BASE in
      if heap_used <? 0 then Abort
      else
        let e := heap_used / (32 * 1024 * 1024 * 1024) + 1 in
        if 0 =? e then (if must_find then Abort else Ok (h, 0))
        else
          ' (found, start, e) <- summary_find_continuous h 0 0 e count ;;
          if negb found then (if must_find then Abort else Ok (h, 0))
          else
            ' (start, e) <- find_levels h count 4 1 start e ;;
            find_addr <- (if start =? e then
                            if negb (chunk_ok h start) then UB
                            else Ok (chunk_base start + scan_blocks (chunk h start) count 8 0 0 0 * PAGE)
                          else
                            s <- rd_sum h 4 start ;;
                            Ok (chunk_base start + (CHUNK_BITS - s_end s) * PAGE)) ;;
            if negb (find_addr mod PAGE =? 0) then Abort
            else
              h <- chunks_set h find_addr (count * PAGE) true ;;
              Ok (h, find_addr)
  end.

(** allocator.c:616-628 *)
Fixpoint grow_loop (h : heap) (n : nat) (index : Z) : res heap :=
  match n with
  | O => Ok h
  | S n =>
      let l1 := index / SPLIT in
      if negb ((0 <=? l1) && (l1 <? SPLIT)) then UB
      else
        let h := if present h l1 then h
                 else mk_heap (fun i => if i =? l1 then true else present h i)
                              (fun i => if i / SPLIT =? l1 then repeat 0 64 else chunk h i)
                              (summ h) (hints h) (cursor h) (end_ h) (reserved h) (grown h) in
        grow_loop h n (index + 1)
  end.
(** allocator.c:611-638 *)
Definition page_alloc_grow (h : heap) (base size : Z) : res heap :=
  let e := base + size - 1 in
  h <- grow_loop h (iters (chunk_index base) (chunk_index e)) (chunk_index base) ;;
  h <- page_summary_update h base size ;;
  let h := mk_heap (present h) (chunk h) (summ h) (hints h) (cursor h) (end_ h) (reserved h) ((base, size) :: grown h) in
  s <- rd_sum h 0 0 ;;
  if 0 <? s_max s then Ok h else Abort.

(** helper.h:486-492, the alignment being a power of two *)
Definition align_up (n align : Z) : Z := Z.land (n + align - 1) (Z.lnot (align - 1)).

(** The kernel's answer to sys_memory_reserve (helper.h:721-733): the hinted address, or another one. *)
Definition free_range (l : list (Z * Z)) (addr size : Z) : bool :=
  forallb (fun r => (addr + size <=? fst r) || (fst r + snd r <=? addr)) l.
Definition reserve (grant : Z -> Z -> bool) (h : heap) (addr size : Z) : bool :=
  grant addr size && (addr + size <=? USER_TOP) && free_range (reserved h) addr size.

(** allocator.c:657-676: tries the hints in turn; returns the address and the hints with the used one moved *)
Fixpoint try_hints (grant : Z -> Z -> bool) (h : heap) (size : Z) (l : list Z) : res (Z * list Z) :=
  match l with
  | [] => Abort
  | addr :: l =>
      if reserve grant h addr size then Ok (addr, addr + size :: l)
      else ' (v, l) <- try_hints grant h size l ;; Ok (v, addr :: l)
  end.
(** allocator.c:649-694, without the arena_t records; returns the address and the rounded size *)
Definition mheap_sys_alloc (grant : Z -> Z -> bool) (h : heap) (size : Z) : res (heap * Z * Z) :=
  let alloc_size := align_up size ARENA_SIZE in
  ' (v, l) <- try_hints grant h alloc_size (hints h) ;;
  Ok (mk_heap (present h) (chunk h) (summ h) l (cursor h) (end_ h) ((v, alloc_size) :: reserved h) (grown h), v, alloc_size).

(** allocator.c:754-791 *)
Definition mheap_grow (grant : Z -> Z -> bool) (h : heap) (count : Z) : res heap :=
  let size := align_up count CHUNK_BITS * PAGE in
  if end_ h <? cursor h then Abort
  else
    ' (h, cur, e) <- (if end_ h - cursor h <? size then
                        ' (h1, v, alloc_size) <- mheap_sys_alloc grant h size ;;
                        if v =? 0 then Abort
                        else if v =? end_ h then Ok (h1, cursor h, end_ h + alloc_size)
                        else Ok (h1, v, v + alloc_size)
                      else Ok (h, cursor h, end_ h)) ;;
    h <- page_alloc_grow h cur size ;;
    Ok (mk_heap (present h) (chunk h) (summ h) (hints h) (cur + size) e (reserved h) (grown h)).

(** the page part of mheap_alloc_span, allocator.c:798-820 *)
Definition alloc_pages (grant : Z -> Z -> bool) (h : heap) (count : Z) : res (heap * Z) :=
  if count <=? 0 then Abort
  else
    ' (h, base) <- page_alloc_find h count false ;;
    if base =? 0 then
      h <- mheap_grow grant h count ;;
      ' (h, base) <- page_alloc_find h count true ;;
      if base =? 0 then Abort else Ok (h, base)
    else Ok (h, base).

(** the page part of mheap_free_span, allocator.c:1237-1246 *)
Definition free_pages (h : heap) (base count : Z) : res heap := chunks_set h base (count * PAGE) false.

(** arena_hints_init, allocator.c:1211-1226 *)
Fixpoint hints_from (n : nat) (addr : Z) : list Z :=
  match n with O => [] | S n => addr :: hints_from n (addr + HINT_SIZE) end.

(** memory_init, allocator.c:1269-1297 *)
Definition init : heap :=
  mk_heap (fun _ => false) (fun _ => repeat 0 64) (fun _ _ => mk_sum 0 0 0) (hints_from HINT_COUNT BASE) 0 0 [] [].
