(** Model of the object allocator on top of the page allocator (Pages_model): spans, the page-to-span
    table, the central lists, the per-processor caches, allocation (runtime/allocator.c:701-1392) and
    the sweep of a collection (runtime/collector.c:111-320).

    Simplifications.
    - One operation runs at a time: an allocation holds its processor, the lists are locked
      (allocator.c:861, 898, 1173), a sweep runs with the world stopped.
    - The two bitmaps of a span are the lists of bytes Gcbits_model hands out; that the arenas of
      gcbits keep them apart is proved there (C58).
    - A span_t is found through its base address; the memory of span_t records is Fixalloc_model (C31).
    - What the marker marks is an input (OMark in the specification); the pointer bitmap written by
      heap_arena_bits_set is modelled separately.
    - `Panic` is an assert that no history makes fail (proved); `Abort` is running out of memory or an
      assert that can fail. *)
From Verif Require Import Base Zlist Bitmap_model Sizeclass_model Pages_model.

(** mspan_t, runtime.h:184-209; `end` is base + pages * PAGE *)
Record span := mk_span {
  s_base : Z; s_pages : Z; s_class : Z; s_osize : Z; s_ocount : Z;
  s_acount : Z; s_findex : Z; s_abits : list Z; s_mbits : list Z; s_nz : bool }.

(** mheap_t and memory_t (runtime.h:288-330), as far as used here.  [spans] are the live span_t records,
    [table] maps a page number to the base of its span (arena->spans), [partial], [full] are the lists of
    the centrals by span class, [cache p c] is processor p's mcache.alloc[c], [bytes] is allocated_bytes,
    [mem] the memory the program sees.  [nprocs] is the number of processors. *)
Record state := mk_state {
  ph : heap; spans : list span; table : Z -> option Z;
  partial : Z -> list Z; full : Z -> list Z; cache : nat -> Z -> option Z;
  allocated : Z; mem : Z -> Z; nprocs : nat }.

Definition upd_heap (st : state) (h : heap) (l : list span) (t : Z -> option Z) : state :=
  mk_state h l t (partial st) (full st) (cache st) (allocated st) (mem st) (nprocs st).
Definition upd_spans (st : state) (l : list span) : state := upd_heap st (ph st) l (table st).
Definition upd_partial (st : state) (f : Z -> list Z) : state :=
  mk_state (ph st) (spans st) (table st) f (full st) (cache st) (allocated st) (mem st) (nprocs st).
Definition upd_full (st : state) (f : Z -> list Z) : state :=
  mk_state (ph st) (spans st) (table st) (partial st) f (cache st) (allocated st) (mem st) (nprocs st).
Definition upd_cache (st : state) (f : nat -> Z -> option Z) : state :=
  mk_state (ph st) (spans st) (table st) (partial st) (full st) f (allocated st) (mem st) (nprocs st).
Definition upd_allocated (st : state) (b : Z) : state :=
  mk_state (ph st) (spans st) (table st) (partial st) (full st) (cache st) b (mem st) (nprocs st).
Definition upd_mem (st : state) (m : Z -> Z) : state :=
  mk_state (ph st) (spans st) (table st) (partial st) (full st) (cache st) (allocated st) m (nprocs st).

(** assignment to one element of an array of lists / of a processor's cache *)
Definition set_list (f : Z -> list Z) (c : Z) (l : list Z) : Z -> list Z := fun x => if x =? c then l else f x.
Definition set_cache (f : nat -> Z -> option Z) (p : nat) (c : Z) (v : option Z) : nat -> Z -> option Z :=
  fun q x => if (q =? p)%nat && (x =? c) then v else f q x.
(** RT_LIST_PUSH_HEAD, memory.h:48-56 *)
Definition push_partial (st : state) (c b : Z) : state := upd_partial st (set_list (partial st) c (b :: partial st c)).
Definition push_full (st : state) (c b : Z) : state := upd_full st (set_list (full st) c (b :: full st c)).

(** dereferencing a span pointer *)
Definition get (st : state) (b : Z) : res span :=
  match find (fun s => s_base s =? b) (spans st) with Some s => Ok s | None => UB end.
(** writing the fields of a span *)
Definition put (st : state) (s : span) : state :=
  upd_spans st (map (fun t => if s_base t =? s_base s then s else t) (spans st)).

(** memset(addr, 0, n), and what a fresh mapping or MADV_DONTNEED leaves *)
Definition zero (m : Z -> Z) (a n : Z) : Z -> Z := fun x => if (a <=? x) && (x <? a + n) then 0 else m x.

(** take_arena, memory.h:104-113: is there an arena_t for the address?  arenas[i] is set for every
    reserved region (allocator.c:678-690). *)
Definition has_arena (h : heap) (addr : Z) : bool :=
  (BASE <=? addr) && (addr <? end_ h) && existsb (fun r => (fst r <=? addr) && (addr <? fst r + snd r)) (reserved h).
(** the page number of an address: arena index * ARENA_PAGES_COUNT + page index within the arena *)
Definition page_no (addr : Z) : Z := (addr - BASE) / PAGE.

(** span_of, allocator.c:1330-1353 *)
Definition span_of (st : state) (addr : Z) : option Z :=
  if addr <=? 0 then None else if has_arena (ph st) addr then table st (page_no addr) else None.

Definition set_page (t : Z -> option Z) (p : Z) (v : option Z) : Z -> option Z := fun q => if q =? p then v else t q.

(** the byte offset `i * ALLOC_PAGE_SIZE` of allocator.c:707 and 735, an int: overflow is UB *)
Definition page_offset (i : Z) : res Z := if i * PAGE <? 2147483648 then Ok (i * PAGE) else UB.

(** mheap_set_spans, allocator.c:701-727 *)
Fixpoint set_spans (h : heap) (base : Z) (n : nat) (i : Z) (t : Z -> option Z) : res (Z -> option Z) :=
  match n with
  | O => Ok t
  | S n =>
      off <- page_offset i ;;
      let addr := base + off in
      if has_arena h addr then
        match t (page_no addr) with
        | Some _ => Panic
        | None => set_spans h base n (i + 1) (set_page t (page_no addr) (Some base))
        end
      else Abort
  end.
(** mheap_clear_spans, allocator.c:729-748 *)
Fixpoint clear_spans (h : heap) (base : Z) (n : nat) (i : Z) (t : Z -> option Z) : res (Z -> option Z) :=
  match n with
  | O => Ok t
  | S n =>
      off <- page_offset i ;;
      let addr := base + off in
      if has_arena h addr then
        match t (page_no addr) with
        | None => Panic
        | Some _ => clear_spans h base n (i + 1) (set_page t (page_no addr) None)
        end
      else Abort
  end.

(** gcbits_new, as seen by its caller: allocator.c:404-447, (count + 63) / 64 * 8 zero bytes *)
Definition new_bits (count : Z) : list Z := repeat 0 (Z.to_nat ((count + 63) / 64 * 8)).

(** mspan_new, allocator.c:1400-1438 *)
Definition mspan_new (base pages class : Z) : res span :=
  ' (osize, ocount) <- span_layout pages class ;;
  Ok (mk_span base pages class osize ocount 0 0 (new_bits ocount) (new_bits ocount) false).

(** mheap_alloc_span, allocator.c:798-832; sys_memory_used maps fresh zero pages (helper.h:810-813) *)
Definition mheap_alloc_span (grant : Z -> Z -> bool) (st : state) (pages class : Z) : res (state * span) :=
  ' (h, base) <- alloc_pages grant (ph st) pages ;;
  s <- mspan_new base pages class ;;
  t <- set_spans h base (Z.to_nat pages) 0 (table st) ;;
  Ok (upd_mem (upd_heap st h (spans st ++ [s]) t) (zero (mem st) base (pages * PAGE)), s).

(** mcentral_grow, allocator.c:834-852 *)
Definition mcentral_grow (grant : Z -> Z -> bool) (st : state) (class : Z) : res state :=
  pages <- take_pages_count class ;;
  ' (st, s) <- mheap_alloc_span grant st pages class ;;
  if 0 <? s_ocount s then Ok (push_partial st class (s_base s)) else Panic.

(** cache_span, allocator.c:859-886 *)
Definition cache_span (grant : Z -> Z -> bool) (st : state) (class : Z) : res (state * Z) :=
  st <- match partial st class with [] => mcentral_grow grant st class | _ => Ok st end ;;
  match partial st class with
  | [] => Panic
  | b :: l =>
      let st := upd_partial st (set_list (partial st) class l) in
      s <- get st b ;;
      if s_ocount s - s_acount s =? 0 then Panic else Ok (st, b)
  end.

(** uncache_span, allocator.c:893-912 *)
Definition uncache_span (st : state) (class b : Z) : res state :=
  s <- get st b ;;
  Ok (if s_ocount s - s_acount s =? 0 then push_full st class b else push_partial st class b).

(** mcache_refill, allocator.c:921-941 *)
Definition mcache_refill (grant : Z -> Z -> bool) (st : state) (p : nat) (class : Z) : res (state * Z) :=
  st <- match cache st p class with Some b => uncache_span st class b | None => Ok st end ;;
  ' (st, b) <- cache_span grant st class ;;
  Ok (upd_cache st (set_cache (cache st) p class (Some b)), b).

(** the search of mcache_alloc, allocator.c:971-1001: the first clear bit from i on *)
Fixpoint find_free (bits : list Z) (n : nat) (i : Z) : res Z :=
  match n with
  | O => Panic
  | S n => used <- bitmap_test bits i ;; if used then find_free bits n (i + 1) else Ok i
  end.

(** mcache_alloc, allocator.c:947-1009.  Between lines 954 and 963 the cached span of class [class] of
    processor p is replaced when it is absent or full. *)
Definition mcache_alloc (grant : Z -> Z -> bool) (st : state) (p : nat) (class : Z) : res (state * Z * span) :=
  refill <- match cache st p class with
            | None => Ok true
            | Some b => s <- get st b ;; Ok (s_acount s =? s_ocount s)
            end ;;
  ' (st, b) <- (if refill then mcache_refill grant st p class
                else match cache st p class with Some b => Ok (st, b) | None => UB end) ;;
  s <- get st b ;;
  i <- find_free (s_abits s) (Z.to_nat (s_ocount s - s_findex s)) (s_findex s) ;;
  let addr := s_base s + i * s_osize s in
  bits <- bitmap_set (s_abits s) i ;;
  let count := s_acount s + 1 in
  let nz := s_nz s && negb (count =? s_ocount s) in
  let s' := mk_span (s_base s) (s_pages s) (s_class s) (s_osize s) (s_ocount s) count (i + 1) bits (s_mbits s) nz in
  let m := if s_nz s then zero (mem st) addr (s_osize s) else mem st in
  Ok (upd_mem (put st s') m, addr, s').

(** std_malloc, allocator.c:1124-1155; has_ptr is rtype != NULL && rtype->last_ptr > 0 *)
Definition std_malloc (grant : Z -> Z -> bool) (st : state) (p : nat) (size : Z) (has_ptr : bool) : res (state * Z) :=
  if size <=? 0 then Abort
  else
    sizeclass <- calc_sizeclass size ;;
    let class := make_spanclass sizeclass (if has_ptr then 0 else 1) in
    ' (st, addr, s) <- mcache_alloc grant st p class ;;
    let st := upd_allocated st (u64 (allocated st + s_osize s)) in
    match span_of st addr with
    | Some b => if b =? s_base s then Ok (st, addr) else Panic
    | None => Abort
    end.

(** large_malloc, allocator.c:1157-1206 *)
Definition large_malloc (grant : Z -> Z -> bool) (st : state) (size : Z) (has_ptr : bool) : res (state * Z) :=
  let class := make_spanclass 0 (if has_ptr then 0 else 1) in
  let pages := size / PAGE + (if Z.land size (PAGE - 1) =? 0 then 0 else 1) in
  ' (st, s) <- mheap_alloc_span grant st pages class ;;
  let st := push_full st class (s_base s) in
  if negb (s_ocount s =? 1) then Panic
  else
    bits <- bitmap_set (s_abits s) 0 ;;
    let s' := mk_span (s_base s) (s_pages s) (s_class s) (s_osize s) (s_ocount s) (s_acount s + 1) (s_findex s) bits (s_mbits s) false in
    let m := if s_nz s then zero (mem st) (s_base s) (s_osize s) else mem st in
    let st := upd_mem (put st s') m in
    Ok (upd_allocated st (u64 (allocated st + size)), s_base s).

(** mark_ptr_black, processor.c:694-707, and the marking of handle_gc_ptr, collector.c:641-685 *)
Definition mark (st : state) (addr : Z) : res state :=
  match span_of st addr with
  | None => Abort
  | Some b =>
      s <- get st b ;;
      bits <- bitmap_set (s_mbits s) ((addr - s_base s) / s_osize s) ;;
      Ok (put st (mk_span (s_base s) (s_pages s) (s_class s) (s_osize s) (s_ocount s) (s_acount s) (s_findex s) (s_abits s) bits (s_nz s)))
  end.

(** rti_gc_malloc, allocator.c:1360-1392; STD_MALLOC_LIMIT is 32768; barrier is gc_barrier_get() *)
Definition gc_malloc (grant : Z -> Z -> bool) (st : state) (p : nat) (size : Z) (has_ptr barrier : bool) : res (state * Z) :=
  ' (st, addr) <- (if size <=? 32768 then std_malloc grant st p size has_ptr else large_malloc grant st size has_ptr) ;;
  if barrier then st <- mark st addr ;; Ok (st, addr) else Ok (st, addr).

(** ** The sweep *)
(** flush_mcache, collector.c:111-121: class j of processor p *)
Definition flush_one (st : state) (p : nat) (j : Z) : res state :=
  match cache st p j with
  | None => Ok st
  | Some b =>
      let st := upd_cache st (set_cache (cache st) p j None) in
      s <- get st b ;;
      uncache_span st (s_class s) b
  end.
Fixpoint flush_classes (st : state) (p : nat) (n : nat) (j : Z) : res state :=
  match n with O => Ok st | S n => st <- flush_one st p j ;; flush_classes st p n (j + 1) end.
Fixpoint flush_procs (st : state) (n : nat) (p : nat) : res state :=
  match n with O => Ok st | S n => st <- flush_classes st p 136 0 ;; flush_procs st n (S p) end.
Definition flush_mcache (st : state) : res state := flush_procs st (nprocs st) 0.

(** the loop of sweep_span, collector.c:171-203: alloc_count, free_index (-1 for none), has_freed, allocated_bytes *)
Fixpoint sweep_loop (abits mbits : list Z) (osize : Z) (n : nat) (i : Z) (acc : Z * Z * bool * Z) : res (Z * Z * bool * Z) :=
  match n with
  | O => Ok acc
  | S n =>
      let '(count, free, freed, total) := acc in
      m <- bitmap_test mbits i ;;
      if m then sweep_loop abits mbits osize n (i + 1) (count + 1, free, freed, total)
      else
        let free := if free =? -1 then i else free in
        a <- bitmap_test abits i ;;
        if a then sweep_loop abits mbits osize n (i + 1) (count, free, true, u64 (total - osize))
        else sweep_loop abits mbits osize n (i + 1) (count, free, freed, total)
  end.

(** mheap_free_span and free_mspan_meta, allocator.c:1237-1267, collector.c:143-147; sys_memory_unused is
    MADV_DONTNEED (helper.h:790): the pages read as zero afterwards *)
Definition mheap_free_span (st : state) (s : span) : res state :=
  h <- free_pages (ph st) (s_base s) (s_pages s) ;;
  t <- clear_spans h (s_base s) (Z.to_nat (s_pages s)) 0 (table st) ;;
  Ok (upd_mem (upd_heap st h (filter (fun t => negb (s_base t =? s_base s)) (spans st)) t)
              (zero (mem st) (s_base s) (s_pages s * PAGE))).

(** sweep_span, collector.c:153-241 *)
Definition sweep_span (st : state) (class b : Z) : res state :=
  s <- get st b ;;
  if (0 <? s_ocount s) && (s_ocount s <=? 1024) then
    ' (count, free, freed, total) <- sweep_loop (s_abits s) (s_mbits s) (s_osize s) (Z.to_nat (s_ocount s)) 0 (0, -1, false, allocated st) ;;
    let st := upd_allocated st total in
    let s' := mk_span (s_base s) (s_pages s) (s_class s) (s_osize s) (s_ocount s) count (if free =? -1 then 0 else free)
                      (s_mbits s) (new_bits (s_ocount s)) (s_nz s || freed) in
    let st := put st s' in
    if count =? 0 then mheap_free_span st s'
    else Ok (if count =? s_ocount s then push_full st class b else push_partial st class b)
  else Panic.

Fixpoint sweep_list (st : state) (class : Z) (l : list Z) : res state :=
  match l with [] => Ok st | b :: l => st <- sweep_span st class b ;; sweep_list st class l end.

(** mcentral_sweep, collector.c:256-320 *)
Fixpoint sweep_classes (st : state) (n : nat) (c : Z) : res state :=
  match n with
  | O => Ok st
  | S n =>
      let f := full st c in
      let p := partial st c in
      let st := upd_full (upd_partial st (set_list (partial st) c [])) (set_list (full st) c []) in
      st <- sweep_list st c f ;;
      st <- sweep_list st c p ;;
      sweep_classes st n (c + 1)
  end.

(** the end of a collection with the world stopped, collector.c:1060-1075 *)
Definition sweep (st : state) : res state :=
  st <- flush_mcache st ;; sweep_classes st 136 0.

(** memory_init, allocator.c:1269-1316; [junk] is what memory holds before it is mapped *)
Definition init (procs : nat) (junk : Z -> Z) : state :=
  mk_state Pages_model.init [] (fun _ => None) (fun _ => []) (fun _ => []) (fun _ _ => None) 0 junk procs.
