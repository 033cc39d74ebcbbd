(** The heap bitmap: which words of the heap hold pointers.
    runtime/allocator.c:1010-1121 (writing), runtime/memory.h:94-133 (positions),
    runtime/collector.c:638-726 (reading).

    Simplifications.  Addresses are counted from ARENA_BASE_OFFSET (runtime.h:129), so that
    arena i starts at i * asz.  The arena size asz (ARENA_SIZE, runtime.h:82, 67108864) is an
    argument; arena_t.bits (runtime.h:279) then has asz / 32 bytes (ARENA_BITS_COUNT, runtime.h:101).
    An arena that does not exist is None; using it is undefined (a null pointer in C). *)
From Verif Require Import Base Zlist Bitmap_model.

(** mheap->arenas, the bits of each: runtime.h:270-290 *)
Definition heap := Z -> option (list Z).

(** storing back the bits of arena i (the C code updates them in place) *)
Definition put (h : heap) (i : Z) (bits : list Z) : heap := fun j => if j =? i then Some bits else h j.

(** memory.h:98-100 *)
Definition arena_index (asz a : Z) : Z := a / asz.

(** memory.h:94-96, arena->base *)
Definition arena_base (asz i : Z) : Z := i * asz.

(** memory.h:121-133; the mask ~3ULL is taken on 64 bits *)
Definition ptr_bit_index (ptr_count : Z) : Z :=
  Z.shiftl (Z.land ptr_count (Z.lnot 3)) 1 + Z.land ptr_count 3.

(** memory.h:121-133 *)
Definition arena_bits_index (base a : Z) : Z := ptr_bit_index (Z.shiftr (a - base) 3).

(** allocator.c:1023-1046, the loop over the arenas; fuel bounds its turns *)
Fixpoint batch_loop (fuel : nat) (asz : Z) (h : heap) (start stop : Z) (is_clear : bool) : res heap :=
  if start <? stop then
    match fuel with
    | O => NoFuel
    | S fuel =>
      let i := arena_index asz start in
      match h i with
      | None => UB
      | Some bits =>
        let base := arena_base asz i in
        let arena_end := base + asz in
        let temp_end := if arena_end <? stop then arena_end else stop in
        let index_start := ptr_bit_index (Z.shiftr (start - base) 3) in
        let index_end := ptr_bit_index (Z.shiftr (temp_end - base) 3) in
        let index_count := index_end - index_start in
        bits <- (if is_clear then bitmap_batch_clear bits index_start index_count
                 else bitmap_batch_set bits index_start index_count) ;;
        batch_loop fuel asz (put h i bits) temp_end stop is_clear
      end
    end
  else Ok h.

(** allocator.c:1016-1047; each turn of the loop advances by at least one byte *)
Definition batch_handle (asz : Z) (h : heap) (start stop : Z) (is_clear : bool) : res heap :=
  batch_loop (Z.to_nat (stop - start)) asz h start stop is_clear.

(** the fields of rtype_t read here: utils/type.h rtype_t; mask is what gc_bits points to,
    either malloc_gc_bits or the word gc_bits of the rtype itself (allocator.c:1060-1063) *)
Record rtype := { is_arr : bool; inline_bits : bool; last_ptr : Z; mask : list Z }.

(** allocator.c:1091-1110, the loop over the words up to last_ptr: n more words from temp *)
Fixpoint word_loop (n : nat) (asz : Z) (h : heap) (temp index : Z) (mask : list Z) : res heap :=
  match n with
  | O => Ok h
  | S n =>
    let i := arena_index asz temp in
    match h i with
    | None => Abort
    | Some bits =>
      let bit_index := arena_bits_index (arena_base asz i) temp in
      b <- bitmap_test mask index ;;
      bits <- (if b : bool then bitmap_set bits bit_index else bitmap_clear bits bit_index) ;;
      word_loop n asz (put h i bits) (temp + 8) (index + 1) mask
    end
  end.

(** number of turns of for (temp = addr; temp < addr + len; temp += 8) *)
Definition turns (len : Z) : nat := Z.to_nat ((len + 7) / 8).

(** allocator.c:1056-1121 *)
Definition heap_arena_bits_set (asz : Z) (h : heap) (addr obj_size : Z) (t : rtype) : res heap :=
  if negb (0 <? last_ptr t) then Abort
  else if is_arr t && (0 <? last_ptr t) && inline_bits t then
    batch_handle asz h addr (addr + obj_size) false
  else
    let clear_start := addr + last_ptr t in
    h <- batch_handle asz h clear_start (addr + obj_size) true ;;
    word_loop (turns (last_ptr t)) asz h addr 0 (mask t).

(** allocator.c:1124-1155 and 1157-1190: an object whose type has no pointers goes to a span
    that is never scanned and leaves the bitmap alone *)
Definition malloc_bits (asz : Z) (h : heap) (addr obj_size : Z) (t : rtype) : res heap :=
  if 0 <? last_ptr t then heap_arena_bits_set asz h addr obj_size t else Ok h.

(** rtype.h:91-105 rti_rtype_array: the type of the storage of a vector, from last_ptr of the elements *)
Definition rtype_array (element_last_ptr : Z) : rtype :=
  {| is_arr := true; inline_bits := true;
     last_ptr := if 0 <? element_last_ptr then 1 else 0; mask := [0; 0; 0; 0; 0; 0; 0; 0] |}.

(** collector.c:688-724: the addresses of the words the collector treats as pointers.  The arena is
    that of the start of the object (take_arena(addr)) for every word. *)
Fixpoint scan_loop (n : nat) (asz : Z) (h : heap) (addr temp : Z) : res (list Z) :=
  match n with
  | O => Ok []
  | S n =>
    let i := arena_index asz addr in
    match h i with
    | None => Abort
    | Some bits =>
      is_ptr <- bitmap_test bits (arena_bits_index (arena_base asz i) temp) ;;
      rest <- scan_loop n asz h addr (temp + 8) ;;
      Ok (if is_ptr : bool then temp :: rest else rest)
    end
  end.

(** collector.c:688-724 *)
Definition scan (asz : Z) (h : heap) (addr obj_size : Z) : res (list Z) :=
  scan_loop (turns obj_size) asz h addr addr.

(** allocations one after the other: (addr, obj_size, type) *)
Fixpoint mallocs (asz : Z) (h : heap) (l : list (Z * Z * rtype)) : res heap :=
  match l with
  | [] => Ok h
  | (addr, size, t) :: l => h <- malloc_bits asz h addr size t ;; mallocs asz h l
  end.
