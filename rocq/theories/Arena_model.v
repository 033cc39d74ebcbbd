(** Model of std/allocator/arena.n.

    Addresses are integers; libc.malloc is an argument: a function from the number of bytes asked to
    the address returned, 0 for null.  The linked list of blocks is kept as the list of the blocks
    before the current one, head first, and the current block, which is always the last of the list.
    Nature ints are 64-bit and wrap ([i64]).  The contents of the memory ([arena_t.new] copies a value
    into the block it gets from [alloc]) are not modelled. *)
From Verif Require Import Base.

(** arena.n:4 *)
Definition ALIGN : Z := 8.
(** @sizeof(block_t), arena.n:7-11: three 8-byte fields *)
Definition HEADER : Z := 24.

(** arena.n:7-11; [base] is the address of the block_t itself *)
Record block := mk_block { base : Z; capacity : Z; used : Z }.

(** arena.n:13-19; 0 is null *)
Record arena := mk_arena {
  full : list block; current : block; block_size : Z; last_alloc : Z; last_alloc_size : Z }.

(** head, followed by its next pointers *)
Definition blocks (a : arena) : list block := full a ++ [current a].

(** arena.n:22-24 *)
Definition align_up (offset : Z) : Z := Z.land (i64 (i64 (offset + ALIGN) - 1)) (Z.lnot (ALIGN - 1)).

(** arena.n:27-39 *)
Definition block_new (malloc : Z -> Z) (cap : Z) : res block :=
  let total := i64 (HEADER + cap) in
  let b := malloc (u64 total) in
  if b =? 0 then Panic else Ok (mk_block b cap 0).

(** arena.n:42-45 *)
Definition block_data (b : block) : Z := base b + HEADER.

(** arena.n:48-59; None is the null result *)
Definition block_alloc (b : block) (size : Z) : option (block * Z) :=
  let aligned_used := align_up (used b) in
  if capacity b <? i64 (aligned_used + size) then None
  else Some (mk_block (base b) (capacity b) (i64 (aligned_used + size)), i64 (block_data b + aligned_used)).

(** arena.n:61-81; the allocation of the arena_t itself is left out *)
Definition init (malloc : Z -> Z) (cap : Z) : res arena :=
  let size := if cap <=? 0 then 4096 else cap in
  b <- block_new malloc size ;;
  Ok (mk_arena [] b size 0 0).

(** arena.n:97-127 *)
Definition alloc (malloc : Z -> Z) (a : arena) (size : Z) : res (arena * Z) :=
  if size <=? 0 then Panic
  else match block_alloc (current a) size with
  | Some (b, p) => Ok (mk_arena (full a) b (block_size a) p size, p)
  | None =>
      let new_cap := if block_size a <? size then size else block_size a in
      b <- block_new malloc new_cap ;;
      match block_alloc b size with
      | None => Panic
      | Some (b, p) => Ok (mk_arena (full a ++ [current a]) b (block_size a) p size, p)
      end
  end.

(** arena.n:131-140 *)
Definition dealloc (a : arena) (p : Z) : arena :=
  if p =? last_alloc a then
    let b := current a in
    mk_arena (full a) (mk_block (base b) (capacity b) (i64 (used b - last_alloc_size a))) (block_size a) 0 0
  else a.

(** arena.n:161-178; also returns the addresses passed to libc.free, in order *)
Definition reset (a : arena) : arena * list Z :=
  match blocks a with
  | [] => (a, [])
  | h :: rest => (mk_arena [] (mk_block (base h) (capacity h) 0) (block_size a) 0 0, map base rest)
  end.

(** arena.n:83-94; the addresses of the blocks passed to libc.free, in order (the arena_t itself, freed
    last, is left out) *)
Definition deinit (a : arena) : list Z := map base (blocks a).
