(** Model of runtime/fixalloc.c and runtime/fixalloc.h.

    Addresses are integers.  sys_memory_alloc is an oracle: [sys n] is the address it returns at the
    n-th call.  The free list is kept as a list of addresses: the code threads it through the first
    8 bytes of the freed blocks themselves.  The contents of the blocks (memset to 0), chunk_list
    (only used by fixalloc_destroy) and fixalloc_destroy are not modelled. *)
From Verif Require Import Base Zlist.

(** fixalloc.h:7 *)
Definition CHUNK_LIMIT : Z := 16384.
(** sizeof(fixalloc_link_t), fixalloc.h:9-11 *)
Definition LINK : Z := 8.

(** fixalloc.h:13-21, plus the number of calls of sys_memory_alloc made so far *)
Record fixalloc := mk {
  size : Z; free_list : list Z; chunk_ptr : Z; chunk_rem : Z; chunk_size : Z; inuse : Z; calls : nat }.

(** fixalloc.c:9-23; Abort is the assert of line 10 *)
Definition init (fix_size : Z) : res fixalloc :=
  if negb (fix_size <=? CHUNK_LIMIT) then Abort
  else
    let fix_size := if fix_size <? LINK then LINK else fix_size in
    Ok (mk fix_size [] 0 0 (u32 (CHUNK_LIMIT / fix_size * fix_size)) 0 O).

(** fixalloc.c:25-60; chunk_rem is a uint32_t *)
Definition alloc (sys : nat -> Z) (f : fixalloc) : res (fixalloc * Z) :=
  if negb (0 <? size f) then Abort
  else match free_list f with
  | v :: next => Ok (mk (size f) next (chunk_ptr f) (chunk_rem f) (chunk_size f) (u64 (inuse f + size f)) (calls f), v)
  | [] =>
      let f := if chunk_rem f <? size f then
                 mk (size f) [] (sys (calls f) + LINK) (u32 (chunk_size f - LINK)) (chunk_size f) (inuse f) (S (calls f))
               else f in
      Ok (mk (size f) (free_list f) (chunk_ptr f + size f) (u32 (chunk_rem f - size f)) (chunk_size f)
            (u64 (inuse f + size f)) (calls f), chunk_ptr f)
  end.

(** fixalloc.c:62-70 *)
Definition free (f : fixalloc) (p : Z) : fixalloc :=
  mk (size f) (p :: free_list f) (chunk_ptr f) (chunk_rem f) (chunk_size f) (u64 (inuse f - size f)) (calls f).
