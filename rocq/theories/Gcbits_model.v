(** Model of runtime/gcbits.c and of the two places that use it: mspan_new (runtime/allocator.c:1400-1438)
    and sweep_span / the end of a collection (runtime/collector.c:153-241, 1060-1090).

    Every call of gcbits_new in the runtime is made with memory->locker held (mheap_alloc_span,
    allocator.c:799, and mcentral_sweep, collector.c:258) and the epoch change with the world stopped,
    so the functions are modelled as atomic and the locks left out.  Arenas are named by their address;
    sys_memory_alloc is an oracle, [sys n] is the address returned at the n-th call. *)
From Verif Require Import Base.

(** gcbits.h:8-10 *)
Definition CHUNK : Z := 65536.
Definition HEADER : Z := 16.
Definition PAYLOAD : Z := CHUNK - HEADER.

(** gcbits.h:30-37 and the free_index field of every arena (gcbits.h:19-28); the lists are linked through
    the arenas, here they are lists of arena addresses.  [mem] is the memory, byte by byte. *)
Record arenas := mk {
  idx : Z -> Z; free_list : list Z; next_list : list Z; current_list : list Z; previous_list : list Z;
  mem : Z -> Z; calls : nat }.

Definition upd (f : Z -> Z) (a v : Z) : Z -> Z := fun x => if x =? a then v else f x.

(** gcbits.c:9-16; free_index and the memory are not looked at before arena_new sets them *)
Definition init : arenas := mk (fun _ => 0) [] [] [] [] (fun _ => 0) O.

(** gcbits.c:67-87; the second test can only fail when another thread interferes *)
Definition try_alloc (s : arenas) (arena : option Z) (n : Z) : arenas * option Z :=
  match arena with
  | None => (s, None)
  | Some a =>
      let current := idx s a in
      if PAYLOAD <? current + n then (s, None)
      else
        let new_start := idx s a in
        let s := mk (upd (idx s) a (new_start + n)) (free_list s) (next_list s) (current_list s) (previous_list s) (mem s) (calls s) in
        if PAYLOAD <? new_start + n then (s, None)
        else (s, Some (a + HEADER + new_start))
  end.

(** memset(a, 0, GCBITS_CHUNK_BYTES) *)
Definition clear (m : Z -> Z) (a : Z) : Z -> Z := fun x => if (a <=? x) && (x <? a + CHUNK) then 0 else m x.

(** gcbits.c:89-119; offsetof(bits) is 16, so free_index starts at 0 *)
Definition arena_new (sys : nat -> Z) (s : arenas) : arenas * Z :=
  match free_list s with
  | [] => let a := sys (calls s) in
          (mk (upd (idx s) a 0) [] (next_list s) (current_list s) (previous_list s) (clear (mem s) a) (S (calls s)), a)
  | a :: l => (mk (upd (idx s) a 0) l (next_list s) (current_list s) (previous_list s) (clear (mem s) a) (calls s), a)
  end.

(** gcbits.c:18-65; the argument counts objects, one bit each *)
Definition gcbits_new (sys : nat -> Z) (s : arenas) (count : Z) : res (arenas * Z) :=
  let n := (count + 63) / 64 * 8 in
  match try_alloc s (hd_error (next_list s)) n with
  | (s, Some p) => Ok (s, p)
  | (s, None) =>
  match try_alloc s (hd_error (next_list s)) n with
  | (s, Some p) => Ok (s, p)
  | (s, None) =>
      let '(s, fresh) := arena_new sys s in
      match try_alloc s (hd_error (next_list s)) n with
      | (s, Some p) => Ok (mk (idx s) (fresh :: free_list s) (next_list s) (current_list s) (previous_list s) (mem s) (calls s), p)
      | (s, None) =>
          match try_alloc s (Some fresh) n with
          | (_, None) => Abort
          | (s, Some p) => Ok (mk (idx s) (free_list s) (fresh :: next_list s) (current_list s) (previous_list s) (mem s) (calls s), p)
          end
      end
  end end.

(** gcbits.c:122-147 *)
Definition epoch (s : arenas) : arenas :=
  mk (idx s) (previous_list s ++ free_list s) [] (next_list s) (current_list s) (mem s) (calls s).

(** The fields of mspan_t that matter here: obj_count, alloc_bits, gcmark_bits (runtime.h:189-214). *)
Record span := mk_span { obj_count : Z; alloc_bits : Z; gcmark_bits : Z }.

(** mspan_new, allocator.c:1425-1429 *)
Definition span_new (sys : nat -> Z) (s : arenas) (count : Z) : res (arenas * span) :=
  ' (s, a) <- gcbits_new sys s count ;;
  ' (s, m) <- gcbits_new sys s count ;;
  Ok (s, mk_span count a m).

(** sweep_span, collector.c:205-206 *)
Definition sweep_span (sys : nat -> Z) (s : arenas) (sp : span) : res (arenas * span) :=
  ' (s, m) <- gcbits_new sys s (obj_count sp) ;;
  Ok (s, mk_span (obj_count sp) (gcmark_bits sp) m).

(** mcentral_sweep, collector.c:256-320: every span is swept; one whose alloc_count has become 0 is freed
    (collector.c:219-232), [keep] says which are not *)
Fixpoint sweep_all (sys : nat -> Z) (s : arenas) (l : list span) (keep : list bool) : res (arenas * list span) :=
  match l with
  | [] => Ok (s, [])
  | sp :: l =>
      ' (s, sp) <- sweep_span sys s sp ;;
      ' (s, l) <- sweep_all sys s l (tl keep) ;;
      Ok (s, if hd true keep then sp :: l else l)
  end.

(** the end of runtime_gc, collector.c:1070-1082: sweep, then the epoch change *)
Definition collect (sys : nat -> Z) (s : arenas) (l : list span) (keep : list bool) : res (arenas * list span) :=
  ' (s, l) <- sweep_all sys s l keep ;; Ok (epoch s, l).
