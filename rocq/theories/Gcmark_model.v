(** Marking with the program paused: runtime/collector.c:638-760 (handle_gc_ptr, handle_gc_worklist),
    977-991 (gc_mark_done) and the seeding of the work lists (collector.c:850-972), over the allocator
    state of Spans_model and the pointer bitmap of Heapbits_model.

    Simplifications.
    - The processors take turns, one handle_gc_ptr at a time; a schedule says whose turn it is.  The
      mark bit is tested and set under gcmark_locker (collector.c:656-677) and, with the program paused,
      nothing else changes while the words of the object are read.
    - The values found by scan_global, scan_pool and scan_stack are an argument (the roots), each with the
      processor that found it.
    - p->gc_work_finished is not gc_count while a processor still handles its own list, so what it finds goes to
      its own list (collector.c:706-711); what gc_mark_done finds goes to the global list (p is NULL). *)
From Verif Require Import Base Zlist Bitmap_model Heapbits_model Pages_model Spans_model.

(** the work lists of the processors and global_gc_worklist *)
Record gc := mk_gc { gst : state; lists : list (list Z); glob : list Z }.

(** fetch_addr_value: eight bytes, the lowest first *)
Definition word_at (m : Z -> Z) (a : Z) : Z :=
  m a + 256 * (m (a + 1) + 256 * (m (a + 2) + 256 * (m (a + 3) + 256 * (m (a + 4) + 256 * (m (a + 5) + 256 * (m (a + 6) + 256 * m (a + 7))))))).

(** insert_gc_worklist, collector.c:6-15: rt_linked_fixalloc_push appends *)
Definition insert (w : gc) (p : option nat) (v : Z) : gc :=
  match p with
  | Some p => mk_gc (gst w) (list_set (lists w) p (nth p (lists w) [] ++ [v])) (glob w)
  | None => mk_gc (gst w) (lists w) (glob w ++ [v])
  end.

(** span_of(value), tested before every insertion: collector.c:706, 873, 915, 947 and the like *)
Definition offer (w : gc) (p : option nat) (v : Z) : gc :=
  match span_of (gst w) v with Some _ => insert w p v | None => w end.

(** collector.c:688-724: the values of the pointer words *)
Fixpoint offer_words (w : gc) (p : option nat) (words : list Z) : gc :=
  match words with
  | [] => w
  | a :: words => offer_words (offer w p (word_at (mem (gst w)) a)) p words
  end.

(** memory.h:90-92 *)
Definition has_ptr (class : Z) : bool := Z.land class 1 =? 0.

(** collector.c:638-726 *)
Definition handle_gc_ptr (hb : Heapbits_model.heap) (w : gc) (p : option nat) (addr : Z) : res gc :=
  match span_of (gst w) addr with
  | None => Abort
  | Some b =>
    s <- get (gst w) b ;;
    let obj_index := (addr - s_base s) / s_osize s in
    let addr := s_base s + obj_index * s_osize s in
    m <- bitmap_test (s_mbits s) obj_index ;;
    if m : bool then Ok w
    else
      st <- mark (gst w) addr ;;
      let w := mk_gc st (lists w) (glob w) in
      if has_ptr (s_class s) then
        words <- scan ARENA_SIZE hb (addr - BASE) (s_osize s) ;;
        Ok (offer_words w p (map (fun x => x + BASE) words))
      else Ok w
  end.

(** whose turn it is: a processor (handle_gc_worklist, collector.c:728-760) or the final pass over the
    global list (gc_mark_done, collector.c:977-991); an empty list is left alone *)
Inductive turn := Proc (p : nat) | Final.

Definition gstep (hb : Heapbits_model.heap) (w : gc) (t : turn) : res gc :=
  match t with
  | Proc p =>
    match nth p (lists w) [] with
    | [] => Ok w
    | v :: l => handle_gc_ptr hb (mk_gc (gst w) (list_set (lists w) p l) (glob w)) (Some p) v
    end
  | Final =>
    match glob w with
    | [] => Ok w
    | v :: l => handle_gc_ptr hb (mk_gc (gst w) (lists w) l) None v
    end
  end.

Fixpoint grun (hb : Heapbits_model.heap) (w : gc) (turns : list turn) : res gc :=
  match turns with [] => Ok w | t :: turns => w <- gstep hb w t ;; grun hb w turns end.

(** collector.c:850-972: the roots, each offered to the list of a processor *)
Fixpoint offer_roots (w : gc) (roots : list (nat * Z)) : gc :=
  match roots with [] => w | (p, v) :: roots => offer_roots (offer w (Some p) v) roots end.

(** the start of marking with n processors *)
Definition seed (st : state) (n : nat) (roots : list (nat * Z)) : gc :=
  offer_roots (mk_gc st (repeat [] n) []) roots.
