(** Reachability, without reference to how marking goes about it. *)
From Verif Require Import Base Bitmap_spec Heapbits_model Heapbits_spec Pages_model Spans_model Spans_spec Gcmark_model.

(** the word stored at x, least significant byte first *)
Definition value_of (m : Z -> Z) (x : Z) : Z :=
  fold_right (fun i rest => m (x + i) * 256 ^ i + rest) 0 [0; 1; 2; 3; 4; 5; 6; 7].

(** the start of the slot that contains v, for a v inside a span *)
Definition slot_start (st : state) (v : Z) : option Z :=
  match span_at st v with
  | Some s => Some (s_base s + (v - s_base s) / s_osize s * s_osize s)
  | None => None
  end.

(** x is the address of a word of the slot at a that the pointer bitmap calls a pointer; slots of spans
    without pointers have none *)
Definition pointer_word (st : state) (hb : Heapbits_model.heap) (a x : Z) : Prop :=
  exists s, span_at st a = Some s /\ Z.odd (s_class s) = false /\
    word_of (a - BASE) (s_osize s) (x - BASE) /\ says_pointer ARENA_SIZE hb (x - BASE) = true.

(** the slots reachable from the values of the roots *)
Inductive reach (st : state) (hb : Heapbits_model.heap) (roots : list (nat * Z)) : Z -> Prop :=
| reach_root p v a : In (p, v) roots -> slot_start st v = Some a -> reach st hb roots a
| reach_word a x b : reach st hb roots a -> pointer_word st hb a x ->
    slot_start st (value_of (mem st) x) = Some b -> reach st hb roots b.

(** nothing is marked *)
Definition unmarked (st : state) : Prop := forall x, is_marked st x = false.

(** the slots of spans with pointers lie in one arena each, and the bitmap of that arena exists *)
Definition scannable (st : state) (hb : Heapbits_model.heap) : Prop :=
  forall s i, In s (spans st) -> Z.odd (s_class s) = false -> 0 <= i < s_ocount s ->
    let a := s_base s + i * s_osize s - BASE in
    mapped ARENA_SIZE hb a (s_osize s) /\ a / ARENA_SIZE = (a + s_osize s - 1) / ARENA_SIZE.

(** a value that points into a span points into one of its slots, not into the unused rest of its last page *)
Definition in_slot (st : state) (v : Z) : Prop :=
  forall s, span_at st v = Some s -> (v - s_base s) / s_osize s < s_ocount s.

(** this holds of the roots and of the pointers in reachable slots *)
Definition values_ok (st : state) (hb : Heapbits_model.heap) (roots : list (nat * Z)) : Prop :=
  (forall p v, In (p, v) roots -> in_slot st v) /\
  (forall a x, reach st hb roots a -> pointer_word st hb a x -> in_slot st (value_of (mem st) x)).

(** all work lists are empty *)
Definition quiet (w : gc) : Prop := Forall (fun l => l = []) (lists w) /\ glob w = [].

(** every turn of the schedule finds something to do *)
Fixpoint busy (hb : Heapbits_model.heap) (w : gc) (turns : list turn) : Prop :=
  match turns with
  | [] => True
  | t :: turns =>
      match t with Proc p => nth p (lists w) [] <> [] | Final => glob w <> [] end /\
      match gstep hb w t with Ok w => busy hb w turns | _ => False end
  end.

(** the history does not mark and does not allocate while the write barrier is on *)
Definition calm (o : hop) : Prop :=
  match o with HMalloc _ _ _ barrier _ => barrier = false | HMark _ => False | _ => True end.

(** what is asked of a collection with n processors: root values were found by one of them, and the above *)
Definition collectable (st : state) (hb : Heapbits_model.heap) (n : nat) (roots : list (nat * Z)) : Prop :=
  scannable st hb /\ values_ok st hb roots /\ (forall p v, In (p, v) roots -> (p < n)%nat).

(** histories: allocations and writes with collections in between, each run to its end with the program paused *)
Inductive history (procs : nat) : world -> Prop :=
| h_start junk : history procs (init procs junk, [])
| h_step w o w' : history procs w -> calm o -> hop_ok procs o -> hstep w o = Ok w' -> history procs w'
| h_collect st objs hb n roots turns g w' : history procs (st, objs) -> collectable st hb n roots ->
    grun hb (seed st n roots) turns = Ok g -> quiet g -> hstep (gst g, objs) HSweep = Ok w' -> history procs w'.
