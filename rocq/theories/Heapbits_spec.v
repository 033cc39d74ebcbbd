(** What the heap bitmap says about a word, without reference to how it is written. *)
From Verif Require Import Base Bitmap_spec Heapbits_model.

(** the documented layout (runtime.h, comment of arena_t): each byte describes four words of the
    arena, its low four bits saying which of them hold pointers *)
Definition says_pointer (asz : Z) (h : heap) (a : Z) : bool :=
  let w := (a mod asz) / 8 in
  match h (a / asz) with
  | Some bits => bit bits (8 * (w / 4) + w mod 4)
  | None => false
  end.

(** a is the address of a word *)
Definition word (a : Z) : Prop := 0 <= a /\ a mod 8 = 0.

(** a is the address of a word of the block [addr, addr + size) *)
Definition word_of (addr size a : Z) : Prop := word a /\ addr <= a < addr + size.

(** every arena touched by the block exists and has a bitmap of the right size *)
Definition mapped (asz : Z) (h : heap) (addr size : Z) : Prop :=
  forall i, addr / asz <= i <= (addr + size - 1) / asz ->
    exists bits, h i = Some bits /\ bytes bits /\ zlen bits = asz / 32.

(** the arena size is a whole number of bitmap bytes *)
Definition arena_size (asz : Z) : Prop := 0 < asz /\ asz mod 32 = 0.

(** a block of whole words that a type with pointers fits in *)
Definition fits (addr obj_size : Z) (t : rtype) : Prop :=
  word addr /\ 0 < obj_size /\ obj_size mod 8 = 0.

(** the type carries a pointer mask: last_ptr ends with the last pointer word, the mask covers it *)
Definition has_mask (obj_size : Z) (t : rtype) : Prop :=
  is_arr t && inline_bits t = false /\ 0 < last_ptr t <= obj_size /\ last_ptr t mod 8 = 0 /\
  bytes (mask t) /\ last_ptr t / 8 <= capacity (mask t) /\
  forall k, last_ptr t / 8 <= k -> bit (mask t) k = false.
