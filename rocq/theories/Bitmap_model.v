(** Model of utils/bitmap.h.  A bitmap is an array of bytes; an access outside the array is UB.
    The locks of bitmap_locker_set, bitmap_locker_clear and bitmap_copy are not modelled: these
    functions are the plain ones under a mutex. *)
From Verif Require Import Base Zlist.

(** bitmap.h:34-37 *)
Definition bitmap_set (bits : list Z) (index : Z) : res (list Z) :=
  b <- rd bits (index / 8) ;;
  wr bits (index / 8) (u8 (Z.lor b (Z.shiftl 1 (Z.land index 7)))).

(** bitmap.h:114-117 *)
Definition bitmap_clear (bits : list Z) (index : Z) : res (list Z) :=
  b <- rd bits (index / 8) ;;
  wr bits (index / 8) (u8 (Z.land b (Z.lnot (Z.shiftl 1 (Z.land index 7))))).

(** bitmap.h:131-133 *)
Definition bitmap_test (bits : list Z) (index : Z) : res bool :=
  b <- rd bits (index / 8) ;;
  Ok (negb (Z.land b (Z.shiftl 1 (Z.land index 7)) =? 0)).

(** memset(&bits[start], v, n) *)
Fixpoint memset (bits : list Z) (start v : Z) (n : nat) : res (list Z) :=
  match n with
  | O => Ok bits
  | S n => bits <- wr bits start v ;; memset bits (start + 1) v n
  end.

(** bitmap.h:40-75; `mask` is a uint8_t *)
Definition bitmap_batch_clear (bits : list Z) (index count : Z) : res (list Z) :=
  if count =? 0 then Ok bits
  else
    let start_byte := index / 8 in
    let start_bit := Z.land index 7 in
    let end_index := index + count in
    let end_byte := end_index / 8 in
    let end_bit := Z.land end_index 7 in
    if start_byte =? end_byte then
      let mask := u8 (Z.shiftl (Z.shiftl 1 count - 1) start_bit) in
      b <- rd bits start_byte ;; wr bits start_byte (u8 (Z.land b (Z.lnot mask)))
    else
      ' (bits, start_byte) <- (if negb (start_bit =? 0) then
                                 let mask := u8 (Z.shiftl 255 start_bit) in
                                 b <- rd bits start_byte ;;
                                 bits <- wr bits start_byte (u8 (Z.land b (Z.lnot mask))) ;;
                                 Ok (bits, start_byte + 1)
                               else Ok (bits, start_byte)) ;;
      bits <- (if start_byte <? end_byte then memset bits start_byte 0 (Z.to_nat (end_byte - start_byte))
               else Ok bits) ;;
      if negb (end_bit =? 0) then
        let mask := u8 (Z.shiftl 1 end_bit - 1) in
        b <- rd bits end_byte ;; wr bits end_byte (u8 (Z.land b (Z.lnot mask)))
      else Ok bits.

(** bitmap.h:77-112 *)
Definition bitmap_batch_set (bits : list Z) (index count : Z) : res (list Z) :=
  if count =? 0 then Ok bits
  else
    let start_byte := index / 8 in
    let start_bit := Z.land index 7 in
    let end_index := index + count in
    let end_byte := end_index / 8 in
    let end_bit := Z.land end_index 7 in
    if start_byte =? end_byte then
      let mask := u8 (Z.shiftl (Z.shiftl 1 count - 1) start_bit) in
      b <- rd bits start_byte ;; wr bits start_byte (u8 (Z.lor b mask))
    else
      ' (bits, start_byte) <- (if negb (start_bit =? 0) then
                                 let mask := u8 (Z.shiftl 255 start_bit) in
                                 b <- rd bits start_byte ;;
                                 bits <- wr bits start_byte (u8 (Z.lor b mask)) ;;
                                 Ok (bits, start_byte + 1)
                               else Ok (bits, start_byte)) ;;
      bits <- (if start_byte <? end_byte then memset bits start_byte 255 (Z.to_nat (end_byte - start_byte))
               else Ok bits) ;;
      if negb (end_bit =? 0) then
        let mask := u8 (Z.shiftl 1 end_bit - 1) in
        b <- rd bits end_byte ;; wr bits end_byte (u8 (Z.lor b mask))
      else Ok bits.

(** bitmap.h:141-146, the loop over the full bytes *)
Fixpoint empty_loop (bits : list Z) (i : Z) (n : nat) : res bool :=
  match n with
  | O => Ok true
  | S n => b <- rd bits i ;; if negb (b =? 0) then Ok false else empty_loop bits (i + 1) n
  end.

(** bitmap.h:135-159 *)
Definition bitmap_empty (bits : list Z) (count : Z) : res bool :=
  let bytes_ := count / 8 in
  let remainder := count mod 8 in
  e <- empty_loop bits 0 (Z.to_nat bytes_) ;;
  if negb e then Ok false
  else if 0 <? remainder then
    let mask := u8 (Z.shiftl 1 remainder - 1) in
    b <- rd bits bytes_ ;;
    if negb (Z.land b mask =? 0) then Ok false else Ok true
  else Ok true.

(** bitmap.h:160-169; b->size is the length in bytes (bitmap_new, :18-26) *)
Fixpoint set_count_loop (bits : list Z) (i : Z) (n : nat) (count : Z) : res Z :=
  match n with
  | O => Ok count
  | S n => t <- bitmap_test bits i ;; set_count_loop bits (i + 1) n (if t : bool then count + 1 else count)
  end.
Definition bitmap_set_count (bits : list Z) : res Z := set_count_loop bits 0 (length bits) 0.

(** bitmap.h:185-200; b->size = length bits.  memcpy(new_bits, b->bits, b->size) writes b->size
    bytes into need_size * 2. *)
Definition bitmap_grow_set (bits : list Z) (index : Z) (test : bool) : res (list Z) :=
  let need_size := index / 8 in
  bits <- (if zlen bits <=? need_size then
             if need_size * 2 <? zlen bits then UB
             else Ok (bits ++ repeat 0 (Z.to_nat (need_size * 2 - zlen bits)))
           else Ok bits) ;;
  if test then bitmap_set bits index else bitmap_clear bits index.
