(** Model of std/mem/mem.n (byte order conversions) and of utils/helper.h:301-335.

    Each function is transcribed term by term: [w n e] is the conversion of e to the n-bit
    unsigned type, [s n e] to the n-bit signed type; `>>` and `&` act on the two's complement
    representation, which Z.shiftr and Z.land compute for negative numbers too.  write_f32_*,
    write_f64_*, read_f32_*, read_f64_* (mem.n:81-93, 163-175, 287-end) move the bits of the float
    unchanged through the u32/u64 functions: a float is represented here by its bits.  memory
    addresses of the helper.h functions are offsets into one byte buffer. *)
From Verif Require Import Base Zlist.

Definition w (n e : Z) : Z := e mod 2 ^ n.
Definition s (n e : Z) : Z := (e + 2 ^ (n - 1)) mod 2 ^ n - 2 ^ (n - 1).

(** `(i >> k) & 0xFF as u8` *)
Definition byte_at (i k : Z) : Z := w 8 (Z.land (Z.shiftr i k) 255).

(** mem.n:17-19 *)
Definition write_u8_le (i : Z) : list Z := [i].
(** mem.n:21-26 *)
Definition write_u16_le (i : Z) : list Z := [byte_at i 0; byte_at i 8].
(** mem.n:28-35 *)
Definition write_u32_le (i : Z) : list Z := [byte_at i 0; byte_at i 8; byte_at i 16; byte_at i 24].
(** mem.n:37-48 *)
Definition write_u64_le (i : Z) : list Z := [byte_at i 0; byte_at i 8; byte_at i 16; byte_at i 24; byte_at i 32; byte_at i 40; byte_at i 48; byte_at i 56].
(** mem.n:50-52 *)
Definition write_i8_le (i : Z) : list Z := [w 8 i].
(** mem.n:54-59 *)
Definition write_i16_le (i : Z) : list Z := [byte_at i 0; byte_at i 8].
(** mem.n:61-68 *)
Definition write_i32_le (i : Z) : list Z := [byte_at i 0; byte_at i 8; byte_at i 16; byte_at i 24].
(** mem.n:70-81 *)
Definition write_i64_le (i : Z) : list Z := [byte_at i 0; byte_at i 8; byte_at i 16; byte_at i 24; byte_at i 32; byte_at i 40; byte_at i 48; byte_at i 56].
(** mem.n:97-99 *)
Definition write_u8_be (i : Z) : list Z := [i].
(** mem.n:101-106 *)
Definition write_u16_be (i : Z) : list Z := [byte_at i 8; byte_at i 0].
(** mem.n:108-115 *)
Definition write_u32_be (i : Z) : list Z := [byte_at i 24; byte_at i 16; byte_at i 8; byte_at i 0].
(** mem.n:117-128 *)
Definition write_u64_be (i : Z) : list Z := [byte_at i 56; byte_at i 48; byte_at i 40; byte_at i 32; byte_at i 24; byte_at i 16; byte_at i 8; byte_at i 0].
(** mem.n:130-132 *)
Definition write_i8_be (i : Z) : list Z := [w 8 i].
(** mem.n:134-139 *)
Definition write_i16_be (i : Z) : list Z := [byte_at i 8; byte_at i 0].
(** mem.n:141-148 *)
Definition write_i32_be (i : Z) : list Z := [byte_at i 24; byte_at i 16; byte_at i 8; byte_at i 0].
(** mem.n:150-161 *)
Definition write_i64_be (i : Z) : list Z := [byte_at i 56; byte_at i 48; byte_at i 40; byte_at i 32; byte_at i 24; byte_at i 16; byte_at i 8; byte_at i 0].
(** mem.n:177-183 *)
Definition read_u8_le (buf : list Z) : res Z :=
  if zlen buf <? 1 then Throw
  else b0 <- at_ buf 0 ;; Ok (b0).
(** mem.n:185-190 *)
Definition read_u16_le (buf : list Z) : res Z :=
  if zlen buf <? 2 then Throw
  else
    b1 <- at_ buf 1 ;;
    b0 <- at_ buf 0 ;;
    Ok (Z.lor (w 16 (Z.shiftl (w 16 b1) 8))
       (w 16 b0)).
(** mem.n:192-197 *)
Definition read_u32_le (buf : list Z) : res Z :=
  if zlen buf <? 4 then Throw
  else
    b3 <- at_ buf 3 ;;
    b2 <- at_ buf 2 ;;
    b1 <- at_ buf 1 ;;
    b0 <- at_ buf 0 ;;
    Ok (Z.lor (Z.lor (Z.lor (w 32 (Z.shiftl (w 32 b3) 24))
       (w 32 (Z.shiftl (w 32 b2) 16)))
       (w 32 (Z.shiftl (w 32 b1) 8)))
       (w 32 b0)).
(** mem.n:199-205 *)
Definition read_u64_le (buf : list Z) : res Z :=
  if zlen buf <? 8 then Throw
  else
    b7 <- at_ buf 7 ;;
    b6 <- at_ buf 6 ;;
    b5 <- at_ buf 5 ;;
    b4 <- at_ buf 4 ;;
    b3 <- at_ buf 3 ;;
    b2 <- at_ buf 2 ;;
    b1 <- at_ buf 1 ;;
    b0 <- at_ buf 0 ;;
    Ok (Z.lor (Z.lor (Z.lor (Z.lor (Z.lor (Z.lor (Z.lor (w 64 (Z.shiftl (w 64 b7) 56))
       (w 64 (Z.shiftl (w 64 b6) 48)))
       (w 64 (Z.shiftl (w 64 b5) 40)))
       (w 64 (Z.shiftl (w 64 b4) 32)))
       (w 64 (Z.shiftl (w 64 b3) 24)))
       (w 64 (Z.shiftl (w 64 b2) 16)))
       (w 64 (Z.shiftl (w 64 b1) 8)))
       (w 64 b0)).
(** mem.n:207-212 *)
Definition read_i8_le (buf : list Z) : res Z :=
  if zlen buf <? 1 then Throw
  else b0 <- at_ buf 0 ;; Ok (s 8 b0).
(** mem.n:214-219 *)
Definition read_i16_le (buf : list Z) : res Z :=
  if zlen buf <? 2 then Throw
  else
    b1 <- at_ buf 1 ;;
    b0 <- at_ buf 0 ;;
    Ok (s 16 (Z.lor (s 16 (Z.shiftl (s 16 b1) 8))
       (s 16 b0))).
(** mem.n:221-226 *)
Definition read_i32_le (buf : list Z) : res Z :=
  if zlen buf <? 4 then Throw
  else
    b3 <- at_ buf 3 ;;
    b2 <- at_ buf 2 ;;
    b1 <- at_ buf 1 ;;
    b0 <- at_ buf 0 ;;
    Ok (s 32 (Z.lor (Z.lor (Z.lor (s 32 (Z.shiftl (s 32 b3) 24))
       (s 32 (Z.shiftl (s 32 b2) 16)))
       (s 32 (Z.shiftl (s 32 b1) 8)))
       (s 32 b0))).
(** mem.n:228-234 *)
Definition read_i64_le (buf : list Z) : res Z :=
  if zlen buf <? 8 then Throw
  else
    b7 <- at_ buf 7 ;;
    b6 <- at_ buf 6 ;;
    b5 <- at_ buf 5 ;;
    b4 <- at_ buf 4 ;;
    b3 <- at_ buf 3 ;;
    b2 <- at_ buf 2 ;;
    b1 <- at_ buf 1 ;;
    b0 <- at_ buf 0 ;;
    Ok (s 64 (Z.lor (Z.lor (Z.lor (Z.lor (Z.lor (Z.lor (Z.lor (s 64 (Z.shiftl (s 64 b7) 56))
       (s 64 (Z.shiftl (s 64 b6) 48)))
       (s 64 (Z.shiftl (s 64 b5) 40)))
       (s 64 (Z.shiftl (s 64 b4) 32)))
       (s 64 (Z.shiftl (s 64 b3) 24)))
       (s 64 (Z.shiftl (s 64 b2) 16)))
       (s 64 (Z.shiftl (s 64 b1) 8)))
       (s 64 b0))).
(** mem.n:238-243 *)
Definition read_u8_be (buf : list Z) : res Z :=
  if zlen buf <? 1 then Throw
  else b0 <- at_ buf 0 ;; Ok (b0).
(** mem.n:245-250 *)
Definition read_u16_be (buf : list Z) : res Z :=
  if zlen buf <? 2 then Throw
  else
    b0 <- at_ buf 0 ;;
    b1 <- at_ buf 1 ;;
    Ok (Z.lor (w 16 (Z.shiftl (w 16 b0) 8))
       (w 16 b1)).
(** mem.n:252-257 *)
Definition read_u32_be (buf : list Z) : res Z :=
  if zlen buf <? 4 then Throw
  else
    b0 <- at_ buf 0 ;;
    b1 <- at_ buf 1 ;;
    b2 <- at_ buf 2 ;;
    b3 <- at_ buf 3 ;;
    Ok (Z.lor (Z.lor (Z.lor (w 32 (Z.shiftl (w 32 b0) 24))
       (w 32 (Z.shiftl (w 32 b1) 16)))
       (w 32 (Z.shiftl (w 32 b2) 8)))
       (w 32 b3)).
(** mem.n:259-265 *)
Definition read_u64_be (buf : list Z) : res Z :=
  if zlen buf <? 8 then Throw
  else
    b0 <- at_ buf 0 ;;
    b1 <- at_ buf 1 ;;
    b2 <- at_ buf 2 ;;
    b3 <- at_ buf 3 ;;
    b4 <- at_ buf 4 ;;
    b5 <- at_ buf 5 ;;
    b6 <- at_ buf 6 ;;
    b7 <- at_ buf 7 ;;
    Ok (Z.lor (Z.lor (Z.lor (Z.lor (Z.lor (Z.lor (Z.lor (w 64 (Z.shiftl (w 64 b0) 56))
       (w 64 (Z.shiftl (w 64 b1) 48)))
       (w 64 (Z.shiftl (w 64 b2) 40)))
       (w 64 (Z.shiftl (w 64 b3) 32)))
       (w 64 (Z.shiftl (w 64 b4) 24)))
       (w 64 (Z.shiftl (w 64 b5) 16)))
       (w 64 (Z.shiftl (w 64 b6) 8)))
       (w 64 b7)).
(** mem.n:267-272 *)
Definition read_i8_be (buf : list Z) : res Z :=
  if zlen buf <? 1 then Throw
  else b0 <- at_ buf 0 ;; Ok (s 8 b0).
(** mem.n:274-279 *)
Definition read_i16_be (buf : list Z) : res Z :=
  if zlen buf <? 2 then Throw
  else
    b0 <- at_ buf 0 ;;
    b1 <- at_ buf 1 ;;
    Ok (s 16 (Z.lor (s 16 (Z.shiftl (s 16 b0) 8))
       (s 16 b1))).
(** mem.n:281-286 *)
Definition read_i32_be (buf : list Z) : res Z :=
  if zlen buf <? 4 then Throw
  else
    b0 <- at_ buf 0 ;;
    b1 <- at_ buf 1 ;;
    b2 <- at_ buf 2 ;;
    b3 <- at_ buf 3 ;;
    Ok (s 32 (Z.lor (Z.lor (Z.lor (s 32 (Z.shiftl (s 32 b0) 24))
       (s 32 (Z.shiftl (s 32 b1) 16)))
       (s 32 (Z.shiftl (s 32 b2) 8)))
       (s 32 b3))).
(** mem.n:288-294 *)
Definition read_i64_be (buf : list Z) : res Z :=
  if zlen buf <? 8 then Throw
  else
    b0 <- at_ buf 0 ;;
    b1 <- at_ buf 1 ;;
    b2 <- at_ buf 2 ;;
    b3 <- at_ buf 3 ;;
    b4 <- at_ buf 4 ;;
    b5 <- at_ buf 5 ;;
    b6 <- at_ buf 6 ;;
    b7 <- at_ buf 7 ;;
    Ok (s 64 (Z.lor (Z.lor (Z.lor (Z.lor (Z.lor (Z.lor (Z.lor (s 64 (Z.shiftl (s 64 b0) 56))
       (s 64 (Z.shiftl (s 64 b1) 48)))
       (s 64 (Z.shiftl (s 64 b2) 40)))
       (s 64 (Z.shiftl (s 64 b3) 32)))
       (s 64 (Z.shiftl (s 64 b4) 24)))
       (s 64 (Z.shiftl (s 64 b5) 16)))
       (s 64 (Z.shiftl (s 64 b6) 8)))
       (s 64 b7))).

(** ** utils/helper.h: accessors at an address of a buffer; outside it is UB. *)
(** helper.h:301-303 *)
Definition read16le (p : list Z) (a : Z) : res Z :=
  b0 <- rd p a ;; b1 <- rd p (a + 1) ;; Ok (w 16 (Z.lor b0 (Z.shiftl b1 8))).
(** helper.h:305-308 *)
Definition write16le (p : list Z) (a x : Z) : res (list Z) :=
  p <- wr p a (w 8 (Z.land x 255)) ;; wr p (a + 1) (w 8 (Z.land (Z.shiftr x 8) 255)).
(** helper.h:310-312 *)
Definition read32le (p : list Z) (a : Z) : res Z :=
  l <- read16le p a ;; h <- read16le p (a + 2) ;; Ok (w 32 (Z.lor l (w 32 (Z.shiftl h 16)))).
(** helper.h:314-317; the parameter of write16le is a uint16_t. *)
Definition write32le (p : list Z) (a x : Z) : res (list Z) :=
  p <- write16le p a (w 16 x) ;; write16le p (a + 2) (w 16 (Z.shiftr x 16)).
(** helper.h:319-321 *)
Definition add32le (p : list Z) (a x : Z) : res (list Z) :=
  v <- read32le p a ;; write32le p a (w 32 (v + x)).
(** helper.h:323-325 *)
Definition read64le (p : list Z) (a : Z) : res Z :=
  l <- read32le p a ;; h <- read32le p (a + 4) ;; Ok (w 64 (Z.lor l (w 64 (Z.shiftl h 32)))).
(** helper.h:327-330 *)
Definition write64le (p : list Z) (a x : Z) : res (list Z) :=
  p <- write32le p a (w 32 x) ;; write32le p (a + 4) (w 32 (Z.shiftr x 32)).
(** helper.h:332-334 *)
Definition add64le (p : list Z) (a x : Z) : res (list Z) :=
  v <- read64le p a ;; write64le p a (w 64 (v + x)).

(** ** The Nature functions, by type *)
Inductive ity := U8 | U16 | U32 | U64 | I8 | I16 | I32 | I64.
Inductive order := LE | BE.
(** dispatch only: no code of its own *)
Definition write (o : order) (t : ity) : Z -> list Z :=
  match o, t with
  | LE, U8 => write_u8_le | LE, U16 => write_u16_le | LE, U32 => write_u32_le | LE, U64 => write_u64_le
  | LE, I8 => write_i8_le | LE, I16 => write_i16_le | LE, I32 => write_i32_le | LE, I64 => write_i64_le
  | BE, U8 => write_u8_be | BE, U16 => write_u16_be | BE, U32 => write_u32_be | BE, U64 => write_u64_be
  | BE, I8 => write_i8_be | BE, I16 => write_i16_be | BE, I32 => write_i32_be | BE, I64 => write_i64_be
  end.
(** dispatch only *)
Definition read (o : order) (t : ity) : list Z -> res Z :=
  match o, t with
  | LE, U8 => read_u8_le | LE, U16 => read_u16_le | LE, U32 => read_u32_le | LE, U64 => read_u64_le
  | LE, I8 => read_i8_le | LE, I16 => read_i16_le | LE, I32 => read_i32_le | LE, I64 => read_i64_le
  | BE, U8 => read_u8_be | BE, U16 => read_u16_be | BE, U32 => read_u32_be | BE, U64 => read_u64_be
  | BE, I8 => read_i8_be | BE, I16 => read_i16_be | BE, I32 => read_i32_be | BE, I64 => read_i64_be
  end.
