(** base64: std/base64/base64.n and runtime/mbedtls/base64.c, 64-bit size_t.

    Simplifications: a pointer that walks over the source is the rest of the source; the destination,
    a zeroed vector of [dlen] bytes, is the list of the bytes written so far, and a write beyond [dlen]
    is undefined behaviour.  The pointers passed by base64.n are never null. *)
From Verif Require Import Base.

Definition u8 (z : Z) : Z := z mod 256.
Definition u32 (z : Z) : Z := z mod 4294967296.
(** Conversion of an int to signed char. *)
Definition schar (z : Z) : Z := let v := z mod 256 in if v <? 128 then v else v - 256.

(** runtime/mbedtls/constant_time_impl.h:391-405 *)
Definition in_range_if (low high c t : Z) : Z :=
  let low_mask := Z.shiftr (u32 (c - low)) 8 in
  let high_mask := Z.shiftr (u32 (high - c)) 8 in
  Z.land (u8 (Z.lnot (Z.lor low_mask high_mask))) (u8 t).

(** base64.c:27-40 mbedtls_ct_base64_enc_char; 'A' is 65, 'a' 97, '0' 48, '+' 43, '/' 47 *)
Definition enc_char (value : Z) : Z :=
  let digit := 0 in
  let digit := Z.lor digit (in_range_if 0 25 value (65 + value)) in
  let digit := Z.lor digit (in_range_if 26 51 value (97 + value - 26)) in
  let digit := Z.lor digit (in_range_if 52 61 value (48 + value - 52)) in
  let digit := Z.lor digit (in_range_if 62 62 value 43) in
  Z.lor digit (in_range_if 63 63 value 47).

(** base64.c:42-58 mbedtls_ct_base64_dec_value *)
Definition dec_value (c : Z) : Z :=
  let val := 0 in
  let val := Z.lor val (in_range_if 65 90 c (c - 65 + 0 + 1)) in
  let val := Z.lor val (in_range_if 97 122 c (c - 97 + 26 + 1)) in
  let val := Z.lor val (in_range_if 48 57 c (c - 48 + 52 + 1)) in
  let val := Z.lor val (in_range_if 43 43 c (c - 43 + 62 + 1)) in
  let val := Z.lor val (in_range_if 47 47 c (c - 47 + 63 + 1)) in
  schar (val - 1).

(** A modelling device: `*p++ = b` into a buffer of [dlen] bytes. *)
Definition put (dlen : Z) (out : list Z) (b : Z) : res (list Z) :=
  if zlen out <? dlen then Ok (out ++ [u8 b]) else UB.

(** base64.c:92-104, the loop over whole groups, and 106-122, the rest *)
Fixpoint enc_loop (dlen : Z) (src out : list Z) : res (list Z) :=
  match src with
  | c1 :: c2 :: c3 :: src' =>
      out <- put dlen out (enc_char (Z.land (Z.shiftr c1 2) 63)) ;;
      out <- put dlen out (enc_char (Z.land (Z.shiftl (Z.land c1 3) 4 + Z.shiftr c2 4) 63)) ;;
      out <- put dlen out (enc_char (Z.land (Z.shiftl (Z.land c2 15) 2 + Z.shiftr c3 6) 63)) ;;
      out <- put dlen out (enc_char (Z.land c3 63)) ;;
      enc_loop dlen src' out
  | [] => Ok out
  | c1 :: rest =>
      let c2 := match rest with c2 :: _ => c2 | [] => 0 end in
      out <- put dlen out (enc_char (Z.land (Z.shiftr c1 2) 63)) ;;
      out <- put dlen out (enc_char (Z.land (Z.shiftl (Z.land c1 3) 4 + Z.shiftr c2 4) 63)) ;;
      out <- match rest with
             | _ :: _ => put dlen out (enc_char (Z.land (Z.shiftl (Z.land c2 15) 2) 63))
             | [] => put dlen out 61
             end ;;
      put dlen out 61
  end.

(** base64.c:63-128 mbedtls_base64_encode: return code, *olen and what was written *)
Definition SIZE_MAX : Z := 18446744073709551615.
Definition mbedtls_encode (dlen : Z) (src : list Z) : res (Z * Z * list Z) :=
  let slen := zlen src in
  if slen =? 0 then Ok (0, 0, [])
  else
    let n := slen / 3 + (if slen mod 3 =? 0 then 0 else 1) in
    if (SIZE_MAX - 1) / 4 <? n then Ok (-42, SIZE_MAX, [])
    else if dlen <? n * 4 + 1 then Ok (-42, n * 4 + 1, [])
    else
      out <- enc_loop dlen src [] ;;
      full <- put dlen out 0 ;;
      Ok (0, zlen out, full).

(** A modelling device: dst.slice(0, olen) where dst has [dlen] bytes, the first ones written. *)
Definition taken (dlen olen : Z) (out : list Z) : res (list Z) :=
  if dlen <? olen then Panic else Ok (firstn (Z.to_nat olen) (out ++ repeat 0 (Z.to_nat (dlen - zlen out)))).

(** base64.n:11-20; the return code is not looked at *)
Definition encode (src : list Z) : res (list Z) :=
  let max_len := (zlen src + 2) / 3 * 4 + 1 in
  r <- mbedtls_encode max_len src ;;
  let '(_, olen, out) := r in taken max_len olen out.

(** base64.c:144-186, the first pass: the number of digits and equal signs, and of the latter.
    [sp] says that spaces were just skipped; [None] is INVALID_CHARACTER.  The loop always leaves i at
    slen. *)
Fixpoint pass1 (src : list Z) (sp : bool) (n equals : Z) : option (Z * Z) :=
  match src with
  | [] => Some (n, equals)
  | c :: src' =>
      if c =? 32 then pass1 src' true n equals
      else if (c =? 13) && match src' with d :: _ => d =? 10 | [] => false end then pass1 src' false n equals
      else if c =? 10 then pass1 src' false n equals
      else if sp then None
      else if 127 <? c then None
      else if c =? 61 then
        if 2 <? equals + 1 then None else pass1 src' false (n + 1) (equals + 1)
      else if negb (equals =? 0) then None
      else if dec_value c <? 0 then None
      else pass1 src' false (n + 1) equals
  end.

Definition byte_at (k x : Z) : Z := Z.land (Z.shiftr x (8 * k)) 255.

(** base64.c:228-247, the second pass, and 248-253, the rest *)
Fixpoint pass2 (dlen : Z) (src : list Z) (x digits : Z) (out : list Z) : res (list Z) :=
  let finish :=
    if digits =? 3 then
      out <- put dlen out (byte_at 2 (u32 (Z.shiftl x 6))) ;; put dlen out (byte_at 1 (u32 (Z.shiftl x 6)))
    else if digits =? 2 then put dlen out (byte_at 2 (u32 (Z.shiftl x 12)))
    else Ok out in
  match src with
  | [] => finish
  | c :: src' =>
      if (c =? 13) || (c =? 10) || (c =? 32) then pass2 dlen src' x digits out
      else if c =? 61 then finish
      else
        let x := u32 (Z.shiftl x 6) in
        let x := Z.lor x (u32 (dec_value c)) in
        if digits + 1 =? 4 then
          out <- put dlen out (byte_at 2 x) ;;
          out <- put dlen out (byte_at 1 x) ;;
          out <- put dlen out (byte_at 0 x) ;;
          pass2 dlen src' x 0 out
        else pass2 dlen src' x (digits + 1) out
  end.

(** base64.c:133-260 mbedtls_base64_decode *)
Definition mbedtls_decode (dlen : Z) (src : list Z) : res (Z * Z * list Z) :=
  match pass1 src false 0 0 with
  | None => Ok (-44, 0, [])
  | Some (n, equals) =>
      if (n - equals) mod 4 =? 1 then Ok (-44, 0, [])
      else if negb (n mod 4 =? 0) then Ok (-44, 0, [])
      else
        let olen := n / 4 * 3 - equals in
        if dlen <? olen then Ok (-42, olen, [])
        else
          out <- pass2 dlen src 0 0 [] ;;
          if negb (olen =? zlen out) then Ok (-110, olen, out) else Ok (0, olen, out)
  end.

(** base64.n:22-34 *)
Definition decode (src : list Z) : res (list Z) :=
  let max_len := zlen src * 3 / 4 + 1 in
  r <- mbedtls_decode max_len src ;;
  let '(ret, olen, out) := r in
  if negb (ret =? 0) then Throw else taken max_len olen out.
