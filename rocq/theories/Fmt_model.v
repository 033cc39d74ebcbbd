(** Model of std/fmt/utils.n and of sprintf in std/fmt/fmt.n. *)
From Verif Require Import Base Strings_model Url_model.

(** utils.n:3-9 ascii: the first byte of a string, 0 for the empty string. *)
Definition ascii1 (c : list Z) : Z := match c with [] => 0 | b :: _ => b end.

(** utils.n:12-20 reverse, in place: swap list[start] and list[end] while start < end. *)
Fixpoint reverse_in_place (fuel : nat) (l : list Z) (start end_ : Z) : res (list Z) :=
  match fuel with
  | O => NoFuel
  | S f =>
      if start <? end_ then
        a <- at_ l start ;;
        b <- at_ l end_ ;;
        l <- set_at l start b ;;
        l <- set_at l end_ a ;;
        reverse_in_place f l (start + 1) (end_ - 1)
      else Ok l
  end.

Definition reverse_vec (l : list Z) : res (list Z) :=
  reverse_in_place (S (length l)) l 0 (zlen l - 1).

(** A signed integer type of [w] bits: `-i` is two's-complement negation. *)
Definition swrap (w z : Z) : Z := (z + 2 ^ (w - 1)) mod 2 ^ w - 2 ^ (w - 1).
Definition uwrap (w z : Z) : Z := z mod 2 ^ w.

(** `for u8 j = 0; j < width; j += 1 { result.push(ascii(fill)) }` and
    `for width > result_width { push; result_width += 1 }` with u8 counters
    (utils.n:41-43, 62-65, 159-162, 221-224, 227-230).  256 turns always suffice because the
    counter reaches [width] before it can wrap. *)
Fixpoint pad_loop (fuel : nat) (result : list Z) (c width result_width : Z) : res (list Z) :=
  match fuel with
  | O => NoFuel
  | S f =>
      if result_width <? width then pad_loop f (result ++ [c]) c width (u8 (result_width + 1))
      else Ok result
  end.

Definition pad (result : list Z) (c width result_width : Z) : res (list Z) :=
  pad_loop 257 result c width result_width.

(** utils.n:150-155, 49-58, 100-109: digits of an unsigned value, least significant first. *)
Fixpoint udigits (fuel : nat) (base : Z) (digit : Z -> Z) (i : Z) (result : list Z) : res (list Z) :=
  match fuel with
  | O => NoFuel
  | S f =>
      if negb (i =? 0) then
        udigits f base digit (i / base) (result ++ [digit (i mod base)])
      else Ok result
  end.

Definition dec_digit (rem : Z) : Z := u8 (u8 rem + 48).
Definition hex_digit_lo (rem : Z) : Z :=
  if rem <? 10 then u8 (u8 rem + 48) else u8 (u8 (rem - 10) + 97).
Definition hex_digit_up (rem : Z) : Z :=
  if rem <? 10 then u8 (u8 rem + 48) else u8 (u8 (rem - 10) + 65).

(** The common shape of utils.n:130-168 utos_with (base 10), 29-71 utos_hex_with and
    80-122 utos_hex_upper_with (base 16). *)
Definition unsigned_with (base : Z) (digit : Z -> Z) (i : Z) (fill : list Z) (width : Z)
  : res (list Z) :=
  if i =? 0 then
    if width =? 0 then Ok [48] else pad [] (ascii1 fill) width 0
  else
    result <- udigits 65 base digit i [] ;;
    result <- pad result (ascii1 fill) width (u8 (zlen result)) ;;
    reverse_vec result.

(** T has [w] bits; the value is read from the low bytes of the argument slot. *)
Definition utos_with (w v : Z) := unsigned_with 10 dec_digit (uwrap w v).
Definition utos_hex_with (w v : Z) := unsigned_with 16 hex_digit_lo (uwrap w v).
Definition utos_hex_upper_with (w v : Z) := unsigned_with 16 hex_digit_up (uwrap w v).
(** utils.n:23-25, 171-173 *)
Definition utos (w v : Z) := utos_with w v [48] 0.

(** utils.n:204-209: `int rem = i as int % base; push(rem as u8 + '0'); i = i / 10`, with the
    C-style truncated division of signed integers. *)
Fixpoint idigits (fuel : nat) (i : Z) (result : list Z) : res (list Z) :=
  match fuel with
  | O => NoFuel
  | S f =>
      if negb (i =? 0) then
        idigits f (Z.quot i 10) (result ++ [u8 (u8 (Z.rem i 10) + 48)])
      else Ok result
  end.

(** utils.n:176-241 itos_with<T> for a signed T of [w] bits holding [v]. *)
Definition itos_with (w v : Z) (fill : list Z) (width : Z) : res (list Z) :=
  let is_neg := v <? 0 in
  let i := if is_neg then swrap w (- v) else v in
  if i =? 0 then
    if width =? 0 then Ok [48] else pad [] (ascii1 fill) width 0
  else
    result <- idigits 65 i [] ;;
    let result_width := u8 (zlen result) in
    let result_width := if is_neg then u8 (result_width + 1) else result_width in
    result <-
      (if list_eqb fill [32] then
         let result := if is_neg then result ++ [45] else result in
         pad result (ascii1 fill) width result_width
       else
         result <- pad result (ascii1 fill) width result_width ;;
         Ok (if is_neg then result ++ [45] else result)) ;;
    reverse_vec result.

Definition itos (w v : Z) := itos_with w v [48] 0.

(** Arguments of sprintf.  Floating-point conversions go through [ftos] below, which is left
    abstract; other kinds print a marker. *)
Inductive any :=
| ASigned (w v : Z)
| AUnsigned (w v : Z)
| AString (s : list Z)
| ABool (b : bool)
| ANull
| AFloat (bits v : Z)
| AOther.

Section sprintf.
(** utils.n:249-327 ftos_with<T>, not modelled here: value bits, fill, width, precision. *)
Variable ftos_with : Z -> Z -> list Z -> Z -> Z -> list Z.

(** fmt.n:88-222: the text of one directive. *)
Definition render (c : Z) (arg : any) (fill : list Z) (width precision : Z) : res (list Z) :=
  if c =? 100 then (* d, fmt.n:88-106 *)
    match arg with
    | ASigned w v => itos_with w v fill width
    | AUnsigned w v => utos_with w v fill width
    | _ => Ok (bs "%!d")
    end
  else if c =? 115 then (* s, fmt.n:108-119 *)
    match arg with AString s => Ok s | _ => Ok (bs "%!s") end
  else if c =? 99 then (* c, fmt.n:121-131 *)
    match arg with
    | AUnsigned w v => if w =? 8 then Ok [v] else Ok (bs "%!c")
    | _ => Ok (bs "%!c")
    end
  else if c =? 102 then (* f, fmt.n:134-146 *)
    match arg with AFloat w v => Ok (ftos_with w v fill width precision) | _ => Ok (bs "%!f") end
  else if c =? 120 then (* x, fmt.n:149-167 *)
    match arg with
    | ASigned w v | AUnsigned w v => utos_hex_with w v fill width
    | _ => Ok (bs "%!x")
    end
  else if c =? 88 then (* X, fmt.n:170-188 *)
    match arg with
    | ASigned w v | AUnsigned w v => utos_hex_upper_with w v fill width
    | _ => Ok (bs "%!X")
    end
  else (* v, fmt.n:191-222 *)
    match arg with
    | ASigned w v => itos w v
    | AUnsigned w v => utos w v
    | AFloat w v => Ok (ftos_with w v [48] 0 6)
    | ABool b => Ok (if b then bs "true" else bs "false")
    | AString s => Ok s
    | ANull => Ok (bs "null")
    | AOther => Ok (bs "%!v")
    end.

(** fmt.n:37-44: `for true { if not a digit break; width = width*10 + digit }`, u8 arithmetic,
    no test against the end of the format. *)
Fixpoint width_loop (fuel : nat) (src : list Z) (i width : Z) : res (Z * Z) :=
  match fuel with
  | O => NoFuel
  | S f =>
      c <- at_ src i ;;
      if (c <? 48) || (57 <? c) then Ok (i, width)
      else width_loop f src (i + 1) (u8 (u8 (width * 10) + u8 (c - 48)))
  end.

(** fmt.n:53-56: precision digits, tested against the end. *)
Fixpoint precision_loop (fuel : nat) (src : list Z) (i precision : Z) : res (Z * Z) :=
  match fuel with
  | O => NoFuel
  | S f =>
      if i <? zlen src then
        c <- at_ src i ;;
        if (48 <=? c) && (c <=? 57) then
          precision_loop f src (i + 1) (u8 (u8 (precision * 10) + u8 (c - 48)))
        else Ok (i, precision)
      else Ok (i, precision)
  end.

(** fmt.n:75 the letters that introduce a conversion. *)
Definition is_conv (c : Z) : bool := existsb (Z.eqb c) (bs "vcdsfxX").

(** fmt.n:16-223, the loop over the format. *)
Fixpoint sprintf_loop (fuel : nat) (src : list Z) (args : list any) (i arg_index : Z)
  (result : list Z) : res (list Z) :=
  match fuel with
  | O => NoFuel
  | S f =>
      if i <? zlen src then
        c <- at_ src i ;;
        let i := i + 1 in
        if negb (c =? 37) then sprintf_loop f src args i arg_index (result ++ [c])
        else if i =? zlen src then sprintf_loop f src args i arg_index result
        else
          c0 <- at_ src i ;;
          let fill := if c0 =? 48 then [48] else [32] in
          let i := if c0 =? 48 then i + 1 else i in
          iw <- width_loop (S (length src)) src i 0 ;;
          let '(i, width) := iw in
          ip <- (if i <? zlen src then
                   c <- at_ src i ;;
                   if c =? 46 then precision_loop (S (length src)) src (i + 1) 0 else Ok (i, 6)
                 else Ok (i, 6)) ;;
          let '(i, precision) := ip in
          c <- at_ src i ;;
          let i := i + 1 in
          if c =? 37 then sprintf_loop f src args i arg_index (result ++ [37])
          else if arg_index =? zlen args then
            sprintf_loop f src args i arg_index (result ++ [37; 33; c])
          else if negb (is_conv c) then
            sprintf_loop f src args i arg_index (result ++ [37; 63; c])
          else
            arg <- at_ args arg_index ;;
            s <- render c arg fill width precision ;;
            sprintf_loop f src args i (arg_index + 1) (result ++ s)
      else Ok result
  end.

(** fmt.n:7-226 sprintf *)
Definition sprintf (format : list Z) (args : list any) : res (list Z) :=
  sprintf_loop (S (length format)) format args 0 0 [].
End sprintf.
