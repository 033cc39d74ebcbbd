(** Model of sscanf in std/fmt/fmt.n 233-639. *)
From Verif Require Import Base Strings_model Url_model Fmt_model.

(** What an argument points to, as the tests `arg is ptr<..>` tell apart.  int is
    i64 and uint is u64 (utils/type.h 81-84). *)
Inductive ptr :=
| PSigned (w : Z)
| PUnsigned (w : Z)
| PString
| PFloat (w : Z)
| POther.

(** What is stored through an argument.  A float is given by its sign and its
    digits before and after the point: the floating-point arithmetic of
    fmt.n 588-620 is not modelled. *)
Inductive stored :=
| SInt (v : Z)
| SStr (s : list Z)
| SFloat (negative : bool) (whole decimals : list Z).

(** `for str_i < str_len && str_sources[str_i] == ascii(' ')`, fmt.n 253-255, 301-303 *)
Fixpoint skip_blanks (fuel : nat) (str : list Z) (i : Z) : res Z :=
  match fuel with
  | O => NoFuel
  | S f =>
      if i <? zlen str then
        c <- at_ str i ;;
        if c =? 32 then skip_blanks f str (i + 1) else Ok i
      else Ok i
  end.

(** fmt.n 286-290, the width; int arithmetic *)
Fixpoint read_width (fuel : nat) (fmt : list Z) (i width : Z) : res (Z * Z) :=
  match fuel with
  | O => NoFuel
  | S f =>
      if i <? zlen fmt then
        c <- at_ fmt i ;;
        if (48 <=? c) && (c <=? 57) then
          read_width f fmt (i + 1) (swrap 64 (swrap 64 (width * 10) + u8 (c - 48)))
        else Ok (i, width)
      else Ok (i, width)
  end.

(** the value of a digit: decimal (fmt.n 333-335), octal (475-477), hexadecimal
    (406-417) *)
Definition dec_val (c : Z) : option Z := if (48 <=? c) && (c <=? 57) then Some (u8 (c - 48)) else None.
Definition oct_val (c : Z) : option Z := if (48 <=? c) && (c <=? 55) then Some (u8 (c - 48)) else None.
Definition hex_val (c : Z) : option Z :=
  if (48 <=? c) && (c <=? 57) then Some (u8 (c - 48))
  else if (97 <=? c) && (c <=? 102) then Some (u8 (u8 (c - 97) + 10))
  else if (65 <=? c) && (c <=? 70) then Some (u8 (u8 (c - 65) + 10))
  else None.

(** One turn of the accumulation: signed for %d (fmt.n 335), unsigned for %x and
    %o (419, 477). *)
Definition acc_d (value d : Z) : Z := swrap 64 (swrap 64 (value * 10) + d).
Definition acc_x (value d : Z) : Z := uwrap 64 (uwrap 64 (value * 16) + d).
Definition acc_o (value d : Z) : Z := uwrap 64 (uwrap 64 (value * 8) + d).

(** The digit loops, fmt.n 333-339, 405-423, 475-481 (and, for %f, 592-598 and
    606-613): stop at the end, when [width] characters were read (if there is a
    width), and at the first other character.  [step] is what is done with a digit. *)
Fixpoint digit_loop {A} (fuel : nat) (val : Z -> option Z) (step : A -> Z -> A)
  (str : list Z) (width i count : Z) (value : A) (has : bool) : res (Z * Z * A * bool) :=
  match fuel with
  | O => NoFuel
  | S f =>
      if (i <? zlen str) && ((width <=? 0) || (count <? width)) then
        c <- at_ str i ;;
        match val c with
        | Some d => digit_loop f val step str width (i + 1) (count + 1) (step value d) true
        | None => Ok (i, count, value, has)
        end
      else Ok (i, count, value, has)
  end.

(** the sign, fmt.n 321-328 and 580-587: is it negative, where to go on, characters read *)
Definition read_sign (str : list Z) (i : Z) : res (bool * Z * Z) :=
  c <- at_ str i ;;
  if c =? 45 then Ok (true, i + 1, 1)
  else if c =? 43 then Ok (false, i + 1, 1)
  else Ok (false, i, 0).

(** fmt.n 349-390: unsigned targets take no negative number *)
Definition store_d (negative : bool) (value : Z) (p : ptr) : option stored :=
  match p with
  | PSigned w => Some (SInt (swrap w value))
  | PUnsigned w => if negative then None else Some (SInt (uwrap w value))
  | _ => None
  end.
(** fmt.n 430-460, 488-518 *)
Definition store_x (value : Z) (p : ptr) : option stored :=
  match p with
  | PSigned w => Some (SInt (swrap w value))
  | PUnsigned w => Some (SInt (uwrap w value))
  | _ => None
  end.
(** fmt.n 539-544, 564-569 *)
Definition store_s (s : list Z) (p : ptr) : option stored :=
  match p with PString => Some (SStr s) | _ => None end.
(** fmt.n 556-561 *)
Definition store_c (c : Z) (p : ptr) : option stored :=
  match p with PUnsigned w => if w =? 8 then Some (SInt c) else None | _ => None end.
(** fmt.n 625-635 *)
Definition store_f (negative : bool) (a b : list Z) (p : ptr) : option stored :=
  match p with PFloat _ => Some (SFloat negative a b) | _ => None end.

(** fmt.n 525-536, %s: up to the next blank, or [width] characters *)
Fixpoint word_loop (fuel : nat) (str : list Z) (width i count : Z) : res Z :=
  match fuel with
  | O => NoFuel
  | S f =>
      if (i <? zlen str) && ((width <=? 0) || (count <? width)) then
        c <- at_ str i ;;
        if c =? 32 then Ok i else word_loop f str width (i + 1) (count + 1)
      else Ok i
  end.

(** What a conversion does: go on at a position, with a value stored or not, or
    leave the outer loop. *)
Inductive conv_result := Go (i : Z) (v : option stored) | Break.

(** fmt.n 312-636, one conversion; the position is before the end of the text *)
Definition convert (str : list Z) (spec width : Z) (p : ptr) (i : Z) : res conv_result :=
  let fuel := S (length str) in
  if spec =? 100 then (* d, fmt.n 313-390 *)
    sg <- read_sign str i ;;
    let '(negative, i, count) := sg in
    r <- digit_loop fuel dec_val acc_d str width i count 0 false ;;
    let '(i, _, value, has) := r in
    if has then
      let value := if negative then swrap 64 (- value) else value in
      Ok (Go i (store_d negative value p))
    else Ok Break
  else if (spec =? 120) || (spec =? 88) then (* x, X, fmt.n 391-460 *)
    r <- digit_loop fuel hex_val acc_x str width i 0 0 false ;;
    let '(i, _, value, has) := r in
    if has then Ok (Go i (store_x value p)) else Ok Break
  else if spec =? 111 then (* o, fmt.n 461-518 *)
    r <- digit_loop fuel oct_val acc_o str width i 0 0 false ;;
    let '(i, _, value, has) := r in
    if has then Ok (Go i (store_x value p)) else Ok Break
  else if spec =? 115 then (* s, fmt.n 519-545 *)
    j <- word_loop fuel str width i 0 ;;
    if i <? j then
      v <- slice str i j ;;
      Ok (Go j (store_s v p))
    else Ok (Go j None)
  else if spec =? 99 then (* c, fmt.n 546-572 *)
    let width := if width <=? 0 then 1 else width in
    let e := swrap 64 (i + width) in
    if e <=? zlen str then
      if width =? 1 then
        c <- at_ str i ;; Ok (Go (i + 1) (store_c c p))
      else
        v <- slice str i e ;; Ok (Go e (store_s v p))
    else Ok (Go i None)
  else if spec =? 102 then (* f, fmt.n 573-636 *)
    sg <- read_sign str i ;;
    let '(negative, i, count) := sg in
    r <- digit_loop fuel dec_val (fun l d => l ++ [d]) str width i count [] false ;;
    let '(i, count, whole, has) := r in
    point <- (if (i <? zlen str) && ((width <=? 0) || (count <? width)) then
                c <- at_ str i ;; Ok (c =? 46)
              else Ok false) ;;
    r <- (if (point : bool) then
            digit_loop fuel dec_val (fun l d => l ++ [d]) str width (i + 1) (count + 1) [] has
          else Ok (i, count, [], has)) ;;
    let '(i, _, decimals, has) := r in
    if has then Ok (Go i (store_f negative whole decimals p)) else Ok Break
  else Ok (Go i None).

(** fmt.n 245-637, the loop over the format; the result is what was stored
    through which argument, in order, and the number returned *)
Fixpoint scan_loop (fuel : nat) (str fmt : list Z) (args : list ptr)
  (si fi ai matched : Z) (ws : list (Z * stored)) : res (list (Z * stored) * Z) :=
  match fuel with
  | O => NoFuel
  | S f =>
      if (fi <? zlen fmt) && (si <? zlen str) then
        fc <- at_ fmt fi ;;
        let fi := fi + 1 in
        if negb (fc =? 37) then
          if fc =? 32 then
            si <- skip_blanks (S (length str)) str si ;;
            scan_loop f str fmt args si fi ai matched ws
          else
            c <- at_ str si ;;
            if c =? fc then scan_loop f str fmt args (si + 1) fi ai matched ws
            else Ok (ws, matched)
        else
          pct <- (if fi <? zlen fmt then c <- at_ fmt fi ;; Ok (c =? 37) else Ok false) ;;
          if (pct : bool) then
            c <- at_ str si ;;
            if c =? 37 then scan_loop f str fmt args (si + 1) (fi + 1) ai matched ws
            else Ok (ws, matched)
          else if zlen args <=? ai then Ok (ws, matched)
          else
            fw <- read_width (S (length fmt)) fmt fi 0 ;;
            let '(fi, width) := fw in
            if zlen fmt <=? fi then Ok (ws, matched)
            else
              spec <- at_ fmt fi ;;
              let fi := fi + 1 in
              si <- skip_blanks (S (length str)) str si ;;
              if zlen str <=? si then Ok (ws, matched)
              else
                p <- at_ args ai ;;
                r <- convert str spec width p si ;;
                match r with
                | Break => Ok (ws, matched)
                | Go si (Some v) =>
                    scan_loop f str fmt args si fi (ai + 1) (matched + 1) (ws ++ [(ai, v)])
                | Go si None => scan_loop f str fmt args si fi (ai + 1) matched ws
                end
      else Ok (ws, matched)
  end.

(** sscanf, fmt.n 233-639 *)
Definition sscanf (str fmt : list Z) (args : list ptr) : res (list (Z * stored) * Z) :=
  scan_loop (S (length fmt)) str fmt args 0 0 0 0 [].
