(** src/syntax/scanner.c: the scanner of the compiler.

    The source is followed by a NUL byte; the characters from the guard on, with that NUL, are a list.
    Looking beyond its end is undefined ([UB]).  An error message ends the compiler (error.c:27-52) and is
    [Throw].  Columns are only used in messages and are left out, and so are the fields space_prev and
    space_next, which nothing reads. *)
From Verif Require Import Base.

(** src/syntax/token.h:8-140, the types the scanner produces *)
Inductive ttype :=
| LEFT_PAREN | RIGHT_PAREN | LEFT_SQUARE | RIGHT_SQUARE | LEFT_CURLY | RIGHT_CURLY | LEFT_ANGLE | RIGHT_ANGLE
| COMMA | DOT | MINUS | PLUS | ELLIPSIS | RANGE | COLON | SLASH | STAR | IMPORT_STAR | PERSON | QUESTION | RIGHT_ARROW
| NOT | NOT_EQUAL | EQUAL | EQUAL_EQUAL | GREATER_EQUAL | LESS_EQUAL | AND_AND | OR_OR
| PLUS_EQUAL | MINUS_EQUAL | STAR_EQUAL | SLASH_EQUAL | PERSON_EQUAL | AND_EQUAL | OR_EQUAL | XOR_EQUAL | LEFT_SHIFT_EQUAL | RIGHT_SHIFT_EQUAL
| TILDE | AND | OR | XOR | LEFT_SHIFT
| IDENT | MACRO_IDENT | LABEL | LITERAL_STRING | LITERAL_FLOAT | LITERAL_INT
| T_STRING | T_BOOL | T_FLOAT | T_INT | T_UINT | T_U8 | T_U16 | T_U32 | T_U64 | T_I8 | T_I16 | T_I32 | T_I64 | T_F32 | T_F64
| CHAN | K_TRUE | K_FALSE | TYPE | K_NULL | VOID | ANY | STRUCT | INTERFACE | ENUM | UNION | THROW | TRY | CATCH | K_MATCH | SELECT | TEST
| CONTINUE | BREAK | FOR | K_IN | K_IF | K_ELSE | VAR | CONST | K_LET | IS | K_AS | K_FN | PUB | IMPORT | RETURN | DEFER | GO
| STMT_EOF | EOF.

(** token.h:266-272 token_t; the length is that of the literal *)
Record token := mk_token { ty : ttype; lit : list Z; line : Z }.

(** scanner.c:92-94 *)
Definition is_alpha (c : Z) : bool := ((97 <=? c) && (c <=? 122)) || ((65 <=? c) && (c <=? 90)) || (c =? 95).
(** scanner.c:96 *)
Definition is_number (c : Z) : bool := (48 <=? c) && (c <=? 57).
(** scanner.c:98-100 *)
Definition is_hex (c : Z) : bool := ((48 <=? c) && (c <=? 57)) || ((97 <=? c) && (c <=? 102)) || ((65 <=? c) && (c <=? 70)).
(** scanner.c:102-104 *)
Definition is_oct (c : Z) : bool := (48 <=? c) && (c <=? 55).
(** scanner.c:106-108 *)
Definition is_bin (c : Z) : bool := (c =? 48) || (c =? 49).
(** scanner.c:33-35 *)
Definition is_quote (c : Z) : bool := (c =? 34) || (c =? 96) || (c =? 39).

(** *guard, guard[1], guard[2] *)
Definition peek (l : list Z) (k : nat) : res Z := match nth_error l k with Some c => Ok c | None => UB end.

(** The loops that advance the guard over characters of one kind: what they pass over, and the rest.  None
    of the kinds contains NUL or the line feed. *)
Fixpoint span (kind : Z -> bool) (l : list Z) : res (list Z * list Z) :=
  match l with
  | [] => UB
  | c :: t => if kind c then ' (w, r) <- span kind t ;; Ok (c :: w, r) else Ok ([], l)
  end.

(** scanner.c:143-152 scanner_ident_advance *)
Definition ident_advance : list Z -> res (list Z * list Z) := span (fun c => is_alpha c || is_number c).

(** scanner.c:388-394 scanner_rest: the type if the word is its first [k] characters and [r] *)
Definition rest (w : list Z) (k : nat) (r : list Z) (t : ttype) : ttype :=
  if Nat.eqb (k + length r) (length w) then if list_eq_dec Z.eq_dec (skipn k w) r then t else IDENT else IDENT.

(** scanner.c:767-785, the case 'f' of scanner_ident *)
Definition case_f (w : list Z) : ttype :=
  let c := nth 1 w 0 in
  if c =? 110 then rest w 2 [] K_FN
  else if c =? 97 then rest w 2 (bs "lse") K_FALSE
  else if c =? 108 then rest w 2 (bs "oat") T_FLOAT
  else if c =? 51 then rest w 2 (bs "2") T_F32
  else if c =? 54 then rest w 2 (bs "4") T_F64
  else if c =? 111 then rest w 2 (bs "r") FOR
  else IDENT.

(** scanner.c:885-901, the case 'u' *)
Definition case_u (w : list Z) : ttype :=
  let c := nth 1 w 0 in
  if c =? 105 then rest w 2 (bs "nt") T_UINT
  else if c =? 56 then rest w 2 [] T_U8
  else if c =? 49 then rest w 2 (bs "6") T_U16
  else if c =? 51 then rest w 2 (bs "2") T_U32
  else if c =? 54 then rest w 2 (bs "4") T_U64
  else if c =? 110 then rest w 2 (bs "ion") UNION
  else IDENT.

(** scanner.c:915-917, the case 'r' *)
Definition case_r (w : list Z) : ttype := rest w 1 (bs "eturn") RETURN.

(** scanner.c:710-921 scanner_ident.  The cases 'e', 'v' and 'm' run into the next case of the source, 'f',
    'u' and 'r'.  Characters behind the word are not looked at: each is read only if the one before it is
    not NUL. *)
Definition ident_type (w : list Z) : ttype :=
  let c0 := nth 0 w 0 in let c1 := nth 1 w 0 in let c2 := nth 2 w 0 in let c3 := nth 3 w 0 in
  if c0 =? 97 then                                                     (* a: 712-725 *)
    if c1 =? 115 then rest w 2 [] K_AS
    else if c1 =? 110 then rest w 2 (bs "y") ANY
    else IDENT
  else if c0 =? 98 then                                                (* b: 726-733 *)
    if c1 =? 111 then rest w 2 (bs "ol") T_BOOL
    else if c1 =? 114 then rest w 2 (bs "eak") BREAK
    else IDENT
  else if c0 =? 99 then                                                (* c: 734-752 *)
    if c1 =? 111 then
      if (c2 =? 110) && (c3 =? 116) then rest w 4 (bs "inue") CONTINUE
      else if (c2 =? 110) && (c3 =? 115) then rest w 4 (bs "t") CONST
      else rest w 2 (bs "ntinue") CONTINUE
    else if c1 =? 97 then rest w 2 (bs "tch") CATCH
    else if c1 =? 104 then rest w 2 (bs "an") CHAN
    else IDENT
  else if c0 =? 100 then                                               (* d: 753-758 *)
    if c1 =? 101 then rest w 2 (bs "fer") DEFER else IDENT
  else if c0 =? 101 then                                               (* e: 759-765, no break *)
    if c1 =? 108 then rest w 2 (bs "se") K_ELSE
    else if c1 =? 110 then rest w 2 (bs "um") ENUM
    else case_f w
  else if c0 =? 102 then case_f w
  else if c0 =? 103 then rest w 1 (bs "o") GO                          (* g: 786-787 *)
  else if c0 =? 105 then                                               (* i: 788-814 *)
    if (zlen w =? 2) && (c1 =? 110) then K_IN
    else if (zlen w =? 2) && (c1 =? 115) then IS
    else if (zlen w =? 3) && (c1 =? 110) && (c2 =? 116) then T_INT
    else if c1 =? 109 then rest w 2 (bs "port") IMPORT
    else if c1 =? 102 then rest w 2 [] K_IF
    else if c1 =? 110 then rest w 2 (bs "terface") INTERFACE
    else if c1 =? 56 then rest w 2 [] T_I8
    else if c1 =? 49 then rest w 2 (bs "6") T_I16
    else if c1 =? 51 then rest w 2 (bs "2") T_I32
    else if c1 =? 54 then rest w 2 (bs "4") T_I64
    else IDENT
  else if c0 =? 108 then rest w 1 (bs "et") K_LET                      (* l: 815-817 *)
  else if c0 =? 110 then                                               (* n: 818-825 *)
    if c1 =? 117 then rest w 2 (bs "ll") K_NULL else IDENT
  else if c0 =? 112 then rest w 1 (bs "ub") PUB                        (* p: 826-828 *)
  else if c0 =? 115 then                                               (* s: 829-851 *)
    if (c1 =? 101) && (c2 =? 108) then rest w 3 (bs "ect") SELECT
    else if (zlen w =? 6) && (c1 =? 116) && (c2 =? 114) then
      if c3 =? 105 then rest w 4 (bs "ng") T_STRING
      else if c3 =? 117 then rest w 4 (bs "ct") STRUCT
      else IDENT
    else IDENT
  else if c0 =? 116 then                                               (* t: 852-874 *)
    if c1 =? 101 then rest w 2 (bs "st") TEST
    else if c1 =? 104 then rest w 2 (bs "row") THROW
    else if c1 =? 121 then rest w 2 (bs "pe") TYPE
    else if (c1 =? 114) && (c2 =? 121) then rest w 3 [] TRY
    else if (c1 =? 114) && (c2 =? 117) then rest w 3 (bs "e") K_TRUE
    else IDENT
  else if c0 =? 118 then                                               (* v: 875-884, no break *)
    if c1 =? 97 then rest w 2 (bs "r") VAR
    else if c1 =? 111 then rest w 2 (bs "id") VOID
    else case_u w
  else if c0 =? 117 then case_u w
  else if c0 =? 109 then                                               (* m: 902-914, no break *)
    if (c1 =? 97) && (c2 =? 116) then rest w 3 (bs "ch") K_MATCH
    else case_r w
  else if c0 =? 114 then case_r w
  else IDENT.

(** scanner_match (129-141), as a test of the next character *)
Definition next_is (l : list Z) (c : Z) : bool := match l with x :: _ => x =? c | [] => false end.

(** scanner.c:154-263 scanner_special_char, behind the character [c]: the type, how many more characters
    it has, or nothing *)
Definition special_char (c : Z) (l : list Z) : option (ttype * nat) :=
  let one t u := if next_is l 61 then (t, 1%nat) else (u, 0%nat) in
  if c =? 40 then Some (LEFT_PAREN, 0%nat)
  else if c =? 41 then Some (RIGHT_PAREN, 0%nat)
  else if c =? 91 then Some (LEFT_SQUARE, 0%nat)
  else if c =? 93 then Some (RIGHT_SQUARE, 0%nat)
  else if c =? 123 then Some (LEFT_CURLY, 0%nat)
  else if c =? 125 then Some (RIGHT_CURLY, 0%nat)
  else if c =? 58 then Some (COLON, 0%nat)
  else if c =? 59 then Some (STMT_EOF, 0%nat)
  else if c =? 44 then Some (COMMA, 0%nat)
  else if c =? 63 then Some (QUESTION, 0%nat)
  else if c =? 37 then Some (one PERSON_EQUAL PERSON)
  else if c =? 45 then Some (if next_is l 61 then (MINUS_EQUAL, 1%nat) else if next_is l 62 then (RIGHT_ARROW, 1%nat) else (MINUS, 0%nat))
  else if c =? 43 then Some (one PLUS_EQUAL PLUS)
  else if c =? 47 then Some (one SLASH_EQUAL SLASH)
  else if c =? 42 then Some (one STAR_EQUAL STAR)
  else if c =? 46 then Some (if next_is l 46 then if next_is (tl l) 46 then (ELLIPSIS, 2%nat) else (RANGE, 1%nat) else (DOT, 0%nat))
  else if c =? 33 then Some (one NOT_EQUAL NOT)
  else if c =? 61 then Some (one EQUAL_EQUAL EQUAL)
  else if c =? 60 then Some (if next_is l 60 then if next_is (tl l) 61 then (LEFT_SHIFT_EQUAL, 2%nat) else (LEFT_SHIFT, 1%nat)
                             else one LESS_EQUAL LEFT_ANGLE)
  else if c =? 62 then Some (if next_is l 61 then (GREATER_EQUAL, 1%nat) else if next_is l 62 && next_is (tl l) 61 then (RIGHT_SHIFT_EQUAL, 2%nat) else (RIGHT_ANGLE, 0%nat))
  else if c =? 38 then Some (if next_is l 61 then (AND_EQUAL, 1%nat) else if next_is l 38 then (AND_AND, 1%nat) else (AND, 0%nat))
  else if c =? 124 then Some (if next_is l 61 then (OR_EQUAL, 1%nat) else if next_is l 124 then (OR_OR, 1%nat) else (OR, 0%nat))
  else if c =? 126 then Some (TILDE, 0%nat)
  else if c =? 94 then Some (one XOR_EQUAL XOR)
  else None.

(** scanner.c:341-356, the value of a hexadecimal digit *)
Definition hex_value (c : Z) : Z :=
  if (48 <=? c) && (c <=? 57) then c - 48
  else if (97 <=? c) && (c <=? 102) then c - 97 + 10
  else c - 65 + 10.

(** scanner.c:300-323 and 363-366: the escapes of one character *)
Definition simple_escape (c : Z) : option Z :=
  if c =? 110 then Some 10 else if c =? 116 then Some 9 else if c =? 114 then Some 13 else if c =? 98 then Some 8
  else if c =? 102 then Some 12 else if c =? 97 then Some 7 else if c =? 118 then Some 11 else if c =? 48 then Some 0
  else if (c =? 92) || (c =? 39) || (c =? 34) then Some c
  else None.

(** scanner.c:276-386 scanner_string_advance, behind the opening quote [q]: the bytes of the string, the
    rest and the line.  The loop ends at the closing quote or at the NUL behind the source, and the
    character there is passed over in both cases. *)
Fixpoint string_body (q : Z) (l : list Z) (ln : Z) : res (list Z * list Z * Z) :=
  match l with
  | [] => UB
  | c :: t =>
      if (c =? q) || (c =? 0) then Ok ([], t, ln)
      else if negb (q =? 96) && (c =? 10) then Throw
      else if negb (q =? 96) && (c =? 92) then
        match t with
        | [] => UB
        | e :: t' =>
            match simple_escape e with
            | Some x => ' (s, r, ln) <- string_body q t' ln ;; Ok (x :: s, r, ln)
            | None =>
                if e =? 120 then
                  match t' with
                  | h1 :: (h2 :: t'') =>
                      if (h1 =? 0) || (h2 =? 0) then Throw
                      else if is_hex h1 && is_hex h2
                           then ' (s, r, ln) <- string_body q t'' ln ;; Ok (Z.lor (Z.shiftl (hex_value h1) 4) (hex_value h2) :: s, r, ln)
                           else Throw
                  | h1 :: [] => if h1 =? 0 then Throw else UB
                  | [] => UB
                  end
                else Throw
            end
        end
      else ' (s, r, ln) <- string_body q t (if c =? 10 then ln + 1 else ln) ;; Ok (c :: s, r, ln)
  end.

(** scanner.c:449-459 scanner_number_convert: strtoull of the digits, which may be none, and utoa (utils/helper.h:368-374) *)
Definition number_value (base : Z) (w : list Z) : Z := fold_left (fun v c => v * base + hex_value c) w 0.
Fixpoint decimal (fuel : nat) (v : Z) : list Z :=
  match fuel with
  | O => []
  | S f => (if v <? 10 then [] else decimal f (v / 10)) ++ [48 + v mod 10]
  end.
Definition number_convert (base : Z) (w : list Z) : res (list Z) :=
  let v := number_value base w in
  if 18446744073709551615 <? v then Throw else Ok (decimal 20 v).

(** scanner.c:498-533 scanner_number_advance *)
Definition number_advance (l : list Z) : res (list Z * list Z) :=
  ' (w, l) <- span is_number l ;;
  c <- peek l 0 ;;
  ' (w, l) <- (if c =? 46 then
                 d <- peek l 1 ;;
                 if is_number d then ' (f, l) <- span is_number (tl l) ;; Ok (w ++ 46 :: f, l) else Ok (w, l)
               else Ok (w, l)) ;;
  c <- peek l 0 ;;
  if (c =? 101) || (c =? 69) then
    d <- peek l 1 ;;
    if is_number d then ' (e, l) <- span is_number (tl l) ;; Ok (w ++ c :: e, l)
    else if (d =? 43) || (d =? 45) then
      d2 <- peek l 2 ;;
      if is_number d2 then ' (e, l) <- span is_number (tl (tl l)) ;; Ok (w ++ c :: d :: e, l) else Ok (w, l)
    else Ok (w, l)
  else Ok (w, l).

(** scanner.c:44-90 scanner_is_float *)
Definition is_float (w : list Z) : res bool :=
  if zlen w =? 0 then Ok false
  else if last w 0 =? 46 then Throw
  else if existsb (fun c => (c =? 101) || (c =? 69)) w then Ok true
  else let dots := zlen (filter (Z.eqb 46) w) in
       if dots =? 0 then Ok false else if 1 <? dots then Throw else Ok true.

(** scanner.c:535-608 scanner_item at the characters [l]; [prev] is the type of the last token of the list *)
Definition item (prev : option ttype) (l : list Z) (ln : Z) : res (token * list Z * Z) :=
  c <- peek l 0 ;;
  if is_alpha c then
    ' (w, l) <- ident_advance l ;; Ok (mk_token (ident_type w) w ln, l, ln)
  else if c =? 64 then
    ' (w, l) <- ident_advance (tl l) ;; Ok (mk_token MACRO_IDENT w ln, l, ln)
  else if c =? 35 then
    ' (w, l) <- ident_advance (tl l) ;; Ok (mk_token LABEL w ln, l, ln)
  else if is_number c then
    ' (w, l) <- (if c =? 48 then
                   d <- peek l 1 ;;
                   if d =? 120 then ' (w, l) <- span is_hex (tl (tl l)) ;; n <- number_convert 16 w ;; Ok (n, l)
                   else if d =? 111 then ' (w, l) <- span is_oct (tl (tl l)) ;; n <- number_convert 8 w ;; Ok (n, l)
                   else if d =? 98 then ' (w, l) <- span is_bin (tl (tl l)) ;; n <- number_convert 2 w ;; Ok (n, l)
                   else number_advance l
                 else number_advance l) ;;
    f <- is_float w ;;
    Ok (mk_token (if f : bool then LITERAL_FLOAT else LITERAL_INT) w ln, l, ln)
  else if is_quote c then
    ' (s, l, ln) <- string_body c (tl l) ln ;; Ok (mk_token LITERAL_STRING s ln, l, ln)
  else
    match special_char c (tl l) with
    | None => Throw
    | Some (t, k) =>
        let t := match t, prev with STAR, Some K_AS => IMPORT_STAR | _, _ => t end in
        Ok (mk_token t (firstn (S k) l) ln, skipn (S k) l, ln)
    end.

(** scanner.c:680-684: a comment to the end of the line *)
Fixpoint skip_line (l : list Z) : res (list Z) :=
  match l with
  | [] => UB
  | c :: t => if (c =? 10) || (c =? 0) then Ok l else skip_line t
  end.

(** scanner.c:650-652 and 685-695: a comment between slash-star and star-slash, from its slash on *)
Fixpoint skip_block (l : list Z) (ln : Z) : res (list Z * Z) :=
  match l with
  | [] => UB
  | c :: t =>
      if (c =? 42) && next_is t 47 then Ok (tl t, ln)
      else if c =? 0 then Throw
      else skip_block t (if c =? 10 then ln + 1 else ln)
  end.

(** scanner.c:657-707 scanner_skip_space: whether there was a line feed outside of comments, the rest and
    the line *)
Fixpoint skip_space (fuel : nat) (has_new : bool) (l : list Z) (ln : Z) : res (bool * list Z * Z) :=
  match fuel with
  | O => NoFuel
  | S f =>
      c <- peek l 0 ;;
      if (c =? 32) || (c =? 13) || (c =? 9) then skip_space f has_new (tl l) ln
      else if c =? 10 then skip_space f true (tl l) (ln + 1)
      else if c =? 47 then
        d <- peek l 1 ;;
        if d =? 47 then l <- skip_line l ;; skip_space f has_new l ln
        else if d =? 42 then ' (l, ln) <- skip_block l ln ;; skip_space f has_new l ln
        else Ok (has_new, l, ln)
      else Ok (has_new, l, ln)
  end.

(** scanner.c:401-447 scanner_need_stmt_end *)
Definition need_stmt_end (prev next : ttype) : bool :=
  match next with
  | DOT => false
  | _ =>
      match prev with
      | IMPORT_STAR | LITERAL_INT | LITERAL_STRING | LITERAL_FLOAT | IDENT | BREAK | CONTINUE | RETURN | K_TRUE | K_FALSE
      | RIGHT_PAREN | RIGHT_SQUARE | RIGHT_CURLY | RIGHT_ANGLE
      | T_BOOL | T_FLOAT | T_F32 | T_F64 | T_INT | T_I8 | T_I16 | T_I32 | T_I64 | T_UINT | T_U8 | T_U16 | T_U32 | T_U64 | T_STRING
      | VOID | K_NULL | NOT | QUESTION | LABEL => true
      | _ => false
      end
  end.

(** scanner.c:620-644 the loop of scanner; [last] is the last token so far *)
Fixpoint scan_loop (fuel : nat) (last : option token) (l : list Z) (ln : Z) : res (list token) :=
  match fuel with
  | O => NoFuel
  | S f =>
      c <- peek l 0 ;;
      if c =? 0 then Ok [mk_token EOF (bs "EOF") ln]
      else
        ' (has_new, l, ln) <- skip_space (S (length l)) false l ln ;;
        c <- peek l 0 ;;
        if c =? 0 then Ok [mk_token EOF (bs "EOF") ln]
        else
          ' (next, l, ln) <- item (option_map ty last) l ln ;;
          let stmt_end := match last with
                          | Some p => if (has_new : bool) && need_stmt_end (ty p) (ty next) then [mk_token STMT_EOF (bs ";") (line p)] else []
                          | None => []
                          end in
          more <- scan_loop f (Some next) l ln ;;
          Ok (stmt_end ++ next :: more)
  end.

(** scanner.c:614-647 scanner, and 265-274 scanner_cursor_init *)
Definition scan (source : list Z) : res (list token) := scan_loop (S (S (length source))) None (source ++ [0]) 1.
