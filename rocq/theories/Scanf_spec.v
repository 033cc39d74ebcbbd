(** Specification for reading values back from text with a format. *)
From Verif Require Import Base Strings_model Url_model Fmt_model Fmt_spec Scanf_model.

(** ** Formats *)

(** A format: characters to find, blanks, "%%", and conversions "%[width]letter". *)
Inductive fitem :=
| FLit (c : Z)
| FBlank
| FPercent
| FConv (width : list Z) (letter : Z).

Definition fitem_text (it : fitem) : list Z :=
  match it with
  | FLit c => [c]
  | FBlank => [32]
  | FPercent => bs "%%"
  | FConv w l => 37 :: w ++ [l]
  end.
Definition fitem_ok (it : fitem) : Prop :=
  match it with
  | FLit c => c <> 37 /\ c <> 32
  | FConv w l => digit_text w /\ digit_value w < 2147483648 /\ ~ 48 <= l <= 57 /\ (w = [] -> l <> 37)
  | _ => True
  end.
(** [fmt] is made of these items; it may end in an unfinished conversion *)
Definition format_of (its : list fitem) (fmt : list Z) : Prop :=
  exists tail, fmt = concat (map fitem_text its) ++ tail
    /\ (tail = [] \/ exists w, tail = 37 :: w /\ digit_text w).

(** no width in the format is 2^31 or more *)
Definition narrow (fmt : list Z) : Prop :=
  forall pre w post, fmt = pre ++ 37 :: w ++ post -> digit_text w -> digit_value w < 2147483648.

(** ** What conversions read *)

(** [tok] is the longest run of characters [P] at the front of [tok ++ rest], up to
    [room] characters *)
Definition longest (P : Z -> Prop) (room : option Z) (tok rest : list Z) : Prop :=
  Forall P tok
  /\ match room with Some n => zlen tok <= n | None => True end
  /\ (rest = [] \/ room = Some (zlen tok) \/ exists c r, rest = c :: r /\ ~ P c).

(** width 0 or none: no limit *)
Definition room_of (width : Z) : option Z := if width =? 0 then None else Some width.
Definition less (room : option Z) (n : Z) : option Z :=
  match room with Some m => Some (m - n) | None => None end.

Definition dec (c : Z) : Prop := 48 <= c <= 57.
Definition oct (c : Z) : Prop := 48 <= c <= 55.
Definition hex (c : Z) : Prop := 48 <= c <= 57 \/ 97 <= c <= 102 \/ 65 <= c <= 70.
Definition oct_char (c d : Z) : Prop := c = 48 + d /\ 0 <= d <= 7.
Definition hex_char (c d : Z) : Prop := lower_hex_char c d \/ upper_hex_char c d.
Definition sign_text (neg : bool) (s : list Z) : Prop :=
  (neg = true /\ s = [45]) \/ (neg = false /\ (s = [43] \/ s = [])).

(** an integer brought into the range of a type of [w] bits *)
Definition to_signed (w n : Z) : Z :=
  let m := n mod 2 ^ w in if m <? 2 ^ (w - 1) then m else m - 2 ^ w.
Definition int_for (p : ptr) (n : Z) : option stored :=
  match p with
  | PSigned w => Some (SInt (to_signed w n))
  | PUnsigned w => Some (SInt (n mod 2 ^ w))
  | _ => None
  end.
Definition str_for (p : ptr) (s : list Z) : option stored :=
  match p with PString => Some (SStr s) | _ => None end.
Definition char_for (p : ptr) (c : Z) : option stored :=
  match p with PUnsigned 8 => Some (SInt c) | _ => None end.
Definition float_for (p : ptr) (neg : bool) (a b : list Z) : option stored :=
  match p with PFloat _ => Some (SFloat neg a b) | _ => None end.

(** [reads l width text p rest v]: the conversion with letter [l] takes the front of
    [text], leaves [rest], and stores [v] (or nothing) through [p]. *)
Inductive reads (l width : Z) : list Z -> ptr -> list Z -> option stored -> Prop :=
| reads_d neg s tok ds rest p :
    l = 100 -> sign_text neg s -> longest dec (less (room_of width) (zlen s)) tok rest ->
    Forall2 dec_char tok ds -> tok <> [] ->
    reads l width (s ++ tok ++ rest) p rest
      (match neg, p with
       | true, PUnsigned _ => None
       | true, _ => int_for p (- value_in 10 ds)
       | false, _ => int_for p (value_in 10 ds)
       end)
| reads_x tok ds rest p :
    l = 120 \/ l = 88 -> longest hex (room_of width) tok rest ->
    Forall2 hex_char tok ds -> tok <> [] ->
    reads l width (tok ++ rest) p rest (int_for p (value_in 16 ds))
| reads_o tok ds rest p :
    l = 111 -> longest oct (room_of width) tok rest ->
    Forall2 oct_char tok ds -> tok <> [] ->
    reads l width (tok ++ rest) p rest (int_for p (value_in 8 ds))
| reads_s tok rest p :
    l = 115 -> longest (fun c => c <> 32) (room_of width) tok rest -> tok <> [] ->
    reads l width (tok ++ rest) p rest (str_for p tok)
| reads_c c rest p :
    l = 99 -> width <= 1 -> reads l width (c :: rest) p rest (char_for p c)
| reads_cs tok rest p :
    l = 99 -> 1 < width -> zlen tok = width ->
    reads l width (tok ++ rest) p rest (str_for p tok)
| reads_c_short text p :
    l = 99 -> zlen text < width -> reads l width text p text None
| reads_f neg s a as_ rest p :
    l = 102 -> sign_text neg s -> longest dec (less (room_of width) (zlen s)) a rest ->
    Forall2 dec_char a as_ -> a <> [] ->
    (room_of width = Some (zlen s + zlen a) \/ hd 0 rest <> 46) ->
    reads l width (s ++ a ++ rest) p rest (float_for p neg as_ [])
| reads_f_point neg s a as_ b bs_ rest p :
    l = 102 -> sign_text neg s ->
    longest dec (less (room_of width) (zlen s)) a (46 :: b ++ rest) ->
    room_of width <> Some (zlen s + zlen a) ->
    Forall2 dec_char a as_ -> longest dec (less (room_of width) (zlen s + zlen a + 1)) b rest ->
    Forall2 dec_char b bs_ -> (a <> [] \/ b <> []) ->
    reads l width (s ++ a ++ 46 :: b ++ rest) p rest (float_for p neg as_ bs_)
| reads_other text p :
    ~ In l (bs "dxXoscf") -> reads l width text p text None.

(** There is no number at the front of the text. *)
Inductive no_number (l width : Z) : list Z -> Prop :=
| no_d neg s rest :
    l = 100 -> sign_text neg s -> (s = [] -> hd 0 rest <> 45 /\ hd 0 rest <> 43) ->
    longest dec (less (room_of width) (zlen s)) [] rest -> no_number l width (s ++ rest)
| no_x rest : l = 120 \/ l = 88 -> longest hex (room_of width) [] rest -> no_number l width rest
| no_o rest : l = 111 -> longest oct (room_of width) [] rest -> no_number l width rest
| no_f neg s rest :
    l = 102 -> sign_text neg s -> (s = [] -> hd 0 rest <> 45 /\ hd 0 rest <> 43) ->
    longest dec (less (room_of width) (zlen s)) [] rest ->
    (room_of width = Some (zlen s) \/ hd 0 rest <> 46) -> no_number l width (s ++ rest)
| no_f_point neg s rest :
    l = 102 -> sign_text neg s -> room_of width <> Some (zlen s) ->
    longest dec (less (room_of width) (zlen s + 1)) [] rest ->
    no_number l width (s ++ 46 :: rest).

(** ** Reading a text *)

(** [scan its text ps vs]: reading [text] with the items stores [vs] through the
    first arguments, one entry for each conversion reached, [None] where nothing
    is stored.  Reading ends at the end of the format or of the text, at a
    character that is not the one wanted, where an argument is missing, and where a
    number is wanted and there is none. *)
Inductive scan : list fitem -> list Z -> list ptr -> list (option stored) -> Prop :=
| scan_end text ps : scan [] text ps []
| scan_out its ps : scan its [] ps []
| scan_lit c its t ps vs : scan its t ps vs -> scan (FLit c :: its) (c :: t) ps vs
| scan_lit_no c c' its t ps : c <> c' -> scan (FLit c :: its) (c' :: t) ps []
| scan_blank k its t ps vs :
    hd 0 t <> 32 -> scan its t ps vs -> scan (FBlank :: its) (repeat 32 k ++ t) ps vs
| scan_pct its t ps vs : scan its t ps vs -> scan (FPercent :: its) (37 :: t) ps vs
| scan_pct_no c its t ps : c <> 37 -> scan (FPercent :: its) (c :: t) ps []
| scan_no_arg w l its text : scan (FConv w l :: its) text [] []
| scan_blanks w l k its ps : scan (FConv w l :: its) (repeat 32 k) ps []
| scan_conv w l k its t rest p ps v vs :
    t <> [] -> hd 0 t <> 32 -> reads l (digit_value w) t p rest v -> scan its rest ps vs ->
    scan (FConv w l :: its) (repeat 32 k ++ t) (p :: ps) (v :: vs)
| scan_no_number w l k its t p ps :
    t <> [] -> hd 0 t <> 32 -> no_number l (digit_value w) t ->
    scan (FConv w l :: its) (repeat 32 k ++ t) (p :: ps) [].

(** the stores, with the number of the argument, and how many there are *)
Fixpoint stores (i : Z) (vs : list (option stored)) : list (Z * stored) :=
  match vs with
  | [] => []
  | Some v :: r => (i, v) :: stores (i + 1) r
  | None :: r => stores (i + 1) r
  end.

(** an argument of a size sscanf knows *)
Definition ptr_ok (p : ptr) : Prop :=
  match p with PSigned w | PUnsigned w => int_width w | _ => True end.

(** ** Reading back what was printed *)

(** the argument to read a printed value back into, and what it then holds *)
Definition back_ptr (a : any) : ptr :=
  match a with
  | ASigned w _ => PSigned w
  | AUnsigned w _ => PUnsigned w
  | AString _ => PString
  | _ => POther
  end.
Definition back_value (a : any) : stored :=
  match a with
  | ASigned _ v | AUnsigned _ v => SInt v
  | AString s => SStr s
  | _ => SStr []
  end.

(** What may follow a directive: the end, "%%", or a literal that cannot be taken
    for more of the value. *)
Definition can_follow (conv : Z) (its : list item) : Prop :=
  match its with
  | [] => True
  | Percent :: _ => conv <> 115
  | Lit (c :: _) :: _ =>
      if conv =? 100 then ~ dec c
      else if (conv =? 120) || (conv =? 88) then ~ hex c
      else if conv =? 115 then c = 32
      else True
  | _ => conv = 99
  end.
(** strings are words, a character is not a blank *)
Definition word (s : list Z) : Prop := s <> [] /\ ~ In 32 s.
Definition readable_arg (conv : Z) (a : any) : Prop :=
  match a with
  | ASigned _ _ => In conv (bs "dxX")
  | AUnsigned _ v => In conv (bs "dxX") \/ (conv = 99 /\ v <> 32)
  | AString s => conv = 115 /\ word s
  | _ => False
  end.
Inductive readable : list item -> list any -> Prop :=
| readable_nil : readable [] []
| readable_lit s its args : s <> [] -> readable its args -> readable (Lit s :: its) args
| readable_pct its args : readable its args -> readable (Percent :: its) args
| readable_dir conv its a args :
    readable_arg conv a -> can_follow conv its -> readable its args ->
    readable (Dir false [] conv :: its) (a :: args).

(** the value is one the argument can hold *)
Definition fits (p : ptr) (v : stored) : Prop :=
  match p, v with
  | PSigned w, SInt n => - 2 ^ (w - 1) <= n < 2 ^ (w - 1)
  | PUnsigned w, SInt n => 0 <= n < 2 ^ w
  | PString, SStr _ => True
  | PFloat _, SFloat _ _ _ => True
  | _, _ => False
  end.
