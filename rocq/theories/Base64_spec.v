(** Base64 as RFC 4648 describes it, with the line breaks and blanks a decoder may meet. *)
From Verif Require Import Base.

(** The alphabet, by the value of the digit. *)
Definition digit (v : Z) : Z :=
  if v <? 26 then v + 65            (* A..Z *)
  else if v <? 52 then v - 26 + 97  (* a..z *)
  else if v <? 62 then v - 52 + 48  (* 0..9 *)
  else if v =? 62 then 43           (* + *)
  else 47.                          (* / *)
Definition six (v : Z) : Prop := 0 <= v < 64.
Definition bytes (l : list Z) : Prop := Forall (fun b => 0 <= b < 256) l.

(** The number four digits stand for, and three bytes. *)
Definition num4 (a b c d : Z) : Z := a * 262144 + b * 4096 + c * 64 + d.
Definition num3 (x y z : Z) : Z := x * 65536 + y * 256 + z.
Definition byte (b : Z) : Prop := 0 <= b < 256.

(** [b64 text bs]: four digits for three bytes; at the end two digits and two = for one byte, three
    digits and one = for two bytes, where the bits left over may be anything. *)
Inductive b64 : list Z -> list Z -> Prop :=
| B_end : b64 [] []
| B_one a b y z x : six a -> six b -> byte x -> byte y -> byte z -> num4 a b 0 0 = num3 x y z ->
    b64 [digit a; digit b; 61; 61] [x]
| B_two a b c z x y : six a -> six b -> six c -> byte x -> byte y -> byte z -> num4 a b c 0 = num3 x y z ->
    b64 [digit a; digit b; digit c; 61] [x; y]
| B_group a b c d x y z t bs : six a -> six b -> six c -> six d -> byte x -> byte y -> byte z ->
    num4 a b c d = num3 x y z -> b64 t bs ->
    b64 (digit a :: digit b :: digit c :: digit d :: t) (x :: y :: z :: bs).

(** The text an encoder writes: the bits left over are zero. *)
Inductive written : list Z -> list Z -> Prop :=
| W_end : written [] []
| W_one a b x : six a -> six b -> num4 a b 0 0 = num3 x 0 0 -> written [x] [digit a; digit b; 61; 61]
| W_two a b c x y : six a -> six b -> six c -> num4 a b c 0 = num3 x y 0 ->
    written [x; y] [digit a; digit b; digit c; 61]
| W_group a b c d x y z t bs : six a -> six b -> six c -> six d ->
    num4 a b c d = num3 x y z -> written bs t ->
    written (x :: y :: z :: bs) (digit a :: digit b :: digit c :: digit d :: t).

(** [laid text cs]: the characters [cs] in lines; a line may end with blanks, and is ended by a line
    feed, with or without carriage return, or by the end of the text. *)
Inductive laid : list Z -> list Z -> Prop :=
| L_end k : laid (repeat 32 k) []
| L_lf k t cs : laid t cs -> laid (repeat 32 k ++ 10 :: t) cs
| L_crlf k t cs : laid t cs -> laid (repeat 32 k ++ 13 :: 10 :: t) cs
| L_char c t cs : c <> 32 -> c <> 10 -> c <> 13 -> laid t cs -> laid (c :: t) (c :: cs).
