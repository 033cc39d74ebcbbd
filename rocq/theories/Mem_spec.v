(** Specification for C05: base-256 digits.  Independent of Mem_model except for the two
    enumerations of integer types and byte orders. *)
From Verif Require Import Base.
From Verif Require Import Mem_model.

(** number of bytes of a type *)
Definition size (t : ity) : nat :=
  match t with U8 | I8 => 1 | U16 | I16 => 2 | U32 | I32 => 4 | U64 | I64 => 8 end%nat.

Definition signed (t : ity) : bool :=
  match t with I8 | I16 | I32 | I64 => true | _ => false end.

(** v is a value of the type *)
Definition in_range (t : ity) (v : Z) : Prop :=
  if signed t then - (256 ^ Z.of_nat (size t)) <= 2 * v < 256 ^ Z.of_nat (size t)
  else 0 <= v < 256 ^ Z.of_nat (size t).

(** the n lowest base-256 digits of v, lowest first; for negative v these are the digits of the
    two's complement representation *)
Fixpoint digits (n : nat) (v : Z) : list Z :=
  match n with
  | O => []
  | S n => v mod 256 :: digits n (v / 256)
  end.

(** the number with the given base-256 digits, lowest first *)
Fixpoint number (ds : list Z) : Z :=
  match ds with
  | [] => 0
  | d :: ds => d + 256 * number ds
  end.

(** the bytes of v in memory order *)
Definition layout (o : order) (t : ity) (v : Z) : list Z :=
  match o with LE => digits (size t) v | BE => rev (digits (size t) v) end.

(** v is the value whose two's complement digits are ds *)
Definition denotes (o : order) (t : ity) (ds : list Z) (v : Z) : Prop :=
  in_range t v /\
  exists k, v + k * 256 ^ Z.of_nat (size t) = number (match o with LE => ds | BE => rev ds end).

(** the buffer p with the bytes bs stored at address a *)
Definition stored (p : list Z) (a : Z) (bs : list Z) : list Z :=
  firstn (Z.to_nat a) p ++ bs ++ skipn (Z.to_nat a + length bs) p.
