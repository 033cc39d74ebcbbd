(** What a text of hexadecimal digits denotes. *)
From Verif Require Import Base.

(** The value of a lower-case hexadecimal digit. *)
Definition digit (c : Z) : option Z :=
  if (48 <=? c) && (c <=? 57) then Some (c - 48)
  else if (97 <=? c) && (c <=? 102) then Some (c - 87)
  else None.

(** Two digits denote a byte, the first one its upper half. *)
Inductive denotes : list Z -> list Z -> Prop :=
| denotes_nil : denotes [] []
| denotes_cons : forall a b x y s t, digit a = Some x -> digit b = Some y -> denotes s t -> denotes (a :: b :: s) (16 * x + y :: t).
