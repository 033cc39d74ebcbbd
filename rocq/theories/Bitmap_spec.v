(** A bitmap as a function from positions to bits. *)
From Verif Require Import Base.

(** bit i of the array: bit i mod 8 of byte i / 8; false outside the array *)
Definition bit (bits : list Z) (i : Z) : bool :=
  match nth_error bits (Z.to_nat (i / 8)) with
  | Some b => Z.testbit b (i mod 8)
  | None => false
  end.

(** number of bits of the array *)
Definition capacity (bits : list Z) : Z := 8 * zlen bits.

(** new is old with the positions selected by P given the value v *)
Definition updated (P : Z -> bool) (v : bool) (old new : list Z) : Prop :=
  zlen new = zlen old /\ bytes new /\
  forall i, 0 <= i -> bit new i = if P i then v else bit old i.

(** number of positions below n with the bit set *)
Fixpoint population (bits : list Z) (n : nat) : Z :=
  match n with
  | O => 0
  | S n => population bits n + (if bit bits (Z.of_nat n) then 1 else 0)
  end.
