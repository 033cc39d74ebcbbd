(** The lexicographic order on byte strings. *)
From Verif Require Import Base.

Inductive before : list Z -> list Z -> Prop :=
| before_end y b : before [] (y :: b)
| before_byte x y a b : x < y -> before (x :: a) (y :: b)
| before_same x a b : before a b -> before (x :: a) (x :: b).

(** a comparison function answers the question P *)
Definition decides (r : res bool) (P : Prop) : Prop := exists t, r = Ok t /\ (t = true <-> P).
