(** ULEB128 (DWARF 5, 7.6): base 128, low digit first, 128 added to all bytes but the last. *)
From Verif Require Import Base Uleb_model.

(** [field v w bs]: the bytes [bs] are a field of [w] bytes with value [v] *)
Inductive field : Z -> nat -> list Z -> Prop :=
| last_byte b : 0 <= b < 128 -> field b 1 [b]
| more_bytes b v w bs : 0 <= b < 128 -> field v w bs -> field (b + 128 * v) (S w) (b + 128 :: bs).

(** the values a field of [w] bytes can hold: at most 64 bits *)
Definition room (w : nat) : Z := Z.min (2 ^ (7 * Z.of_nat w)) (2 ^ 64).

Definition u64 (x : Z) : Prop := 0 <= x < 2 ^ 64.
Definition bytes (l : list Z) : Prop := Forall (fun b => 0 <= b < 256) l.
(** a field that holds at most 64 bits has at most ten bytes *)
Definition fits (v : Z) (w : nat) : Prop := (w <= 10)%nat /\ v < 2 ^ 64.
