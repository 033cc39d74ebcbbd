(** What a program sees of memory, for the properties of boxed values. *)
From Verif Require Import Base Box_model.
Import ListNotations.
Open Scope Z_scope.

(** The bytes [bs] stand at address [a]. *)
Definition holds (m : mem) (a : Z) (bs : list Z) : Prop :=
  forall i b, nth_error bs i = Some b -> bytes m (a + Z.of_nat i) = b.

(** [n] bytes at [a] and [k] bytes at [b] do not overlap. *)
Definition apart (a n b k : Z) : Prop := a + n <= b \/ b + k <= a.

(** Between [m1] and [m2] nothing has changed in [n] bytes at [a]. *)
Definition kept (a n : Z) (m1 m2 : mem) : Prop :=
  forall x, a <= x < a + n -> bytes m2 x = bytes m1 x.

(** Between [m1] and [m2] no byte has changed but, possibly, [n] bytes at [a]. *)
Definition only (a n : Z) (m1 m2 : mem) : Prop :=
  forall x, x < a \/ a + n <= x -> bytes m2 x = bytes m1 x.

(** Every type is registered under its own number. *)
Definition registered (find : Z -> option rtype) : Prop :=
  forall h r, find h = Some r -> r_hash r = h.

(** An address fits a machine word. *)
Definition address (a : Z) : Prop := 0 <= a < 2 ^ 64.

(** The room the value of a type takes in a box: a word at least. *)
Definition room (r : rtype) : Z := Z.max 8 (Z.of_nat (r_size r)).
