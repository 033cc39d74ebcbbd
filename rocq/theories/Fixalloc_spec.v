(** Histories of a block allocator, and what it means for the live blocks to be sound. *)
From Verif Require Import Base.

(** [a, a+n) and [b, b+m) have no address in common *)
Definition disjoint (a n b m : Z) : Prop := forall x, ~ (a <= x < a + n /\ b <= x < b + m).

(** [a, a+n) lies inside [b, b+m) *)
Definition within (a n b m : Z) : Prop := forall x, a <= x < a + n -> b <= x < b + m.

(** No two different positions of the list hold overlapping blocks of size n. *)
Definition no_overlap (n : Z) (l : list Z) : Prop :=
  forall i j a b, i <> j -> nth_error l i = Some a -> nth_error l j = Some b -> disjoint a n b n.

(** A client either asks for a block or gives back the k-th block it holds. *)
Inductive op := OAlloc | OFree (k : nat).

Definition remove_nth {A} (k : nat) (l : list A) : list A := firstn k l ++ skipn (S k) l.
