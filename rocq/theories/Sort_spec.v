(** What sorting and searching mean. *)
From Verif Require Import Base.
From Coq Require Export Permutation Sorted.

Record strict_weak_order {A} (lt : A -> A -> bool) : Prop := {
  swo_irrefl : forall x, lt x x = false;
  swo_trans : forall x y z, lt x y = true -> lt y z = true -> lt x z = true;
  swo_incomp : forall x y z,
    lt x y = false -> lt y x = false -> lt y z = false -> lt z y = false ->
    lt x z = false /\ lt z x = false
}.

(** The comparator decides [lt] on the elements currently at the two indices. *)
Definition compares {A S} (lt : A -> A -> bool) (less : S -> list A -> Z -> Z -> bool * S) : Prop :=
  forall s v i j x y,
    at_ v i = Ok x -> at_ v j = Ok y -> fst (less s v i j) = lt x y.

(** No element is less than one before it. *)
Definition ordered {A} (lt : A -> A -> bool) (v : list A) : Prop :=
  StronglySorted (fun x y => lt y x = false) v.
