(** What the locking of a select promises. *)
From Verif Require Import Base.
From Coq Require Export Permutation Sorted.

(** one global order: each lock comes after all smaller addresses, and none comes twice *)
Definition rising (ls : list Z) : Prop := StronglySorted Z.lt ls.
(** equal channels stand side by side *)
Definition side_by_side (cs : list Z) : Prop :=
  forall i j d x y, 0 <= i < j -> j < d -> at_ cs i = Ok x -> at_ cs j = Ok y -> at_ cs d = Ok x -> y = x.

(** a task that holds [fst t] and still has to take [snd t] *)
Definition finished (t : list Z * list Z) : Prop := snd t = [].
Definition can_go (ts : list (list Z * list Z)) (t : list Z * list Z) : Prop :=
  exists a rest, snd t = a :: rest /\ forall t', In t' ts -> ~ In a (fst t').
