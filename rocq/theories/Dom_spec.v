(** Dominance, by the ways through the graph.  Nothing here refers to the functions of the model other than the
    lists of predecessors. *)
From Verif Require Import Base Dom_model.

(** l are the blocks passed on a way from the entry to b, the last first *)
Inductive way (g : graph) : nat -> list nat -> Prop :=
| way_entry : way g O [O]
| way_step b p l : way g p l -> In p (preds g b) -> way g b (b :: l).

(** a graph: predecessors are blocks, every block can be reached, and no jump leads to the entry *)
Definition is_graph (g : graph) : Prop :=
  (forall b p, In p (preds g b) -> (p < length g)%nat) /\
  (forall b, (b < length g)%nat -> exists l, way g b l) /\ preds g O = [].

(** every way to b passes a *)
Definition dominates (g : graph) (a b : nat) : Prop := forall l, way g b l -> In a l.
Definition strictly_dominates (g : graph) (a b : nat) : Prop := dominates g a b /\ a <> b.

(** a is the last block that every way to b has to pass before b *)
Definition immediately_dominates (g : graph) (a b : nat) : Prop :=
  strictly_dominates g a b /\ forall c, strictly_dominates g c b -> dominates g c a.

(** the places where what a decides ends: a dominates a predecessor of m, but not m itself (other than m = a) *)
Definition frontier (g : graph) (a m : nat) : Prop :=
  (exists p, In p (preds g m) /\ dominates g a p) /\ ~ strictly_dominates g a m.
