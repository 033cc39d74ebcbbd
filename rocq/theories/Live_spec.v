(** Liveness, by the operations that can still be executed. *)
From Verif Require Import Base Live_model.

(** some operation uses v, and none before it defines v *)
Definition reads_first (l : list op) (v : var) : Prop :=
  exists l1 o l2, l = l1 ++ o :: l2 /\ In v (uses o) /\ forall o', In o' l1 -> ~ In v (defs o').
Definition writes (l : list op) (v : var) : Prop := exists o, In o l /\ In v (defs o).

(** the value v has on entry of block b may still be read *)
Inductive needed (c : program) : nat -> var -> Prop :=
| needed_here b v : reads_first (ops (block_of c b)) v -> needed c b v
| needed_later b s v : In s (succs (block_of c b)) -> ~ writes (ops (block_of c b)) v -> needed c s v -> needed c b v.

(** the value v has at the end of block b may still be read *)
Definition needed_after (c : program) (b : nat) (v : var) : Prop :=
  exists s, In s (succs (block_of c b)) /\ needed c s v.

(** the jumps lead to blocks *)
Definition is_program (c : program) : Prop :=
  forall b s, In s (succs (block_of c b)) -> (s < length c)%nat.

(** the variables read somewhere *)
Definition variables (c : program) : list var := flat_map (fun b => flat_map uses (ops b)) c.
