(** What the queue is for its users: a list of values. *)
From Verif Require Import Base Rlist_model.

Definition nth0 (q : list Z) (i : nat) : Z := nth i q 0.
Definition last0 (q : list Z) : Z := List.last q 0.
Fixpoint drop_at (q : list Z) (i : nat) : list Z :=
  match q, i with [], _ => [] | _ :: q, O => q | x :: q, S i => x :: drop_at q i end.

(** one operation on a list of values: what it answers, and the new list *)
Definition spec (q : list Z) (o : op) : list Z * list Z :=
  match o with
  | Push _ v => ([], q ++ [v])
  | PushHead _ v => ([], v :: q)
  | Pop => match q with [] => ([0], []) | v :: q => ([v], q) end
  | RemoveAt i => ([], drop_at q i)
  | First => ([nth0 q 0], q)
  | Last => ([last0 q], q)
  | Sweep dead => let keep := filter (fun v => negb (dead v)) q in (keep, keep)
  end.
Fixpoint spec_run (q : list Z) (os : list op) : list (list Z) * list Z :=
  match os with
  | [] => ([], q)
  | o :: os => let (out, q) := spec q o in let (outs, q) := spec_run q os in (out :: outs, q)
  end.

(** Admissible use: values are not NULL, a removed node is in the list, and the allocator returns addresses that are not
    NULL and not in use. *)
Definition op_ok (l : rlist) (q : list Z) (o : op) : Prop :=
  match o with
  | Push a v | PushHead a v => v <> 0 /\ a <> 0 /\ ~ In a (live l)
  | RemoveAt i => (i < length q)%nat
  | _ => True
  end.
Fixpoint ops_ok (l : rlist) (q : list Z) (os : list op) : Prop :=
  match os with
  | [] => True
  | o :: os => op_ok l q o /\ forall out l', step l o = Ok (out, l') -> ops_ok l' (snd (spec q o)) os
  end.
