(** What the lists of waiting coroutines are for their users: independent queues of values. *)
From Verif Require Import Base Base_lemmas Linkco_model.

Definition queue_of (qs : list (list Z)) (i : nat) : list Z := nth i qs [].
Definition spec (qs : list (list Z)) (o : op) : option Z * list (list Z) :=
  match o with
  | Push _ i _ v => (None, list_set qs i (queue_of qs i ++ [v]))
  | PushHead _ i _ v => (None, list_set qs i (v :: queue_of qs i))
  | Pop _ i => match queue_of qs i with [] => (Some 0, qs) | v :: q => (Some v, list_set qs i q) end
  end.
Fixpoint spec_run (qs : list (list Z)) (os : list op) : list (option Z) * list (list Z) :=
  match os with
  | [] => ([], qs)
  | o :: os => let (v, qs) := spec qs o in let (vs, qs) := spec_run qs os in (v :: vs, qs)
  end.

(** Admissible use: existing processor and list, a coroutine is not NULL, and the address of a new node is not NULL and
    was never handed out before ([used]). *)
Definition op_ok (np nl : nat) (used : list Z) (o : op) : Prop :=
  match o with
  | Push p i a v | PushHead p i a v => (p < np)%nat /\ (i < nl)%nat /\ v <> 0 /\ a <> 0 /\ ~ In a used
  | Pop p i => (p < np)%nat /\ (i < nl)%nat
  end.
Definition new_addr (o : op) : list Z := match o with Push _ _ a _ | PushHead _ _ a _ => [a] | Pop _ _ => [] end.
Fixpoint ops_ok (np nl : nat) (used : list Z) (os : list op) : Prop :=
  match os with [] => True | o :: os => op_ok np nl used o /\ ops_ok np nl (new_addr o ++ used) os end.
