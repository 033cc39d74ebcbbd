(** What the program can still reach, and what a cycle starts from. *)
From Verif Require Import Base Gcconc_model.

(** the objects the program can get at: from a global, from a variable of a coroutine, or through a field *)
Inductive reachable (w : world) : nat -> Prop :=
| from_global g o : globals w g = Some o -> reachable w o
| from_var c o : (c < nco w)%nat -> In (Some o) (vars (co w c)) -> reachable w o
| from_field u o : reachable w u -> In (Some o) (field w u) -> reachable w o.

(** runtime_gc up to processor_all_start, collector.c:1004-1039: nothing is marked, the globals are queued on
    a processor, every coroutine is at a safe point and stands in the list of its processor *)
Record at_start (w : world) : Prop := {
  a_procs : (0 < procs w)%nat;
  a_marks : forall o, marked w o = false;
  a_fresh : forall o, (next w <= o)%nat -> field w o = [];
  a_globals : forall g o, globals w g = Some o -> exists p, In o (work w p);
  a_work : forall p o, In o (work w p) -> (p < procs w)%nat /\ exists g, globals w g = Some o;
  a_cos : forall c, (c < nco w)%nat -> (home (co w c) < procs w)%nat /\ In c (todo w (home (co w c))) /\ doing (co w c) = [] /\ black (co w c) = false;
  a_todo : forall p c, In c (todo w p) -> (p < procs w)%nat /\ (c < nco w)%nat;
  a_rest : forall p, walking w p = true /\ scan w p = None /\ fin w p = false;
  a_running : stopped w = false }.

(** the collector knows of o: it is marked or on a work list *)
Definition found (w : world) (o : nat) : Prop := marked w o = true \/ exists p, In o (work w p).

(** the step does not overwrite the reference in a field while the collector does not know of the object *)
Definition gentle (w : world) (o : op) : Prop :=
  match o with
  | Micro c =>
    match doing (co w c) with
    | Write u k v :: _ => match nth k (field w u) None with Some old => found w old \/ v = Some old | None => True end
    | _ => True
    end
  | _ => True
  end.

Fixpoint gentle_run (w : world) (ops : list op) : Prop :=
  match ops with
  | [] => True
  | o :: ops => gentle w o /\ match step w o with Some w' => gentle_run w' ops | None => True end
  end.

(** the step stores only into empty fields, or stores what is there already *)
Definition filling (w : world) (o : op) : Prop :=
  match o with
  | Micro c => match doing (co w c) with Write u k v :: _ => nth k (field w u) None = None \/ nth k (field w u) None = v | _ => True end
  | _ => True
  end.

Fixpoint filling_run (w : world) (ops : list op) : Prop :=
  match ops with
  | [] => True
  | o :: ops => filling w o /\ match step w o with Some w' => filling_run w' ops | None => True end
  end.
