(** What a mutex promises, said in terms of where the coroutines are. *)
From Verif Require Import Base Mutex_model.

(** [reach debug n st]: [st] can be reached from a new mutex used by [n] coroutines, by some interleaving of their
    steps. *)
Definition reach (debug : bool) (n : nat) (st : state) : Prop := exists ls, run debug (init n) ls = Ok st.

Definition at_pc (st : state) (k : nat) (p : pc) : Prop := nth_error (pcs st) k = Some p.

(** between a lock that returned (or a try_lock that returned true) and the unlock *)
Definition holds (st : state) (k : nat) : Prop := at_pc st k Crit.

(** waiting in the list of the mutex: runs again only when somebody makes it runnable *)
Definition waits (st : state) (k : nat) : Prop := exists t x, at_pc st k (Parked t x).

(** in the middle of lock, try_lock or unlock, and not waiting *)
Definition active (st : state) (k : nat) : Prop :=
  exists p, at_pc st k p /\ match p with Idle | Crit | Parked _ _ => False | _ => True end.

(** coroutine [k] can do something next: its step changes the state *)
Definition can_go (debug : bool) (st : state) (k : nat) : Prop :=
  exists b st', step debug st (Go k b) = Ok st' /\ st' <> st.
