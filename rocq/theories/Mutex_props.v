(** Properties of the mutex (C19, C64, C65). *)
From Verif Require Import Base Mutex_model Mutex_spec Mutex_proof Mutex_step_proof Mutex_queue_proof Mutex_wait_proof.

(** C19: any number of coroutines, any interleaving, normal and starvation mode: at most one holds the mutex. *)
Theorem mutex_exclusion : forall debug n st i j, reach debug n st -> holds st i -> holds st j -> i = j.
Proof. intros debug n st i j R. apply one_holder. exact (inv_reach _ _ _ R). Qed.
Print Assumptions mutex_exclusion.

(** C64: when a coroutine waits, another one holds the mutex, or is in the middle of a lock or unlock that can go on. *)
Theorem mutex_no_lost_wakeup : forall debug n st k, reach debug n st -> waits st k ->
  (exists j, holds st j) \/ (exists j, active st j /\ can_go false st j).
Proof. intros debug n st k R. apply waits_served. exact (inv_reach _ _ _ R). Qed.
Print Assumptions mutex_no_lost_wakeup.

(** C65: with assertions compiled out nothing goes wrong; with assertions, only the unlocked one (rt_mutex.c:270) can
    fail. *)
Theorem mutex_never_breaks : forall n ls, exists st, run false (init n) ls = Ok st.
Proof.
  intros n ls. pose proof (run_good false ls _ (inv_init n)) as G.
  destruct (run false (init n) ls) as [st| | | | |]; cbn [good] in G; try discriminate; try (now destruct G). now exists st.
Qed.
Print Assumptions mutex_never_breaks.
Theorem mutex_assertions_partial : forall n ls,
  (exists st, run true (init n) ls = Ok st) \/ run true (init n) ls = Abort.
Proof.
  intros n ls. pose proof (run_good true ls _ (inv_init n)) as G.
  destruct (run true (init n) ls) as [st| | | | |]; cbn [good] in G; try discriminate; try (now destruct G); eauto.
Qed.
Print Assumptions mutex_assertions_partial.

Definition go (k : nat) (m : nat) : list label := repeat (Go k false) m.

(** Coroutine 0 holds, 1 and 2 want it.  0 unlocks, adds its signal and sees no waiter; 2 takes the signal, 1 goes to
    the list; then 0 evaluates its assertion without the lock. *)
Definition abort_run : list label :=
  [Lock 0] ++ go 0 1 ++ [Lock 1] ++ go 1 5 ++ [Lock 2] ++ go 2 4 ++ [Unlock 0] ++ go 0 4 ++ go 2 1 ++ go 1 4 ++ go 0 1.
Theorem mutex_assertions_refuted : exists n ls, run true (init n) ls = Abort.
Proof. exists 3%nat, abort_run. vm_compute. reflexivity. Qed.
Print Assumptions mutex_assertions_refuted.

(** The hypotheses are met: 0 holds while 1 waits; then 1 holds. *)
Definition wait_run : list label := [Lock 0] ++ go 0 1 ++ [Lock 1] ++ go 1 9.
Definition pass_run : list label := wait_run ++ [Unlock 0] ++ go 0 11 ++ go 1 4.
Definition places (r : res state) : option (Z * list pc) := match r with Ok st => Some (word st, pcs st) | _ => None end.
Example mutex_wait : places (run true (init 2) wait_run) = Some (9, [Crit; Parked false (mk_loc false false false)]).
Proof. vm_compute. reflexivity. Qed.
Example mutex_pass : places (run true (init 2) pass_run) = Some (1, [Idle; Crit]).
Proof. vm_compute. reflexivity. Qed.
(** Starvation: 1 waited too long and loses the race against the try_lock of 0; it sets the starving bit; the next unlock hands the
    mutex over, and a try_lock in between fails. *)
Definition starve_run : list label :=
  wait_run ++ [Unlock 0] ++ go 0 11 ++ [Lock 2] ++ go 2 3 ++ [TryLock 0] ++ go 0 2 ++
  go 1 1 ++ [Go 1 true] ++ go 1 8.
Example mutex_race : places (run true (init 3) starve_run) =
  Some (13, [Crit; Parked false (mk_loc true true true); LCas 2 3 (mk_loc false false false)]).
Proof. vm_compute. reflexivity. Qed.
Definition handover_run : list label := starve_run ++ [Unlock 0] ++ go 0 9 ++ [TryLock 0] ++ go 0 1.
Example mutex_handover : places (run true (init 3) handover_run) =
  Some (12, [Idle; A8 true (mk_loc true true true); LCas 2 3 (mk_loc false false false)]).
Proof. vm_compute. reflexivity. Qed.
Example mutex_handed : places (run true (init 3) (handover_run ++ go 1 3)) =
  Some (1, [Idle; Crit; LCas 2 3 (mk_loc false false false)]).
Proof. vm_compute. reflexivity. Qed.
