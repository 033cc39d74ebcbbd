(** Model of coroutines waiting for each other: starting one (async), waiting for its end (await), ending, and the part
    of the scheduler that moves coroutines between run queues and processors (runtime/processor.c, processor.h).

    - One step is one critical section or one action of a processor's thread, in any interleaving.
    - Run queues are plain lists (Rlist_* proves that the linked queues behave so).
    - Waiting for anything else (channels, mutexes, timers, io) is the pair Block/Ready: some other party makes the
      coroutine runnable once (for channels and mutexes see the models of those).
    - Not modelled: preemption (same as YieldRun), the collector's pauses, exit of the program when main ends. *)
From Verif Require Import Base.

(** where its stack is: not on any processor, running, on its way out (between deciding to yield and the switch), gone *)
Inductive place := Off | Run | Leaving | Dead.
(** co->status, runtime.h (CO_STATUS_RUNNABLE, RUNNING/TPLCALL, WAITING, DEAD) *)
Inductive status := RUNNABLE | RUNNING | WAITING | DEAD.
Record coroutine := mk_co {
  pc : place; st : status;
  home : nat;             (* co->p *)
  slot : option nat;      (* co->await_co: who waits for the end of this coroutine *)
  fails : bool;           (* co->has_error at its end *)
  ext : bool              (* waits for something other than the end of a coroutine *)
}.
Definition nobody : coroutine := mk_co Dead DEAD 0 None false false.
Record world := mk_world { cos : list coroutine; runqs : list (list nat); cur : list (option nat) }.

Definition G (w : world) (c : nat) : coroutine := nth c (cos w) nobody.
Definition Q (w : world) (p : nat) : list nat := nth p (runqs w) [].
Definition set_co (w : world) c x := mk_world (list_set (cos w) c x) (runqs w) (cur w).
Definition set_q (w : world) p q := mk_world (cos w) (list_set (runqs w) p q) (cur w).
Definition set_cur (w : world) p c := mk_world (cos w) (runqs w) (list_set (cur w) p c).
Definition set_st x s := mk_co (pc x) s (home x) (slot x) (fails x) (ext x).
Definition set_pc x k := mk_co k (st x) (home x) (slot x) (fails x) (ext x).
Definition set_home x p := mk_co (pc x) (st x) p (slot x) (fails x) (ext x).
Definition set_slot x s := mk_co (pc x) (st x) (home x) s (fails x) (ext x).
Definition set_ext x b := mk_co (pc x) (st x) (home x) (slot x) (fails x) b.

(** co_ready, processor.h:148-154 (also processor.c:282-283): status, then push to the queue of its processor *)
Definition make_ready (w : world) (c : nat) : world :=
  let x := G w c in
  set_q (set_co w c (set_st x RUNNABLE)) (home x) (Q w (home x) ++ [c]).

Inductive act :=
| Spawn (p : nat) (f : bool) | Resume (p : nat) | Await (c t : nat) | YieldRun (c : nat) | Switch (c : nat)
| Block (c : nat) | Ready (c : nat) | End (c : nat).

Definition is_run (x : coroutine) : bool := match pc x with Run => true | _ => false end.
Definition is_dead (x : coroutine) : bool := match st x with DEAD => true | _ => false end.

(** A step that is not possible now leaves the world as it is. *)
Definition step (w : world) (a : act) : res world :=
  match a with
  | Spawn p f =>
      (* rt_coroutine_new and rt_coroutine_dispatch, processor.c:513-554 (the choice of processor is free here) *)
      if (p <? length (runqs w))%nat then
        let c := length (cos w) in
        Ok (mk_world (cos w ++ [mk_co Off RUNNABLE p None f false]) (list_set (runqs w) p (Q w p ++ [c])) (cur w))
      else Ok w
  | Resume p =>
      (* processor_run's pop (processor.c:460-468) and coroutine_resume (347-375) *)
      match nth_error (cur w) p, Q w p with
      | Some None, c :: q =>
          let x := G w c in
          match st x with
          | RUNNABLE =>
              match pc x with
              | Off => Ok (set_cur (set_q (set_co w c (set_pc (set_st (set_home x p) RUNNING) Run)) p q) p (Some c))
              | _ => UB (* its stack is still in use *)
              end
          | _ => Panic (* 348 *)
          end
      | _, _ => Ok w
      end
  | Await c t =>
      (* rt_coroutine_await, processor.c:1042-1051: one critical section of the target's lock *)
      if is_run (G w c) && (t <? length (cos w))%nat then
        if is_dead (G w t) then Ok w
        else
          let w := set_co w t (set_slot (G w t) (Some c)) in
          Ok (set_co w c (set_pc (set_st (G w c) WAITING) Leaving))
      else Ok w
  | YieldRun c =>
      (* co_yield_runnable, processor.h:165-183 *)
      if is_run (G w c) then let w := make_ready w c in Ok (set_co w c (set_pc (G w c) Leaving)) else Ok w
  | Block c =>
      (* co_yield_waiting, processor.h:185-205 *)
      if is_run (G w c) then Ok (set_co w c (set_ext (set_pc (set_st (G w c) WAITING) Leaving) true)) else Ok w
  | Ready c =>
      (* co_ready by whoever the coroutine waits for; after the switch (the lock is released by coroutine_resume) *)
      let x := G w c in
      match pc x with
      | Off => if ext x then let w := set_co w c (set_ext x false) in Ok (make_ready w c) else Ok w
      | _ => Ok w
      end
  | Switch c =>
      (* _co_yield and the return of aco_resume, processor.c:375-398 *)
      match pc (G w c) with
      | Leaving =>
          match st (G w c) with
          | RUNNING => Panic (* 382 *)
          | _ => Ok (set_cur (set_co w c (set_pc (G w c) Off)) (home (G w c)) None)
          end
      | _ => Ok w
      end
  | End c =>
      (* coroutine_wrapper, processor.c:277-300: one critical section of its own lock, then the switch *)
      if is_run (G w c) then
        let done w := set_cur (set_co w c (set_pc (set_st (G w c) DEAD) Dead)) (home (G w c)) None in
        match slot (G w c) with
        | Some a => Ok (done (make_ready w a))
        | None => if fails (G w c) then Abort (* exit(EXIT_FAILURE), 287 *) else Ok (done w)
        end
      else Ok w
  end.
Fixpoint run (w : world) (tr : list act) : res world :=
  match tr with [] => Ok w | a :: tr => w <- step w a ;; run w tr end.
(** [np] processors, idle; one coroutine (main) ready on the first of them *)
Definition init (np : nat) : world :=
  mk_world [mk_co Off RUNNABLE 0 None false false] ([0%nat] :: repeat [] np) (None :: repeat None np).
