(** Model of rt_mutex_lock, rt_mutex_try_lock and rt_mutex_unlock, runtime/rt_mutex.c, at the level of single
    accesses to shared memory: any number of coroutines, one access per step, in any order.

    A coroutine is the place it has reached in the code ([pc]) with the local variables that matter there.
    - can_semacquire (11-22) and atomic_add_int64 (337-346) loop until their compare-and-swap succeeds; each is one
      step here (a failed round changes nothing).
    - rt_can_spin and the clock are outside: a step carries a bool that says whether to spin, or whether the
      waiting time is over the threshold.  Counters are unbounded integers.
    - Making the coroutine runnable and running it (317-327) are the scheduler's business (see Runq); a handoff
      only changes which coroutine runs first.
    - [debug]: whether assertions are compiled in (runtime/CMakeLists.txt:29-30 compiles them out for releases).
      Assertions that can only fail if the mutex is broken give Panic in both cases. *)
From Verif Require Import Base.

(** rt_mutex.h:11-14 *)
Definition LOCKED := 1.
Definition WOKEN := 2.
Definition STARVING := 4.
Definition waiters_of (x : Z) : Z := Z.shiftr x 3.
Definition WAITER := 8.

(** locals of rt_mutex_lock, rt_mutex.c:32-35: wait_start_time is not 0; starving; awoke *)
Record loc := mk_loc { waited : bool; starving : bool; awoke : bool }.

Inductive pc :=
| Idle                             (* not in the mutex, not holding it *)
| Crit                             (* holds it *)
| LFast                            (* lock, 28: the first compare-and-swap *)
| LLoad (x : loc)                  (* 36, 49, 128: old = load *)
| LLoop (old : Z) (x : loc)        (* 39: top of the loop *)
| LCas (old new : Z) (x : loc)     (* 82 *)
| LWoken (x : loc)                 (* 97-100: back from waiter_acquire *)
| LHand (old : Z) (x : loc)        (* 117-124: the lock was handed over *)
| A1 (x : loc)                     (* waiter_acquire, 222 *)
| A2 (x : loc)                     (* 231: lock the list *)
| A3 (x : loc)                     (* 233: waiter_count += 1 *)
| A4 (x : loc)                     (* 234: can_semacquire *)
| A5 (x : loc)                     (* 235: waiter_count -= 1 *)
| A6 (x : loc)                     (* 240: unlock the list *)
| A7 (x : loc)                     (* 245-256: push, yield; the list is unlocked after the switch *)
| Parked (ticket : bool) (x : loc)
| A8 (ticket : bool) (x : loc)     (* 259: running again *)
| TLoad                            (* try_lock, 134 *)
| TCas (old : Z)                   (* 139 *)
| ULoop (old : Z)                  (* unlock, 167 *)
| UCas (old : Z)                   (* 174 *)
| ULoad                            (* 180 *)
| R0 (handoff : bool)              (* waiter_release, 267: sema += 1 *)
| R1                               (* 269: load waiter_count *)
| R1a                              (* 270: assert(waiters.count == 0), without the lock *)
| R2                               (* 276: lock the list *)
| R3                               (* 279 *)
| R4                               (* 297: pop *)
| R5 (u : nat)                     (* 300: waiter_count -= 1 *)
| R6 (u : nat)                     (* 306: unlock the list *)
| R7 (u : nat)                     (* 311-314: ticket *)
| R8 (u : nat).                    (* 317-322: make it runnable *)

(** rt_mutex_t, rt_mutex.h:20-25; [queue] is waiters, [locker] its lock *)
Record state := mk_state { word : Z; sema : Z; wcount : Z; queue : list nat; locker : bool; pcs : list pc }.

Definition set_word (st : state) x := mk_state x (sema st) (wcount st) (queue st) (locker st) (pcs st).
Definition set_sema (st : state) x := mk_state (word st) x (wcount st) (queue st) (locker st) (pcs st).
Definition set_wcount (st : state) x := mk_state (word st) (sema st) x (queue st) (locker st) (pcs st).
Definition set_queue (st : state) x := mk_state (word st) (sema st) (wcount st) x (locker st) (pcs st).
Definition set_locker (st : state) x := mk_state (word st) (sema st) (wcount st) (queue st) x (pcs st).
Definition goto (st : state) (k : nat) (p : pc) :=
  mk_state (word st) (sema st) (wcount st) (queue st) (locker st) (list_set (pcs st) k p).

(** rt_mutex.c:53-80: the new word; None: the assertion at 77 fails *)
Definition next_word (old : Z) (x : loc) : option Z :=
  let new := if Z.land old STARVING =? 0 then Z.lor old LOCKED else old in
  let new := if negb (Z.land old (Z.lor LOCKED STARVING) =? 0) then new + WAITER else new in
  let new := if starving x && negb (Z.land old LOCKED =? 0) then Z.lor new STARVING else new in
  if awoke x then
    if Z.land new WOKEN =? 0 then None else Some (Z.ldiff new WOKEN)
  else Some new.

(** one step of coroutine k; [b] is the outside choice *)
Definition micro (debug : bool) (st : state) (k : nat) (p : pc) (b : bool) : res state :=
  match p with
  | Idle | Crit => Ok st
  | LFast => (* 27-36 *)
      if word st =? 0 then Ok (goto (set_word st LOCKED) k Crit)
      else Ok (goto st k (LLoad (mk_loc false false false)))
  | LLoad x => Ok (goto st k (LLoop (word st) x))
  | LLoop old x =>
      if (Z.land old (Z.lor LOCKED STARVING) =? LOCKED) && b then (* 39-52 *)
        if negb (awoke x) && (Z.land old WOKEN =? 0) && negb (waiters_of old =? 0) && (word st =? old) then
          Ok (goto (set_word st (Z.lor old WOKEN)) k (LLoad (mk_loc (waited x) (starving x) true)))
        else Ok (goto st k (LLoad x))
      else
        match next_word old x with
        | None => Panic
        | Some new => Ok (goto st k (LCas old new x))
        end
  | LCas old new x => (* 82-94 *)
      if word st =? old then
        if Z.land old (Z.lor LOCKED STARVING) =? 0 then Ok (goto (set_word st new) k Crit)
        else Ok (goto (set_word st new) k (A1 x))
      else Ok (goto st k (LLoad x))
  | LWoken x => (* 97-114 *)
      let x := mk_loc true (starving x || b) (awoke x) in
      if Z.land (word st) STARVING =? 0 then Ok (goto st k (LLoop (word st) (mk_loc true (starving x) true)))
      else if negb (Z.land (word st) (Z.lor LOCKED WOKEN) =? 0) || (waiters_of (word st) =? 0) then Panic
      else Ok (goto st k (LHand (word st) x))
  | LHand old x => (* 117-125 *)
      let delta := LOCKED - WAITER in
      let delta := if negb (starving x) || (waiters_of old =? 1) then delta - STARVING else delta in
      Ok (goto (set_word st (word st + delta)) k Crit)
  | A1 x => if 0 <? sema st then Ok (goto (set_sema st (sema st - 1)) k (LWoken x)) else Ok (goto st k (A2 x))
  | A2 x => if locker st then Ok st else Ok (goto (set_locker st true) k (A3 x))
  | A3 x => Ok (goto (set_wcount st (wcount st + 1)) k (A4 x))
  | A4 x => if 0 <? sema st then Ok (goto (set_sema st (sema st - 1)) k (A5 x)) else Ok (goto st k (A7 x))
  | A5 x => Ok (goto (set_wcount st (wcount st - 1)) k (A6 x))
  | A6 x => if wcount st =? zlen (queue st) then Ok (goto (set_locker st false) k (LWoken x)) else Panic (* 237 *)
  | A7 x => (* to_head, 89, 245 *)
      let st := set_queue st (if waited x then k :: queue st else queue st ++ [k]) in
      Ok (goto (set_locker st false) k (Parked false x))
  | Parked _ _ => Ok st
  | A8 ticket x =>
      if ticket then Ok (goto st k (LWoken x))
      else if 0 <? sema st then Ok (goto (set_sema st (sema st - 1)) k (LWoken x)) else Ok (goto st k (A2 x))
  | TLoad => if Z.land (word st) (Z.lor LOCKED STARVING) =? 0 then Ok (goto st k (TCas (word st))) else Ok (goto st k Idle)
  | TCas old => if word st =? old then Ok (goto (set_word st (Z.lor old LOCKED)) k Crit) else Ok (goto st k Idle)
  | ULoop old => (* 167-170 *)
      if (waiters_of old =? 0) || negb (Z.land old (Z.lor LOCKED (Z.lor WOKEN STARVING)) =? 0) then Ok (goto st k Idle)
      else Ok (goto st k (UCas old))
  | UCas old => (* 172-177 *)
      if word st =? old then Ok (goto (set_word st (Z.lor (old - WAITER) WOKEN)) k (R0 false)) else Ok (goto st k ULoad)
  | ULoad => Ok (goto st k (ULoop (word st)))
  | R0 _ => Ok (goto (set_sema st (sema st + 1)) k R1)
  | R1 => if wcount st =? 0 then Ok (goto st k R1a) else Ok (goto st k R2)
  | R1a => if debug && negb (zlen (queue st) =? 0) then Abort else Ok (goto st k Idle)
  | R2 => if locker st then Ok st else Ok (goto (set_locker st true) k R3)
  | R3 => (* 279-285 *)
      if wcount st =? 0 then
        if zlen (queue st) =? 0 then Ok (goto (set_locker st false) k Idle) else Panic
      else Ok (goto st k R4)
  | R4 => match queue st with [] => Panic | u :: q => Ok (goto (set_queue st q) k (R5 u)) end
  | R5 u => Ok (goto (set_wcount st (wcount st - 1)) k (R6 u))
  | R6 u => Ok (goto (set_locker st false) k (R7 u))
  | R7 u => (* the ticket of u is set *)
      if 0 <? sema st then
        match nth_error (pcs st) u with
        | Some (Parked _ x) => Ok (goto (goto (set_sema st (sema st - 1)) u (Parked true x)) k (R8 u))
        | _ => UB
        end
      else Ok (goto st k (R8 u))
  | R8 u =>
      match nth_error (pcs st) u with
      | Some (Parked t x) => Ok (goto (goto st u (A8 t x)) k Idle)
      | _ => UB
      end
  end.

(** A coroutine outside the mutex may call lock or try_lock, one that holds it may call unlock (146-163, 189). *)
Inductive label := Lock (k : nat) | TryLock (k : nat) | Unlock (k : nat) | Go (k : nat) (b : bool).
Definition step (debug : bool) (st : state) (l : label) : res state :=
  match l with
  | Lock k => match nth_error (pcs st) k with Some Idle => Ok (goto st k LFast) | _ => Ok st end
  | TryLock k => match nth_error (pcs st) k with Some Idle => Ok (goto st k TLoad) | _ => Ok st end
  | Unlock k =>
      match nth_error (pcs st) k with
      | Some Crit =>
          let new := word st - LOCKED in
          let st := set_word st new in
          if new =? 0 then Ok (goto st k Idle)
          else if Z.land (new + LOCKED) LOCKED =? 0 then Panic
          else if Z.land new STARVING =? 0 then Ok (goto st k (ULoop new))
          else Ok (goto st k (R0 true))
      | _ => Ok st
      end
  | Go k b => match nth_error (pcs st) k with Some p => micro debug st k p b | None => Ok st end
  end.
Fixpoint run (debug : bool) (st : state) (ls : list label) : res state :=
  match ls with [] => Ok st | l :: ls => st <- step debug st l ;; run debug st ls end.

(** a new mutex (all zero, std/co/mutex.n:3-12) and [n] coroutines *)
Definition init (n : nat) : state := mk_state 0 0 0 [] false (repeat Idle n).
