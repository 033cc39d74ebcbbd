(** Model of channels: runtime/rt_chan.c and std/builtin/chan.n.

    Every operation runs under the lock of its channel (rt_chan.c:234, 344, 407), a select under the locks of
    all its channels (552, 641), so an operation is one step up to the point where it returns or parks; what
    a parked coroutine does after it is woken is a second step ([LResume]).  Between the two the coroutine
    is [Parked] and then [Woken].  Channels and coroutines are numbered; messages are integers (the bytes
    moved by memmove and rt_msg_transmit, rt_chan.c:152-183).  Wait queues are lists here, doubly linked
    in the code (rt_chan.c:54-142).  A select with a nil channel fails its assertion (rt_chan.c:567) and is left out.
    The fields [log], [clock] and [lk_stamp] are ghosts: they record what happened and when. *)
From Verif Require Import Base.

(** linkco_t, runtime.h:360-372: the coroutine, the index of the case in its select (0 outside a select),
    is_select, and for a sender the message its data points to *)
Record lk := mk_lk { lk_co : nat; lk_case : nat; lk_sel : bool; lk_val : Z; lk_stamp : Z }.

(** n_chan_t, utils/type.h:496-516; buf_front and buf_rear index the ring [buf] *)
Record chan := mk_chan { buf : list Z; front : Z; rear : Z; sendq : list lk; recvq : list lk; closed : bool; successful : bool }.

(** what a coroutine is parked in: rt_chan_send, rt_chan_recv, or rt_chan_select over cases (channel,
    message), the first [sends] of them sends *)
Inductive wait := WSend (c : nat) (v : Z) | WRecv (c : nat) | WSelect (cases : list (nat * Z)) (sends : nat).
(** Woken: co_ready has been called; co->data is the linkco of case i, with its success flag, and a
    receiver's memory holds msg.  select_done (rt_chan.c:132) is 1 from then on.  The stamp is the time of the call. *)
Inductive cost := Idle | Parked (w : wait) (stamp : Z) | Woken (w : wait) (stamp : Z) (i : nat) (ok : bool) (msg : option Z).

(** Accepted: the value of the send called at the time [stamp] went into the buffer or to a receiver.
    Received: the value was given to the receive called at that time. *)
Inductive event := Accepted (c : nat) (v stamp : Z) | Received (c : nat) (v stamp : Z).

Record state := mk_state { chans : nat -> chan; cos : nat -> cost; log : list event; clock : Z }.

Definition set_chan (st : state) (c : nat) (ch : chan) : state :=
  mk_state (fun d => if Nat.eqb d c then ch else chans st d) (cos st) (log st) (clock st).
Definition set_co (st : state) (k : nat) (x : cost) : state :=
  mk_state (chans st) (fun j => if Nat.eqb j k then x else cos st j) (log st) (clock st).
Definition record (st : state) (es : list event) : state := mk_state (chans st) (cos st) (log st ++ es) (clock st).

Definition set_ring (ch : chan) (b : list Z) (f r : Z) : chan := mk_chan b f r (sendq ch) (recvq ch) (closed ch) (successful ch).
Definition set_sendq (ch : chan) (q : list lk) : chan := mk_chan (buf ch) (front ch) (rear ch) q (recvq ch) (closed ch) (successful ch).
Definition set_recvq (ch : chan) (q : list lk) : chan := mk_chan (buf ch) (front ch) (rear ch) (sendq ch) q (closed ch) (successful ch).
Definition set_closed (ch : chan) : chan := mk_chan (buf ch) (front ch) (rear ch) (sendq ch) (recvq ch) true false.
Definition unsuccessful (ch : chan) : chan := mk_chan (buf ch) (front ch) (rear ch) (sendq ch) (recvq ch) (closed ch) false.

(** chan.n:4-15 and rt_chan_new, rt_chan.c:185-207 (rti_gc_malloc gives zeroed memory): [n] is the capacity
    asked for; one more slot is allocated when it is positive *)
Definition chan_new (n : Z) : chan :=
  mk_chan (repeat 0 (Z.to_nat (if 0 <? n then n + 1 else 0))) 0 0 [] [] false false.

(** rt_chan.c:12-21 *)
Definition buf_empty (ch : chan) : bool := front ch =? rear ch.
Definition buf_full (ch : chan) : bool :=
  if zlen (buf ch) =? 0 then true else (rear ch + 1) mod zlen (buf ch) =? front ch.

(** buf->capacity: the length asked for, or VEC_DEFAULT_CAPACITY when that is 0 (vec.c:414-432) *)
Definition capacity (ch : chan) : Z := if zlen (buf ch) =? 0 then 8 else zlen (buf ch).

(** rt_chan.c:26-34; the access is checked by rti_vec_access *)
Definition buf_pop (ch : chan) : res (chan * Z) :=
  if buf_empty ch then Panic
  else v <- at_ (buf ch) (front ch) ;; Ok (set_ring ch (buf ch) ((front ch + 1) mod capacity ch) (rear ch), v).
(** buf_next_ref and the memmove to it, rt_chan.c:39-46, 252-254 *)
Definition buf_push (ch : chan) (v : Z) : res chan :=
  if buf_full ch then Panic
  else b <- set_at (buf ch) (rear ch) v ;; Ok (set_ring ch b (front ch) ((rear ch + 1) mod zlen (buf ch))).

(** select_done of the coroutine of a linkco *)
Definition select_done (st : state) (l : lk) : bool := match cos st (lk_co l) with Parked _ _ => false | _ => true end.
(** waitq_pop, rt_chan.c:105-142: entries of selects that are done are dropped *)
Fixpoint waitq_pop (st : state) (q : list lk) : option lk * list lk :=
  match q with
  | [] => (None, [])
  | l :: q => if lk_sel l && select_done st l then waitq_pop st q else (Some l, q)
  end.
(** waitq_remove, rt_chan.c:74-103: nothing happens when the entry is not in the queue any more *)
Definition waitq_remove (q : list lk) (k i : nat) : list lk :=
  filter (fun l => negb (Nat.eqb (lk_co l) k && Nat.eqb (lk_case l) i)) q.

(** co->data = linkco; linkco->success = ok; co_ready(co) *)
Definition wake (st : state) (l : lk) (ok : bool) (msg : option Z) : res state :=
  match cos st (lk_co l) with
  | Parked w s => Ok (set_co st (lk_co l) (Woken w s (lk_case l) ok msg))
  | _ => Panic
  end.

(** rt_send, rt_chan.c:209-226: v goes to the waiting receiver l *)
Definition rt_send (st : state) (c : nat) (l : lk) (v : Z) : res state :=
  st <- wake st l true (Some v) ;;
  Ok (record st [Accepted c v (clock st); Received c v (lk_stamp l)]).

(** rt_recv, rt_chan.c:304-335: a receive while the sender l waits *)
Definition rt_recv (st : state) (c : nat) (l : lk) : res (state * Z) :=
  if buf_empty (chans st c) then
    st <- wake st l true None ;;
    Ok (record st [Accepted c (lk_val l) (lk_stamp l); Received c (lk_val l) (clock st)], lk_val l)
  else if negb (buf_full (chans st c)) then Panic
  else
    ' (ch, v) <- buf_pop (chans st c) ;;
    ch <- buf_push ch (lk_val l) ;;
    st <- wake (set_chan st c ch) l true None ;;
    Ok (record st [Received c v (clock st); Accepted c (lk_val l) (lk_stamp l)], v).

(** what an operation gives its caller *)
Inductive out :=
| OSent | OGot (v : Z) | OThrow | OFalse     (* send done; received; error; the try form gives up *)
| OParked
| OClosed
| OChosen (i : nat) (ok : bool) (msg : option Z)   (* select: the case; whether its operation succeeded *)
| ODefault                                         (* select with a default: no case is ready *)
| ODisabled.                                       (* the step is not possible in this state *)

(** rt_chan_send, rt_chan.c:233-302 *)
Definition chan_send (st : state) (k c : nat) (v : Z) (try : bool) : res (state * out) :=
  if closed (chans st c) then Ok (st, OThrow)
  else
    let '(l, q) := waitq_pop st (recvq (chans st c)) in
    let st := set_chan st c (set_recvq (chans st c) q) in
    match l with
    | Some l => st <- rt_send st c l v ;; Ok (st, OSent)
    | None =>
        if negb (buf_full (chans st c)) then
          ch <- buf_push (chans st c) v ;;
          Ok (record (set_chan st c ch) [Accepted c v (clock st)], OSent)
        else if try then Ok (st, OFalse)
        else
          let l := mk_lk k 0 false v (clock st) in
          let st := set_chan st c (set_sendq (chans st c) (sendq (chans st c) ++ [l])) in
          Ok (set_co st k (Parked (WSend c v) (clock st)), OParked)
    end.

(** rt_chan_recv, rt_chan.c:343-404 *)
Definition chan_recv (st : state) (k c : nat) (try : bool) : res (state * out) :=
  let '(l, q) := waitq_pop st (sendq (chans st c)) in
  let st := set_chan st c (set_sendq (chans st c) q) in
  match l with
  | Some l => ' (st, v) <- rt_recv st c l ;; Ok (st, OGot v)
  | None =>
      if negb (buf_empty (chans st c)) then
        match sendq (chans st c) with
        | _ :: _ => Panic
        | [] => ' (ch, v) <- buf_pop (chans st c) ;; Ok (record (set_chan st c ch) [Received c v (clock st)], OGot v)
        end
      else if try then Ok (st, OFalse)
      else if closed (chans st c) then Ok (st, OThrow)
      else
        let l := mk_lk k 0 false 0 (clock st) in
        let st := set_chan st c (set_recvq (chans st c) (recvq (chans st c) ++ [l])) in
        Ok (set_co st k (Parked (WRecv c) (clock st)), OParked)
  end.

(** the loops of rt_chan_close, rt_chan.c:417-427: every waiter is woken with failure *)
Fixpoint close_loop (st : state) (q : list lk) : res state :=
  match q with
  | [] => Ok st
  | l :: q => if lk_sel l && select_done st l then close_loop st q
              else st <- wake st l false None ;; close_loop st q
  end.
(** rt_chan_close, rt_chan.c:406-429 *)
Definition chan_close (st : state) (c : nat) : res (state * out) :=
  if closed (chans st c) then Ok (st, OThrow)
  else
    let ch := chans st c in
    st <- close_loop st (recvq ch) ;;
    st <- close_loop st (sendq ch) ;;
    Ok (set_chan st c (set_closed (set_sendq (set_recvq ch []) [])), OClosed).

(** pass 1 of rt_chan_select, one case, rt_chan.c:562-597 and the labels below 696; None: not ready *)
Definition try_case (st : state) (i sends c : nat) (v : Z) : res (state * option out) :=
  if Nat.leb sends i then
    let '(l, q) := waitq_pop st (sendq (chans st c)) in
    let st := set_chan st c (set_sendq (chans st c) q) in
    match l with
    | Some l => ' (st, v) <- rt_recv st c l ;; Ok (st, Some (OChosen i true (Some v)))
    | None =>
        if negb (buf_empty (chans st c)) then
          ' (ch, v) <- buf_pop (chans st c) ;; Ok (record (set_chan st c ch) [Received c v (clock st)], Some (OChosen i true (Some v)))
        else if closed (chans st c) then Ok (set_chan st c (unsuccessful (chans st c)), Some (OChosen i false None))
        else Ok (st, None)
    end
  else if closed (chans st c) then Ok (set_chan st c (unsuccessful (chans st c)), Some (OChosen i false None))
  else
    let '(l, q) := waitq_pop st (recvq (chans st c)) in
    let st := set_chan st c (set_recvq (chans st c) q) in
    match l with
    | Some l => st <- rt_send st c l v ;; Ok (st, Some (OChosen i true None))
    | None =>
        if negb (buf_full (chans st c)) then
          ch <- buf_push (chans st c) v ;; Ok (record (set_chan st c ch) [Accepted c v (clock st)], Some (OChosen i true None))
        else Ok (st, None)
    end.
Fixpoint try_cases (st : state) (i sends : nat) (cases : list (nat * Z)) : res (state * option out) :=
  match cases with
  | [] => Ok (st, None)
  | (c, v) :: cases =>
      ' (st, o) <- try_case st i sends c v ;;
      match o with Some o => Ok (st, Some o) | None => try_cases st (S i) sends cases end
  end.

(** pass 2, rt_chan.c:605-633: one entry per case *)
Fixpoint enqueue (st : state) (k i sends : nat) (cases : list (nat * Z)) : state :=
  match cases with
  | [] => st
  | (c, v) :: cases =>
      let l := mk_lk k i true v (clock st) in
      let ch := chans st c in
      let st := set_chan st c (if Nat.leb sends i then set_recvq ch (recvq ch ++ [l]) else set_sendq ch (sendq ch ++ [l])) in
      enqueue st k (S i) sends cases
  end.

(** selpark_commit, rt_chan.c:464-480: the channels unlocked, in this order; co->waiting lists the cases in
    the order of the cases, and only a channel equal to the one before is skipped *)
Fixpoint park_unlocks (last : option nat) (cs : list nat) : list nat :=
  match cs with
  | [] => match last with Some c => [c] | None => [] end
  | c :: cs => match last with
               | Some d => if Nat.eqb c d then park_unlocks (Some c) cs else d :: park_unlocks (Some c) cs
               | None => park_unlocks (Some c) cs
               end
  end.
Fixpoint distinct (l : list nat) : bool :=
  match l with [] => true | x :: l => negb (existsb (Nat.eqb x) l) && distinct l end.

(** rt_chan_select up to the yield, rt_chan.c:490-640.  Unlocking a mutex twice is UB (the second time it
    may belong to someone else). *)
Definition chan_select (st : state) (k sends : nat) (cases : list (nat * Z)) (try : bool) : res (state * out) :=
  ' (st, o) <- try_cases st 0 sends cases ;;
  match o with
  | Some o => Ok (st, o)
  | None =>
      if try then Ok (st, ODefault)
      else
        let st := enqueue st k 0 sends cases in
        if distinct (park_unlocks None (map fst cases)) then Ok (set_co st k (Parked (WSelect cases sends) (clock st)), OParked) else UB
  end.

(** pass 3, rt_chan.c:664-688: the entries of the cases that did not fire leave their queues *)
Fixpoint dequeue (st : state) (k i sends win : nat) (cases : list (nat * Z)) : state :=
  match cases with
  | [] => st
  | (c, _) :: cases =>
      let ch := chans st c in
      let st := if Nat.eqb i win then st
                else set_chan st c (if Nat.leb sends i then set_recvq ch (waitq_remove (recvq ch) k i)
                                    else set_sendq ch (waitq_remove (sendq ch) k i)) in
      dequeue st k (S i) sends win cases
  end.

(** the code after co_yield_waiting: rt_chan.c:283-300, 388-404, 641-696 (the assignment of false to
    successful on a failed send case is left out: closing has done it) *)
Definition resume (st : state) (k : nat) : res (state * out) :=
  match cos st k with
  | Woken (WSend _ _) _ _ ok _ => Ok (set_co st k Idle, if ok then OSent else OThrow)
  | Woken (WRecv _) _ _ ok msg => Ok (set_co st k Idle, match ok, msg with true, Some v => OGot v | _, _ => OThrow end)
  | Woken (WSelect cases sends) _ i ok msg => Ok (set_co (dequeue st k 0 sends i cases) k Idle, OChosen i ok msg)
  | _ => Ok (st, ODisabled)
  end.

Inductive label :=
| LSend (k c : nat) (v : Z) (try : bool)
| LRecv (k c : nat) (try : bool)
| LClose (k c : nat)
| LSelect (k sends : nat) (cases : list (nat * Z)) (try : bool)
| LResume (k : nat).

(** only a running coroutine does something *)
Definition when_idle (st : state) (k : nat) (r : res (state * out)) : res (state * out) :=
  match cos st k with Idle => r | _ => Ok (st, ODisabled) end.
Definition do_step (st : state) (l : label) : res (state * out) :=
  match l with
  | LSend k c v try => when_idle st k (chan_send st k c v try)
  | LRecv k c try => when_idle st k (chan_recv st k c try)
  | LClose k c => when_idle st k (chan_close st c)
  | LSelect k sends cases try => when_idle st k (chan_select st k sends cases try)
  | LResume k => resume st k
  end.
Definition tick (st : state) : state := mk_state (chans st) (cos st) (log st) (clock st + 1).
Definition step (st : state) (l : label) : res (state * out) := do_step (tick st) l.

Fixpoint run (st : state) (ls : list label) : res (state * list out) :=
  match ls with
  | [] => Ok (st, [])
  | l :: ls => ' (st, o) <- step st l ;; ' (st, os) <- run st ls ;; Ok (st, o :: os)
  end.

(** the channels, with the capacities asked for; every coroutine running *)
Definition init (caps : nat -> Z) : state := mk_state (fun c => chan_new (caps c)) (fun _ => Idle) [] 0.
