(** Model of the linked list behind the scheduler's queues, runtime/rt_linked.h, at the level of nodes and pointers.

    Memory is a function from addresses to nodes; the nodes in use are listed in [live], and reading or writing any
    other address (NULL, a freed node) is UB.  The node allocator (fixalloc) is outside: the address it returns is an
    argument, and its contract (not NULL, not in use; see Fixalloc) is a hypothesis of the theorems.  It returns zeroed
    nodes (fixalloc.c:33, 59).  Each function runs under the lock of the list, so it is one step. *)
From Verif Require Import Base.

(** rt_linked.h:13-17 *)
Record node := mk_node { value : Z; succ : Z; prev : Z }.
(** rt_linked.h:19-27 *)
Record rlist := mk_rlist { mem : Z -> node; live : list Z; head : Z; rear : Z; count : Z }.

Definition is_live (l : rlist) (a : Z) : bool := existsb (Z.eqb a) (live l).
Definition upd (m : Z -> node) (a : Z) (n : node) : Z -> node := fun b => if b =? a then n else m b.
(** read and write a node; *)
Definition ld (l : rlist) (a : Z) : res node := if is_live l a then Ok (mem l a) else UB.
Definition st (l : rlist) (a : Z) (n : node) : res rlist :=
  if is_live l a then Ok (mk_rlist (upd (mem l) a n) (live l) (head l) (rear l) (count l)) else UB.
Definition set_value (l : rlist) (a v : Z) : res rlist := n <- ld l a ;; st l a (mk_node v (succ n) (prev n)).
Definition set_succ (l : rlist) (a v : Z) : res rlist := n <- ld l a ;; st l a (mk_node (value n) v (prev n)).
Definition set_prev (l : rlist) (a v : Z) : res rlist := n <- ld l a ;; st l a (mk_node (value n) (succ n) v).
Definition set_head (l : rlist) v := mk_rlist (mem l) (live l) v (rear l) (count l).
Definition set_rear (l : rlist) v := mk_rlist (mem l) (live l) (head l) v (count l).
Definition set_count (l : rlist) v := mk_rlist (mem l) (live l) (head l) (rear l) v.
(** fixalloc_alloc, fixalloc.c:25-62, returning [a] *)
Definition alloc (l : rlist) (a : Z) : rlist :=
  mk_rlist (upd (mem l) a (mk_node 0 0 0)) (a :: live l) (head l) (rear l) (count l).
(** fixalloc_free, fixalloc.c:64-72: overwrites the first word of the node (its value) *)
Definition free (l : rlist) (a : Z) : res rlist :=
  if is_live l a then
    Ok (mk_rlist (upd (mem l) a (mk_node 1 (succ (mem l a)) (prev (mem l a)))) (remove Z.eq_dec a (live l))
      (head l) (rear l) (count l))
  else UB.

(** rt_linked_fixalloc_init, rt_linked.h:29-39 *)
Definition init (a : Z) : rlist :=
  set_count (set_rear (set_head (alloc (mk_rlist (fun _ => mk_node 0 0 0) [] 0 0 0) a) a) a) 0.

(** rt_linked_fixalloc_push, rt_linked.h:48-64 *)
Definition push (l : rlist) (a v : Z) : res rlist :=
  let l := alloc l a in
  l <- set_prev l a (rear l) ;;
  l <- set_succ l (rear l) a ;;
  l <- set_value l (rear l) v ;;
  Ok (set_count (set_rear l a) (count l + 1)).

(** rt_linked_fixalloc_push_heap, rt_linked.h:67-83 *)
Definition push_head (l : rlist) (a v : Z) : res rlist :=
  let l := alloc l a in
  l <- set_value l a v ;;
  l <- set_succ l a (head l) ;;
  l <- set_prev l (head l) a ;;
  Ok (set_count (set_head l a) (count l + 1)).

(** rt_linked_fixalloc_pop_no_lock and pop, rt_linked.h:85-113; 0 is NULL *)
Definition pop (l : rlist) : res (Z * rlist) :=
  if count l =? 0 then Ok (0, l)
  else
    n <- ld l (head l) ;;
    if succ n =? 0 then Panic (* 94-96 *)
    else
      let node := head l in
      let l := set_head l (succ n) in
      l <- set_prev l (head l) 0 ;;
      l <- free (set_count l (count l - 1)) node ;;
      Ok (value n, l).

(** rt_linked_fixalloc_first, rt_linked.h:115-124, and last, 149-159: nodes, 0 is NULL *)
Definition first (l : rlist) : Z := if count l =? 0 then 0 else head l.
Definition last (l : rlist) : res Z := if count l =? 0 then Ok 0 else n <- ld l (rear l) ;; Ok (prev n).

(** rt_linked_fixalloc_remove, rt_linked.h:126-147 *)
Definition remove_node (l : rlist) (node : Z) : res rlist :=
  if node =? 0 then Ok l
  else if node =? head l then '(_, l) <- pop l ;; Ok l
  else
    n <- ld l node ;;
    l <- set_succ l (prev n) (succ n) ;;
    l <- set_prev l (succ n) (prev n) ;;
    free (set_count l (count l - 1)) node.

(** the i-th node from the front, as a caller finds it by following succ *)
Fixpoint node_at (l : rlist) (a : Z) (i : nat) : res Z :=
  match i with O => Ok a | S i => n <- ld l a ;; node_at l (succ n) i end.

(** gc_work's walk over the list of coroutines, runtime/collector.c:777-796: remove the nodes whose value is [dead],
    collect the others.  The walk stops at a node without value. *)
Fixpoint walk (fuel : nat) (dead : Z -> bool) (l : rlist) (current : Z) : res (list Z * rlist) :=
  match fuel with
  | O => NoFuel
  | S fuel =>
      n <- ld l current ;;
      if value n =? 0 then Ok ([], l)
      else if dead (value n) then
        l <- remove_node l current ;;
        walk fuel dead l (succ n)
      else
        '(vs, l) <- walk fuel dead l (succ n) ;; Ok (value n :: vs, l)
  end.

Inductive op := Push (a v : Z) | PushHead (a v : Z) | Pop | RemoveAt (i : nat) | First | Last | Sweep (dead : Z -> bool).

Definition val_of (l : rlist) (a : Z) : res Z := if a =? 0 then Ok 0 else n <- ld l a ;; Ok (value n).

Definition step (l : rlist) (o : op) : res (list Z * rlist) :=
  match o with
  | Push a v => l <- push l a v ;; Ok ([], l)
  | PushHead a v => l <- push_head l a v ;; Ok ([], l)
  | Pop => '(v, l) <- pop l ;; Ok ([v], l)
  | RemoveAt i => a <- node_at l (head l) i ;; l <- remove_node l a ;; Ok ([], l)
  | First => v <- val_of l (first l) ;; Ok ([v], l)
  | Last => a <- last l ;; v <- val_of l a ;; Ok ([v], l)
  | Sweep dead => walk (S (Z.to_nat (count l))) dead l (head l)
  end.
Fixpoint run (l : rlist) (os : list op) : res (list (list Z) * rlist) :=
  match os with
  | [] => Ok ([], l)
  | o :: os => '(out, l) <- step l o ;; '(outs, l) <- run l os ;; Ok (out :: outs, l)
  end.
