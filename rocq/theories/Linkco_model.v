(** Model of the list of waiting coroutines used by the mutex (runtime/linkco.h) and of the caches its nodes come from
    (runtime/linkco.c), at the level of nodes and pointers.

    - Addresses are integers, 0 is NULL.  A new node comes zeroed from the garbage-collected heap; its address is an
      argument.  Write barriers are plain writes here (see the collector's model for what they add).
    - A processor's cache (an array used as a stack) is a list with the top first.  Writing past the array is UB.
    - Assertions give Panic (they are compiled out in releases, where the code would go on with a broken list).
    - Each operation runs under the locks of its list and of the global cache, so it is one step. *)
From Verif Require Import Base Base_lemmas.

(** linkco_t, runtime/runtime.h; data is not used here *)
Record lk := mk_lk { co : Z; nx : Z; pv : Z }.
(** rt_linkco_list_t, linkco.h:15-20 *)
Record lst := mk_lst { lhead : Z; lrear : Z; lcount : Z }.
Record pool := mk_pool { mem : Z -> lk; caches : list (list Z); global : Z; lists : list lst }.

Definition upd (m : Z -> lk) (a : Z) (n : lk) : Z -> lk := fun b => if b =? a then n else m b.
Definition set_mem (s : pool) m := mk_pool m (caches s) (global s) (lists s).
Definition set_cache (s : pool) p c := mk_pool (mem s) (list_set (caches s) p c) (global s) (lists s).
Definition set_global (s : pool) g := mk_pool (mem s) (caches s) g (lists s).
Definition set_list (s : pool) i l := mk_pool (mem s) (caches s) (global s) (list_set (lists s) i l).
(** reading or writing a field through NULL is UB *)
Definition get (s : pool) (a : Z) : res lk := if a =? 0 then UB else Ok (mem s a).
Definition put (s : pool) (a : Z) (n : lk) : res pool := if a =? 0 then UB else Ok (set_mem s (upd (mem s) a n)).
Definition set_nx (s : pool) a v := n <- get s a ;; put s a (mk_lk (co n) v (pv n)).
Definition set_pv (s : pool) a v := n <- get s a ;; put s a (mk_lk (co n) (nx n) v).
Definition set_co (s : pool) a v := n <- get s a ;; put s a (mk_lk v (nx n) (pv n)).

(** runtime.h:78 *)
Definition CACHE_MAX : nat := 128.
Definition HALF : nat := 64.

Definition cache_of (s : pool) (p : nat) : res (list Z) :=
  match nth_error (caches s) p with Some c => Ok c | None => UB end.
(** p->linkco_cache[p->linkco_count++] = x *)
Definition cache_push (s : pool) (p : nat) (x : Z) : res pool :=
  c <- cache_of s p ;;
  if (length c <? CACHE_MAX)%nat then Ok (set_cache s p (x :: c)) else UB.

(** the loop at linkco.c:11-21; [k] rounds at most *)
Fixpoint borrow (k : nat) (s : pool) (p : nat) : res pool :=
  match k with
  | O => Ok s
  | S k =>
      if global s =? 0 then Ok s
      else
        let x := global s in
        n <- get s x ;;
        s <- set_nx (set_global s (nx n)) x 0 ;;
        s <- cache_push s p x ;;
        borrow k s p
  end.

(** rti_acquire_linkco, linkco.c:4-42; [fresh] is what the heap returns if asked *)
Definition acquire (s : pool) (p : nat) (fresh : Z) : res (Z * pool) :=
  c <- cache_of s p ;;
  s <- (match c with [] => borrow HALF s p | _ => Ok s end) ;;
  c <- cache_of s p ;;
  s <- (match c with [] => cache_push (set_mem s (upd (mem s) fresh (mk_lk 0 0 0))) p fresh | _ => Ok s end) ;;
  c <- cache_of s p ;;
  match c with
  | [] => UB
  | x :: c =>
      n <- get s x ;;
      if (pv n =? 0) && (nx n =? 0) then Ok (x, set_cache s p c) else Panic
  end.

(** the loop at linkco.c:57-69: give back the top entries; [k] of them *)
Fixpoint give_back (k : nat) (s : pool) (p : nat) (first last : Z) : res (Z * Z * pool) :=
  match k with
  | O => Ok (first, last, s)
  | S k =>
      c <- cache_of s p ;;
      match c with
      | [] => UB
      | x :: c =>
          let s := set_cache s p c in
          if first =? 0 then give_back k s p x x
          else s <- set_nx s last x ;; give_back k s p first x
      end
  end.

(** rti_release_linkco, linkco.c:44-80 *)
Definition release (s : pool) (p : nat) (x : Z) : res pool :=
  n <- get s x ;;
  if negb ((pv n =? 0) && (nx n =? 0)) then Panic
  else
    s <- set_co s x 0 ;;
    c <- cache_of s p ;;
    s <- (if (length c =? CACHE_MAX)%nat then
            '(first, last, s) <- give_back (CACHE_MAX - HALF) s p 0 0 ;;
            s <- set_nx s last (global s) ;;
            Ok (set_global s first)
          else Ok s) ;;
    cache_push s p x.

Definition list_of (s : pool) (i : nat) : res lst :=
  match nth_error (lists s) i with Some l => Ok l | None => UB end.

(** linkco_list_push, linkco.h:23-52 *)
Definition push (s : pool) (p i : nat) (fresh v : Z) : res pool :=
  '(x, s) <- acquire s p fresh ;;
  s <- set_co s x v ;;
  l <- list_of s i ;;
  if lhead l =? 0 then
    if lrear l =? 0 then Ok (set_list s i (mk_lst x x (lcount l + 1))) else Panic
  else if lrear l =? 0 then Panic
  else
    s <- set_nx s (lrear l) x ;;
    s <- set_pv s x (lrear l) ;;
    Ok (set_list s i (mk_lst (lhead l) x (lcount l + 1))).

(** linkco_list_push_head, linkco.h:96-115 *)
Definition push_head (s : pool) (p i : nat) (fresh v : Z) : res pool :=
  '(x, s) <- acquire s p fresh ;;
  s <- set_co s x v ;;
  l <- list_of s i ;;
  if lhead l =? 0 then
    if lrear l =? 0 then Ok (set_list s i (mk_lst x x (lcount l + 1))) else Panic
  else
    s <- set_nx s x (lhead l) ;;
    s <- set_pv s (lhead l) x ;;
    Ok (set_list s i (mk_lst x (lrear l) (lcount l + 1))).

(** linkco_list_pop, linkco.h:55-87; 0 is NULL *)
Definition pop (s : pool) (p i : nat) : res (Z * pool) :=
  l <- list_of s i ;;
  if lhead l =? 0 then if lrear l =? 0 then Ok (0, s) else Panic
  else
    n <- get s (lhead l) ;;
    if co n =? 0 then Panic
    else
      s <- (if nx n =? 0 then
              if lcount l =? 1 then Ok (set_list s i (mk_lst 0 0 (lcount l - 1))) else Panic
            else
              s <- set_pv s (nx n) 0 ;;
              Ok (set_list s i (mk_lst (nx n) (lrear l) (lcount l - 1)))) ;;
      n' <- get s (lhead l) ;;
      s <- set_nx s (lhead l) 0 ;;
      s <- release s p (lhead l) ;;
      Ok (co n', s).

Inductive op := Push (p i : nat) (fresh v : Z) | PushHead (p i : nat) (fresh v : Z) | Pop (p i : nat).
Definition step (s : pool) (o : op) : res (option Z * pool) :=
  match o with
  | Push p i a v => s <- push s p i a v ;; Ok (None, s)
  | PushHead p i a v => s <- push_head s p i a v ;; Ok (None, s)
  | Pop p i => '(v, s) <- pop s p i ;; Ok (Some v, s)
  end.
Fixpoint run (s : pool) (os : list op) : res (list (option Z) * pool) :=
  match os with
  | [] => Ok ([], s)
  | o :: os => '(v, s) <- step s o ;; '(vs, s) <- run s os ;; Ok (v :: vs, s)
  end.
(** [np] processors with empty caches, [nl] empty lists *)
Definition init (np nl : nat) : pool := mk_pool (fun _ => mk_lk 0 0 0) (repeat [] np) 0 (repeat (mk_lst 0 0 0) nl).
