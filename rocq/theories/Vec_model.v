(** Model of vectors, runtime/nutils/vec.c, std/builtin/vec.n and the index code emitted by
    src/linear.c.

    A vector is a header (n_vec_t, utils/type.h:481-488) pointing into a block of storage.
    Headers are values: assigning a vector or slicing it copies the header and shares the
    block.  A block is a list of elements; a pointer is a block number and an element offset.
    Any access outside a block is UB.  The allocator field (vec.n:17, vectors with a user
    allocator) is not modelled, nor is the write barrier, which does not change contents. *)
From Verif Require Import Base.

Section vec.
Context {A : Type}.
(** What fresh memory reads as: the allocator returns zeroed memory. *)
Variable zero : A.
(** storage_size of the element type, in bytes. *)
Variable element_size : Z.

(** utils/type.h:481-488; element_size and hash are fixed by the type. *)
Record vec := mk_vec { blk : option nat; off : Z; len : Z; cap : Z }.

Definition heap := list (list A).

(** memmove from storage: read [n] elements at pointer (b, o).  Nothing is accessed for n = 0. *)
Definition load (h : heap) (b : option nat) (o n : Z) : res (list A) :=
  if n =? 0 then Ok []
  else match b with
       | None => UB
       | Some b =>
           match nth_error h b with
           | None => UB
           | Some block =>
               if (0 <=? o) && (0 <=? n) && (o + n <=? zlen block) then Ok (sub_list block o (o + n)) else UB
           end
       end.

Definition splice (block : list A) (o : Z) (d : list A) : list A :=
  firstn (Z.to_nat o) block ++ d ++ skipn (Z.to_nat (o + zlen d)) block.

(** memmove into storage. *)
Definition store (h : heap) (b : option nat) (o : Z) (d : list A) : res heap :=
  if zlen d =? 0 then Ok h
  else match b with
       | None => UB
       | Some b =>
           match nth_error h b with
           | None => UB
           | Some block =>
               if (0 <=? o) && (o + zlen d <=? zlen block) then Ok (list_set h b (splice block o d)) else UB
           end
       end.

(** nutils/array.h:9-29 rti_array_new.  The length parameter is uint64: a negative length is
    an enormous one, and the allocation cannot succeed. *)
Definition array_new (h : heap) (n : Z) : res (heap * nat) :=
  if n <? 0 then Abort else Ok (h ++ [repeat zero (Z.to_nat n)], length h).

(** The C conversion of an int64 argument to the `int` parameter of rti_vec_grow. *)
Definition i32 (z : Z) : Z := (z + 2147483648) mod 4294967296 - 2147483648.

(** vec.c:7-32 rti_vec_grow *)
Definition grow (h : heap) (v : vec) (custom : Z) : res (heap * vec) :=
  let c := if negb (custom =? 0) then custom
           else if 0 <? cap v then cap v * 2 else 8 in
  hb <- array_new h c ;;
  let '(h, b) := hb in
  h <- (if 0 <? len v then
          d <- load h (blk v) (off v) (len v) ;; store h (Some b) 0 d
        else Ok h) ;;
  Ok (h, mk_vec (Some b) 0 (len v) c).

(** vec.c:122-156 rt_vec_cap, called by vec.n:50-57 cap_of (a throw becomes a panic). *)
Definition vec_cap (h : heap) (capacity : Z) : res (heap * vec) :=
  if capacity <? 0 then Panic
  else if 0 <? capacity then
    hb <- array_new h capacity ;; let '(h, b) := hb in Ok (h, mk_vec (Some b) 0 0 capacity)
  else Ok (h, mk_vec None 0 0 0).

(** vec.c:73-120 rt_vec_new.  The default value is compared with an 8-byte zero over
    element_size bytes (vec.c:106-107): for larger elements that reads past the local
    variable. *)
Definition vec_new (h : heap) (length : Z) (x : A) : res (heap * vec) :=
  if length <? 0 then Panic
  else
    let capacity := if length =? 0 then 8 else length in
    hb <- array_new h capacity ;;
    let '(h, b) := hb in
    h <- (if 0 <? length then
            if 8 <? element_size then UB
            else store h (Some b) 0 (repeat x (Z.to_nat length))
          else Ok h) ;;
    Ok (h, mk_vec (Some b) 0 length capacity).

(** src/linear.c:295-360 linear_inline_vec_element_addr: unsigned comparison of the index with
    the length, then data + index * element_size.  An index outside throws. *)
Definition vec_get (h : heap) (v : vec) (i : Z) : res A :=
  if (0 <=? i) && (i <? len v) then
    d <- load h (blk v) (off v + i) 1 ;; at_ d 0
  else Throw.

(** src/linear.c:1127-1147 linear_vec_assign *)
Definition vec_set (h : heap) (v : vec) (i : Z) (x : A) : res heap :=
  if (0 <=? i) && (i <? len v) then store h (blk v) (off v + i) [x] else Throw.

(** vec.c:255-287 rt_vec_push, with vec.c:200-211 rti_vec_assign *)
Definition vec_push (h : heap) (v : vec) (x : A) : res (heap * vec) :=
  hv <- (if len v =? cap v then grow h v 0 else Ok (h, v)) ;;
  let '(h, v) := hv in
  h <- store h (blk v) (off v + len v) [x] ;;
  Ok (h, mk_vec (blk v) (off v) (len v + 1) (cap v)).

(** vec.c:297-332 rt_vec_slice; vec.n:112-117 turns the throw into a panic *)
Definition vec_slice (v : vec) (start stop : Z) : res vec :=
  let stop := if stop =? -1 then len v else stop in
  if (len v <? start) || (len v <? stop) || (start <? 0) || (stop <? 0) then Panic
  else if stop <? start then Panic
  else Ok (mk_vec (blk v) (off v + start) (stop - start) (stop - start)).

(** vec.c:335-346 rt_vec_append *)
Definition vec_append (h : heap) (dst src : vec) : res (heap * vec) :=
  hv <- (if cap dst <? len dst + len src then grow h dst (i32 (len dst + len src + 1)) else Ok (h, dst)) ;;
  let '(h, dst) := hv in
  d <- load h (blk src) (off src) (len src) ;;
  h <- store h (blk dst) (off dst + len dst) d ;;
  Ok (h, mk_vec (blk dst) (off dst) (len dst + len src) (cap dst)).

(** vec.c:355-373 rt_vec_concat *)
Definition vec_concat (h : heap) (a b : vec) : res (heap * vec) :=
  hv <- vec_cap h (len a + len b) ;;
  let '(h, m) := hv in
  d <- load h (blk a) (off a) (len a) ;;
  h <- store h (blk m) 0 d ;;
  d <- load h (blk b) (off b) (len b) ;;
  h <- store h (blk m) (len a) d ;;
  Ok (h, mk_vec (blk m) 0 (len a + len b) (cap m)).

(** vec.c:445-454 rt_vec_copy *)
Definition vec_copy (h : heap) (dst src : vec) : res (heap * Z) :=
  let n := if len src <? len dst then len src else len dst in
  if 0 <? n then
    d <- load h (blk src) (off src) n ;;
    h <- store h (blk dst) (off dst) d ;;
    Ok (h, n)
  else Ok (h, n).

(** A program over vector variables: variables are numbered in order of creation. *)
Inductive op :=
| ONew (n : Z) (x : A)           (* vec.new(x, n) into a new variable *)
| OCap (n : Z)                   (* vec.cap_of(n) into a new variable *)
| OPush (v : nat) (x : A)
| OAppend (v w : nat)
| OGet (v : nat) (i : Z)
| OSet (v : nat) (i : Z) (x : A)
| OSlice (v : nat) (s e : Z)     (* into a new variable *)
| OConcat (v w : nat)            (* into a new variable *)
| OCopy (v w : nat)              (* v.copy(w) *)
| OAssign (v : nat)              (* var new = v *)
| OLen (v : nat)
| OCapacity (v : nat).

Inductive obs := Done | Val (x : A) | Num (n : Z) | Thrown.

Record state := mk_state { mem : heap; vars : list vec }.

Definition init : state := mk_state [] [].

(** The variables named by an operation must exist. *)
Definition var (s : state) (v : nat) : res vec :=
  match nth_error (vars s) v with Some x => Ok x | None => UB end.

Definition add_var (hv : heap * vec) (s : state) : state :=
  mk_state (fst hv) (vars s ++ [snd hv]).

Definition set_var (v : nat) (hv : heap * vec) (s : state) : state :=
  mk_state (fst hv) (list_set (vars s) v (snd hv)).

(** A throw or panic is observed and changes nothing; UB and aborts end the program. *)
Definition guard (s : state) (r : res (state * obs)) : res (state * obs) :=
  match r with
  | Throw | Panic => Ok (s, Thrown)
  | r => r
  end.

Definition step (s : state) (o : op) : res (state * obs) :=
  match o with
  | ONew n x => guard s (hv <- vec_new (mem s) n x ;; Ok (add_var hv s, Done))
  | OCap n => guard s (hv <- vec_cap (mem s) n ;; Ok (add_var hv s, Done))
  | OPush v x => a <- var s v ;; guard s (hv <- vec_push (mem s) a x ;; Ok (set_var v hv s, Done))
  | OAppend v w =>
      a <- var s v ;; b <- var s w ;;
      guard s (hv <- vec_append (mem s) a b ;; Ok (set_var v hv s, Done))
  | OGet v i => a <- var s v ;; guard s (x <- vec_get (mem s) a i ;; Ok (s, Val x))
  | OSet v i x =>
      a <- var s v ;; guard s (h <- vec_set (mem s) a i x ;; Ok (mk_state h (vars s), Done))
  | OSlice v b e =>
      a <- var s v ;; guard s (w <- vec_slice a b e ;; Ok (add_var (mem s, w) s, Done))
  | OConcat v w =>
      a <- var s v ;; b <- var s w ;;
      guard s (hv <- vec_concat (mem s) a b ;; Ok (add_var hv s, Done))
  | OCopy v w =>
      a <- var s v ;; b <- var s w ;;
      guard s (hn <- vec_copy (mem s) a b ;; Ok (mk_state (fst hn) (vars s), Num (snd hn)))
  | OAssign v => a <- var s v ;; Ok (add_var (mem s, a) s, Done)
  | OLen v => a <- var s v ;; Ok (s, Num (len a))
  | OCapacity v => a <- var s v ;; Ok (s, Num (cap a))
  end.

Fixpoint run (s : state) (l : list op) : res (state * list obs) :=
  match l with
  | [] => Ok (s, [])
  | o :: t =>
      so <- step s o ;;
      let '(s, x) := so in
      st <- run s t ;;
      let '(s, xs) := st in
      Ok (s, x :: xs)
  end.

(** What a variable holds: its elements, read one index after another. *)
Definition view (h : heap) (v : vec) : list A :=
  match load h (blk v) (off v) (len v) with Ok l => l | _ => [] end.

Definition contents (s : state) : list (list A) := map (view (mem s)) (vars s).
End vec.
Arguments vec : clear implicits.
Arguments state : clear implicits.
Arguments op : clear implicits.
Arguments obs : clear implicits.
