(** Model of the locks of rt_chan_select: the order in which the channels are locked and unlocked,
    runtime/rt_chan.c:440-480 and 497-560.

    [cases] are the addresses of the channels of the cases (cases[i].chan); none is NULL: a NULL channel
    fails the assertion at rt_chan.c:567.  Indices are int16_t; an index is wrapped where the code computes
    one that may not fit. *)
From Verif Require Import Base Zlist.

(** conversion to int16_t *)
Definition i16 (z : Z) : Z := (z + 32768) mod 65536 - 32768.

(** rt_chan.c:497-509: pollorder; [rnd i] is the value of rand() for case i *)
Fixpoint poll (rnd : Z -> Z) (po : list Z) (i : Z) (n : nat) : res (list Z) :=
  match n with
  | O => Ok po
  | S n =>
      let j := rnd i mod (i + 1) in
      x <- rd po j ;;
      po <- wr po i x ;;
      po <- wr po j i ;;
      poll rnd po (i + 1) n
  end.

(** rt_chan.c:516-520: the while loop *)
Fixpoint up (fuel : nat) (cases lo : list Z) (j chan : Z) : res (list Z * Z) :=
  match fuel with
  | O => NoFuel
  | S fuel =>
      if 0 <? j then
        let k := (j - 1) / 2 in
        o <- rd lo k ;;
        c <- rd cases o ;;
        if c <? chan then lo <- wr lo j o ;; up fuel cases lo k chan
        else Ok (lo, j)
      else Ok (lo, j)
  end.
(** rt_chan.c:512-523 *)
Fixpoint build (cases po lo : list Z) (i : Z) (n : nat) : res (list Z) :=
  match n with
  | O => Ok lo
  | S n =>
      p <- rd po i ;;
      chan <- rd cases p ;;
      ' (lo, j) <- up (S (Z.to_nat i)) cases lo i chan ;;
      lo <- wr lo j p ;;
      build cases po lo (i + 1) n
  end.

(** rt_chan.c:530-544: the while loop *)
Fixpoint down (fuel : nat) (cases lo : list Z) (j i chan : Z) : res (list Z * Z) :=
  match fuel with
  | O => NoFuel
  | S fuel =>
      let k := i16 (j * 2 + 1) in
      if i <=? k then Ok (lo, j)
      else
        k <- (if k + 1 <? i then
                a <- rd lo k ;; ca <- rd cases a ;;
                b <- rd lo (k + 1) ;; cb <- rd cases b ;;
                Ok (if ca <? cb then k + 1 else k)
              else Ok k) ;;
        a <- rd lo k ;; ca <- rd cases a ;;
        if chan <? ca then lo <- wr lo j a ;; down fuel cases lo k i chan
        else Ok (lo, j)
  end.
(** rt_chan.c:525-547; [n] is i + 1 *)
Fixpoint extract (cases lo : list Z) (n : nat) : res (list Z) :=
  match n with
  | O => Ok lo
  | S m =>
      let i := Z.of_nat m in
      o <- rd lo i ;;
      chan <- rd cases o ;;
      z <- rd lo 0 ;;
      lo <- wr lo i z ;;
      ' (lo, j) <- down n cases lo 0 i chan ;;
      lo <- wr lo j o ;;
      extract cases lo m
  end.

(** rt_chan.c:492-547: lockorder *)
Definition lockorder (cases : list Z) (rnd : Z -> Z) : res (list Z) :=
  let n := length cases in
  po <- poll rnd (repeat 0 n) 0 n ;;
  lo <- build cases po (repeat 0 n) 0 n ;;
  extract cases lo n.

(** sellock, rt_chan.c:440-449: the mutexes locked, in order; [c] is the last one, 0 for NULL *)
Fixpoint sellock (cases lo : list Z) (c : Z) : res (list Z) :=
  match lo with
  | [] => Ok []
  | o :: lo =>
      c0 <- rd cases o ;;
      if c0 =? c then sellock cases lo c
      else ls <- sellock cases lo c0 ;; Ok (c0 :: ls)
  end.
(** selunlock, rt_chan.c:452-461: the mutexes unlocked, in order; [n] is i + 1 *)
Fixpoint selunlock (cases lo : list Z) (n : nat) : res (list Z) :=
  match n with
  | O => Ok []
  | S m =>
      let i := Z.of_nat m in
      o <- rd lo i ;;
      chan <- rd cases o ;;
      skip <- (if 0 <? i then p <- rd lo (i - 1) ;; c <- rd cases p ;; Ok (chan =? c) else Ok false) ;;
      us <- selunlock cases lo m ;;
      Ok (if skip : bool then us else chan :: us)
  end.
(** what select locks, and what the exits through selunlock (rt_chan.c:600, 694-760) unlock *)
Definition locking (cases : list Z) (rnd : Z -> Z) : res (list Z * list Z) :=
  lo <- lockorder cases rnd ;;
  ls <- sellock cases lo 0 ;;
  us <- selunlock cases lo (length lo) ;;
  Ok (ls, us).

(** selpark_commit, rt_chan.c:464-480: what parking unlocks; co->waiting lists the cases in their order *)
Fixpoint park_commit (lastc : Z) (cases : list Z) : list Z :=
  match cases with
  | [] => if lastc =? 0 then [] else [lastc]
  | c :: cases => (if negb (c =? lastc) && negb (lastc =? 0) then [lastc] else []) ++ park_commit c cases
  end.

(** Several tasks taking locks: for each, the locks it holds and those it has still to take, in order. *)
Definition tasks := list (list Z * list Z).
Definition held_by_some (ts : tasks) (a : Z) : bool := existsb (fun t => existsb (Z.eqb a) (fst t)) ts.
