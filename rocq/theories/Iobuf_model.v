(** std/io/io.n:17-91: io.buffer, an in-memory queue of bytes, over the vectors of Vec_model.

    The program that uses the buffer owns numbered byte vectors; the heap of blocks is shared, so
    the buffer could in principle see or damage them. *)
From Verif Require Import Base Vec_model.

Notation bvec := Vec_model.vec (only parsing).

(** io.n:17-20, with the memory and the vectors of the calling program *)
Record bstate := mk_bstate { bmem : @heap Z; bbuf : bvec; boffset : Z; bvars : list bvec }.

(** io.n:22-24 buffer.new: the fields start as an empty vector and zero *)
Definition binit : bstate := mk_bstate [] (mk_vec None 0 0 0) 0 [].

Inductive bop :=
| BMake (l : list Z)              (* the program makes a vector holding [l] *)
| BSet (v : nat) (i : Z) (x : Z)  (* the program stores into one of its vectors *)
| BWrite (v : nat)
| BWriteByte (x : Z)
| BRead (v : nat)
| BReadAll                        (* the result becomes a new vector of the program *)
| BTruncate (n : Z)
| BReset
| BLen
| BEmpty.

Inductive bobs := BDone | BNum (n : Z) | BThrown.

(** io.n:56-58 empty *)
Definition is_empty (s : bstate) : bool := len (bbuf s) <=? boffset s.

(** io.n:60-62 len *)
Definition blen (s : bstate) : Z := len (bbuf s) - boffset s.

(** io.n:81-84 reset *)
Definition reset (s : bstate) : res bstate :=
  v <- vec_slice (bbuf s) 0 0 ;; Ok (mk_bstate (bmem s) v 0 (bvars s)).

(** io.n:26-29 write *)
Definition bwrite (s : bstate) (v : bvec) : res (bstate * bobs) :=
  ' (h, b) <- vec_append 0 (bmem s) (bbuf s) v ;;
  Ok (mk_bstate h b (boffset s) (bvars s), BNum (len v)).

(** io.n:31-34 write_byte *)
Definition bwrite_byte (s : bstate) (x : Z) : res (bstate * bobs) :=
  ' (h, b) <- vec_push 0 (bmem s) (bbuf s) x ;;
  Ok (mk_bstate h b (boffset s) (bvars s), BNum (len b)).

(** io.n:37-54 read *)
Definition bread (s : bstate) (v : bvec) : res (bstate * bobs) :=
  if is_empty s then
    s <- reset s ;;
    if len v =? 0 then Ok (s, BNum 0) else Ok (s, BThrown)
  else
    src <- vec_slice (bbuf s) (boffset s) (len (bbuf s)) ;;
    ' (h, n) <- vec_copy (bmem s) v src ;;
    Ok (mk_bstate h (bbuf s) (boffset s + n) (bvars s), BNum n).

(** io.n:86-95 read_all *)
Definition bread_all (s : bstate) : res (bstate * bobs) :=
  if is_empty s then Ok (mk_bstate (bmem s) (bbuf s) (boffset s) (bvars s ++ [mk_vec None 0 0 0]), BDone)
  else
    result <- vec_slice (bbuf s) (boffset s) (len (bbuf s)) ;;
    s <- reset s ;;
    Ok (mk_bstate (bmem s) (bbuf s) (boffset s) (bvars s ++ [result]), BDone).

(** io.n:68-79 truncate; a panic is observed as a throw *)
Definition btruncate (s : bstate) (n : Z) : res (bstate * bobs) :=
  if n =? 0 then s <- reset s ;; Ok (s, BDone)
  else if (n <? 0) || (blen s <? n) then Ok (s, BThrown)
  else v <- vec_slice (bbuf s) 0 (boffset s + n) ;; Ok (mk_bstate (bmem s) v (boffset s) (bvars s), BDone).

Definition bvar (s : bstate) (v : nat) : res bvec :=
  match nth_error (bvars s) v with Some a => Ok a | None => UB end.

Definition bstep (s : bstate) (o : bop) : res (bstate * bobs) :=
  match o with
  | BMake l => Ok (mk_bstate (bmem s ++ [l]) (bbuf s) (boffset s)
                     (bvars s ++ [mk_vec (Some (length (bmem s))) 0 (zlen l) (zlen l)]), BDone)
  | BSet v i x =>
      a <- bvar s v ;;
      match vec_set (bmem s) a i x with
      | Ok h => Ok (mk_bstate h (bbuf s) (boffset s) (bvars s), BDone)
      | Throw | Panic => Ok (s, BThrown)
      | Abort => Abort
      | UB => UB
      | NoFuel => NoFuel
      end
  | BWrite v => a <- bvar s v ;; bwrite s a
  | BWriteByte x => bwrite_byte s x
  | BRead v => a <- bvar s v ;; bread s a
  | BReadAll => bread_all s
  | BTruncate n => btruncate s n
  | BReset => s <- reset s ;; Ok (s, BDone)
  | BLen => Ok (s, BNum (blen s))
  | BEmpty => Ok (s, BNum (if is_empty s then 1 else 0))
  end.

Fixpoint brun (s : bstate) (l : list bop) : res (bstate * list bobs) :=
  match l with
  | [] => Ok (s, [])
  | o :: t => ' (s, x) <- bstep s o ;; ' (s, xs) <- brun s t ;; Ok (s, x :: xs)
  end.
