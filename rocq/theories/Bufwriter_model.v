(** std/io/buf.n:202-322: the buffered writer.

    The underlying writer is a list of what its next calls do with the bytes they are given:
    [Accept k] takes the first [k] of them (all of them if there are fewer) and returns how many it
    took; [Refuse k] takes the first [k] and throws.  When the list is used up every call takes
    everything.  A writer that returns a negative count, or a count other than what it took, is
    not modelled.  [sink] is every byte the underlying writer has taken. *)
From Verif Require Import Base.

Inductive wevent := Accept (k : nat) | Refuse (k : nat).

(** How a call ended: a value, an error, or a panic. *)
Inductive wans (A : Type) := WRet (a : A) | WExc | WPan.
Arguments WRet {A}. Arguments WExc {A}. Arguments WPan {A}.

(** buf.n:202-207 *)
Record writer := mk_writer { sink : list Z; plan : list wevent; wbuf : list Z; wn : Z; werr : bool }.

(** buf.n:204: a new writer has a buffer of 4096 zero bytes; [size] is that size. *)
Definition new_writer (size : nat) (o : list wevent) : writer := mk_writer [] o (repeat 0 size) 0 false.

(** io.n:9-11 `write` of the underlying writer *)
Definition sink_write (wr : writer) (b : list Z) : writer * wans Z :=
  match plan wr with
  | [] => (mk_writer (sink wr ++ b) [] (wbuf wr) (wn wr) (werr wr), WRet (zlen b))
  | Accept k :: o => (mk_writer (sink wr ++ firstn k b) o (wbuf wr) (wn wr) (werr wr), WRet (zlen (firstn k b)))
  | Refuse k :: o => (mk_writer (sink wr ++ firstn k b) o (wbuf wr) (wn wr) (werr wr), WExc)
  end.

Definition set_err (wr : writer) : writer := mk_writer (sink wr) (plan wr) (wbuf wr) (wn wr) true.
Definition set_wbuf (wr : writer) (b : list Z) (n : Z) : writer := mk_writer (sink wr) (plan wr) b n (werr wr).

(** buf.n:225-227 available *)
Definition available (wr : writer) : Z := zlen (wbuf wr) - wn wr.

(** buf.n:244-258 the loop of flush *)
Fixpoint flush_loop (fuel : nat) (wr : writer) (written : Z) : writer * wans unit :=
  match fuel with
  | O => (wr, WPan)
  | S f =>
      if written <? wn wr then
        match sink_write wr (sub_list (wbuf wr) written (wn wr)) with
        | (wr, WRet n) => flush_loop f wr (written + n)
        | (wr, WExc) => (set_err wr, WExc)
        | (wr, WPan) => (wr, WPan)
        end
      else (set_wbuf wr (wbuf wr) 0, WRet tt)
  end.

(** buf.n:235-260 flush.  Every turn writes a byte or uses up an answer of the underlying writer. *)
Definition flush (wr : writer) : writer * wans unit :=
  if werr wr then (wr, WExc)
  else if wn wr =? 0 then (wr, WRet tt)
  else flush_loop (Z.to_nat (wn wr) + length (plan wr) + 1) wr 0.

(** vec.c:445-454: copying [d] to position [o] of the internal buffer *)
Definition store (l : list Z) (o : Z) (d : list Z) : list Z :=
  firstn (Z.to_nat o) l ++ d ++ skipn (Z.to_nat (o + zlen d)) l.

(** buf.n:270-306 the loop of write; [b] is the bytes not yet written *)
Fixpoint write_loop (fuel : nat) (wr : writer) (b : list Z) : writer * wans unit :=
  match fuel with
  | O => (wr, WPan)
  | S f =>
      match b with
      | [] => (wr, WRet tt)
      | _ =>
          match (if available wr =? 0 then flush wr else (wr, WRet tt)) with
          | (wr, WRet _) =>
              if (zlen (wbuf wr) <=? zlen b) && (wn wr =? 0) then
                match sink_write wr b with
                | (wr, WRet n) => write_loop f wr (skipn (Z.to_nat n) b)
                | (wr, WExc) => (set_err wr, WExc)
                | (wr, WPan) => (wr, WPan)
                end
              else
                let to_copy := if available wr <? zlen b then available wr else zlen b in
                write_loop f (set_wbuf wr (store (wbuf wr) (wn wr) (firstn (Z.to_nat to_copy) b)) (wn wr + to_copy))
                  (skipn (Z.to_nat to_copy) b)
          | (wr, WExc) => (wr, WExc)
          | (wr, WPan) => (wr, WPan)
          end
      end
  end.

(** buf.n:263-309 write *)
Definition write (wr : writer) (b : list Z) : writer * wans Z :=
  if werr wr then (wr, WExc)
  else match write_loop (length b + length (plan wr) + 1) wr b with
       | (wr, WRet _) => (wr, WRet (zlen b))
       | (wr, WExc) => (wr, WExc)
       | (wr, WPan) => (wr, WPan)
       end.

(** buf.n:312-323 write_byte *)
Definition write_byte (wr : writer) (c : Z) : writer * wans unit :=
  if werr wr then (wr, WExc)
  else match (if available wr =? 0 then flush wr else (wr, WRet tt)) with
       | (wr, WRet _) =>
           match set_at (wbuf wr) (wn wr) c with
           | Ok b => (set_wbuf wr b (wn wr + 1), WRet tt)
           | _ => (wr, WPan)
           end
       | (wr, WExc) => (wr, WExc)
       | (wr, WPan) => (wr, WPan)
       end.
