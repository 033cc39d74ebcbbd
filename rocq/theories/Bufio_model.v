(** std/io/buf.n:1-200: the buffered reader.

    The underlying reader is a list of what its next calls answer.  A call that offers room for
    [c] bytes gets [Data b]: all of [b] if it fits, and otherwise its first [c] bytes, the rest
    staying for the next call; [End] throws an error with message 'EOF'; [Fail] throws another
    error.  When the list is used up, every call throws 'EOF'.  An underlying reader that answers
    a negative count or more than it was offered is not modelled.

    [buf] is the contents of the internal vector; its storage never moves.  A vector returned by
    read_until shares that storage and is described by its bounds. *)
From Verif Require Import Base.

Inductive event := Data (b : list Z) | End | Fail.

(** How a call ended: a value, an error ([true] for message 'EOF'), or a panic. *)
Inductive ans (A : Type) := Ret (a : A) | Exc (eof_msg : bool) | Pan.
Arguments Ret {A}. Arguments Exc {A}. Arguments Pan {A}.

(** io.n:5-7 `read` of the underlying reader with a vector of [c] bytes *)
Definition src_read (src : list event) (c : Z) : list event * ans (list Z) :=
  match src with
  | [] => ([], Exc true)
  | Data b :: rest =>
      if zlen b <=? c then (rest, Ret b)
      else (Data (skipn (Z.to_nat c) b) :: rest, Ret (firstn (Z.to_nat c) b))
  | End :: rest => (rest, Exc true)
  | Fail :: rest => (rest, Exc false)
  end.

(** buf.n:3-9 *)
Record reader := mk_reader { src : list event; buf : list Z; r : Z; w : Z; eof : bool }.

(** buf.n:5: a new reader has a buffer of 4096 zero bytes; [n] is that size. *)
Definition new_reader (n : nat) (s : list event) : reader := mk_reader s (repeat 0 n) 0 0 false.

(** memmove of [d] to position [o] of the internal buffer (vec.c:445-454) *)
Definition put_bytes (l : list Z) (o : Z) (d : list Z) : list Z :=
  firstn (Z.to_nat o) l ++ d ++ skipn (Z.to_nat (o + zlen d)) l.

Definition set_eof (rd : reader) : reader := mk_reader (src rd) (buf rd) (r rd) (w rd) true.
Definition set_src (rd : reader) (s : list event) : reader := mk_reader s (buf rd) (r rd) (w rd) (eof rd).
Definition set_buf (rd : reader) (b : list Z) (r w : Z) : reader := mk_reader (src rd) b r w (eof rd).

(** buf.n:42-60: up to [n] attempts *)
Fixpoint fill_loop (n : nat) (rd : reader) : reader * ans unit :=
  match n with
  | O => (rd, Exc false)
  | S n =>
      match src_read (src rd) (zlen (buf rd) - w rd) with
      | (s, Ret b) =>
          let rd := set_buf (set_src rd s) (put_bytes (buf rd) (w rd) b) (r rd) (w rd + zlen b) in
          if 0 <? zlen b then (rd, Ret tt) else fill_loop n rd
      | (s, Exc e) => ((if e then set_eof (set_src rd s) else set_src rd s), Exc e)
      | (s, Pan) => (set_src rd s, Pan)
      end
  end.

(** buf.n:28-63 fill *)
Definition fill (rd : reader) : reader * ans unit :=
  let rd := if 0 <? r rd
            then set_buf rd (put_bytes (buf rd) 0 (sub_list (buf rd) (r rd) (w rd))) 0 (w rd - r rd)
            else rd in
  if zlen (buf rd) <=? w rd then (rd, Pan)
  else fill_loop 100 rd.

(** buf.n:105-107 buffered *)
Definition buffered (rd : reader) : Z := w rd - r rd.

(** buf.n:98-101: copy out of the internal buffer into a vector of [n] bytes *)
Definition take (rd : reader) (n : Z) : reader * ans (list Z) :=
  let k := if w rd - r rd <? n then w rd - r rd else n in
  (set_buf rd (buf rd) (r rd + k) (w rd), Ret (sub_list (buf rd) (r rd) (r rd + k))).

(** buf.n:66-102 read into a vector of [n] bytes; the value is the bytes stored at its start. *)
Definition read (rd : reader) (n : Z) : reader * ans (list Z) :=
  if n =? 0 then
    if 0 <? buffered rd then (rd, Ret []) else (set_eof rd, Exc true)
  else if r rd =? w rd then
    if zlen (buf rd) <=? n then
      match src_read (src rd) n with (s, a) => (set_src rd s, a) end
    else
      let rd := set_buf rd (buf rd) 0 0 in
      match src_read (src rd) (zlen (buf rd)) with
      | (s, Ret b) =>
          let rd := set_src rd s in
          if zlen b =? 0 then (set_eof rd, Exc true)
          else take (set_buf rd (put_bytes (buf rd) 0 b) 0 (zlen b)) n
      | (s, Exc e) => (set_src rd s, Exc e)
      | (s, Pan) => (set_src rd s, Pan)
      end
  else take rd n.

(** buf.n:115-121: position of the delimiter in a run of bytes *)
Fixpoint index_of (delim : Z) (l : list Z) : option Z :=
  match l with
  | [] => None
  | c :: l => if c =? delim then Some 0 else match index_of delim l with Some i => Some (i + 1) | None => None end
  end.

(** buf.n:113-155 the loop of read_until; the value is the bounds, in the internal buffer, of the
    vector returned. *)
Fixpoint until_loop (fuel : nat) (rd : reader) (delim : Z) (has_error : bool) : reader * ans (Z * Z) :=
  match fuel with
  | O => (rd, Pan)
  | S f =>
      match index_of delim (sub_list (buf rd) (r rd) (w rd)) with
      | Some i => (set_buf rd (buf rd) (r rd + (i + 1)) (w rd), Ret (r rd, r rd + i + 1))
      | None =>
          if has_error then (set_buf rd (buf rd) (w rd) (w rd), Ret (r rd, w rd))
          else if zlen (buf rd) <=? buffered rd then (set_buf rd (buf rd) (w rd) (w rd), Ret (0, zlen (buf rd)))
          else
            match fill rd with
            | (rd, Ret _) => until_loop f rd delim has_error
            | (rd, Exc _) => until_loop f (set_eof rd) delim true
            | (rd, Pan) => (rd, Pan)
            end
      end
  end.

(** buf.n:110-156 read_until.  Every turn but the last two adds a byte to the buffer. *)
Definition read_until (rd : reader) (delim : Z) : reader * ans (Z * Z) :=
  until_loop (length (buf rd) + 3) rd delim false.

(** The bytes a vector returned by read_until holds while the internal buffer holds [b]. *)
Definition view (b : list Z) (bounds : Z * Z) : list Z := sub_list b (fst bounds) (snd bounds).

(** buf.n:160-165 the loop of read_exact; [got] is what is stored in the caller's vector. *)
Fixpoint exact_loop (fuel : nat) (rd : reader) (n : Z) (got : list Z) : reader * ans unit * list Z :=
  match fuel with
  | O => (rd, Pan, got)
  | S f =>
      if zlen got <? n then
        match read rd (n - zlen got) with
        | (rd, Ret b) => exact_loop f rd n (got ++ b)
        | (rd, Exc e) => (rd, Exc e, got)
        | (rd, Pan) => (rd, Pan, got)
        end
      else (rd, Ret tt, got)
  end.

(** buf.n:159-165 read_exact.  Every turn stores a byte or uses up an answer of the underlying
    reader. *)
Definition read_exact (rd : reader) (n : Z) : reader * ans unit * list Z :=
  exact_loop (Z.to_nat n + length (src rd) + 1) rd n [].

(** buf.n:168-176 read_byte *)
Definition read_byte (rd : reader) : reader * ans Z :=
  let next (rd : reader) :=
    match at_ (buf rd) (r rd) with
    | Ok b => (set_buf rd (buf rd) (r rd + 1) (w rd), Ret b)
    | _ => (rd, Pan)
    end in
  if r rd =? w rd then
    match fill rd with
    | (rd, Ret _) => next rd
    | (rd, Exc e) => (rd, Exc e)
    | (rd, Pan) => (rd, Pan)
    end
  else next rd.

(** buf.n:192-197 *)
Definition chop (c : Z) (l : list Z) : bool * list Z :=
  match rev l with
  | x :: _ => if x =? c then (true, removelast l) else (false, l)
  | [] => (false, l)
  end.

(** buf.n:179-200 read_line.  `bytes as string` copies the bytes. *)
Definition read_line (rd : reader) : reader * ans (list Z) :=
  if eof rd then (rd, Exc true)
  else
    match read_until rd 10 with
    | (rd, Ret bounds) =>
        let bytes := view (buf rd) bounds in
        if eof rd && (zlen bytes =? 0) then (rd, Exc true)
        else
          let '(nl, bytes) := chop 10 bytes in
          (rd, Ret (if nl : bool then snd (chop 13 bytes) else bytes))
    | (rd, Exc e) => (rd, Exc e)
    | (rd, Pan) => (rd, Pan)
    end.
