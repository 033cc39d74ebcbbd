(** std/http/client.n:434-541: chunked_reader_t, the decoder of chunked response bodies, on top of
    the buffered reader of Bufio_model; and 402-424, the part of response_t.text that reads a
    chunked body. *)
From Verif Require Import Base Strings_model Bufio_model.

(** client.n:437-444; state: 0 size line, 1 data, 2 line end after data, 3 trailers, 4 done *)
Record creader := mk_creader { br : reader; staging : list Z; s_r : Z; s_w : Z; state : Z; remaining : Z }.

(** client.n:446-448 new, with 439: the staging vector has [k] zero bytes (4096 in the program) *)
Definition new_chunked (k : nat) (rd : reader) : creader := mk_creader rd (repeat 0 k) 0 0 0 0.

(** client.n:452-462 one turn of hex_to_int; `int` is 64 bits wide *)
Definition hex_step (result c : Z) : Z :=
  let result := i64 (result * 16) in
  if (48 <=? c) && (c <=? 57) then i64 (result + (c - 48))
  else if (97 <=? c) && (c <=? 102) then i64 (result + (c - 97 + 10))
  else if (65 <=? c) && (c <=? 70) then i64 (result + (c - 65 + 10))
  else result.

(** client.n:450-464 hex_to_int *)
Definition hex_to_int (s : list Z) : Z := fold_left hex_step s 0.

(** client.n:470-475 the number a size line stands for *)
Definition size_of_line (line : list Z) : res Z :=
  semi <- find line [59] ;;
  line <- (if 0 <? semi then slice line 0 semi else Ok line) ;;
  t <- trim line [[32]; [9]] ;;
  Ok (hex_to_int t).

Definition set_br (c : creader) (rd : reader) : creader := mk_creader rd (staging c) (s_r c) (s_w c) (state c) (remaining c).
Definition set_state (c : creader) (st : Z) : creader := mk_creader (br c) (staging c) (s_r c) (s_w c) st (remaining c).
Definition set_remaining (c : creader) (n : Z) : creader := mk_creader (br c) (staging c) (s_r c) (s_w c) (state c) n.
Definition set_staging (c : creader) (b : list Z) (r w : Z) : creader := mk_creader (br c) b r w (state c) (remaining c).

(** client.n:466-520 fill_staging.  The inner loop of state 3 is written as further turns of the
    outer loop.  A negative count makes the slice of line 488 panic. *)
Fixpoint fill_staging (fuel : nat) (c : creader) : creader * ans unit :=
  match fuel with
  | O => (c, Pan)
  | S f =>
      if state c =? 0 then
        match read_line (br c) with
        | (rd, Ret line) =>
            match size_of_line line with
            | Ok n => fill_staging f (set_state (set_remaining (set_br c rd) n) (if n =? 0 then 3 else 1))
            | _ => (set_br c rd, Pan)
            end
        | (rd, Exc e) => (set_br c rd, Exc e)
        | (rd, Pan) => (set_br c rd, Pan)
        end
      else if state c =? 1 then
        let want := if zlen (staging c) <? remaining c then zlen (staging c) else remaining c in
        if want <? 0 then (c, Pan)
        else
          match read (br c) want with
          | (rd, Ret b) =>
              let c := set_staging (set_br c rd) (put_bytes (staging c) 0 b) 0 (zlen b) in
              let c := set_remaining c (remaining c - zlen b) in
              ((if remaining c =? 0 then set_state c 2 else c), Ret tt)
          | (rd, Exc e) => (set_br c rd, Exc e)
          | (rd, Pan) => (set_br c rd, Pan)
          end
      else if state c =? 2 then
        match read_line (br c) with
        | (rd, Ret _) => fill_staging f (set_state (set_br c rd) 0)
        | (rd, Exc e) => (set_br c rd, Exc e)
        | (rd, Pan) => (set_br c rd, Pan)
        end
      else if state c =? 3 then
        match read_line (br c) with
        | (rd, Ret line) => fill_staging f (set_state (set_br c rd) (match line with [] => 4 | _ => 3 end))
        | (rd, Exc e) => (set_br c rd, Exc e)
        | (rd, Pan) => (set_br c rd, Pan)
        end
      else (c, Exc true)
  end.

(** Every turn of the loop but the last consumes a byte that is buffered or still to come. *)
Definition bytes_left (rd : reader) : nat :=
  Z.to_nat (w rd - r rd) + length (concat (map (fun e => match e with Data b => b | _ => [] end) (src rd))).

(** client.n:522-539 read into a vector of [n] bytes *)
Definition cread (c : creader) (n : Z) : creader * ans (list Z) :=
  if n =? 0 then (c, if s_r c <? s_w c then Ret [] else Exc true)
  else
    match (if s_r c =? s_w c
           then let c := set_staging c (staging c) 0 0 in fill_staging (bytes_left (br c) + 2) c
           else (c, Ret tt)) with
    | (c, Ret _) =>
        let k := if s_w c - s_r c <? n then s_w c - s_r c else n in
        (set_staging c (staging c) (s_r c + k) (s_w c), Ret (sub_list (staging c) (s_r c) (s_r c + k)))
    | (c, Exc e) => (c, Exc e)
    | (c, Pan) => (c, Pan)
    end.

(** client.n:411-422: the loop of text.  The buffered reader in front of the chunked reader is
    empty at every turn and the vector is as long as its buffer, so that it passes the call on
    (buf.n:77-78). *)
Fixpoint text_loop (fuel : nat) (c : creader) (body : list Z) : ans (list Z) :=
  match fuel with
  | O => Pan
  | S f =>
      match cread c 4096 with
      | (c, Ret b) => text_loop f c (body ++ b)
      | (_, Exc _) => Ret body
      | (_, Pan) => Pan
      end
  end.

(** client.n:402-424 text of a chunked response.  Every turn but the last yields a byte or uses up
    an answer of the network. *)
Definition text_chunked (c : creader) : ans (list Z) :=
  text_loop (bytes_left (br c) + length (src (br c)) + 2) c [].
