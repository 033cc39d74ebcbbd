(** What reading from a stream of bytes is.  A client of the reader is a list of calls; each call
    is answered with something it can see, and takes a piece off the front of the stream. *)
From Verif Require Import Base Bufio_model.

(** The bytes the underlying reader still has to give. *)
Definition stream (s : list event) : list Z :=
  concat (map (fun e => match e with Data b => b | _ => [] end) s).

Inductive call := CRead (n : Z) | CExact (n : Z) | CByte | CUntil (delim : Z) | CLine.

(** What the program sees: bytes, or an error after bytes were stored in its vector. *)
Inductive seen := Bytes (b : list Z) | Error (stored : list Z) | Crash.

(** The call, the answer, and the piece of the stream they account for. *)
Inductive accounts : call -> seen -> list Z -> Prop :=
| acc_read n b : zlen b <= n -> accounts (CRead n) (Bytes b) b
| acc_read_error n : accounts (CRead n) (Error []) []
| acc_exact n b : zlen b = n -> accounts (CExact n) (Bytes b) b
| acc_exact_error n b : zlen b < n -> accounts (CExact n) (Error b) b
| acc_byte c : accounts CByte (Bytes [c]) [c]
| acc_byte_error : accounts CByte (Error []) []
| acc_until_found d l : ~ In d l -> accounts (CUntil d) (Bytes (l ++ [d])) (l ++ [d])
| acc_until_none d l : ~ In d l -> accounts (CUntil d) (Bytes l) l
| acc_line_lf l : ~ In 10 l -> (forall l', l <> l' ++ [13]) -> accounts CLine (Bytes l) (l ++ [10])
| acc_line_crlf l : ~ In 10 l -> accounts CLine (Bytes l) (l ++ [13; 10])
| acc_line_none l : ~ In 10 l -> accounts CLine (Bytes l) l
| acc_line_error : accounts CLine (Error []) [].

Inductive history : list call -> list seen -> list Z -> Prop :=
| history_nil : history [] [] []
| history_cons c s p cs ss rest : accounts c s p -> history cs ss rest -> history (c :: cs) (s :: ss) (p ++ rest).

(** The lines of a text: the last one may lack its line feed. *)
Inductive lines : list Z -> list (list Z) -> Prop :=
| lines_nil : lines [] []
| lines_last l : l <> [] -> ~ In 10 l -> lines l [l]
| lines_lf l t ls : ~ In 10 l -> (forall l', l <> l' ++ [13]) -> lines t ls -> lines (l ++ 10 :: t) (l :: ls)
| lines_crlf l t ls : ~ In 10 l -> lines t ls -> lines (l ++ 13 :: 10 :: t) (l :: ls).

(** ** A program that makes a list of calls *)

Definition answer {A} (show : A -> list Z) (q : reader * ans A) : reader * seen :=
  match q with (rd, Ret a) => (rd, Bytes (show a)) | (rd, Exc _) => (rd, Error []) | (rd, Pan) => (rd, Crash) end.

Definition serve (rd : reader) (c : call) : reader * seen :=
  match c with
  | CRead n => answer (fun b => b) (read rd n)
  | CExact n => match read_exact rd n with
                | (rd, Ret _, got) => (rd, Bytes got)
                | (rd, Exc _, got) => (rd, Error got)
                | (rd, Pan, _) => (rd, Crash)
                end
  | CByte => answer (fun c => [c]) (read_byte rd)
  | CUntil d => match read_until rd d with
                | (rd, Ret bounds) => (rd, Bytes (view (buf rd) bounds))
                | (rd, Exc _) => (rd, Error [])
                | (rd, Pan) => (rd, Crash)
                end
  | CLine => answer (fun l => l) (read_line rd)
  end.

Fixpoint serve_all (rd : reader) (cs : list call) : reader * list seen :=
  match cs with
  | [] => (rd, [])
  | c :: cs => let '(rd, s) := serve rd c in let '(rd, ss) := serve_all rd cs in (rd, s :: ss)
  end.

(** The bytes fetched from the underlying reader and not yet delivered. *)
Definition unread (rd : reader) : list Z := sub_list (buf rd) (r rd) (w rd).

(** A vector has no negative length. *)
Definition call_ok (c : call) : Prop := match c with CRead n | CExact n => 0 <= n | _ => True end.

(** An underlying reader that answers every call with bytes until its stream ends. *)
Definition steady (s : list event) : Prop := Forall (fun e => exists b, e = Data b /\ b <> []) s.

(** What [k] calls of read_line return; [None] is an error. *)
Fixpoint read_lines (k : nat) (rd : reader) : list (option (list Z)) :=
  match k with
  | O => []
  | S k => match read_line rd with
           | (rd, Ret l) => Some l :: read_lines k rd
           | (rd, _) => None :: read_lines k rd
           end
  end.

(** A call that the bytes already fetched can answer. *)
Definition answered_from_buffer (rd : reader) (c : call) : Prop :=
  match c with
  | CRead n => unread rd <> []
  | CExact n => n <= zlen (unread rd)
  | CByte => unread rd <> []
  | CUntil d => In d (unread rd)
  | CLine => In 10 (unread rd) \/ eof rd = true
  end.

Fixpoint all_answered_from_buffer (rd : reader) (cs : list call) : Prop :=
  match cs with
  | [] => True
  | c :: cs => answered_from_buffer rd c /\ all_answered_from_buffer (fst (serve rd c)) cs
  end.
