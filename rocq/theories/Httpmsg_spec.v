(** What an HTTP/1.1 message is (RFC 9112), as far as the theorems need it. *)
From Verif Require Import Base Strings_spec Chunked_spec.

(** Decimal digits [s] that stand for [n]. *)
Definition decimal (s : list Z) (n : Z) : Prop := s <> [] /\ Forall is_digit s /\ dec_value s = n.

(** Header names do not distinguish capital letters. *)
Definition lower (c : Z) : Z := if (65 <=? c) && (c <=? 90) then c + 32 else c.
Definition same_name (a b : list Z) : Prop := map lower a = map lower b.

(** The line is a header field with this name. *)
Definition names (line name : list Z) : Prop := exists n v, line = n ++ 58 :: v /\ same_name n name.

(** A start line, header lines of which exactly one announces a length, an empty line, and then
    exactly as many bytes as announced.  No line contains a line feed and none before the empty
    line is empty, so that a reader finds the empty line where it is meant to be. *)
Definition framed (t body : list Z) : Prop :=
  exists start before n after,
    let lines := start :: before ++ (bs "Content-Length: " ++ n) :: after in
    t = concat (map (fun l => l ++ crlf) lines) ++ crlf ++ body /\
    Forall (fun l => l <> [] /\ ~ In 10 l) lines /\
    decimal n (zlen body) /\
    Forall (fun l => ~ names l (bs "Content-Length")) (before ++ after).

(** A response on the wire: [name] [:] spaces [value] spaces. *)
Record field := mk_field { f_name : list Z; f_before : list Z; f_value : list Z; f_after : list Z }.

Definition field_line (f : field) : list Z := f_name f ++ 58 :: f_before f ++ f_value f ++ f_after f.

(** No space at either end. *)
Definition tight (s : list Z) : Prop := (forall c r, s = c :: r -> c <> 32) /\ (forall c r, s = r ++ [c] -> c <> 32).

Definition spaces (s : list Z) : Prop := Forall (fun c => c = 32) s.

(** A field whose line fits a buffer of [limit] bytes *)
Definition field_ok (limit : Z) (f : field) : Prop :=
  f_name f <> [] /\ ~ In 58 (f_name f) /\ tight (f_name f) /\ tight (f_value f) /\ spaces (f_before f) /\ spaces (f_after f) /\
  ~ In 10 (field_line f) /\ ~ In 0 (f_name f ++ f_value f) /\ zlen (field_line f) + 2 <= limit.

Definition head (version code reason : list Z) (fields : list field) : list Z :=
  version ++ 32 :: code ++ 32 :: reason ++ crlf ++ concat (map (fun f => field_line f ++ crlf) fields) ++ crlf.

(** The value of the last field called [k], spelled exactly so. *)
Definition last_value (fields : list field) (k v : list Z) : Prop :=
  exists l f r, fields = l ++ f :: r /\ f_name f = k /\ f_value f = v /\ forall g, In g r -> f_name g <> k.

(** [t] occurs in [s]. *)
Definition within (t s : list Z) : Prop := exists i, occurs_at t s i.

(** A header of the program that is one line and does not announce a length itself. *)
Definition header_ok (kv : list Z * list Z) : Prop :=
  ~ In 10 (fst kv) /\ ~ In 10 (snd kv) /\ ~ In 58 (fst kv) /\ ~ same_name (fst kv) (bs "Content-Length").
