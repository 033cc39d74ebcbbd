(** The chunked coding of HTTP (RFC 9112, section 7.1), written from the side of the sender. *)
From Verif Require Import Base Bufio_model Chunked_model.

Definition hex_digit (c d : Z) : Prop :=
  (48 <= c <= 57 /\ d = c - 48) \/ (97 <= c <= 102 /\ d = c - 97 + 10) \/ (65 <= c <= 70 /\ d = c - 65 + 10).

(** The digits [s], in either case and with any number of leading zeros, stand for [n]. *)
Inductive hex_text : list Z -> Z -> Prop :=
| hex_none : hex_text [] 0
| hex_more s n c d : hex_text s n -> hex_digit c d -> hex_text (s ++ [c]) (16 * n + d).

Definition blanks (s : list Z) : Prop := Forall (fun c => c = 32 \/ c = 9) s.

(** A size line: blanks, hexadecimal digits, blanks, and possibly an extension after a semicolon. *)
Definition size_line (s : list Z) (n : Z) : Prop :=
  exists a digits b ext, s = a ++ digits ++ b ++ ext /\ blanks a /\ blanks b /\
    digits <> [] /\ hex_text digits n /\ (ext = [] \/ exists e, ext = 59 :: e) /\ ~ In 10 s.

Definition crlf : list Z := [13; 10].

(** Lines that end the body: trailer fields, then an empty line.  [limit] bounds the lines. *)
Inductive trailers (limit : Z) : list Z -> Prop :=
| trailers_end : trailers limit crlf
| trailers_more l t : l <> [] -> ~ In 10 l -> zlen l + 2 <= limit -> trailers limit t -> trailers limit (l ++ crlf ++ t).

(** [wire] is a chunked form of [body]. *)
Inductive chunked (limit : Z) : list Z -> list Z -> Prop :=
| chunked_last s t : size_line s 0 -> zlen s + 2 <= limit -> trailers limit t -> chunked limit [] (s ++ crlf ++ t)
| chunked_more s data body wire : size_line s (zlen data) -> zlen s + 2 <= limit -> data <> [] -> chunked limit body wire ->
    chunked limit (data ++ body) (s ++ crlf ++ data ++ crlf ++ wire).

(** ** A program that reads the body piece by piece *)
Fixpoint creads (c : creader) (ns : list Z) : creader * list (ans (list Z)) :=
  match ns with
  | [] => (c, [])
  | n :: ns => let '(c, a) := cread c n in let '(c, l) := creads c ns in (c, a :: l)
  end.

(** The same calls on a plain source of bytes. *)
Fixpoint sreads (s : list event) (ns : list Z) : list event * list (ans (list Z)) :=
  match ns with
  | [] => (s, [])
  | n :: ns => let '(s, a) := src_read s n in let '(s, l) := sreads s ns in (s, a :: l)
  end.

(** The answers to the calls [ns]: non-empty pieces that fit and follow each other in [body], and
    after the whole of [body] nothing but the end of the stream. *)
Inductive delivers : list Z -> list Z -> list (ans (list Z)) -> Prop :=
| delivers_stop body : delivers body [] []
| delivers_piece b body n ns l : b <> [] -> zlen b <= n -> delivers body ns l -> delivers (b ++ body) (n :: ns) (Ret b :: l)
| delivers_end n ns l : delivers [] ns l -> delivers [] (n :: ns) (Exc true :: l).
