(** Specification for std/net/url. *)
From Verif Require Import Base.

(** Hexadecimal digits and the value they denote. *)
Definition hex_digit (c v : Z) : Prop :=
  (c = 48 + v /\ 0 <= v <= 9) \/ (c = 65 + (v - 10) /\ 10 <= v <= 15) \/
  (c = 97 + (v - 10) /\ 10 <= v <= 15).

(** RFC 3986 unreserved characters. *)
Definition unreserved (c : Z) : Prop :=
  65 <= c <= 90 \/ 97 <= c <= 122 \/ 48 <= c <= 57 \/ In c (bs "-_.~").

(** Texts made of unreserved characters, '+', and %XX. *)
Inductive encoded_text : list Z -> Prop :=
| enc_nil : encoded_text []
| enc_plain c s : unreserved c -> encoded_text s -> encoded_text (c :: s)
| enc_plus s : encoded_text s -> encoded_text (43 :: s)
| enc_pct a b va vb s : hex_digit a va -> hex_digit b vb -> encoded_text s ->
    encoded_text (37 :: a :: b :: s).

(** Replacing escapes. *)
Definition starts_escape (s : list Z) : Prop :=
  exists a b va vb r, s = 37 :: a :: b :: r /\ hex_digit a va /\ hex_digit b vb.

Inductive unescaped : list Z -> list Z -> Prop :=
| une_nil : unescaped [] []
| une_pct a b va vb s t : hex_digit a va -> hex_digit b vb -> unescaped s t ->
    unescaped (37 :: a :: b :: s) (16 * va + vb :: t)
| une_plus s t : unescaped s t -> unescaped (43 :: s) (32 :: t)
| une_other c s t : c <> 43 -> ~ starts_escape (c :: s) -> unescaped s t ->
    unescaped (c :: s) (c :: t).

Definition none_of (d : list Z) (s : list Z) : Prop := Forall (fun c => ~ In c d) s.

(** The parts of a URL and how they make up its text.  An empty path is reported as "/", and
    an empty query or fragment may or may not have its delimiter. *)
Record url_parts := {
  u_scheme : list Z; u_authority : list Z; u_path : list Z; u_query : list Z; u_fragment : list Z
}.

Definition url_text (u : list Z) (x : url_parts) : Prop :=
  exists p q f,
    u = u_scheme x ++ bs "://" ++ u_authority x ++ p ++ q ++ f /\
    none_of (bs ":") (u_scheme x) /\
    none_of (bs "/?#") (u_authority x) /\
    ((p <> [] /\ u_path x = p) \/ (p = [] /\ u_path x = bs "/")) /\
    (p = [] \/ exists p', p = 47 :: p') /\ none_of (bs "?#") p /\
    ((q = [] /\ u_query x = []) \/ q = 63 :: u_query x) /\ none_of (bs "#") q /\
    ((f = [] /\ u_fragment x = []) \/ f = 35 :: u_fragment x).

(** Host and port of an authority: split at the last ':'. *)
Definition host_port (auth host port_text : list Z) : Prop :=
  (auth = host ++ 58 :: port_text /\ none_of (bs ":") port_text) \/
  (auth = host /\ none_of (bs ":") auth /\ port_text = []).
