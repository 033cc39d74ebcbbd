(** The reading half of the HTTP server: runtime/nutils/http.c:129-285 and std/http/http.n:195-219.

    The parser (llhttp) is not modelled: each network read comes with the callbacks the parser makes
    while it works through that read, each a range of the bytes just read.  Reads on which the parser
    reports an error close the connection and are left out, as are the counters and the debugging
    output.  One connection is modelled; the free list of connections is not. *)
From Verif Require Import Base Httpmsg_model.

(** An address: none, in default_buf (http.h:80), or in the heap block read_buf.  A block that
    realloc has moved gets a new generation; its former addresses keep the old one. *)
Inductive place := Null | Dflt (off : Z) | Heap (gen : nat) (off : Z).

(** a pair such as url_at, url_len *)
Definition span : Type := place * Z.

(** http.h:47-93 http_conn_t.  [fields] are headers[0 .. headers_len), [name] is the name stored in
    headers[headers_len], which is null in a connection set to zeros. *)
Record sconn := mk_sconn {
  dflt : list Z; block : option (list Z); generation : nat; buf_cap : Z; buf_len : Z;
  url_at : span; path_at : span; query_at : span; body_at : span; host_at : span;
  fields : list (span * span); name_at : span; host_flag : bool; completed : bool; req_method : Z }.

(** http.c:21-31 acquire_conn: zeroed memory *)
Definition new_sconn : sconn :=
  mk_sconn (repeat 0 (Z.to_nat 4096)) None 0 0 0 (Null, 0) (Null, 0) (Null, 0) (Null, 0) (Null, 0) [] (Null, 0) false false 0.

Definition set_memory (c : sconn) (d : list Z) (b : option (list Z)) (g : nat) (cap len : Z) : sconn :=
  mk_sconn d b g cap len (url_at c) (path_at c) (query_at c) (body_at c) (host_at c) (fields c) (name_at c) (host_flag c) (completed c) (req_method c).

(** http.c:129-152 http_alloc_buffer_cb; [moved] is whether realloc moves the block.  malloc and
    realloc do not set the new bytes; here they are 0. *)
Definition alloc_buffer (moved : bool) (c : sconn) : sconn * place :=
  let cap := buf_cap c + 4096 in
  if cap =? 4096 then (set_memory c (dflt c) (block c) (generation c) cap (buf_len c), Dflt 0)
  else match block c with
       | None => (set_memory c (dflt c) (Some (dflt c ++ repeat 0 (Z.to_nat (cap - 4096)))) (generation c) cap (buf_len c), Heap (generation c) (buf_len c))
       | Some b =>
           let g := if moved then S (generation c) else generation c in
           (set_memory c (dflt c) (Some (b ++ repeat 0 (Z.to_nat (cap - zlen b)))) g cap (buf_len c), Heap g (buf_len c))
       end.

(** libuv writes the bytes it has read at the address it was given. *)
Definition overwrite (l : list Z) (off : Z) (d : list Z) : res (list Z) :=
  if (off <? 0) || (zlen l <? off + zlen d) then UB
  else Ok (firstn (Z.to_nat off) l ++ d ++ skipn (Z.to_nat (off + zlen d)) l).

Definition store (c : sconn) (at_place : place) (d : list Z) : res sconn :=
  match at_place with
  | Null => UB
  | Dflt off => l <- overwrite (dflt c) off d ;; Ok (set_memory c l (block c) (generation c) (buf_cap c) (buf_len c))
  | Heap g off =>
      match block c with
      | Some b => if Nat.eqb g (generation c) then l <- overwrite b off d ;; Ok (set_memory c (dflt c) (Some l) (generation c) (buf_cap c) (buf_len c)) else UB
      | None => UB
      end
  end.

(** The bytes of a range; reading a block that has been given back is undefined. *)
Definition load (c : sconn) (s : span) : res (list Z) :=
  match fst s with
  | Null => if snd s =? 0 then Ok [] else UB
  | Dflt off => if (off <? 0) || (zlen (dflt c) <? off + snd s) then UB else Ok (sub_list (dflt c) off (off + snd s))
  | Heap g off =>
      match block c with
      | Some b => if Nat.eqb g (generation c) then
                    if (off <? 0) || (zlen b <? off + snd s) then UB else Ok (sub_list b off (off + snd s))
                  else UB
      | None => UB
      end
  end.

Definition shift (p : place) (k : Z) : place :=
  match p with Null => Null | Dflt off => Dflt (off + k) | Heap g off => Heap g (off + k) end.

(** A callback of the parser: offset in the current read and length. *)
Inductive callback := OnUrl (off len : Z) | OnField (off len : Z) | OnValue (off len : Z) | OnBody (off len : Z) | OnComplete (method : Z).

(** memchr (http.c:232) on the bytes of the range: the position, or none *)
Fixpoint memchr (x : Z) (l : list Z) : option Z :=
  match l with
  | [] => None
  | c :: t => if c =? x then Some 0 else match memchr x t with Some i => Some (i + 1) | None => None end
  end.

(** http.c:223-285, the five callbacks.  headers has 100 entries (http.h:11). *)
Definition on_callback (base : place) (c : sconn) (e : callback) : res sconn :=
  match e with
  | OnUrl off len =>
      let at_ := shift base off in
      text <- load c (at_, len) ;;
      let '(path, query) := match memchr 63 text with
                            | Some q => ((at_, q), (shift at_ (q + 1), len - q - 1))
                            | None => ((at_, len), query_at c)
                            end in
      Ok (mk_sconn (dflt c) (block c) (generation c) (buf_cap c) (buf_len c) (at_, len) path query (body_at c) (host_at c) (fields c) (name_at c) (host_flag c) (completed c) (req_method c))
  | OnField off len =>
      let at_ := shift base off in
      if 100 <=? zlen (fields c) then UB else
      text <- load c (at_, len) ;;
      let h := if list_eq_dec Z.eq_dec text (bs "Host") then true else host_flag c in
      Ok (mk_sconn (dflt c) (block c) (generation c) (buf_cap c) (buf_len c) (url_at c) (path_at c) (query_at c) (body_at c) (host_at c) (fields c) (at_, len) h (completed c) (req_method c))
  | OnValue off len =>
      let at_ := shift base off in
      if 100 <=? zlen (fields c) then UB else
      let host := if host_flag c then (at_, len) else host_at c in
      Ok (mk_sconn (dflt c) (block c) (generation c) (buf_cap c) (buf_len c) (url_at c) (path_at c) (query_at c) (body_at c) host
            (fields c ++ [(name_at c, (at_, len))]) (Null, 0) false (completed c) (req_method c))
  | OnBody off len =>
      Ok (mk_sconn (dflt c) (block c) (generation c) (buf_cap c) (buf_len c) (url_at c) (path_at c) (query_at c) (shift base off, len) (host_at c) (fields c) (name_at c) (host_flag c) (completed c) (req_method c))
  | OnComplete m =>
      Ok (mk_sconn (dflt c) (block c) (generation c) (buf_cap c) (buf_len c) (url_at c) (path_at c) (query_at c) (body_at c) (host_at c) (fields c) (name_at c) (host_flag c) true m)
  end.

Fixpoint on_callbacks (base : place) (c : sconn) (l : list callback) : res sconn :=
  match l with
  | [] => Ok c
  | e :: t => c <- on_callback base c e ;; on_callbacks base c t
  end.

(** One network read: what realloc does, the bytes, and the parser's callbacks. *)
Record netread := mk_netread { moved : bool; data : list Z; callbacks : list callback }.

(** http.c:129-152 and 167-206: alloc, read, parse, count *)
Definition on_read (c : sconn) (r : netread) : res sconn :=
  let '(c, base) := alloc_buffer (moved r) c in
  c <- store c base (data r) ;;
  c <- on_callbacks base c (callbacks r) ;;
  Ok (set_memory c (dflt c) (block c) (generation c) (buf_cap c) (buf_len c + zlen (data r))).

(** http.n:174-183 request_t *)
Record request := mk_request {
  q_method : Z; q_headers : headers; q_length : Z; q_host : list Z; q_url : list Z; q_path : list Z; q_query : list Z; q_body : list Z }.

(** http.n:212-216 *)
Fixpoint copy_headers (c : sconn) (l : list (span * span)) (h : headers) : res headers :=
  match l with
  | [] => Ok h
  | (n, v) :: t => name <- load c n ;; value <- load c v ;; copy_headers c t (assign h name value)
  end.

(** http.n:195-219 request_new; string_ref_new copies the bytes (nutils.c:1082-1090) *)
Definition request_new (c : sconn) : res request :=
  host <- load c (host_at c) ;;
  url <- load c (url_at c) ;;
  path <- load c (path_at c) ;;
  body <- (if 0 <? snd (body_at c) then load c (body_at c) else Ok []) ;;
  query <- (if 0 <? snd (query_at c) then load c (query_at c) else Ok []) ;;
  h <- copy_headers c (fields c) [] ;;
  Ok (mk_request (req_method c) h (if 0 <? snd (body_at c) then snd (body_at c) else 0) host url path query body).

(** The reads of a connection until the parser has completed a request; then the handler is started
    with it (http.c:196-205, http.n:222-230). *)
Fixpoint serve (c : sconn) (l : list netread) : res (option request) :=
  match l with
  | [] => Ok None
  | r :: t => c <- on_read c r ;; if completed c then q <- request_new c ;; Ok (Some q) else serve c t
  end.
