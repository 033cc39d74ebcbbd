(** HTTP messages: the response the server writes (std/http/http.n:241-289, std/http/utils.n), the
    request the client writes (std/http/client.n:230-258) and the response the client reads
    (client.n:260-343 and 402-432). *)
From Verif Require Import Base Strings_model Fmt_model Bufio_model Chunked_model.

(** A {string:string} map that the functions below only add to and go through: the list of its
    pairs, in the order of iteration. *)
Notation headers := (list (list Z * list Z)).

Definition crlf2 : list Z := [13; 10; 13; 10].   (* http.n:73 *)
Definition sep : list Z := [13; 10].             (* http.n:72 *)

(** http/utils.n:1-26 status_to_str.  The fifteen numbers with a case of their own give what the
    last case would give. *)
Definition status_to_str (status : Z) : list Z :=
  [u8 (Z.quot status 100 + 48); u8 (Z.rem (Z.quot status 10) 10 + 48); u8 (Z.rem status 10 + 48)].

(** http/utils.n:37-43 *)
Fixpoint utos_loop (fuel : nat) (buf : list Z) (idx value : Z) : res (list Z) :=
  match fuel with
  | O => NoFuel
  | S f =>
      if 0 <? value then
        buf <- set_at buf idx (u8 (value mod 10 + 48)) ;;
        utos_loop f buf (idx - 1) (value / 10)
      else slice buf (idx + 1) 20
  end.

(** http/utils.n:29-44 utos *)
Definition http_utos (value : Z) : res (list Z) :=
  if value =? 0 then Ok [48] else utos_loop 21 (repeat 0 20) 19 value.

(** http.n:185-193, without the version, which is not used *)
Record sresponse := mk_sresponse {
  sr_headers : headers; sr_status : Z; sr_message : list Z; sr_length : Z; sr_body : list Z; sr_type : list Z }.

(** http.n:241-249 response_new *)
Definition response_new : sresponse :=
  mk_sresponse [(bs "Connection", bs "close")] 200 (bs "OK") 0 [] (bs "text/plain").

(** http.n:251-254 send *)
Definition send (r : sresponse) (msg : list Z) : sresponse :=
  mk_sresponse (sr_headers r) (sr_status r) (sr_message r) (zlen msg) msg (sr_type r).

(** http.n:270-275 and client.n:247-252 *)
Definition header_lines (h : headers) : list Z :=
  concat (map (fun kv => fst kv ++ bs ": " ++ snd kv ++ sep) h).

(** http.n:256-289 to_str *)
Definition to_str (r : sresponse) : res (list Z) :=
  n <- http_utos (u64 (sr_length r)) ;;
  Ok (bs "HTTP/1.1" ++ [32] ++ status_to_str (sr_status r) ++ [32] ++ sr_message r ++ sep ++
      header_lines (sr_headers r) ++
      bs "Content-Length: " ++ n ++ sep ++
      bs "Content-Type: " ++ sr_type r ++ bs "; charset=utf-8" ++ crlf2 ++ sr_body r).

(** Map assignment; a new key goes to the end of the list.  Keys are compared in full, while the
    map compares them up to the first NUL byte (see Hash_model); the theorems that assign headers
    are about names without NUL. *)
Fixpoint assign (h : headers) (k v : list Z) : headers :=
  match h with
  | [] => [(k, v)]
  | (k', v') :: t => if list_eq_dec Z.eq_dec k k' then (k, v) :: t else (k', v') :: assign t k v
  end.

(** client.n:230-234 fill_headers *)
Definition fill_headers (h : headers) (authority body : list Z) : res headers :=
  let h := assign h (bs "Host") authority in
  let h := assign h (bs "User-Agent") (bs "Nature-HTTP-Client/1.0") in
  n <- sprintf (fun _ _ _ _ _ => []) (bs "%d") [ASigned 64 (zlen body)] ;;
  Ok (assign h (bs "Content-Length") n).

(** client.n:236-258 tcp_buf after fill_headers; [uri] is what url_t.request_uri returns *)
Definition request_text (method uri authority : list Z) (h : headers) (body : list Z) : res (list Z) :=
  h <- fill_headers h authority body ;;
  Ok (method ++ [32] ++ uri ++ [32] ++ bs "HTTP/1.1" ++ sep ++ header_lines h ++ sep ++ body).

(** client.n:265-272, the loop of read_until_space *)
Fixpoint space_loop (fuel : nat) (rd : reader) (bytes : list Z) : reader * ans (list Z) :=
  match fuel with
  | O => (rd, Pan)
  | S f =>
      match read_byte rd with
      | (rd, Ret b) => if b =? 32 then (rd, Ret bytes) else space_loop f rd (bytes ++ [b])
      | (rd, Exc e) => (rd, Exc e)
      | (rd, Pan) => (rd, Pan)
      end
  end.

(** client.n:260-273 read_until_space.  Every turn consumes a byte. *)
Definition read_until_space (rd : reader) : reader * ans (list Z) := space_loop (bytes_left rd + 2) rd [].

(** client.n:103-115 response_t *)
Record response := mk_response {
  version : list Z; r_headers : headers; status : Z; message : list Z; r_length : Z; is_chunked : bool; conn : reader }.

Definition of_res {A} (x : res A) : ans A :=
  match x with Ok a => Ret a | Throw => Exc false | _ => Pan end.

(** client.n:312-326 one header line *)
Definition header_line (h : headers) (n : Z) (ch : bool) (line : list Z) : res (headers * Z * bool) :=
  colon <- find line [58] ;;
  if 0 <? colon then
    k <- slice line 0 colon ;; key <- trim k [[32]] ;;
    v <- slice line (colon + 1) (zlen line) ;; value <- trim v [[32]] ;;
    let h := assign h key value in
    n <- (if list_eq_dec Z.eq_dec key (bs "Content-Length") then to_int value else Ok n) ;;
    has <- contains value (bs "chunked") ;;
    let ch := (if list_eq_dec Z.eq_dec key (bs "Transfer-Encoding") then has else false) || ch in
    Ok (h, n, ch)
  else Ok (h, n, ch).

(** client.n:303-328 the loop over the header lines.  Every turn consumes a byte. *)
Fixpoint header_loop (fuel : nat) (rd : reader) (h : headers) (n : Z) (ch : bool) : reader * ans (headers * Z * bool) :=
  match fuel with
  | O => (rd, Pan)
  | S f =>
      match read_line rd with
      | (rd, Ret []) => (rd, Ret (h, n, ch))
      | (rd, Ret line) =>
          match of_res (header_line h n ch line) with
          | Ret (h, n, ch) => header_loop f rd h n ch
          | Exc e => (rd, Exc e)
          | Pan => (rd, Pan)
          end
      | (rd, Exc e) => (rd, Exc e)
      | (rd, Pan) => (rd, Pan)
      end
  end.

(** client.n:295-343: reading the response after the request is sent.  Which error is thrown is
    not distinguished. *)
Definition receive (rd : reader) : ans response :=
  match read_until_space rd with
  | (rd, Ret v) =>
      match of_res (rtrim v [[32]]), read_until_space rd with
      | Ret v, (rd, Ret st) =>
          match of_res (st <- rtrim st [[32]] ;; catch (to_int st) 0), read_line rd with
          | Ret st, (rd, Ret msg) =>
              match header_loop (bytes_left rd + 2) rd [] 0 false with
              | (rd, Ret (h, n, ch)) => Ret (mk_response v h st msg n ch rd)
              | (_, Exc e) => Exc e
              | (_, Pan) => Pan
              end
          | Ret _, (_, Exc e) => Exc e
          | Exc e, _ => Exc e
          | _, _ => Pan
          end
      | Ret _, (_, Exc e) => Exc e
      | Exc e, _ => Exc e
      | _, _ => Pan
      end
  | (_, Exc e) => Exc e
  | (_, Pan) => Pan
  end.

(** client.n:402-432 text, called once; `vec.new` with a negative length panics (vec.c:73-76). *)
Definition text (p : response) : ans (list Z) :=
  if (r_length p =? 0) && negb (is_chunked p) then Ret []
  else if is_chunked p then text_chunked (new_chunked (Z.to_nat 4096) (conn p))
  else if r_length p <? 0 then Pan
  else match read_exact (conn p) (r_length p) with
       | (_, Ret _, got) => Ret got
       | (_, Exc e, _) => Exc e
       | (_, Pan, _) => Pan
       end.
