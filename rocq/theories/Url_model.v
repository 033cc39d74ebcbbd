(** Model of std/net/url.n. *)
From Verif Require Import Base Strings_model.

(** url.n:218-227 hex_to_int *)
Definition hex_to_int (ch : Z) : Z :=
  if (48 <=? ch) && (ch <=? 57) then ch - 48
  else if (65 <=? ch) && (ch <=? 70) then u8 (ch - 65 + 10)
  else if (97 <=? ch) && (ch <=? 102) then u8 (ch - 97 + 10)
  else -1.

(** url.n:260-267 int_to_hex *)
Definition int_to_hex (val : Z) : Z :=
  if (0 <=? val) && (val <=? 9) then u8 (48 + val)
  else if (10 <=? val) && (val <=? 15) then u8 (65 + val - 10)
  else 48.

(** url.n:189-213, the loop of decode. *)
Fixpoint decode_loop (fuel : nat) (s : list Z) (i : Z) (result : list Z) : res (list Z) :=
  match fuel with
  | O => NoFuel
  | S f =>
      if i <? zlen s then
        ch <- at_ s i ;;
        if (ch =? 37) && (i + 2 <? zlen s) then
          hex1 <- at_ s (i + 1) ;;
          hex2 <- at_ s (i + 2) ;;
          let val1 := hex_to_int hex1 in
          let val2 := hex_to_int hex2 in
          if negb (val1 =? -1) && negb (val2 =? -1) then
            decode_loop f s (i + 3) (result ++ [u8 (val1 * 16 + val2)])
          else decode_loop f s (i + 1) (result ++ [ch])
        else if ch =? 43 then decode_loop f s (i + 1) (result ++ [32])
        else decode_loop f s (i + 1) (result ++ [ch])
      else Ok result
  end.

(** url.n:181-216 decode *)
Definition decode (s : list Z) : res (list Z) :=
  if zlen s =? 0 then Ok s else decode_loop (S (length s)) s 0 [].

(** url.n:238-254, what one byte is encoded to.  ch >> 4 and ch & 0x0F on a u8. *)
Definition encode_char (ch : Z) : list Z :=
  if ((65 <=? ch) && (ch <=? 90)) || ((97 <=? ch) && (ch <=? 122)) ||
     ((48 <=? ch) && (ch <=? 57)) || (ch =? 45) || (ch =? 95) || (ch =? 46) || (ch =? 126)
  then [ch]
  else if ch =? 32 then [43]
  else [37; int_to_hex (Z.land (Z.shiftr ch 4) 15); int_to_hex (Z.land ch 15)].

(** url.n:230-258 encode *)
Definition encode (s : list Z) : list Z :=
  if zlen s =? 0 then s
  else fold_left (fun result ch => result ++ encode_char ch) s [].

(** url.n:1-10 url_t (the copy of the whole url is left out) *)
Record url_t := mk_url {
  scheme : list Z;
  authority : list Z;
  hostname : list Z;
  port : Z;
  path : list Z;
  fragment : list Z;
  raw_query : list Z
}.

Definition empty_url : url_t := mk_url [] [] [] 0 [] [] [].

(** url.n:14-18 parser states *)
Inductive pstate := SCHEME | AUTHORITY | PATH | QUERY | FRAGMENT.

(** url.n:118-131 parse_authority.  `to_int() catch e { 0 }`. *)
Definition parse_authority (r : url_t) (auth : list Z) : res url_t :=
  colon_pos <- rfind auth [58] ;;
  if negb (colon_pos =? -1) then
    port_str <- slice auth (colon_pos + 1) (zlen auth) ;;
    p <- catch (to_int port_str) 0 ;;
    h <- slice auth 0 colon_pos ;;
    Ok (mk_url (scheme r) auth h p (path r) (fragment r) (raw_query r))
  else
    Ok (mk_url (scheme r) auth auth (port r) (path r) (fragment r) (raw_query r)).

Definition set_scheme (r : url_t) (x : list Z) :=
  mk_url x (authority r) (hostname r) (port r) (path r) (fragment r) (raw_query r).
Definition set_path (r : url_t) (x : list Z) :=
  mk_url (scheme r) (authority r) (hostname r) (port r) x (fragment r) (raw_query r).
Definition set_fragment (r : url_t) (x : list Z) :=
  mk_url (scheme r) (authority r) (hostname r) (port r) (path r) x (raw_query r).
Definition set_raw_query (r : url_t) (x : list Z) :=
  mk_url (scheme r) (authority r) (hostname r) (port r) (path r) (fragment r) x.

(** url.n:34-87, one turn of the loop: new result, state, start, i. *)
Definition parse_turn (url : list Z) (r : url_t) (st : pstate) (start i : Z)
  : res (url_t * pstate * Z * Z) :=
  ch <- at_ url i ;;
  match st with
  | SCHEME =>
      if ch =? 58 then
        x <- slice url start i ;;
        let r := set_scheme r x in
        ok <- (if i + 2 <? zlen url then
                 c1 <- at_ url (i + 1) ;;
                 if c1 =? 47 then c2 <- at_ url (i + 2) ;; Ok (c2 =? 47) else Ok false
               else Ok false) ;;
        if ok : bool then Ok (r, AUTHORITY, i + 2 + 1, i + 2 + 1) else Throw
      else Ok (r, SCHEME, start, i + 1)
  | AUTHORITY =>
      if ch =? 47 then
        a <- slice url start i ;; r <- parse_authority r a ;; Ok (r, PATH, i, i + 1)
      else if ch =? 63 then
        a <- slice url start i ;; r <- parse_authority r a ;; Ok (r, QUERY, i + 1, i + 1)
      else if ch =? 35 then
        a <- slice url start i ;; r <- parse_authority r a ;; Ok (r, FRAGMENT, i + 1, i + 1)
      else Ok (r, AUTHORITY, start, i + 1)
  | PATH =>
      if ch =? 63 then
        a <- slice url start i ;; Ok (set_path r a, QUERY, i + 1, i + 1)
      else if ch =? 35 then
        a <- slice url start i ;; Ok (set_path r a, FRAGMENT, i + 1, i + 1)
      else Ok (r, PATH, start, i + 1)
  | QUERY =>
      if ch =? 35 then
        a <- slice url start i ;; Ok (set_raw_query r a, FRAGMENT, i + 1, i + 1)
      else Ok (r, QUERY, start, i + 1)
  | FRAGMENT => Ok (r, FRAGMENT, start, i + 1)
  end.

(** url.n:31-88, the loop. *)
Fixpoint parse_loop (fuel : nat) (url : list Z) (r : url_t) (st : pstate) (start i : Z)
  : res (url_t * pstate * Z * Z) :=
  match fuel with
  | O => NoFuel
  | S f =>
      if i <? zlen url then
        x <- parse_turn url r st start i ;;
        (let '(r, st, start, i) := x in parse_loop f url r st start i)
      else Ok (r, st, start, i)
  end.

(** url.n:91-112, the last component and the default path. *)
Definition parse_finish (url : list Z) (x : url_t * pstate * Z * Z) : res url_t :=
  let '(r, st, start, i) := x in
  r <- match st with
       | SCHEME => Throw
       | AUTHORITY => a <- slice url start i ;; parse_authority r a
       | PATH => a <- slice url start i ;; Ok (set_path r a)
       | QUERY => a <- slice url start i ;; Ok (set_raw_query r a)
       | FRAGMENT => a <- slice url start i ;; Ok (set_fragment r a)
       end ;;
  if zlen (path r) =? 0 then Ok (set_path r [47]) else Ok r.

(** url.n:21-116 parse *)
Definition parse (url : list Z) : res url_t :=
  if zlen url =? 0 then Throw
  else x <- parse_loop (S (length url)) url empty_url SCHEME 0 0 ;; parse_finish url x.

(** url.n:173-179 request_uri *)
Definition request_uri (r : url_t) : list Z :=
  if 0 <? zlen (raw_query r) then path r ++ [63] ++ raw_query r else path r.

(** A Nature map from strings: entries in insertion order.  Key equality is equality of the C
    strings (runtime/nutils/hash.h:50-58 strcmp on nutils.c:828-864), and an existing entry
    keeps its key (map.c:178-224).  The hash table itself is modelled in Map_model.v. *)
Definition smap (V : Type) := list (list Z * V).

Fixpoint list_eqb (a b : list Z) : bool :=
  match a, b with
  | [], [] => true
  | x :: a', y :: b' => (x =? y) && list_eqb a' b'
  | _, _ => false
  end.

Definition key_eqb (a b : list Z) : bool := list_eqb (cstr a) (cstr b).

Fixpoint smap_get {V} (m : smap V) (k : list Z) : option V :=
  match m with
  | [] => None
  | (k', v) :: t => if key_eqb k' k then Some v else smap_get t k
  end.

Fixpoint smap_set {V} (m : smap V) (k : list Z) (v : V) : smap V :=
  match m with
  | [] => [(k, v)]
  | (k', v') :: t => if key_eqb k' k then (k', v) :: t else (k', v') :: smap_set t k v
  end.

(** url.n:149-168, one pair of the query. *)
Definition query_pair (result : smap (list (list Z))) (pair : list Z)
  : res (smap (list (list Z))) :=
  kv <- split pair [61] ;;
  if 1 <=? zlen kv then
    key <- at_ kv 0 ;;
    value <- (if zlen kv =? 2 then at_ kv 1 else Ok []) ;;
    key <- decode key ;;
    value <- decode value ;;
    match smap_get result key with
    | Some l => Ok (smap_set result key (l ++ [value]))
    | None => Ok (smap_set result key [value])
    end
  else Ok result.

Fixpoint query_pairs (result : smap (list (list Z))) (pairs : list (list Z))
  : res (smap (list (list Z))) :=
  match pairs with
  | [] => Ok result
  | p :: t => r <- query_pair result p ;; query_pairs r t
  end.

(** url.n:141-171 query *)
Definition query (r : url_t) : res (smap (list (list Z))) :=
  if zlen (raw_query r) =? 0 then Ok []
  else pairs <- split (raw_query r) [38] ;; query_pairs [] pairs.

(** url.n:133-139 query_t.get *)
Definition query_get (q : smap (list (list Z))) (key : list Z) : res (list Z) :=
  match smap_get q key with
  | None => Ok []
  | Some l => at_ l 0
  end.

(** http/client.n:198-213 request_t.form: the body text for a list of (key, value) pairs, in
    the iteration order of the map. *)
Fixpoint form_loop (data : list (list Z * list Z)) (first : bool) (form_data : list Z) : list Z :=
  match data with
  | [] => form_data
  | (k, v) :: t =>
      let form_data := if first then form_data else form_data ++ [38] in
      form_loop t false (form_data ++ encode k ++ [61] ++ encode v)
  end.

Definition form (data : list (list Z * list Z)) : list Z := form_loop data true [].
