(** std/crypto/bcrypt.n: bcrypt on top of the Blowfish cipher. *)
From Verif Require Import Base Blowfish_tables Blowfish_model.

(** bcrypt.n:24 ALPHABET *)
Definition ALPHABET : list Z := bs "./ABCDEFGHIJKLMNOPQRSTUVWXYZabcdefghijklmnopqrstuvwxyz0123456789".

(** bcrypt.n:76, 77, 79 and 82: one character *)
Definition letter (v k : Z) : res Z := at_ ALPHABET (Z.land (Z.shiftr v k) 63).

(** bcrypt.n:55-88 base64_encode.  The loop over indices is written as recursion over the vector, a
    group of up to three bytes at a time. *)
Fixpoint base64_encode (src : list Z) : res (list Z) :=
  match src with
  | [] => Ok []
  | [a] =>
      let v := u32 (Z.shiftl a 16) in
      x <- letter v 18 ;; y <- letter v 12 ;; Ok [x; y]
  | [a; b] =>
      let v := Z.lor (u32 (Z.shiftl a 16)) (u32 (Z.shiftl b 8)) in
      x <- letter v 18 ;; y <- letter v 12 ;; z <- letter v 6 ;; Ok [x; y; z]
  | a :: b :: c :: t =>
      let v := Z.lor (Z.lor (u32 (Z.shiftl a 16)) (u32 (Z.shiftl b 8))) c in
      x <- letter v 18 ;; y <- letter v 12 ;; z <- letter v 6 ;; u <- letter v 0 ;;
      rest <- base64_encode t ;; Ok (x :: y :: z :: u :: rest)
  end.

(** bcrypt.n:93-100 char_to_value, from index [i] on *)
Fixpoint value_from (l : list Z) (i c : Z) : Z :=
  match l with
  | [] => -1
  | x :: t => if x =? c then i else value_from t (i + 1) c
  end.

(** bcrypt.n:119-128 one character; 61 is '=' *)
Definition char_value (c : Z) : res Z :=
  if c =? 61 then Ok 0
  else let v := value_from ALPHABET 0 c in if v =? -1 then Throw else Ok v.

(** bcrypt.n:102-110: up to three '=' are added *)
Definition padded (src : list Z) : list Z :=
  src ++ (if zlen src mod 4 =? 0 then [] else repeat 61 (Z.to_nat (4 - zlen src mod 4))).

(** bcrypt.n:115-141; the last case, not a multiple of four, does not arise *)
Fixpoint decode_groups (l : list Z) : res (list Z) :=
  match l with
  | [] => Ok []
  | c0 :: c1 :: c2 :: c3 :: t =>
      v0 <- char_value c0 ;; v1 <- char_value c1 ;; v2 <- char_value c2 ;; v3 <- char_value c3 ;;
      let w := Z.lor (Z.lor (Z.lor (u32 (Z.shiftl v0 18)) (u32 (Z.shiftl v1 12))) (u32 (Z.shiftl v2 6))) v3 in
      rest <- decode_groups t ;;
      Ok (u8 (Z.shiftr w 16) :: (if c2 =? 61 then [] else [u8 (Z.shiftr w 8)]) ++ (if c3 =? 61 then [] else [u8 w]) ++ rest)
  | _ => Panic
  end.

(** bcrypt.n:91-145 base64_decode.  The bytes of a group are pushed before the next group is looked
    at; the order does not show because a throw loses the vector. *)
Definition base64_decode (src : list Z) : res (list Z) := decode_groups (padded src).

(** bcrypt.n:148-152 check_cost *)
Definition check_cost (cost : Z) : res unit := if (cost <? 4) || (31 <? cost) then Throw else Ok tt.

(** bcrypt.n:196-199: [n] rounds *)
Fixpoint stretch (n : nat) (ckey csalt : list Z) (c : cipher) : res cipher :=
  match n with
  | O => Ok c
  | S n => c <- expand ckey None c ;; c <- expand csalt None c ;; stretch n ckey csalt c
  end.

(** bcrypt.n:169-202 expensive_blowfish_setup; [cost] is between 4 and 31 in every call *)
Definition expensive_setup (key : list Z) (cost : Z) (salt : list Z) : res cipher :=
  csalt <- base64_decode salt ;;
  let ckey := key ++ [0] in
  c <- new_salted_cipher ckey csalt ;;
  match c with
  | None => Throw
  | Some c => stretch (Z.to_nat (2 ^ cost)) ckey csalt c
  end.

(** bcrypt.n:28-35 MAGIC_CIPHER_DATA *)
Definition magic : list Z := bs "OrpheanBeholderScryDoubt".

(** bcrypt.n:216-227, the inner loops: [n] encryptions of one block *)
Fixpoint encrypt_times (n : nat) (c : cipher) (block : list Z) : res (list Z) :=
  match n with
  | O => Ok block
  | S n => block <- encrypt c (repeat 0 8) block ;; encrypt_times n c block
  end.

(** bcrypt.n:205-238 bcrypt *)
Definition bcrypt (password : list Z) (cost : Z) (salt : list Z) : res (list Z) :=
  c <- expensive_setup password cost salt ;;
  a <- encrypt_times 64 c (sub_list magic 0 8) ;;
  b <- encrypt_times 64 c (sub_list magic 8 16) ;;
  d <- encrypt_times 64 c (sub_list magic 16 24) ;;
  base64_encode (sub_list (a ++ b ++ d) 0 23).

(** bcrypt.n:46-52 bcrypt_hash_t *)
Record hash_info := mk_hash { h_hash : list Z; h_salt : list Z; h_cost : Z; h_major : Z; h_minor : Z }.

(** bcrypt.n:241-267 new_from_password; [salt] is what generate_salt (155-167) returns *)
Definition new_from_password (salt password : list Z) (cost : Z) : res hash_info :=
  if 72 <? zlen password then Throw
  else
    let cost := if cost <? 4 then 10 else cost in
    _ <- check_cost cost ;;
    s <- base64_encode salt ;;
    h <- bcrypt password cost s ;;
    Ok (mk_hash h s cost 50 97).

(** bcrypt.n:311-319 one digit of the cost *)
Definition cost_digit (cost c : Z) : res Z :=
  if (48 <=? c) && (c <=? 57) then Ok (cost * 10 + (c - 48)) else Throw.

(** bcrypt.n:270-348 new_from_hash *)
Definition new_from_hash (s : list Z) : res hash_info :=
  if zlen s <? 59 then Throw
  else
    c <- at_ s 0 ;;
    if negb (c =? 36) then Throw else
    major <- at_ s 1 ;;
    if 50 <? major then Throw else
    c <- at_ s 2 ;;
    ' (minor, pos) <- (if negb (c =? 36) then Ok (c, 3) else Ok (0, 2)) ;;
    c <- at_ s pos ;;
    if negb (c =? 36) then Throw else
    let pos := pos + 1 in
    if zlen s <=? pos + 2 then Throw else
    c <- at_ s pos ;; cost <- cost_digit 0 c ;;
    c <- at_ s (pos + 1) ;; cost <- cost_digit cost c ;;
    let pos := pos + 2 in
    _ <- check_cost cost ;;
    c <- at_ s pos ;;
    if negb (c =? 36) then Throw else
    let pos := pos + 1 in
    if zlen s <? pos + 22 then Throw else
    Ok (mk_hash (sub_list s (pos + 22) (zlen s)) (sub_list s pos (pos + 22)) cost major minor).

(** bcrypt.n:351-378 hash_to_string *)
Definition hash_to_string (h : hash_info) : list Z :=
  [36; h_major h] ++ (if h_minor h =? 0 then [] else [h_minor h]) ++
  [36; u8 (48 + Z.quot (h_cost h) 10); u8 (48 + Z.rem (h_cost h) 10); 36] ++ h_salt h ++ h_hash h.

(** bcrypt.n:386-389 *)
Fixpoint difference (result : Z) (a b : list Z) : Z :=
  match a, b with
  | x :: a, y :: b => difference (Z.lor result (Z.lxor x y)) a b
  | _, _ => result
  end.

(** bcrypt.n:381-392 constant_time_compare *)
Definition constant_time_compare (a b : list Z) : bool :=
  if negb (zlen a =? zlen b) then false else difference 0 a b =? 0.

(** bcrypt.n:397-400 hash *)
Definition hash (salt password : list Z) (cost : Z) : res (list Z) :=
  h <- new_from_password salt password cost ;; Ok (hash_to_string h).

(** bcrypt.n:403-422 verify *)
Definition verify (hashed password : list Z) : res unit :=
  h <- new_from_hash hashed ;;
  other <- bcrypt password (h_cost h) (h_salt h) ;;
  if constant_time_compare (hash_to_string h) (hash_to_string (mk_hash other (h_salt h) (h_cost h) (h_major h) (h_minor h)))
  then Ok tt else Throw.

(** bcrypt.n:425-428 cost *)
Definition cost_of (hashed : list Z) : res Z := h <- new_from_hash hashed ;; Ok (h_cost h).
