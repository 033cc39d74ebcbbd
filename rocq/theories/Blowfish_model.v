(** std/crypto/blowfish.n:12-19 and 216-545: the Blowfish cipher. *)
From Verif Require Import Base Blowfish_tables.

(** blowfish.n:13-19 cipher_t *)
Record cipher := mk_cipher { p : list Z; s0 : list Z; s1 : list Z; s2 : list Z; s3 : list Z }.

Definition set_p (c : cipher) (l : list Z) : cipher := mk_cipher l (s0 c) (s1 c) (s2 c) (s3 c).
Definition set_s0 (c : cipher) (l : list Z) : cipher := mk_cipher (p c) l (s1 c) (s2 c) (s3 c).
Definition set_s1 (c : cipher) (l : list Z) : cipher := mk_cipher (p c) (s0 c) l (s2 c) (s3 c).
Definition set_s2 (c : cipher) (l : list Z) : cipher := mk_cipher (p c) (s0 c) (s1 c) l (s3 c).
Definition set_s3 (c : cipher) (l : list Z) : cipher := mk_cipher (p c) (s0 c) (s1 c) (s2 c) l.

(** blowfish.n:216-227 init_cipher, which overwrites all elements of vectors of the right lengths
    (bcrypt.n:170-176) *)
Definition init_cipher : cipher := mk_cipher initial_p initial_s0 initial_s1 initial_s2 initial_s3.

(** blowfish.n:235-241 one turn of the loop of get_next_word, and 405-411 of expand_key *)
Definition next_byte (b : list Z) (w j : Z) : res (Z * Z) :=
  x <- at_ b j ;;
  let j := j + 1 in
  Ok (Z.lor (u32 (Z.shiftl w 8)) x, if zlen b <=? j then 0 else j).

(** blowfish.n:230-244 get_next_word; [len] is the length of the vector in every call *)
Definition get_next_word (b : list Z) (j : Z) : res (Z * Z) :=
  ' (w, j) <- next_byte b 0 j ;;
  ' (w, j) <- next_byte b w j ;;
  ' (w, j) <- next_byte b w j ;;
  next_byte b w j.

(** blowfish.n:252-253: the part of a round in front of the exclusive or with an element of p *)
Definition f_word (c : cipher) (x : Z) : res Z :=
  a <- at_ (s0 c) (Z.land (Z.shiftr x 24) 255) ;;
  b <- at_ (s1 c) (Z.land (Z.shiftr x 16) 255) ;;
  d <- at_ (s2 c) (Z.land (Z.shiftr x 8) 255) ;;
  e <- at_ (s3 c) (Z.land x 255) ;;
  Ok (u32 (Z.lxor (u32 (a + b)) d + e)).

(** blowfish.n:252-283 and 296-327: the unrolled rounds, one for each element of [l], the index into
    p.  The two halves change places after each round, as xl and xr do in the source. *)
Fixpoint rounds (c : cipher) (l : list Z) (x y : Z) : res (Z * Z) :=
  match l with
  | [] => Ok (x, y)
  | i :: t =>
      f <- f_word c x ;;
      k <- at_ (p c) i ;;
      rounds c t (Z.lxor y (Z.lxor f k)) x
  end.

(** blowfish.n:247-288 encrypt_block *)
Definition encrypt_block (c : cipher) (l r : Z) : res (Z * Z) :=
  k <- at_ (p c) 0 ;;
  ' (xl, xr) <- rounds c [1; 2; 3; 4; 5; 6; 7; 8; 9; 10; 11; 12; 13; 14; 15; 16] (Z.lxor l k) r ;;
  k <- at_ (p c) 17 ;;
  Ok (Z.lxor xr k, xl).

(** blowfish.n:291-332 decrypt_block *)
Definition decrypt_block (c : cipher) (l r : Z) : res (Z * Z) :=
  k <- at_ (p c) 17 ;;
  ' (xl, xr) <- rounds c [16; 15; 14; 13; 12; 11; 10; 9; 8; 7; 6; 5; 4; 3; 2; 1] (Z.lxor l k) r ;;
  k <- at_ (p c) 0 ;;
  Ok (Z.lxor xr k, xl).

(** blowfish.n:362-365 and 381-384 *)
Definition load32 (src : list Z) (i : Z) : res Z :=
  a <- at_ src i ;; b <- at_ src (i + 1) ;; d <- at_ src (i + 2) ;; e <- at_ src (i + 3) ;;
  Ok (Z.lor (Z.lor (Z.lor (u32 (Z.shiftl a 24)) (u32 (Z.shiftl b 16))) (u32 (Z.shiftl d 8))) e).

(** blowfish.n:369-376 and 388-395 *)
Definition store32 (dst : list Z) (i x : Z) : res (list Z) :=
  dst <- set_at dst i (u8 (Z.shiftr x 24)) ;;
  dst <- set_at dst (i + 1) (u8 (Z.shiftr x 16)) ;;
  dst <- set_at dst (i + 2) (u8 (Z.shiftr x 8)) ;;
  set_at dst (i + 3) (u8 x).

(** blowfish.n:361-377 encrypt: the contents of dst afterwards *)
Definition encrypt (c : cipher) (dst src : list Z) : res (list Z) :=
  l <- load32 src 0 ;; r <- load32 src 4 ;;
  ' (l, r) <- encrypt_block c l r ;;
  dst <- store32 dst 0 l ;; store32 dst 4 r.

(** blowfish.n:380-396 decrypt *)
Definition decrypt (c : cipher) (dst src : list Z) : res (list Z) :=
  l <- load32 src 0 ;; r <- load32 src 4 ;;
  ' (l, r) <- decrypt_block c l r ;;
  dst <- store32 dst 0 l ;; store32 dst 4 r.

(** blowfish.n:403-413 and 477-479: [n] words of the key into p, from index [i] *)
Fixpoint mix_key (n : nat) (key : list Z) (i j : Z) (l : list Z) : res (list Z) :=
  match n with
  | O => Ok l
  | S n =>
      ' (d, j) <- get_next_word key j ;;
      k <- at_ l i ;;
      l <- set_at l i (Z.lxor k d) ;;
      mix_key n key (i + 1) j l
  end.

(** blowfish.n:418-426, 429-437 and so on, and 485-495, 498-508 and so on with salt: the next [n]
    pairs of words of one vector, from index [i].  [put] stores the vector in the cipher.  The
    turns with an odd index do nothing and are left out, and so is the test of [i + 1], which holds
    for every even index below 18 and 256.  [j] is the position in the salt. *)
Fixpoint refill (n : nat) (salt : option (list Z)) (put : cipher -> list Z -> cipher) (get : cipher -> list Z)
    (c : cipher) (i l r j : Z) : res (cipher * Z * Z * Z) :=
  match n with
  | O => Ok (c, l, r, j)
  | S n =>
      ' (l, r, j) <- match salt with
                     | None => Ok (l, r, j)
                     | Some s => ' (a, j) <- get_next_word s j ;; ' (b, j) <- get_next_word s j ;; Ok (Z.lxor l a, Z.lxor r b, j)
                     end ;;
      ' (l, r) <- encrypt_block c l r ;;
      v <- set_at (get c) i l ;;
      v <- set_at v (i + 1) r ;;
      refill n salt put get (put c v) (i + 2) l r j
  end.

(** blowfish.n:399-468 expand_key (no salt) and 471-545 expand_key_with_salt *)
Definition expand (key : list Z) (salt : option (list Z)) (c : cipher) : res cipher :=
  l <- mix_key 18 key 0 0 (p c) ;;
  ' (c, l, r, j) <- refill 9 salt set_p p (set_p c l) 0 0 0 0 ;;
  ' (c, l, r, j) <- refill 128 salt set_s0 s0 c 0 l r j ;;
  ' (c, l, r, j) <- refill 128 salt set_s1 s1 c 0 l r j ;;
  ' (c, l, r, j) <- refill 128 salt set_s2 s2 c 0 l r j ;;
  ' (c, l, r, j) <- refill 128 salt set_s3 s3 c 0 l r j ;;
  Ok c.

(** blowfish.n:335-343 new_cipher; None is the return value ERROR_INVALID_KEY_SIZE *)
Definition new_cipher (key : list Z) : res (option cipher) :=
  if (zlen key <? 1) || (56 <? zlen key) then Ok None
  else c <- expand key None init_cipher ;; Ok (Some c).

(** blowfish.n:346-358 new_salted_cipher *)
Definition new_salted_cipher (key salt : list Z) : res (option cipher) :=
  if zlen salt =? 0 then new_cipher key
  else if zlen key <? 1 then Ok None
  else c <- expand key (Some salt) init_cipher ;; Ok (Some c).
