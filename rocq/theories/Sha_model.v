(** SHA-256 in the linker (Mach-O images, ld_macho.c:3348, 3483): src/ld/sha256.c.
    uint32_t and uint8_t values are integers, with the reduction written where C does it.  size_t does not wrap. *)
From Verif Require Import Base.

(** conversion to uint32_t *)
Definition u32 (x : Z) : Z := x mod 4294967296.

(** sha256.c:5-70 *)
Definition k : list Z :=
  [1116352408; 1899447441; 3049323471; 3921009573; 961987163; 1508970993; 2453635748; 2870763221;
   3624381080; 310598401; 607225278; 1426881987; 1925078388; 2162078206; 2614888103; 3248222580;
   3835390401; 4022224774; 264347078; 604807628; 770255983; 1249150122; 1555081692; 1996064986;
   2554220882; 2821834349; 2952996808; 3210313671; 3336571891; 3584528711; 113926993; 338241895;
   666307205; 773529912; 1294757372; 1396182291; 1695183700; 1986661051; 2177026350; 2456956037;
   2730485921; 2820302411; 3259730800; 3345764771; 3516065817; 3600352804; 4094571909; 275423344;
   430227734; 506948616; 659060556; 883997877; 958139571; 1322822218; 1537002063; 1747873779;
   1955562222; 2024104815; 2227730452; 2361852424; 2428436474; 2756734187; 3204031479; 3329325298].

(** sha256.c:72-74 *)
Definition rotr (value amount : Z) : Z := Z.lor (Z.shiftr value amount) (u32 (Z.shiftl value (32 - amount))).
(** sha256.c:76-78; [p] from index i *)
Definition load_be32 (p : list Z) (i : nat) : Z :=
  Z.lor (Z.lor (Z.lor (u32 (Z.shiftl (nth i p 0) 24)) (u32 (Z.shiftl (nth (i + 1) p 0) 16)))
               (u32 (Z.shiftl (nth (i + 2) p 0) 8))) (nth (i + 3) p 0).
(** sha256.c:80-85 *)
Definition store_be32 (value : Z) : list Z :=
  [Z.shiftr value 24 mod 256; Z.shiftr value 16 mod 256; Z.shiftr value 8 mod 256; value mod 256].

(** the eight words of ctx->state, and a to h of transform *)
Record regs := R8 { ra : Z; rb : Z; rc : Z; rd : Z; re : Z; rf : Z; rg : Z; rh : Z }.

(** sha256.c:92-96: the loop, [n] rounds to go; w has i elements *)
Fixpoint extend (n i : nat) (w : list Z) : list Z :=
  match n with
  | O => w
  | S n =>
      let w15 := nth (i - 15) w 0 in
      let w2 := nth (i - 2) w 0 in
      let s0 := Z.lxor (Z.lxor (rotr w15 7) (rotr w15 18)) (Z.shiftr w15 3) in
      let s1 := Z.lxor (Z.lxor (rotr w2 17) (rotr w2 19)) (Z.shiftr w2 10) in
      extend n (S i) (w ++ [u32 (nth (i - 16) w 0 + s0 + nth (i - 7) w 0 + s1)])
  end.
(** sha256.c:100-115: the loop, [n] rounds to go; ~e & g is taken without reducing ~e, g has 32 bits *)
Fixpoint rounds (n i : nat) (w : list Z) (s : regs) : regs :=
  match n with
  | O => s
  | S n =>
      let '(R8 a b c d e f g h) := s in
      let s1 := Z.lxor (Z.lxor (rotr e 6) (rotr e 11)) (rotr e 25) in
      let ch := Z.lxor (Z.land e f) (Z.land (Z.lnot e) g) in
      let t1 := u32 (h + s1 + ch + nth i k 0 + nth i w 0) in
      let s0 := Z.lxor (Z.lxor (rotr a 2) (rotr a 13)) (rotr a 22) in
      let maj := Z.lxor (Z.lxor (Z.land a b) (Z.land a c)) (Z.land b c) in
      let t2 := u32 (s0 + maj) in
      rounds n (S i) w (R8 (u32 (t1 + t2)) a b c (u32 (d + t1)) e f g)
  end.
(** sha256.c:87-124 *)
Definition transform (st : regs) (block : list Z) : regs :=
  let w := extend 48 16 (map (fun i => load_be32 block (i * 4)) (seq 0 16)) in
  let s := rounds 64 0 w st in
  R8 (u32 (ra st + ra s)) (u32 (rb st + rb s)) (u32 (rc st + rc s)) (u32 (rd st + rd s))
     (u32 (re st + re s)) (u32 (rf st + rf s)) (u32 (rg st + rg s)) (u32 (rh st + rh s)).

(** sha256.h:7-12 *)
Record ctx := Ctx { state : regs; bit_count : Z; block : list Z; block_len : nat }.
(** sha256.c:126-140; block is not initialised, [junk] is what it holds *)
Definition init (junk : list Z) : ctx :=
  Ctx (R8 1779033703 3144134277 1013904242 2773480762 1359893119 2600822924 528734635 1541459225) 0 junk 0.

(** sha256.c:145-158; None: the fuel, the size given, is used up *)
Fixpoint update_loop (fuel : nat) (c : ctx) (bytes : list Z) : option ctx :=
  match bytes with
  | [] => Some c
  | _ =>
      match fuel with
      | O => None
      | S fuel =>
          let take := Nat.min (64 - block_len c) (length bytes) in
          let blk := firstn (block_len c) (block c) ++ firstn take bytes ++ skipn (block_len c + take) (block c) in
          let len := (block_len c + take)%nat in
          let c := if Nat.eqb len 64 then Ctx (transform (state c) blk) (bit_count c) blk 0
                   else Ctx (state c) (bit_count c) blk len in
          update_loop fuel c (skipn take bytes)
      end
  end.
(** sha256.c:142-159 *)
Definition update (c : ctx) (bytes : list Z) : option ctx :=
  update_loop (length bytes)
    (Ctx (state c) ((bit_count c + Z.of_nat (length bytes) * 8) mod 18446744073709551616) (block c) (block_len c)) bytes.

(** sha256.c:161-174 *)
Definition final (c : ctx) : option (list Z) :=
  let bits := bit_count c in
  let padding := 128 :: repeat 0 127 in
  let padding_len := if Nat.ltb (block_len c) 56 then (56 - block_len c)%nat else (120 - block_len c)%nat in
  match update c (firstn padding_len padding) with
  | None => None
  | Some c =>
      match update c (map (fun i => Z.shiftr bits (i * 8) mod 256) [7; 6; 5; 4; 3; 2; 1; 0]) with
      | None => None
      | Some c =>
          let s := state c in
          Some (flat_map store_be32 [ra s; rb s; rc s; rd s; re s; rf s; rg s; rh s])
      end
  end.

(** (not in the source) several calls of ld_sha256_update, sha256.c:142-159, as sha256.h:15 allows *)
Fixpoint updates (c : ctx) (chunks : list (list Z)) : option ctx :=
  match chunks with
  | [] => Some c
  | b :: chunks => match update c b with None => None | Some c => updates c chunks end
  end.
(** sha256.c:176-181 *)
Definition sha256_once (junk bytes : list Z) : option (list Z) :=
  match update (init junk) bytes with None => None | Some c => final c end.
