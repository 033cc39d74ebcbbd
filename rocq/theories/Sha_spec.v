(** SHA-256, FIPS 180-4. *)
From Verif Require Import Base Sha_model.

(** 2.2.2, 3.2: words of 32 bits *)
Definition word (x : Z) : Z := x mod 2 ^ 32.
Definition ROTR (n x : Z) : Z := Z.lor (Z.shiftr x n) (word (Z.shiftl x (32 - n))).
Definition SHR (n x : Z) : Z := Z.shiftr x n.
Definition xor3 (a b c : Z) : Z := Z.lxor (Z.lxor a b) c.
(** 4.1.2 *)
Definition Ch (x y z : Z) : Z := Z.lxor (Z.land x y) (Z.land (Z.lnot x) z).
Definition Maj (x y z : Z) : Z := xor3 (Z.land x y) (Z.land x z) (Z.land y z).
Definition SIGMA0 (x : Z) : Z := xor3 (ROTR 2 x) (ROTR 13 x) (ROTR 22 x).
Definition SIGMA1 (x : Z) : Z := xor3 (ROTR 6 x) (ROTR 11 x) (ROTR 25 x).
Definition sigma0 (x : Z) : Z := xor3 (ROTR 7 x) (ROTR 18 x) (SHR 3 x).
Definition sigma1 (x : Z) : Z := xor3 (ROTR 17 x) (ROTR 19 x) (SHR 10 x).

(** the first sixty-four primes *)
Definition primes : list Z :=
  [2; 3; 5; 7; 11; 13; 17; 19; 23; 29; 31; 37; 41; 43; 47; 53;
   59; 61; 67; 71; 73; 79; 83; 89; 97; 101; 103; 107; 109; 113; 127; 131;
   137; 139; 149; 151; 157; 163; 167; 173; 179; 181; 191; 193; 197; 199; 211; 223;
   227; 229; 233; 239; 241; 251; 257; 263; 269; 271; 277; 281; 283; 293; 307; 311].
(** 4.2.2: the first thirty-two bits of the fractional part of the cube root of p *)
Definition cube_root_bits (p c : Z) : Prop :=
  0 <= c < 2 ^ 32 /\ exists q, (q * 2 ^ 32 + c) ^ 3 <= p * 2 ^ 96 < (q * 2 ^ 32 + c + 1) ^ 3.
Definition constants (K : list Z) : Prop := Forall2 cube_root_bits primes K.
(** 5.3.3: the same of the square root *)
Definition square_root_bits (p : Z) : Z := Z.sqrt (p * 2 ^ 64) mod 2 ^ 32.
Definition H0 : regs :=
  let h i := square_root_bits (nth i primes 0) in R8 (h 0%nat) (h 1%nat) (h 2%nat) (h 3%nat) (h 4%nat) (h 5%nat) (h 6%nat) (h 7%nat).

(** big-endian, n bytes *)
Fixpoint be (n : nat) (v : Z) : list Z := match n with O => [] | S n => be n (v / 256) ++ [v mod 256] end.
Definition word_at (b : list Z) (t : nat) : Z :=
  nth (4 * t) b 0 * 2 ^ 24 + nth (4 * t + 1) b 0 * 2 ^ 16 + nth (4 * t + 2) b 0 * 2 ^ 8 + nth (4 * t + 3) b 0.

(** 6.2.2, step 1: the message schedule of a block *)
Definition schedule (b : list Z) (W : nat -> Z) : Prop :=
  (forall t, (t < 16)%nat -> W t = word_at b t)
  /\ (forall t, (16 <= t < 64)%nat -> W t = word (sigma1 (W (t - 2)%nat) + W (t - 7)%nat + sigma0 (W (t - 15)%nat) + W (t - 16)%nat)).
(** step 3 *)
Definition step (K : list Z) (W : nat -> Z) (s : regs) (t : nat) : regs :=
  let '(R8 a b c d e f g h) := s in
  let T1 := word (h + SIGMA1 e + Ch e f g + nth t K 0 + W t) in
  let T2 := word (SIGMA0 a + Maj a b c) in
  R8 (word (T1 + T2)) a b c (word (d + T1)) e f g.
(** step 4 *)
Definition plus (s s' : regs) : regs :=
  R8 (word (ra s + ra s')) (word (rb s + rb s')) (word (rc s + rc s')) (word (rd s + rd s'))
     (word (re s + re s')) (word (rf s + rf s')) (word (rg s + rg s')) (word (rh s + rh s')).
Definition compress (H : regs) (b : list Z) (H' : regs) : Prop :=
  exists K W, constants K /\ schedule b W /\ H' = plus (fold_left (step K W) (seq 0 64) H) H.
(** block after block *)
Inductive chain : regs -> list Z -> regs -> Prop :=
| chain_nil H : chain H [] H
| chain_block H b rest H' H'' : length b = 64%nat -> compress H b H' -> chain H' rest H'' -> chain H (b ++ rest) H''.

(** 5.1.1 and 6.2: a one bit, the fewest zeros, the length in bits *)
Definition sha256 (m d : list Z) : Prop :=
  exists z H,
    (z < 64)%nat /\ Nat.modulo (length m + 1 + z + 8) 64 = 0%nat
    /\ chain H0 (m ++ [128] ++ repeat 0 z ++ be 8 (8 * Z.of_nat (length m))) H
    /\ d = be 4 (ra H) ++ be 4 (rb H) ++ be 4 (rc H) ++ be 4 (rd H) ++ be 4 (re H) ++ be 4 (rf H) ++ be 4 (rg H) ++ be 4 (rh H).

Definition bytes (l : list Z) : Prop := Forall (fun b => 0 <= b < 256) l.
