(** C05: fixed-width integer encodings. *)
From Verif Require Import Base Base_lemmas Zlist.
From Verif Require Import Mem_model Mem_spec Mem_proof.

(** For every width, signedness and byte order the bytes produced for a value of the type are its
    two's complement base-256 digits in that order. *)
Theorem mem_write_digits : forall o t v, in_range t v -> write o t v = layout o t v.
Proof. exact write_layout. Qed.
Print Assumptions mem_write_digits.

Example mem_write_digits_ex : in_range I32 (-2) /\ write BE I32 (-2) = [255; 255; 255; 254] /\
  layout LE U16 258 = [2; 1].
Proof. split; [unfold in_range; cbn; lia | split; reflexivity]. Qed.

(** Reading what was just written, whatever bytes follow, gives the value back. *)
Theorem mem_read_after_write : forall o t v rest, in_range t v -> bytes rest ->
  read o t (write o t v ++ rest) = Ok v.
Proof. exact read_write. Qed.
Print Assumptions mem_read_after_write.

Example mem_read_after_write_ex :
  in_range I64 (-9223372036854775808) /\ read LE I64 (write LE I64 (-9223372036854775808) ++ [7]) = Ok (-9223372036854775808).
Proof. split; [unfold in_range; cbn; lia | vm_compute; reflexivity]. Qed.

(** Reading any buffer that is long enough gives the value of the type with exactly these digits;
    a shorter buffer is reported as an error and never read outside. *)
Theorem mem_read_any : forall o t buf, bytes buf ->
  ((size t <= length buf)%nat -> exists v, read o t buf = Ok v /\ denotes o t (firstn (size t) buf) v) /\
  ((length buf < size t)%nat -> read o t buf = Throw).
Proof. intros o t buf H. split; [now apply read_denotes | apply read_short]. Qed.
Print Assumptions mem_read_any.

Example mem_read_any_ex : bytes [255; 128; 3] /\ read BE I16 [255; 128; 3] = Ok (-128) /\ read LE U32 [1; 2; 3] = Throw.
Proof. split; [repeat constructor; unfold is_byte; lia | split; reflexivity]. Qed.

(** ** The in-place accessors of the C side: width 2, 4 or 8 at any address inside a buffer *)
Definition write_le (n : nat) := match n with 2 => write16le | 4 => write32le | _ => write64le end%nat.
Definition read_le (n : nat) := match n with 2 => read16le | 4 => read32le | _ => read64le end%nat.
Definition add_le (n : nat) := match n with 4 => add32le | _ => add64le end%nat.

(** The write changes exactly the addressed bytes, into the digits of the value. *)
Theorem mem_write_in_place : forall n p a x, n = 2%nat \/ n = 4%nat \/ n = 8%nat ->
  0 <= a -> a + Z.of_nat n <= zlen p ->
  write_le n p a x = Ok (stored p a (digits n x)) /\
  (forall i, (i < a \/ a + Z.of_nat n <= i) -> znth (stored p a (digits n x)) i = znth p i).
Proof.
  intros n p a x Hn Ha Hl. destruct (split_at p a n Ha Hl) as (pre & mid & suf & -> & <- & Hm).
  rewrite stored_mid by (now rewrite digits_length). split.
  - destruct Hn as [-> | [-> | ->]]; cbn [write_le];
      [now apply write16le_mid | now apply write32le_mid | now apply write64le_mid].
  - intros i Hi. destruct (Z.lt_ge_cases i 0) as [L|L].
    { rewrite !znth_None by lia. reflexivity. }
    assert (E : zlen (digits n x) = Z.of_nat n) by (unfold zlen; now rewrite digits_length).
    assert (E' : zlen mid = Z.of_nat n) by (unfold zlen; now rewrite Hm).
    destruct Hi as [Hi|Hi].
    + rewrite (znth_app_l pre), (znth_app_l pre) by lia. reflexivity.
    + rewrite (znth_app_r pre), (znth_app_r pre), (znth_app_r (digits n x)), (znth_app_r mid) by lia.
      now rewrite E, E'.
Qed.
Print Assumptions mem_write_in_place.

Example mem_write_in_place_ex : write_le 4 [9; 9; 9; 9; 9; 9] 1 258 = Ok [9; 2; 1; 0; 0; 9].
Proof. reflexivity. Qed.

(** Reading back gives the value modulo the width, and the addition of a signed amount is exact
    modulo the width. *)
Theorem mem_read_in_place : forall n p a x, n = 2%nat \/ n = 4%nat \/ n = 8%nat ->
  0 <= a -> a + Z.of_nat n <= zlen p ->
  exists p', write_le n p a x = Ok p' /\ read_le n p' a = Ok (x mod 256 ^ Z.of_nat n) /\
    (n <> 2%nat -> forall y, exists p'', add_le n p' a y = Ok p'' /\
      read_le n p'' a = Ok ((x + y) mod 256 ^ Z.of_nat n)).
Proof.
  intros n p a x Hn Ha Hl. destruct (split_at p a n Ha Hl) as (pre & mid & suf & -> & <- & Hm).
  pose proof (digits_bytes n x) as Hb. pose proof (digits_length n x) as Hd.
  destruct Hn as [-> | [-> | ->]]; cbn [write_le read_le add_le].
  - eexists. split; [now apply write16le_mid|]. split; [|congruence].
    rewrite read16le_mid; auto. now rewrite number_digits.
  - eexists. split; [now apply write32le_mid|]. split.
    + rewrite read32le_mid; auto. now rewrite number_digits.
    + intros _ y. unfold add32le. rewrite read32le_mid by auto. cbn [bind].
      rewrite write32le_mid by auto. eexists. split; [reflexivity|].
      rewrite read32le_mid; auto using digits_length, digits_bytes. rewrite !number_digits. unfold w.
      change (2 ^ 32) with (256 ^ Z.of_nat 4). rewrite Z.mod_mod by (apply Z.pow_nonzero; lia).
      rewrite Z.add_mod_idemp_l by (apply Z.pow_nonzero; lia). reflexivity.
  - eexists. split; [now apply write64le_mid|]. split.
    + rewrite read64le_mid; auto. now rewrite number_digits.
    + intros _ y. unfold add64le. rewrite read64le_mid by auto. cbn [bind].
      rewrite write64le_mid by auto. eexists. split; [reflexivity|].
      rewrite read64le_mid; auto using digits_length, digits_bytes. rewrite !number_digits. unfold w.
      change (2 ^ 64) with (256 ^ Z.of_nat 8). rewrite Z.mod_mod by (apply Z.pow_nonzero; lia).
      rewrite Z.add_mod_idemp_l by (apply Z.pow_nonzero; lia). reflexivity.
Qed.
Print Assumptions mem_read_in_place.

Example mem_read_in_place_ex : exists p', write_le 8 [0; 0; 0; 0; 0; 0; 0; 0; 5] 0 (-1) = Ok p' /\
  read_le 8 p' 0 = Ok 18446744073709551615 /\ znth p' 8 = Some 5.
Proof. eexists. split; [reflexivity|]. split; vm_compute; reflexivity. Qed.
