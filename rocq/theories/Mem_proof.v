From Verif Require Import Base Base_lemmas Zlist.
From Verif Require Import Mem_model Mem_spec.

(** * Arithmetic *)
Lemma byte_at_eq i k : 0 <= k -> byte_at i k = (i / 2 ^ k) mod 256.
Proof.
  intros H. unfold byte_at, w. change 255 with (Z.ones 8). rewrite Z.land_ones, Z.shiftr_div_pow2 by lia.
  change (2 ^ 8) with 256. now rewrite Z.mod_mod by lia.
Qed.

Lemma lor_plus a b k : 0 <= k -> a mod 2 ^ k = 0 -> 0 <= b < 2 ^ k -> Z.lor a b = a + b.
Proof.
  intros Hk Ha Hb.
  assert (E : Z.land a b = 0).
  { apply Z.bits_inj'. intros n Hn. rewrite Z.land_spec, Z.bits_0.
    destruct (Z.lt_ge_cases n k).
    - assert (Z.testbit a n = false) as ->; [|reflexivity].
      rewrite <- (Z.mod_pow2_bits_low a k n) by lia. rewrite Ha. apply Z.bits_0.
    - assert (Z.testbit b n = false) as ->; [|apply andb_false_r].
      rewrite <- (Z.mod_small b (2 ^ k)) by lia. apply Z.mod_pow2_bits_high. lia. }
  rewrite Z.add_nocarry_lxor by assumption. now rewrite Z.lxor_lor.
Qed.

Lemma w_small n x : 0 <= x < 2 ^ n -> w n x = x.
Proof. intros H. unfold w. now apply Z.mod_small. Qed.

Lemma s_small n x : 0 < n -> - 2 ^ (n - 1) <= x < 2 ^ (n - 1) -> s n x = x.
Proof.
  intros Hn H. unfold s. assert (2 ^ n = 2 * 2 ^ (n - 1)).
  { replace n with (Z.succ (n - 1)) at 1 by lia. apply Z.pow_succ_r. lia. }
  rewrite Z.mod_small by lia. lia.
Qed.

Lemma s_eqm n x : exists k, s n x = x + k * 2 ^ n.
Proof.
  unfold s. exists (- ((x + 2 ^ (n - 1)) / 2 ^ n)).
  destruct (Z.eq_dec (2 ^ n) 0) as [E|E].
  - rewrite E. rewrite Zmod_0_r. lia.
  - pose proof (Z.div_mod (x + 2 ^ (n - 1)) (2 ^ n) E). lia.
Qed.

Lemma s_range n x : 0 < n -> - 2 ^ (n - 1) <= s n x < 2 ^ (n - 1).
Proof.
  intros Hn. unfold s. assert (2 ^ n = 2 * 2 ^ (n - 1)).
  { replace n with (Z.succ (n - 1)) at 1 by lia. apply Z.pow_succ_r. lia. }
  assert (0 < 2 ^ (n - 1)) by (apply Z.pow_pos_nonneg; lia).
  pose proof (Z.mod_pos_bound (x + 2 ^ (n - 1)) (2 ^ n)). lia.
Qed.

(** * Digits *)
Lemma number_digits n v : number (digits n v) = v mod 256 ^ Z.of_nat n.
Proof.
  revert v. induction n; intros v.
  - cbn [digits number]. change (256 ^ Z.of_nat 0) with 1. now rewrite Z.mod_1_r.
  - cbn [digits number]. rewrite IHn. rewrite Nat2Z.inj_succ, Z.pow_succ_r by lia.
    rewrite Z.rem_mul_r by (try apply Z.pow_nonzero; lia). lia.
Qed.

Lemma digits_length n v : length (digits n v) = n.
Proof. revert v. induction n; intros v; cbn [digits length]; auto. Qed.

Lemma digits_bytes n v : bytes (digits n v).
Proof.
  revert v. induction n; intros v; cbn [digits]; constructor.
  - unfold is_byte. pose proof (Z.mod_pos_bound v 256). lia.
  - apply IHn.
Qed.

Lemma number_bound l : bytes l -> 0 <= number l < 256 ^ zlen l.
Proof.
  induction 1 as [|x l Hx _ IH].
  - cbn. lia.
  - cbn [number]. rewrite zlen_cons, Z.add_comm, Z.pow_add_r by (unfold zlen; lia).
    change (256 ^ 1) with 256. unfold is_byte in Hx. lia.
Qed.

Lemma digits_mod n v : digits n (v mod 256 ^ Z.of_nat n) = digits n v.
Proof.
  revert v. induction n; intros v; [reflexivity|]. cbn [digits].
  rewrite Nat2Z.inj_succ, Z.pow_succ_r by lia.
  rewrite Z.rem_mul_r by (try apply Z.pow_nonzero; lia).
  f_equal.
  - rewrite Z.mul_comm, Z_mod_plus by lia. now apply Z.mod_mod.
  - rewrite Z.mul_comm, Z_div_plus by lia.
    rewrite (Z.div_small (v mod 256)) by (apply Z.mod_pos_bound; lia). apply IHn.
Qed.

Lemma digits_app m n v : digits (m + n) v = digits m v ++ digits n (v / 256 ^ Z.of_nat m).
Proof.
  revert v. induction m; intros v.
  - cbn [digits plus app]. change (256 ^ Z.of_nat 0) with 1. now rewrite Z.div_1_r.
  - cbn [digits plus app]. f_equal. rewrite IHm. do 2 f_equal.
    rewrite Nat2Z.inj_succ, Z.pow_succ_r by lia.
    apply Z.div_div; [lia|]. apply Z.pow_pos_nonneg; lia.
Qed.

Lemma number_app a b : number (a ++ b) = number a + 256 ^ zlen a * number b.
Proof.
  induction a as [|x a IH]; cbn [app number].
  - change (zlen (@nil Z)) with 0. lia.
  - rewrite IH, zlen_cons, Z.add_comm with (n := 1), Z.pow_add_r by (unfold zlen; lia).
    change (256 ^ 1) with 256. lia.
Qed.

(** * Writes *)
Ltac divs := repeat (rewrite Z.div_div by lia).
Lemma write_layout o t v : in_range t v -> write o t v = layout o t v.
Proof.
  unfold in_range. intros H.
  assert (B : forall k, 0 <= k -> byte_at v k = (v / 2 ^ k) mod 256) by (intros; now apply byte_at_eq).
  destruct o, t; cbn [write layout size digits rev app];
    unfold write_u8_le, write_u16_le, write_u32_le, write_u64_le, write_i8_le, write_i16_le, write_i32_le,
      write_i64_le, write_u8_be, write_u16_be, write_u32_be, write_u64_be, write_i8_be, write_i16_be,
      write_i32_be, write_i64_be;
    divs; rewrite ?B by lia; change (2 ^ 0) with 1; rewrite ?Z.div_1_r; try reflexivity;
    cbn [signed size] in H; change (256 ^ Z.of_nat 1) with 256 in H;
    rewrite Z.mod_small by lia; reflexivity.
Qed.

(** * Reads *)
Definition twos (t : ity) (x : Z) : Z :=
  if signed t then s (8 * Z.of_nat (size t)) x else w (8 * Z.of_nat (size t)) x.

Lemma twos_range t x : in_range t (twos t x).
Proof.
  unfold in_range, twos.
  assert (P : 256 ^ Z.of_nat (size t) = 2 ^ (8 * Z.of_nat (size t))).
  { rewrite Z.pow_mul_r by lia. reflexivity. }
  assert (0 < 8 * Z.of_nat (size t)) by (destruct t; cbn; lia).
  rewrite P. destruct (signed t).
  - assert (E : 2 ^ (8 * Z.of_nat (size t)) = 2 * 2 ^ (8 * Z.of_nat (size t) - 1)).
    { rewrite <- Z.pow_succ_r by lia. f_equal. lia. }
    rewrite E. pose proof (s_range (8 * Z.of_nat (size t)) x). lia.
  - apply Z.mod_pos_bound. apply Z.pow_pos_nonneg; lia.
Qed.

Lemma twos_eqm t x : exists k, twos t x + k * 256 ^ Z.of_nat (size t) = x.
Proof.
  unfold twos.
  assert (P : 256 ^ Z.of_nat (size t) = 2 ^ (8 * Z.of_nat (size t))).
  { rewrite Z.pow_mul_r by lia. reflexivity. }
  rewrite P. destruct (signed t).
  - destruct (s_eqm (8 * Z.of_nat (size t)) x) as [k E]. exists (- k). lia.
  - exists (x / 2 ^ (8 * Z.of_nat (size t))). unfold w.
    rewrite Z.mod_eq by (apply Z.pow_nonzero; lia). lia.
Qed.

Lemma range_unique t u v k : in_range t u -> in_range t v -> u = v + k * 256 ^ Z.of_nat (size t) -> u = v.
Proof.
  unfold in_range. intros Hu Hv E.
  assert (0 < 256 ^ Z.of_nat (size t)) by (apply Z.pow_pos_nonneg; lia).
  destruct (signed t); assert (k = 0) by nia; subst k; lia.
Qed.

Lemma s_idem n x : 0 < n -> s n (s n x) = s n x.
Proof. intros. apply s_small; auto. now apply s_range. Qed.

Lemma wsh n b k : is_byte b -> 0 <= k -> k + 8 <= n -> w n (Z.shiftl (w n b) k) = b * 2 ^ k.
Proof.
  intros Hb Hk Hn. unfold is_byte in Hb.
  assert (2 ^ 8 * 2 ^ k <= 2 ^ n).
  { rewrite <- Z.pow_add_r by lia. apply Z.pow_le_mono_r; lia. }
  assert (0 < 2 ^ k) by (apply Z.pow_pos_nonneg; lia).
  change (2 ^ 8) with 256 in *.
  rewrite (w_small n b) by nia. rewrite Z.shiftl_mul_pow2 by lia. apply w_small. nia.
Qed.

Lemma ssh n b k : is_byte b -> 0 <= k -> k + 8 < n -> s n (Z.shiftl (s n b) k) = b * 2 ^ k.
Proof.
  intros Hb Hk Hn. unfold is_byte in Hb.
  assert (2 ^ 8 * 2 ^ k <= 2 ^ (n - 1)).
  { rewrite <- Z.pow_add_r by lia. apply Z.pow_le_mono_r; lia. }
  assert (0 < 2 ^ k) by (apply Z.pow_pos_nonneg; lia).
  change (2 ^ 8) with 256 in *.
  rewrite (s_small n b) by nia. rewrite Z.shiftl_mul_pow2 by lia. apply s_small; nia.
Qed.

Lemma ssh_top n b k : is_byte b -> 0 < k -> k + 8 = n ->
  exists j, s n (Z.shiftl (s n b) k) = (b + 256 * j) * 2 ^ k.
Proof.
  intros Hb Hk Hn. unfold is_byte in Hb.
  assert (2 ^ 8 <= 2 ^ (n - 1)).
  { apply Z.pow_le_mono_r; lia. }
  change (2 ^ 8) with 256 in *.
  rewrite (s_small n b) by lia.
  rewrite Z.shiftl_mul_pow2 by lia. destruct (s_eqm n (b * 2 ^ k)) as [j E]. exists j. rewrite E.
  subst n. rewrite Z.pow_add_r by lia. change (2 ^ 8) with 256. lia.
Qed.

Lemma s_add_mul n x j : 0 < n -> s n (x + j * 2 ^ n) = s n x.
Proof.
  intros H. unfold s. f_equal. replace (x + j * 2 ^ n + 2 ^ (n - 1)) with (x + 2 ^ (n - 1) + j * 2 ^ n) by lia.
  apply Z_mod_plus_full.
Qed.

Lemma lor_step h b k k' : k' = k + 8 -> 0 <= k -> is_byte b ->
  Z.lor (h * 2 ^ k') (b * 2 ^ k) = (h * 256 + b) * 2 ^ k.
Proof.
  intros -> Hk Hb. unfold is_byte in Hb. assert (0 < 2 ^ k) by (apply Z.pow_pos_nonneg; lia).
  rewrite Z.pow_add_r by lia. change (2 ^ 8) with 256.
  rewrite (lor_plus _ _ (k + 8)).
  - lia.
  - lia.
  - rewrite Z.pow_add_r by lia. change (2 ^ 8) with 256. apply Z.mod_mul. lia.
  - rewrite Z.pow_add_r by lia. change (2 ^ 8) with 256. nia.
Qed.

Lemma w_id n b : is_byte b -> 8 <= n -> w n b = b * 2 ^ 0.
Proof.
  intros Hb Hn. unfold is_byte in Hb. change (2 ^ 0) with 1.
  assert (2 ^ 8 <= 2 ^ n) by (apply Z.pow_le_mono_r; lia). change (2 ^ 8) with 256 in *.
  rewrite w_small; lia.
Qed.

Lemma s_id n b : is_byte b -> 8 < n -> s n b = b * 2 ^ 0.
Proof.
  intros Hb Hn. unfold is_byte in Hb. change (2 ^ 0) with 1.
  assert (2 ^ 8 <= 2 ^ (n - 1)) by (apply Z.pow_le_mono_r; lia). change (2 ^ 8) with 256 in *.
  rewrite s_small; lia.
Qed.

Lemma at_nth (l : list Z) i : 0 <= i < zlen l -> at_ l i = Ok (nth (Z.to_nat i) l 0).
Proof.
  intros H. unfold at_. replace ((0 <=? i) && (i <? zlen l)) with true by lia.
  rewrite (nth_error_nth' l 0); [reflexivity|]. unfold zlen in H. lia.
Qed.

Ltac takeb buf Hb Hl n :=
  lazymatch n with
  | O => idtac
  | S ?m => destruct buf as [|? buf]; [cbn [length] in Hl; lia|];
            let B := fresh "B" in pose proof (Forall_inv Hb) as B; apply Forall_inv_tail in Hb;
            takeb buf Hb Hl m
  end.

Ltac zl := repeat rewrite zlen_cons; match goal with |- context [zlen ?l + 1] => pose proof (zlen_nonneg l) end.

Lemma read_value o t buf : bytes buf -> (size t <= length buf)%nat ->
  read o t buf = Ok (twos t (number (match o with LE => firstn (size t) buf | BE => rev (firstn (size t) buf) end))).
Proof.
  intros Hb Hl.
  destruct t; cbn [size] in *;
  match type of Hl with (?n <= _)%nat => takeb buf Hb Hl n end;
  destruct o; cbn [read firstn rev app];
    unfold read_u8_le, read_u16_le, read_u32_le, read_u64_le, read_i8_le, read_i16_le, read_i32_le,
      read_i64_le, read_u8_be, read_u16_be, read_u32_be, read_u64_be, read_i8_be, read_i16_be,
      read_i32_be, read_i64_be;
  (match goal with |- (if ?c then _ else _) = _ => replace c with false
     by (symmetry; apply Z.ltb_ge; rewrite !zlen_cons; pose proof (zlen_nonneg buf); lia) end);
  repeat (rewrite at_nth by (rewrite !zlen_cons; pose proof (zlen_nonneg buf); lia));
  repeat (match goal with |- context [Z.to_nat ?k] => let v := eval vm_compute in (Z.to_nat k) in
     change (Z.to_nat k) with v end);
  cbn [nth bind number]; rewrite ?Z.mul_0_r, ?Z.add_0_r;
  (* u8, i8 *)
  try (unfold twos; cbn [signed size]; f_equal; change (8 * Z.of_nat 1) with 8;
       first [reflexivity | symmetry; apply w_small; exact B]);
  unfold is_byte in *;
  (* unsigned *)
  try (rewrite !wsh, w_id by (unfold is_byte; lia);
       repeat (rewrite lor_step by (unfold is_byte; lia));
       f_equal; change (2 ^ 0) with 1; unfold twos; cbn [signed size];
       match goal with |- _ = w ?n _ => let v := eval vm_compute in n in change n with v end;
       rewrite w_small by (match goal with |- _ < ?p => let v := eval vm_compute in p in change p with v | |- _ <= _ < ?p => let v := eval vm_compute in p in change p with v end; lia);
       ring);
  (* signed *)
  (match goal with |- context [s ?n (Z.shiftl (s ?n ?b) ?k)] =>
     destruct (ssh_top n b k) as [j E]; [unfold is_byte; lia | lia | lia | rewrite E; clear E] end);
  rewrite ?ssh by (unfold is_byte; lia);
  match goal with |- context [Z.lor _ (s ?n ?b)] => rewrite (s_id n b) by (unfold is_byte; lia) end;
  repeat (rewrite lor_step by (unfold is_byte; lia));
  f_equal; change (2 ^ 0) with 1; unfold twos; cbn [signed size];
  match goal with |- _ = s ?n _ => let v := eval vm_compute in n in change n with v end;
  match goal with |- s ?n ?x = s ?n ?y => replace x with (y + j * 2 ^ n); [apply s_add_mul; lia|] end;
  match goal with |- context [2 ^ ?n] => let v := eval vm_compute in (2 ^ n) in change (2 ^ n) with v end; ring.
Qed.

Lemma read_short o t buf : (length buf < size t)%nat -> read o t buf = Throw.
Proof.
  intros H. assert (zlen buf < Z.of_nat (size t)) by (unfold zlen; lia).
  destruct t, o; cbn [size] in *; cbn [read];
    unfold read_u8_le, read_u16_le, read_u32_le, read_u64_le, read_i8_le, read_i16_le, read_i32_le,
      read_i64_le, read_u8_be, read_u16_be, read_u32_be, read_u64_be, read_i8_be, read_i16_be,
      read_i32_be, read_i64_be;
    (match goal with |- (if ?c then _ else _) = _ => replace c with true by (symmetry; apply Z.ltb_lt; lia) end);
    reflexivity.
Qed.

Lemma layout_bytes o t v : bytes (layout o t v).
Proof. unfold layout. destruct o; [|apply Forall_rev]; apply digits_bytes. Qed.

Lemma layout_length o t v : length (layout o t v) = size t.
Proof. unfold layout. destruct o; rewrite ?rev_length; apply digits_length. Qed.

Lemma twos_id t v k : in_range t v -> twos t (v + k * 256 ^ Z.of_nat (size t)) = v.
Proof.
  intros H. destruct (twos_eqm t (v + k * 256 ^ Z.of_nat (size t))) as [j E].
  apply (range_unique t _ _ (k - j)); auto using twos_range. lia.
Qed.

Lemma read_write o t v rest : in_range t v -> bytes rest -> read o t (write o t v ++ rest) = Ok v.
Proof.
  intros H Hr. rewrite write_layout by assumption.
  rewrite read_value.
  - f_equal.
    assert (F : firstn (size t) (layout o t v ++ rest) = layout o t v).
    { rewrite <- (layout_length o t v) at 1. rewrite firstn_app, firstn_all, Nat.sub_diag, firstn_O. apply app_nil_r. }
    rewrite F.
    replace (number _) with (number (digits (size t) v)) by (unfold layout; destruct o; now rewrite ?rev_involutive).
    rewrite number_digits. rewrite Z.mod_eq by (apply Z.pow_nonzero; lia).
    replace (v - _) with (v + (- (v / 256 ^ Z.of_nat (size t))) * 256 ^ Z.of_nat (size t)) by lia.
    now apply twos_id.
  - apply Forall_app. split; [apply layout_bytes | exact Hr].
  - rewrite app_length, layout_length. lia.
Qed.

Lemma read_denotes o t buf : bytes buf -> (size t <= length buf)%nat ->
  exists v, read o t buf = Ok v /\ denotes o t (firstn (size t) buf) v.
Proof.
  intros Hb Hl. eexists. split; [now apply read_value|]. split; [apply twos_range|].
  destruct o; apply twos_eqm.
Qed.

(** * The C accessors *)
Lemma list_set_mid (pre suf : list Z) x y :
  list_set (pre ++ x :: suf) (length pre) y = pre ++ y :: suf.
Proof. induction pre; cbn; [reflexivity|]. now rewrite IHpre. Qed.

Lemma wr_mid (pre suf : list Z) x y a : a = zlen pre -> wr (pre ++ x :: suf) a y = Ok (pre ++ y :: suf).
Proof.
  intros ->. rewrite wr_ok by (rewrite zlen_app, zlen_cons; pose proof (zlen_nonneg suf); pose proof (zlen_nonneg pre); lia).
  f_equal. unfold zlen. rewrite Nat2Z.id. apply list_set_mid.
Qed.

Lemma rd_mid (pre suf : list Z) x a : a = zlen pre -> rd (pre ++ x :: suf) a = Ok x.
Proof.
  intros ->. apply rd_ok. rewrite znth_app_r by lia. rewrite Z.sub_diag. apply znth_cons_0.
Qed.

Lemma split_at (p : list Z) a n : 0 <= a -> a + Z.of_nat n <= zlen p ->
  exists pre mid suf, p = pre ++ mid ++ suf /\ zlen pre = a /\ length mid = n.
Proof.
  intros Ha H. exists (firstn (Z.to_nat a) p), (firstn n (skipn (Z.to_nat a) p)), (skipn n (skipn (Z.to_nat a) p)).
  rewrite !firstn_skipn. split; [reflexivity|]. unfold zlen in *.
  rewrite !firstn_length, skipn_length. lia.
Qed.

Lemma stored_mid pre mid suf bs : length bs = length mid ->
  stored (pre ++ mid ++ suf) (zlen pre) bs = pre ++ bs ++ suf.
Proof.
  intros E. unfold stored, zlen. rewrite Nat2Z.id, E.
  rewrite firstn_app, firstn_all, Nat.sub_diag, firstn_O, app_nil_r.
  f_equal. f_equal. rewrite app_assoc, <- app_length. rewrite skipn_app, skipn_all, Nat.sub_diag. reflexivity.
Qed.

Lemma write16le_mid pre mid suf a x : a = zlen pre -> length mid = 2%nat ->
  write16le (pre ++ mid ++ suf) a x = Ok (pre ++ digits 2 x ++ suf).
Proof.
  intros -> H. destruct mid as [|b0 [|b1 [|]]]; try discriminate. unfold write16le. cbn [app].
  rewrite wr_mid by reflexivity. cbn [bind].
  change (pre ++ ?b :: b1 :: suf) with (pre ++ [b] ++ b1 :: suf). rewrite app_assoc, wr_mid.
  - rewrite <- app_assoc. cbn [app digits]. do 2 f_equal.
    f_equal; [|f_equal]; unfold w; change 255 with (Z.ones 8); rewrite Z.land_ones by lia;
      change (2 ^ 8) with 256; rewrite Z.mod_mod by lia; [reflexivity|].
    now rewrite Z.shiftr_div_pow2 by lia.
  - rewrite zlen_app. reflexivity.
Qed.

Lemma write32le_mid pre mid suf a x : a = zlen pre -> length mid = 4%nat ->
  write32le (pre ++ mid ++ suf) a x = Ok (pre ++ digits 4 x ++ suf).
Proof.
  intros -> H. destruct mid as [|b0 [|b1 [|b2 [|b3 [|]]]]]; try discriminate. unfold write32le.
  change (pre ++ [b0; b1; b2; b3] ++ suf) with (pre ++ [b0; b1] ++ [b2; b3] ++ suf).
  rewrite write16le_mid by reflexivity. cbn [bind].
  rewrite app_assoc. rewrite write16le_mid; [|rewrite zlen_app; unfold zlen; now rewrite digits_length|reflexivity].
  f_equal. rewrite <- app_assoc. f_equal. rewrite (digits_app 2 2), <- app_assoc.
  unfold w. change (2 ^ 16) with (256 ^ Z.of_nat 2). rewrite !digits_mod. now rewrite Z.shiftr_div_pow2 by lia.
Qed.

Lemma write64le_mid pre mid suf a x : a = zlen pre -> length mid = 8%nat ->
  write64le (pre ++ mid ++ suf) a x = Ok (pre ++ digits 8 x ++ suf).
Proof.
  intros -> H. destruct mid as [|b0 [|b1 [|b2 [|b3 [|b4 [|b5 [|b6 [|b7 [|]]]]]]]]]; try discriminate.
  unfold write64le.
  change (pre ++ [b0; b1; b2; b3; b4; b5; b6; b7] ++ suf) with (pre ++ [b0; b1; b2; b3] ++ [b4; b5; b6; b7] ++ suf).
  rewrite write32le_mid by reflexivity. cbn [bind].
  rewrite app_assoc. rewrite write32le_mid; [|rewrite zlen_app; unfold zlen; now rewrite digits_length|reflexivity].
  f_equal. rewrite <- app_assoc. f_equal. rewrite (digits_app 4 4), <- app_assoc.
  unfold w. change (2 ^ 32) with (256 ^ Z.of_nat 4). rewrite !digits_mod. now rewrite Z.shiftr_div_pow2 by lia.
Qed.

Lemma read16le_mid pre mid suf a : a = zlen pre -> length mid = 2%nat -> bytes mid ->
  read16le (pre ++ mid ++ suf) a = Ok (number mid).
Proof.
  intros -> H Hb. destruct mid as [|b0 [|b1 [|]]]; try discriminate. unfold read16le. cbn [app].
  rewrite rd_mid by reflexivity. cbn [bind].
  change (pre ++ b0 :: b1 :: suf) with (pre ++ [b0] ++ b1 :: suf). rewrite app_assoc, rd_mid.
  - cbn [bind number]. f_equal. pose proof (Forall_inv Hb) as B0. pose proof (Forall_inv (Forall_inv_tail Hb)) as B1.
    unfold is_byte in *. rewrite Z.lor_comm, Z.shiftl_mul_pow2 by lia.
    rewrite (lor_plus _ _ 8) by (change (2 ^ 8) with 256; rewrite ?Z.mod_mul; lia).
    rewrite w_small; change (2 ^ 8) with 256; change (2 ^ 16) with 65536; lia.
  - rewrite zlen_app. reflexivity.
Qed.

Lemma read32le_mid pre mid suf a : a = zlen pre -> length mid = 4%nat -> bytes mid ->
  read32le (pre ++ mid ++ suf) a = Ok (number mid).
Proof.
  intros -> H Hb. destruct mid as [|b0 [|b1 [|b2 [|b3 [|]]]]]; try discriminate. unfold read32le.
  change [b0; b1; b2; b3] with ([b0; b1] ++ [b2; b3]) in *. apply Forall_app in Hb as [H0 H1].
  rewrite <- app_assoc. rewrite read16le_mid by auto. cbn [bind].
  rewrite app_assoc. rewrite read16le_mid; auto.
  - cbn [bind]. f_equal. pose proof (number_bound _ H0) as N0. pose proof (number_bound _ H1) as N1.
    change (256 ^ zlen [b0; b1]) with 65536 in *. change (256 ^ zlen [b2; b3]) with 65536 in *.
    rewrite number_app. change (256 ^ zlen [b0; b1]) with 65536.
    rewrite Z.shiftl_mul_pow2 by lia. change (2 ^ 16) with 65536.
    rewrite (w_small 32 (number [b2; b3] * 65536)) by (change (2 ^ 32) with 4294967296; lia).
    rewrite Z.lor_comm. rewrite (lor_plus _ _ 16) by (change (2 ^ 16) with 65536; rewrite ?Z.mod_mul; lia).
    rewrite w_small; change (2 ^ 32) with 4294967296; lia.
  - rewrite zlen_app. reflexivity.
Qed.

Lemma read64le_mid pre mid suf a : a = zlen pre -> length mid = 8%nat -> bytes mid ->
  read64le (pre ++ mid ++ suf) a = Ok (number mid).
Proof.
  intros -> H Hb. destruct mid as [|b0 [|b1 [|b2 [|b3 [|b4 [|b5 [|b6 [|b7 [|]]]]]]]]]; try discriminate.
  unfold read64le.
  change [b0; b1; b2; b3; b4; b5; b6; b7] with ([b0; b1; b2; b3] ++ [b4; b5; b6; b7]) in *. apply Forall_app in Hb as [H0 H1].
  rewrite <- app_assoc. rewrite read32le_mid by auto. cbn [bind].
  rewrite app_assoc. rewrite read32le_mid; auto.
  - cbn [bind]. f_equal. pose proof (number_bound _ H0) as N0. pose proof (number_bound _ H1) as N1.
    change (256 ^ zlen [b0; b1; b2; b3]) with 4294967296 in *. change (256 ^ zlen [b4; b5; b6; b7]) with 4294967296 in *.
    rewrite number_app. change (256 ^ zlen [b0; b1; b2; b3]) with 4294967296.
    rewrite Z.shiftl_mul_pow2 by lia. change (2 ^ 32) with 4294967296.
    rewrite (w_small 64 (number [b4; b5; b6; b7] * 4294967296)) by (change (2 ^ 64) with 18446744073709551616; lia).
    rewrite Z.lor_comm. rewrite (lor_plus _ _ 32) by (change (2 ^ 32) with 4294967296; rewrite ?Z.mod_mul; lia).
    rewrite w_small; change (2 ^ 64) with 18446744073709551616; lia.
  - rewrite zlen_app. reflexivity.
Qed.
