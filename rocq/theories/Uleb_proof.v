(** Proofs about ULEB128 fields. *)
From Verif Require Import Base Uleb_model Uleb_spec.

Lemma M64_pow : M64 = 2 ^ 64.
Proof. reflexivity. Qed.

Lemma lor_plus a b k : 0 <= k -> a mod 2 ^ k = 0 -> 0 <= b < 2 ^ k -> Z.lor a b = a + b.
Proof.
  intros Hk Ha Hb.
  assert (E : Z.land a b = 0).
  { apply Z.bits_inj'. intros i Hi. rewrite Z.land_spec, Z.bits_0.
    destruct (Z.lt_ge_cases i k).
    - replace (Z.testbit a i) with false; [reflexivity|]. symmetry.
      rewrite <- (Z.mod_pow2_bits_low a k i) by lia. rewrite Ha. apply Z.bits_0.
    - replace (Z.testbit b i) with false; [apply andb_false_r|]. symmetry.
      rewrite <- (Z.mod_small b (2 ^ k)) by lia. apply Z.mod_pow2_bits_high. lia. }
  rewrite <- Z.lxor_lor by exact E. symmetry. apply Z.add_nocarry_lxor. exact E.
Qed.
Lemma land127 b : Z.land b 127 = b mod 128.
Proof. change 127 with (Z.ones 7). now rewrite Z.land_ones by lia. Qed.
Lemma low_byte b : 0 <= b < 128 -> Z.land b 127 = b /\ Z.land b 128 = 0.
Proof.
  intros H. split; [rewrite land127; apply Z.mod_small; lia|].
  apply Z.bits_inj'. intros i Hi. rewrite Z.land_spec, Z.bits_0. change 128 with (2 ^ 7).
  destruct (Z.eq_dec i 7) as [->|N].
  - rewrite <- (Z.mod_small b (2 ^ 7)) by (change (2 ^ 7) with 128; lia). rewrite Z.mod_pow2_bits_high by lia. reflexivity.
  - rewrite Z.pow2_bits_false by lia. apply andb_false_r.
Qed.
Lemma high_byte b : 0 <= b < 128 -> Z.land (b + 128) 127 = b /\ (Z.land (b + 128) 128 =? 0) = false.
Proof.
  intros H. split.
  - rewrite land127. replace (b + 128) with (b + 1 * 128) by lia. rewrite Z.mod_add by lia. apply Z.mod_small; lia.
  - apply Z.eqb_neq. intros E.
    assert (T : Z.testbit (Z.land (b + 128) 128) 7 = true).
    { rewrite Z.land_spec. change 128 with (2 ^ 7) at 2. rewrite Z.pow2_bits_true by lia. rewrite andb_true_r.
      apply Z.testbit_true; [lia|]. change (2 ^ 7) with 128. replace (b + 128) with (b + 1 * 128) by lia.
      rewrite Z.div_add by lia. rewrite Z.div_small by lia. reflexivity. }
    rewrite E, Z.bits_0 in T. discriminate T.
Qed.

(** * Fields *)
Lemma field_length v w bs : field v w bs -> length bs = w.
Proof. induction 1; cbn; congruence. Qed.
Lemma field_pos v w bs : field v w bs -> (1 <= w)%nat.
Proof. induction 1; lia. Qed.
Lemma field_range v w bs : field v w bs -> 0 <= v < 2 ^ (7 * Z.of_nat w).
Proof.
  induction 1 as [b H|b v w bs H F IH].
  - exact H.
  - replace (7 * Z.of_nat (S w)) with (7 * Z.of_nat w + 7) by lia. rewrite Z.pow_add_r by lia.
    change (2 ^ 7) with 128. lia.
Qed.

Lemma field_size_ok : forall v w bs, field v w bs -> forall i rest, (i + w <= 10)%nat -> v * 2 ^ (7 * Z.of_nat i) < 2 ^ 64 ->
  field_size (bs ++ rest) i = (OK, (i + w)%nat).
Proof.
  intros v w bs H. induction H as [b H|b v w bs H F IH]; intros i rest L V.
  - destruct (low_byte b H) as [E1 E2]. cbn [app field_size]. rewrite E1, E2.
    replace (Nat.leb 10 i) with false by (symmetry; apply Nat.leb_gt; lia).
    replace (Nat.eqb i 9 && (1 <? b)) with false.
    + cbn [Z.eqb]. f_equal. lia.
    + symmetry. destruct (Nat.eqb_spec i 9) as [->|N]; [|reflexivity]. cbn [andb]. apply Z.ltb_ge.
      change (7 * Z.of_nat 9) with 63 in V. change (2 ^ 64) with (2 * 2 ^ 63) in V.
      assert (0 < 2 ^ 63) by (apply Z.pow_pos_nonneg; lia). nia.
  - destruct (high_byte b H) as [E1 E2]. cbn [app field_size]. rewrite E2.
    pose proof (field_pos _ _ _ F).
    replace (Nat.leb 10 i) with false by (symmetry; apply Nat.leb_gt; lia).
    replace (Nat.eqb i 9) with false by (symmetry; apply Nat.eqb_neq; lia). cbn [andb].
    rewrite IH; [f_equal; lia|lia|].
    replace (7 * Z.of_nat (S i)) with (7 * Z.of_nat i + 7) by lia. rewrite Z.pow_add_r by lia. change (2 ^ 7) with 128.
    assert (0 < 2 ^ (7 * Z.of_nat i)) by (apply Z.pow_pos_nonneg; lia). nia.
Qed.

Lemma read_ok : forall v w bs, field v w bs -> forall i rest acc, v * 2 ^ (7 * Z.of_nat i) < 2 ^ 64 ->
  0 <= acc < 2 ^ (7 * Z.of_nat i) -> read (bs ++ rest) i w acc = acc + v * 2 ^ (7 * Z.of_nat i).
Proof.
  assert (ST : forall b i acc, 0 <= b -> b * 2 ^ (7 * Z.of_nat i) < 2 ^ 64 -> 0 <= acc < 2 ^ (7 * Z.of_nat i) ->
    Z.lor acc (Z.shiftl b (Z.of_nat i * 7) mod M64) = acc + b * 2 ^ (7 * Z.of_nat i)).
  { intros b i acc B V A. rewrite Z.shiftl_mul_pow2 by lia. rewrite (Z.mul_comm (Z.of_nat i) 7), M64_pow.
    rewrite Z.mod_small by lia. rewrite Z.lor_comm. rewrite (lor_plus _ _ (7 * Z.of_nat i)); [lia|lia| |exact A].
    apply Z.mod_mul. lia. }
  intros v w bs H. induction H as [b H|b v w bs H F IH]; intros i rest acc V A.
  - destruct (low_byte b H) as [E1 _]. cbn [app read]. rewrite E1. rewrite ST by lia.
    now destruct rest.
  - destruct (high_byte b H) as [E1 _]. pose proof (field_range _ _ _ F) as R.
    assert (P : 0 < 2 ^ (7 * Z.of_nat i)) by (apply Z.pow_pos_nonneg; lia).
    assert (Q : 2 ^ (7 * Z.of_nat (S i)) = 128 * 2 ^ (7 * Z.of_nat i)).
    { replace (7 * Z.of_nat (S i)) with (7 + 7 * Z.of_nat i) by lia. rewrite Z.pow_add_r by lia. reflexivity. }
    cbn [app read]. rewrite E1. rewrite ST; [|lia|nia|lia].
    rewrite IH; rewrite ?Q; [lia|nia|nia].
Qed.

Lemma replacement_ok : forall w v, 0 <= v -> field (v mod 2 ^ (7 * Z.of_nat (S w))) (S w) (replacement (S w) v).
Proof.
  induction w as [|w IH]; intros v V.
  - cbn [replacement Nat.eqb]. rewrite land127. change (2 ^ (7 * Z.of_nat 1)) with 128. constructor. apply Z.mod_pos_bound. lia.
  - remember (S w) as w1 eqn:E. cbn [replacement]. replace (Nat.eqb w1 0) with false by (subst; reflexivity).
    rewrite land127. pose proof (Z.mod_pos_bound v 128 ltac:(lia)) as B.
    rewrite Z.lor_comm, (lor_plus 128 (v mod 128) 7) by (try lia; reflexivity). rewrite (Z.add_comm 128).
    rewrite Z.shiftr_div_pow2 by lia. change (2 ^ 7) with 128.
    replace (v mod 2 ^ (7 * Z.of_nat (S w1))) with (v mod 128 + 128 * ((v / 128) mod 2 ^ (7 * Z.of_nat w1))).
    + constructor; [exact B|]. apply IH. apply Z.div_pos; lia.
    + replace (7 * Z.of_nat (S w1)) with (7 + 7 * Z.of_nat w1) by lia. rewrite Z.pow_add_r by lia.
      change (2 ^ 7) with 128. rewrite Z.rem_mul_r by (try lia; apply Z.pow_pos_nonneg; lia). reflexivity.
Qed.

Lemma field_head v w bs rest i : field v w bs -> fits v w -> i = O -> field_size (bs ++ rest) i = (OK, w).
Proof.
  intros F [L V] ->. pose proof (field_size_ok v w bs F 0 rest) as H. cbn [Nat.add] in H. apply H; [lia|].
  change (2 ^ (7 * Z.of_nat 0)) with 1. lia.
Qed.
Lemma read_field v w bs rest : field v w bs -> fits v w -> read (bs ++ rest) 0 w 0 = v.
Proof.
  intros F [L V]. rewrite (read_ok v w bs F); change (2 ^ (7 * Z.of_nat 0)) with 1; lia.
Qed.

Lemma room_pos w : 0 < room w.
Proof. unfold room. apply Z.min_glb_lt; apply Z.pow_pos_nonneg; lia. Qed.
Lemma mod_room v w : u64 v -> v mod 2 ^ (7 * Z.of_nat w) = v mod room w.
Proof.
  intros V. unfold room, u64 in *. destruct (Z.le_ge_cases (2 ^ (7 * Z.of_nat w)) (2 ^ 64)) as [L|L].
  - now rewrite Z.min_l by lia.
  - rewrite Z.min_r by lia. rewrite !Z.mod_small by lia. reflexivity.
Qed.
Lemma mod_mod_room v w : (v mod 2 ^ 64) mod room w = v mod room w.
Proof.
  unfold room. destruct (Z.le_ge_cases (7 * Z.of_nat w) 64) as [L|L].
  - rewrite Z.min_l by (apply Z.pow_le_mono_r; lia).
    replace 64 with (7 * Z.of_nat w + (64 - 7 * Z.of_nat w)) by lia. rewrite Z.pow_add_r by lia.
    symmetry. apply Znumtheory.Zmod_div_mod; [apply Z.pow_pos_nonneg; lia| |now exists (2 ^ (64 - 7 * Z.of_nat w)); rewrite Z.mul_comm].
    rewrite <- Z.pow_add_r by lia. apply Z.pow_pos_nonneg; lia.
  - rewrite Z.min_r by (apply Z.pow_le_mono_r; lia). apply Z.mod_mod. lia.
Qed.

Lemma write_ok v w bs rest x : field v w bs -> u64 x ->
  exists bs', field (x mod room w) w bs' /\ write (bs ++ rest) w x = bs' ++ rest.
Proof.
  intros F X. pose proof (field_pos _ _ _ F) as P. pose proof (field_length _ _ _ F) as L.
  destruct w as [|w]; [lia|]. exists (replacement (S w) x). split.
  - rewrite <- (mod_room x (S w) X). apply replacement_ok. unfold u64 in X. lia.
  - unfold write. f_equal. rewrite <- L, skipn_app, skipn_all, Nat.sub_diag. reflexivity.
Qed.
Lemma fits_room x w : (w <= 10)%nat -> fits (x mod room w) w.
Proof.
  intros L. split; [exact L|]. pose proof (Z.mod_pos_bound x (room w) (room_pos w)).
  assert (room w <= 2 ^ 64) by (unfold room; apply Z.le_min_r). lia.
Qed.

Lemma add_signed_ok s a : u64 s -> add_signed s a = if (0 <=? s + a) && (s + a <? 2 ^ 64) then Some (s + a) else None.
Proof.
  unfold u64, add_signed. rewrite M64_pow. intros H. destruct (Z.leb_spec 0 a).
  - destruct (Z.ltb_spec (2 ^ 64 - 1 - a) s); destruct (Z.leb_spec 0 (s + a)); destruct (Z.ltb_spec (s + a) (2 ^ 64));
      cbn [andb]; try lia; try reflexivity. rewrite Z.mod_small by lia. reflexivity.
  - destruct (Z.ltb_spec s (- (a + 1) + 1)); destruct (Z.leb_spec 0 (s + a)); destruct (Z.ltb_spec (s + a) (2 ^ 64));
      cbn [andb]; try lia; try reflexivity. rewrite Z.mod_small by lia. f_equal. lia.
Qed.
Lemma subtract_signed_ok s a : u64 s -> subtract_signed s a = if (0 <=? s - a) && (s - a <? 2 ^ 64) then Some (s - a) else None.
Proof.
  unfold u64, subtract_signed. rewrite M64_pow. intros H. destruct (Z.leb_spec 0 a).
  - destruct (Z.ltb_spec s a); destruct (Z.leb_spec 0 (s - a)); destruct (Z.ltb_spec (s - a) (2 ^ 64));
      cbn [andb]; try lia; try reflexivity. rewrite Z.mod_small by lia. reflexivity.
  - destruct (Z.ltb_spec (2 ^ 64 - 1 - (- (a + 1) + 1)) s); destruct (Z.leb_spec 0 (s - a)); destruct (Z.ltb_spec (s - a) (2 ^ 64));
      cbn [andb]; try lia; try reflexivity. rewrite Z.mod_small by lia. f_equal. lia.
Qed.
Lemma in64 x : u64 x -> (0 <=? x) && (x <? 2 ^ 64) = true.
Proof. unfold u64. intros H. apply andb_true_iff. rewrite Z.leb_le, Z.ltb_lt. lia. Qed.

(** * The relocations *)
Lemma set_ok v w bs rest s a : field v w bs -> fits v w -> u64 s -> u64 (s + a) ->
  exists bs', field ((s + a) mod room w) w bs' /\ apply (bs ++ rest) false s a = (OK, w, bs' ++ rest).
Proof.
  intros F T S A. unfold apply. rewrite (field_head v w bs rest 0 F T eq_refl), (add_signed_ok s a S), (in64 _ A).
  destruct (write_ok v w bs rest (s + a) F A) as (bs' & F' & ->). now exists bs'.
Qed.
Lemma sub_ok v w bs rest s a : field v w bs -> fits v w -> u64 s -> u64 (s - a) ->
  exists bs', field ((v - (s - a)) mod room w) w bs' /\ apply (bs ++ rest) true s a = (OK, w, bs' ++ rest).
Proof.
  intros F T S A. unfold apply. rewrite (field_head v w bs rest 0 F T eq_refl), (subtract_signed_ok s a S), (in64 _ A).
  rewrite (read_field v w bs rest F T), M64_pow.
  assert (U : u64 ((v - (s - a)) mod 2 ^ 64)) by (apply Z.mod_pos_bound; apply Z.pow_pos_nonneg; lia).
  cbv zeta. destruct (write_ok v w bs rest _ F U) as (bs' & F' & ->). rewrite mod_mod_room in F'. now exists bs'.
Qed.
Lemma pair_ok v w bs rest s a s' a' : field v w bs -> fits v w -> u64 s -> u64 (s + a) -> u64 s' -> u64 (s' - a') ->
  exists bs', field ((s + a - (s' - a')) mod room w) w bs' /\ apply_pair (bs ++ rest) s a s' a' = (OK, w, bs' ++ rest).
Proof.
  intros F T S A S' A'. unfold apply_pair. rewrite (field_head v w bs rest 0 F T eq_refl).
  pose proof (field_length _ _ _ F) as L.
  replace (firstn w (bs ++ rest)) with (bs ++ []) by (rewrite <- L, firstn_app, firstn_all, Nat.sub_diag; reflexivity).
  destruct (set_ok v w bs [] s a F T S A) as (b1 & F1 & E1). cbv zeta. rewrite E1.
  destruct (sub_ok _ w b1 [] s' a' F1 (fits_room _ w (proj1 T)) S' A') as (b2 & F2 & E2). rewrite E2.
  exists b2. split.
  - rewrite Zminus_mod_idemp_l in F2. exact F2.
  - rewrite app_nil_r. f_equal. f_equal. rewrite <- L, skipn_app, skipn_all, Nat.sub_diag. reflexivity.
Qed.

(** * Refusals *)
Lemma field_size_inv : forall l i w, bytes l -> field_size l i = (OK, w) ->
  exists v k bs rest, l = bs ++ rest /\ field v k bs /\ w = (i + k)%nat /\ (w <= 10)%nat
    /\ (w = 10%nat -> (i <= 9)%nat -> v < 2 * 2 ^ (7 * (9 - Z.of_nat i))).
Proof.
  induction l as [|b l IH]; intros i w B H; [cbn [field_size] in H; destruct (Nat.ltb i 10); discriminate|].
  inversion B as [|? ? B1 B2]; subst. cbn [field_size] in H. destruct (Nat.leb_spec 10 i) as [|I]; [discriminate|].
  destruct (Nat.eqb_spec i 9) as [->|N].
  - cbn [andb] in H. destruct (Z.ltb_spec 1 (Z.land b 127)) as [|O]; [discriminate|].
    destruct (Z.lt_ge_cases b 128) as [Lb|Gb].
    + destruct (low_byte b ltac:(lia)) as [E1 E2]. rewrite E2 in H. cbn [Z.eqb] in H. injection H as <-.
      exists b, 1%nat, [b], l. split; [reflexivity|]. split; [constructor; lia|]. split; [lia|]. split; [lia|].
      intros _ _. change (2 ^ (7 * (9 - Z.of_nat 9))) with 1. lia.
    + destruct (high_byte (b - 128) ltac:(lia)) as [E1 E2]. replace (b - 128 + 128) with b in E2 by lia. rewrite E2 in H.
      destruct l; cbn in H; discriminate.
  - cbn [andb] in H. destruct (Z.lt_ge_cases b 128) as [Lb|Gb].
    + destruct (low_byte b ltac:(lia)) as [E1 E2]. rewrite E2 in H. cbn [Z.eqb] in H. injection H as <-.
      exists b, 1%nat, [b], l. split; [reflexivity|]. split; [constructor; lia|]. split; [lia|]. split; [lia|]. lia.
    + destruct (high_byte (b - 128) ltac:(lia)) as [E1 E2]. replace (b - 128 + 128) with b in E2 by lia. rewrite E2 in H.
      destruct (IH _ _ B2 H) as (v & k & bs & rest & -> & F & -> & W & V).
      exists (b - 128 + 128 * v), (S k), (b :: bs), rest. split; [reflexivity|]. split.
      * replace b with (b - 128 + 128) at 2 by lia. constructor; [lia|exact F].
      * split; [lia|]. split; [lia|]. intros W10 _. specialize (V W10 ltac:(lia)).
        replace (7 * (9 - Z.of_nat i)) with (7 + 7 * (9 - Z.of_nat (S i))) by lia. rewrite Z.pow_add_r by lia.
        change (2 ^ 7) with 128. lia.
Qed.
Lemma field_size_field l w : bytes l -> field_size l 0 = (OK, w) ->
  exists v bs rest, l = bs ++ rest /\ field v w bs /\ fits v w.
Proof.
  intros B H. destruct (field_size_inv l 0 w B H) as (v & k & bs & rest & -> & F & E & W & V). cbn [Nat.add] in E. subst k.
  exists v, bs, rest. split; [reflexivity|]. split; [exact F|]. split; [exact W|].
  destruct (Nat.eq_dec w 10) as [->|N].
  - specialize (V eq_refl ltac:(lia)). exact V.
  - pose proof (field_range _ _ _ F) as R.
    assert (2 ^ (7 * Z.of_nat w) <= 2 ^ 64) by (apply Z.pow_le_mono_r; lia). lia.
Qed.

Lemma pair_refused place s a s' a' : snd (apply_pair place s a s' a') <> place ->
  exists w, fst (apply_pair place s a s' a') = (OK, w).
Proof.
  unfold apply_pair. destruct (field_size place 0) as [[] w]; cbn [fst snd]; intros N; try (now contradiction N).
  destruct (apply (firstn w place) false s a) as [[[] w1] r1]; cbn [fst snd] in *; try (now contradiction N).
  destruct (apply r1 true s' a') as [[[] w2] r2]; cbn [fst snd] in *; try (now contradiction N).
  now exists w.
Qed.
