From Verif Require Import Base Base_lemmas Zlist.
From Verif Require Import Bitmap_model Bitmap_spec.

Ltac zdiv := Z.to_euclidean_division_equations; lia.

Lemma land7 i : Z.land i 7 = i mod 8.
Proof. change 7 with (Z.ones 3). now rewrite Z.land_ones by lia. Qed.

Lemma bit_znth bits i : 0 <= i -> bit bits i = match znth bits (i / 8) with Some b => Z.testbit b (i mod 8) | None => false end.
Proof. intros H. unfold bit, znth. destruct (Z.ltb_spec (i / 8) 0); [zdiv|reflexivity]. Qed.

Lemma updated_refl v bits : bytes bits -> updated (fun _ => false) v bits bits.
Proof. intros H. split; [reflexivity|]. split; [assumption|]. reflexivity. Qed.

Lemma updated_trans P Q v a b c : updated P v a b -> updated Q v b c -> updated (fun i => P i || Q i) v a c.
Proof.
  intros (L1 & B1 & H1) (L2 & B2 & H2). split; [lia|]. split; [assumption|].
  intros i Hi. rewrite H2, H1 by assumption. destruct (P i), (Q i); reflexivity.
Qed.

Lemma updated_ext P Q v a b : (forall i, 0 <= i -> P i = Q i) -> updated P v a b -> updated Q v a b.
Proof. intros E (L & B & H). split; [assumption|]. split; [assumption|]. intros i Hi. rewrite <- E by assumption. auto. Qed.

Lemma testbit_u8 x k : 0 <= k < 8 -> Z.testbit (u8 x) k = Z.testbit x k.
Proof. intros H. unfold u8. change 256 with (2 ^ 8). apply Z.mod_pow2_bits_low. lia. Qed.

Lemma updated_byte bits B b nb (p : Z -> bool) v :
  bytes bits -> znth bits B = Some b ->
  (forall k, 0 <= k < 8 -> Z.testbit nb k = if p k then v else Z.testbit b k) ->
  exists bits', wr bits B (u8 nb) = Ok bits' /\ updated (fun i => (i / 8 =? B) && p (i mod 8)) v bits bits'.
Proof.
  intros Hb Hz Hk. pose proof (znth_range _ _ _ Hz) as R. rewrite wr_ok by assumption.
  eexists. split; [reflexivity|]. split; [apply zlen_list_set|]. split.
  - apply Forall_forall. intros x Hx. apply In_znth in Hx as (j & Hj).
    pose proof (znth_range _ _ _ Hj) as Rj. rewrite zlen_list_set in Rj.
    rewrite znth_list_set_z in Hj by assumption.
    destruct (Z.eqb_spec j B).
    + injection Hj as <-. apply u8_byte.
    + unfold bytes in Hb. rewrite Forall_forall in Hb. apply Hb. eapply znth_In, Hj.
  - intros i Hi. rewrite !bit_znth by assumption. rewrite znth_list_set_z by assumption.
    destruct (Z.eqb_spec (i / 8) B) as [->|N]; cbn [andb]; [|reflexivity].
    rewrite Hz. rewrite testbit_u8 by zdiv. apply Hk. zdiv.
Qed.

Lemma znth_byte bits i : 0 <= i < capacity bits -> exists b, znth bits (i / 8) = Some b.
Proof. intros H. unfold capacity in H. apply znth_Some. zdiv. Qed.

Lemma testbit_one s k : 0 <= s -> 0 <= k -> Z.testbit (Z.shiftl 1 s) k = (k =? s).
Proof. intros Hs Hk. rewrite Z.shiftl_1_l, Z.pow2_bits_eqb by assumption. apply Z.eqb_sym. Qed.

Lemma testbit_ones n k : 0 <= n -> 0 <= k -> Z.testbit (Z.shiftl 1 n - 1) k = (k <? n).
Proof.
  intros Hn Hk. rewrite Z.shiftl_1_l. rewrite <- Z.ones_equiv || replace (2 ^ n - 1) with (Z.ones n) by (rewrite Z.ones_equiv; lia).
  rewrite Z.testbit_ones by lia. lia.
Qed.

Lemma testbit_shift x s k : 0 <= k -> Z.testbit (Z.shiftl x s) k = Z.testbit x (k - s).
Proof. intros. now apply Z.shiftl_spec. Qed.

(** ** single bits *)
Lemma set_spec bits i : bytes bits -> 0 <= i < capacity bits ->
  exists bits', bitmap_set bits i = Ok bits' /\ updated (fun j => j =? i) true bits bits'.
Proof.
  intros Hb Hi. destruct (znth_byte _ _ Hi) as (b & Hz). unfold bitmap_set. rewrite (rd_ok _ _ _ Hz). cbn [bind].
  rewrite land7.
  destruct (updated_byte bits (i / 8) b (Z.lor b (Z.shiftl 1 (i mod 8))) (fun k => k =? i mod 8) true) as (bits' & E & U); auto.
  - intros k Hk. rewrite Z.lor_spec, testbit_one by zdiv. destruct (Z.eqb_spec k (i mod 8)); [apply orb_true_r|apply orb_false_r].
  - exists bits'. split; [assumption|]. eapply updated_ext; [|exact U]. intros j Hj. cbn beta.
    destruct (Z.eqb_spec (j / 8) (i / 8)), (Z.eqb_spec (j mod 8) (i mod 8)), (Z.eqb_spec j i); try reflexivity; zdiv.
Qed.

Lemma clear_spec bits i : bytes bits -> 0 <= i < capacity bits ->
  exists bits', bitmap_clear bits i = Ok bits' /\ updated (fun j => j =? i) false bits bits'.
Proof.
  intros Hb Hi. destruct (znth_byte _ _ Hi) as (b & Hz). unfold bitmap_clear. rewrite (rd_ok _ _ _ Hz). cbn [bind].
  rewrite land7.
  destruct (updated_byte bits (i / 8) b (Z.land b (Z.lnot (Z.shiftl 1 (i mod 8)))) (fun k => k =? i mod 8) false) as (bits' & E & U); auto.
  - intros k Hk. rewrite Z.land_spec, Z.lnot_spec, testbit_one by zdiv. destruct (Z.eqb_spec k (i mod 8)); [apply andb_false_r|apply andb_true_r].
  - exists bits'. split; [assumption|]. eapply updated_ext; [|exact U]. intros j Hj. cbn beta.
    destruct (Z.eqb_spec (j / 8) (i / 8)), (Z.eqb_spec (j mod 8) (i mod 8)), (Z.eqb_spec j i); try reflexivity; zdiv.
Qed.

Lemma land_one b s : 0 <= s -> negb (Z.land b (Z.shiftl 1 s) =? 0) = Z.testbit b s.
Proof.
  intros Hs. destruct (Z.eqb_spec (Z.land b (Z.shiftl 1 s)) 0) as [E|N]; cbn [negb].
  - assert (H : Z.testbit (Z.land b (Z.shiftl 1 s)) s = false) by (rewrite E; apply Z.bits_0).
    rewrite Z.land_spec, testbit_one, Z.eqb_refl, andb_true_r in H by assumption. now rewrite H.
  - destruct (Z.testbit b s) eqn:T; [reflexivity|]. exfalso. apply N. apply Z.bits_inj'. intros k Hk.
    rewrite Z.land_spec, testbit_one, Z.bits_0 by assumption.
    destruct (Z.eqb_spec k s) as [->|]; [now rewrite T|apply andb_false_r].
Qed.

Lemma test_spec bits i : 0 <= i < capacity bits -> bitmap_test bits i = Ok (bit bits i).
Proof.
  intros Hi. destruct (znth_byte _ _ Hi) as (b & Hz). unfold bitmap_test. rewrite (rd_ok _ _ _ Hz). cbn [bind].
  rewrite land7, land_one by zdiv. rewrite bit_znth by lia. now rewrite Hz.
Qed.

(** ** ranges *)
Lemma memset_spec v bv bits start n : bytes bits -> is_byte v ->
  (forall k, 0 <= k < 8 -> Z.testbit v k = bv) -> 0 <= start -> start + Z.of_nat n <= zlen bits ->
  exists bits', memset bits start v n = Ok bits' /\
    updated (fun i => (start <=? i / 8) && (i / 8 <? start + Z.of_nat n)) bv bits bits'.
Proof.
  intros Hb Hv Hk. revert bits start Hb. induction n as [|n IH]; intros bits start Hb H0 Hl; cbn [memset].
  - exists bits. split; [reflexivity|]. eapply updated_ext; [|apply updated_refl; assumption]. intros i Hi. cbn beta. lia.
  - destruct (znth_Some bits start) as (b & Hz); [lia|].
    destruct (updated_byte bits start b v (fun _ => true) bv) as (b1 & E1 & U1); auto.
    rewrite (u8_id v Hv) in E1. rewrite E1. cbn [bind].
    pose proof U1 as (L1 & B1 & _).
    destruct (IH b1 (start + 1)) as (b2 & E2 & U2); [assumption|lia|lia|].
    exists b2. split; [assumption|]. eapply updated_ext; [|eapply updated_trans; [exact U1|exact U2]].
    intros i Hi. cbn beta. rewrite andb_true_r. lia.
Qed.

Lemma masked v (c : bool) B bits b mask (p : Z -> bool) :
  bytes bits -> znth bits B = Some b ->
  (forall k, 0 <= k < 8 -> Z.testbit (u8 mask) k = p k) ->
  v = c ->
  exists bits', wr bits B (u8 (if c then Z.lor b (u8 mask) else Z.land b (Z.lnot (u8 mask)))) = Ok bits' /\
    updated (fun i => (i / 8 =? B) && p (i mod 8)) v bits bits'.
Proof.
  intros Hb Hz Hm ->. eapply updated_byte; eauto. intros k Hk. destruct c.
  - rewrite Z.lor_spec, Hm by assumption. destruct (p k); [apply orb_true_r|apply orb_false_r].
  - rewrite Z.land_spec, Z.lnot_spec, Hm by lia. destruct (p k); [apply andb_false_r|apply andb_true_r].
Qed.

(** both batch operations at once *)
Definition batch (c : bool) (bits : list Z) (index count : Z) : res (list Z) :=
  if c then bitmap_batch_set bits index count else bitmap_batch_clear bits index count.

Lemma batch_eq c bits index count : batch c bits index count =
  let op b mask := if c then Z.lor b mask else Z.land b (Z.lnot mask) in
  if count =? 0 then Ok bits
  else if index / 8 =? (index + count) / 8 then
    b <- rd bits (index / 8) ;; wr bits (index / 8) (u8 (op b (u8 (Z.shiftl (Z.shiftl 1 count - 1) (index mod 8)))))
  else
    ' (bits, sb) <- (if negb (index mod 8 =? 0) then
                       b <- rd bits (index / 8) ;;
                       bits <- wr bits (index / 8) (u8 (op b (u8 (Z.shiftl 255 (index mod 8))))) ;;
                       Ok (bits, index / 8 + 1)
                     else Ok (bits, index / 8)) ;;
    bits <- (if sb <? (index + count) / 8 then memset bits sb (if c then 255 else 0) (Z.to_nat ((index + count) / 8 - sb)) else Ok bits) ;;
    if negb ((index + count) mod 8 =? 0) then
      b <- rd bits ((index + count) / 8) ;;
      wr bits ((index + count) / 8) (u8 (op b (u8 (Z.shiftl 1 ((index + count) mod 8) - 1))))
    else Ok bits.
Proof. destruct c; unfold batch, bitmap_batch_set, bitmap_batch_clear; rewrite !land7; reflexivity. Qed.

Lemma batch_spec c bits index count : bytes bits -> 0 <= index -> 0 <= count -> index + count <= capacity bits ->
  exists bits', batch c bits index count = Ok bits' /\
    updated (fun i => (index <=? i) && (i <? index + count)) c bits bits'.
Proof.
  intros Hb H0 Hc Hl. unfold capacity in Hl. rewrite batch_eq. cbv zeta.
  destruct (Z.eqb_spec count 0) as [->|N].
  { exists bits. split; [reflexivity|]. eapply updated_ext; [|apply updated_refl; assumption]. intros i Hi. cbn beta. lia. }
  destruct (Z.eqb_spec (index / 8) ((index + count) / 8)) as [E|NE].
  - (* one byte *)
    destruct (znth_byte bits index) as (b & Hz); [unfold capacity; lia|]. rewrite (rd_ok _ _ _ Hz). cbn [bind].
    destruct (masked c c (index / 8) bits b (Z.shiftl (Z.shiftl 1 count - 1) (index mod 8))
                (fun k => (index mod 8 <=? k) && (k <? index mod 8 + count)) Hb Hz) as (b1 & E1 & U1).
    { intros k Hk. rewrite testbit_u8, testbit_shift by lia.
      destruct (Z.leb_spec (index mod 8) k).
      - rewrite testbit_ones by lia. lia.
      - rewrite Z.testbit_neg_r by lia. reflexivity. }
    { reflexivity. }
    exists b1. split; [assumption|]. eapply updated_ext; [|exact U1]. intros i Hi. cbn beta. clear -E N H0 Hc Hi. zdiv.
  - (* first byte *)
    assert (F : exists b1 sb, (if negb (index mod 8 =? 0) then
                       b <- rd bits (index / 8) ;;
                       bits <- wr bits (index / 8) (u8 (if c then Z.lor b (u8 (Z.shiftl 255 (index mod 8))) else Z.land b (Z.lnot (u8 (Z.shiftl 255 (index mod 8)))))) ;;
                       Ok (bits, index / 8 + 1)
                     else Ok (bits, index / 8)) = Ok (b1, sb) /\ sb = (index + 7) / 8 /\
              updated (fun i => (index <=? i) && (i <? 8 * sb)) c bits b1).
    { destruct (Z.eqb_spec (index mod 8) 0) as [M|M]; cbn [negb].
      - exists bits, (index / 8). split; [reflexivity|]. split; [clear -M; zdiv|].
        eapply updated_ext; [|apply updated_refl; assumption]. intros i Hi. cbn beta. clear -M. zdiv.
      - destruct (znth_byte bits index) as (b & Hz); [unfold capacity; lia|]. rewrite (rd_ok _ _ _ Hz). cbn [bind].
        destruct (masked c c (index / 8) bits b (Z.shiftl 255 (index mod 8)) (fun k => index mod 8 <=? k) Hb Hz) as (b1 & E1 & U1).
        { intros k Hk. rewrite testbit_u8, testbit_shift by lia. change 255 with (Z.shiftl 1 8 - 1).
          destruct (Z.leb_spec (index mod 8) k).
          - rewrite testbit_ones by lia. clear -Hk H. zdiv.
          - rewrite Z.testbit_neg_r by lia. reflexivity. }
        { reflexivity. }
        rewrite E1. cbn [bind]. exists b1, (index / 8 + 1). split; [reflexivity|]. split; [clear -M; zdiv|].
        eapply updated_ext; [|exact U1]. intros i Hi. cbn beta. clear -M Hi H0. zdiv. }
    destruct F as (b1 & sb & E1 & Esb & U1). rewrite E1. cbn [bind]. clear E1.
    pose proof U1 as (L1 & B1 & _).
    (* whole bytes *)
    assert (G : exists b2, (if sb <? (index + count) / 8 then memset b1 sb (if c then 255 else 0) (Z.to_nat ((index + count) / 8 - sb)) else Ok b1) = Ok b2 /\
              updated (fun i => (index <=? i) && (i <? 8 * ((index + count) / 8))) c bits b2).
    { destruct (Z.ltb_spec sb ((index + count) / 8)) as [S1|S1].
      - destruct (memset_spec (if c then 255 else 0) c b1 sb (Z.to_nat ((index + count) / 8 - sb))) as (b2 & E2 & U2); auto.
        + unfold is_byte. destruct c; lia.
        + intros k Hk. destruct c; [|apply Z.bits_0]. change 255 with (Z.shiftl 1 8 - 1).
          rewrite testbit_ones by lia. lia.
        + clear -H0 Esb. zdiv.
        + rewrite Z2Nat.id by lia. rewrite L1. clear -Hl S1. zdiv.
        + exists b2. split; [assumption|]. eapply updated_ext; [|eapply updated_trans; [exact U1|exact U2]].
          intros i Hi. cbn beta. rewrite Z2Nat.id by lia. clear -S1 Esb Hi H0. zdiv.
      - exists b1. split; [reflexivity|]. eapply updated_ext; [|exact U1]. intros i Hi. cbn beta.
        clear -S1 Esb Hi H0 NE N Hc. zdiv. }
    destruct G as (b2 & E2 & U2). rewrite E2. cbn [bind]. clear E2.
    pose proof U2 as (L2 & B2 & _).
    (* last byte *)
    destruct (Z.eqb_spec ((index + count) mod 8) 0) as [M|M]; cbn [negb].
    + exists b2. split; [reflexivity|]. eapply updated_ext; [|exact U2]. intros i Hi. cbn beta. clear -M. zdiv.
    + destruct (znth_Some b2 ((index + count) / 8)) as (b & Hz); [rewrite L2; clear -M Hl H0 Hc; zdiv|].
      rewrite (rd_ok _ _ _ Hz). cbn [bind].
      destruct (masked c c ((index + count) / 8) b2 b (Z.shiftl 1 ((index + count) mod 8) - 1)
                  (fun k => k <? (index + count) mod 8) B2 Hz) as (b3 & E3 & U3).
      { intros k Hk. rewrite testbit_u8, testbit_ones by (clear -Hk; zdiv). reflexivity. }
      { reflexivity. }
      exists b3. split; [assumption|]. eapply updated_ext; [|eapply updated_trans; [exact U2|exact U3]].
      intros i Hi. cbn beta. clear -Hi H0 Hc NE. zdiv.
Qed.

(** ** empty *)
Lemma byte_zero b : is_byte b -> (b = 0 <-> forall k, 0 <= k < 8 -> Z.testbit b k = false).
Proof.
  intros Hb. split; [intros -> k _; apply Z.bits_0|]. intros H. apply Z.bits_inj'. intros k Hk. rewrite Z.bits_0.
  destruct (Z.lt_ge_cases k 8); [apply H; lia|]. unfold is_byte in Hb.
  rewrite <- (Z.mod_small b (2 ^ 8)) by (change (2 ^ 8) with 256; lia). apply Z.mod_pow2_bits_high. lia.
Qed.

Lemma empty_loop_spec bits i n : bytes bits -> 0 <= i -> i + Z.of_nat n <= zlen bits ->
  exists e, empty_loop bits i n = Ok e /\ (e = true <-> forall j, 8 * i <= j < 8 * (i + Z.of_nat n) -> bit bits j = false).
Proof.
  intros Hb. revert i. induction n as [|n IH]; intros i Hi Hl; cbn [empty_loop].
  - exists true. split; [reflexivity|]. split; [|reflexivity]. intros _ j Hj. lia.
  - destruct (znth_Some bits i) as (b & Hz); [lia|]. rewrite (rd_ok _ _ _ Hz). cbn [bind].
    assert (Bb : is_byte b).
    { unfold bytes in Hb. rewrite Forall_forall in Hb. apply Hb. eapply znth_In, Hz. }
    destruct (Z.eqb_spec b 0) as [E|N]; cbn [negb].
    + destruct (IH (i + 1)) as (e & He & Hiff); [lia|lia|]. exists e. split; [assumption|]. rewrite Hiff.
      split; intros H j Hj.
      * destruct (Z.lt_ge_cases j (8 * (i + 1))); [|apply H; lia].
        rewrite bit_znth by lia. replace (j / 8) with i by zdiv. rewrite Hz, E. apply Z.bits_0.
      * apply H. lia.
    + exists false. split; [reflexivity|]. split; [discriminate|]. intros H. exfalso. apply N.
      apply byte_zero; [assumption|]. intros k Hk. specialize (H (8 * i + k)).
      rewrite bit_znth in H by lia. replace ((8 * i + k) / 8) with i in H by zdiv.
      replace ((8 * i + k) mod 8) with k in H by zdiv. rewrite Hz in H. apply H. lia.
Qed.

Lemma empty_spec bits n : bytes bits -> 0 <= n <= capacity bits ->
  exists e, bitmap_empty bits n = Ok e /\ (e = true <-> forall j, 0 <= j < n -> bit bits j = false).
Proof.
  intros Hb Hn. unfold capacity in Hn. unfold bitmap_empty. cbv zeta.
  destruct (empty_loop_spec bits 0 (Z.to_nat (n / 8)) Hb) as (e & He & Hiff); [lia|rewrite Z2Nat.id; zdiv|].
  rewrite He. cbn [bind]. rewrite Z2Nat.id in Hiff by zdiv.
  destruct e; cbn [negb].
  - destruct (Z.ltb_spec 0 (n mod 8)) as [R|R].
    + destruct (znth_Some bits (n / 8)) as (b & Hz); [zdiv|]. rewrite (rd_ok _ _ _ Hz). cbn [bind].
      destruct (Z.eqb_spec (Z.land b (u8 (Z.shiftl 1 (n mod 8) - 1))) 0) as [E|N]; cbn [negb].
      * exists true. split; [reflexivity|]. split; [|reflexivity]. intros _ j Hj.
        destruct (Z.lt_ge_cases j (8 * (n / 8))); [apply Hiff; [reflexivity|lia]|].
        rewrite bit_znth by lia. replace (j / 8) with (n / 8) by zdiv. rewrite Hz.
        assert (T : Z.testbit (Z.land b (u8 (Z.shiftl 1 (n mod 8) - 1))) (j mod 8) = false) by (rewrite E; apply Z.bits_0).
        rewrite Z.land_spec, testbit_u8, testbit_ones in T by zdiv.
        replace (j mod 8 <? n mod 8) with true in T by zdiv. now rewrite andb_true_r in T.
      * exists false. split; [reflexivity|]. split; [discriminate|]. intros H. exfalso. apply N.
        apply Z.bits_inj'. intros k Hk. rewrite Z.land_spec, Z.bits_0.
        destruct (Z.lt_ge_cases k (n mod 8)) as [K|K].
        -- specialize (H (8 * (n / 8) + k)). rewrite bit_znth in H by zdiv.
           replace ((8 * (n / 8) + k) / 8) with (n / 8) in H by zdiv.
           replace ((8 * (n / 8) + k) mod 8) with k in H by zdiv. rewrite Hz in H. rewrite H; [reflexivity|zdiv].
        -- destruct (Z.lt_ge_cases k 8).
           ++ rewrite testbit_u8, testbit_ones by lia. replace (k <? n mod 8) with false by lia. apply andb_false_r.
           ++ unfold u8. change 256 with (2 ^ 8). rewrite (Z.mod_pow2_bits_high _ 8 k) by lia. apply andb_false_r.
    + exists true. split; [reflexivity|]. split; [|reflexivity]. intros _ j Hj. apply Hiff; [reflexivity|zdiv].
  - exists false. split; [reflexivity|]. split; [discriminate|]. intros H. apply Hiff. intros j Hj. apply H. zdiv.
Qed.

(** ** growing *)
Lemma bit_grown bits n j : 0 <= j -> bit (bits ++ repeat 0 n) j = bit bits j.
Proof.
  intros Hj. rewrite !bit_znth by assumption. destruct (Z.lt_ge_cases (j / 8) (zlen bits)) as [L|L].
  - now rewrite znth_app_l by assumption.
  - rewrite znth_app_r by assumption. rewrite (znth_None bits) by lia.
    destruct (Z.lt_ge_cases (j / 8 - zlen bits) (Z.of_nat n)).
    + rewrite znth_repeat by lia. apply Z.bits_0.
    + rewrite znth_None; [reflexivity|]. rewrite zlen_repeat. lia.
Qed.

Lemma grow_set_spec bits i (t : bool) : bytes bits -> bits <> [] -> 0 <= i ->
  exists bits', bitmap_grow_set bits i t = Ok bits' /\ zlen bits <= zlen bits' /\ i < capacity bits' /\
    forall j, 0 <= j -> bit bits' j = if j =? i then t else bit bits j.
Proof.
  intros Hb Hne Hi. unfold bitmap_grow_set. cbv zeta.
  assert (0 < zlen bits) by (destruct bits; [congruence|]; rewrite zlen_cons; pose proof (zlen_nonneg bits); lia).
  assert (G : exists b1, (if zlen bits <=? i / 8 then
             if i / 8 * 2 <? zlen bits then UB
             else Ok (bits ++ repeat 0 (Z.to_nat (i / 8 * 2 - zlen bits)))
           else Ok bits) = Ok b1 /\ bytes b1 /\ zlen bits <= zlen b1 /\ i < capacity b1 /\
           forall j, 0 <= j -> bit b1 j = bit bits j).
  { destruct (Z.leb_spec (zlen bits) (i / 8)).
    - destruct (Z.ltb_spec (i / 8 * 2) (zlen bits)); [lia|].
      eexists. split; [reflexivity|]. unfold capacity. rewrite zlen_app, zlen_repeat, Z2Nat.id by lia.
      split; [|split; [lia|split; [zdiv|intros j Hj; now apply bit_grown]]].
      apply Forall_app. split; [assumption|]. apply Forall_forall. intros x Hx. apply repeat_spec in Hx. subst.
      unfold is_byte. lia.
    - exists bits. repeat split; auto; try lia. unfold capacity. zdiv. }
  destruct G as (b1 & -> & Hb1 & Hl1 & Hc1 & H1). cbn [bind].
  assert (S : exists b2, (if t then bitmap_set b1 i else bitmap_clear b1 i) = Ok b2 /\ updated (fun j => j =? i) t b1 b2).
  { destruct t; [apply set_spec|apply clear_spec]; auto; lia. }
  destruct S as (b2 & E2 & L2 & _ & U2). exists b2. split; [assumption|]. split; [lia|].
  split; [unfold capacity in *; lia|]. intros j Hj. rewrite U2 by assumption. now rewrite H1.
Qed.

Lemma set_count_loop_spec bits n c i : 0 <= i -> i + Z.of_nat n <= capacity bits ->
  exists r, set_count_loop bits i n c = Ok r /\
    r - c = population bits (Z.to_nat i + n) - population bits (Z.to_nat i).
Proof.
  revert i c. induction n as [|n IH]; intros i c Hi Hl; cbn [set_count_loop].
  - exists c. split; [reflexivity|]. rewrite Nat.add_0_r. lia.
  - rewrite test_spec by lia. cbn [bind].
    destruct (IH (i + 1) (if bit bits i then c + 1 else c)) as (r & E & H); [lia|lia|].
    exists r. split; [assumption|].
    replace (Z.to_nat (i + 1)) with (S (Z.to_nat i)) in H by lia.
    replace (S (Z.to_nat i) + n)%nat with (Z.to_nat i + S n)%nat in H by lia.
    cbn [population] in H. rewrite Z2Nat.id in H by lia. destruct (bit bits i); lia.
Qed.
