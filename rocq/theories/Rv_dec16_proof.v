(** The 16-bit words the encoder writes are decoded as intended. *)
From Coq Require Import ZArith List Bool Lia ZifyBool ZifyNat.
From Verif Require Import Base Rv_model Rv_spec Rv_proof Rv_dec_proof.
Import ListNotations.
Open Scope Z_scope.
Ltac Zify.zify_post_hook ::= Z.div_mod_to_equations.

Lemma dec16 w i : fld w 0 2 <> 3 -> decode16 w = Some i ->
  forall r, fetch (code16 w ++ r) = Some (i, 2, r).
Proof.
  intros H D r. rewrite fetch16 by exact H.
  assert (K : decode16 (Z.land w (Z.ones 16)) = decode16 w).
  { unfold decode16, decode16_q0, decode16_q1, decode16_q2, creg, cl_d, cl_w, ci6, cj, cb.
    rewrite !fld_low by lia. reflexivity. }
  rewrite K, D. reflexivity.
Qed.

Ltac ex := repeat match goal with
  | |- context [extract ?i ?t ?b] =>
      let n := eval compute in (t - b + 1) in change (extract i t b) with (fld i b n)
  end.
Ltac fw lo n v :=
  match goal with
  | |- context [fld ?w lo n] => replace (fld w lo n) with v by (symmetry; fbits)
  end.
Ltac w16 := unfold c_imm6, or6, or5, or4, or3; ex.

Lemma ci6_s imm : -32 <= imm < 32 -> sx 6 (fld imm 5 1 * 32 + fld imm 0 5) = imm.
Proof.
  intros. rewrite <- (sx_small 6 imm) at 3 by (cbn; lia).
  apply sx_cong; [lia|]. fl. lia.
Qed.
Lemma ci6_u imm : 0 <= imm < 64 -> fld imm 5 1 * 32 + fld imm 0 5 = imm.
Proof. intros. fl. lia. Qed.

(** registers x8..x15 *)
Definition creg_ok (r : Z) : Prop := 8 <= r <= 15.
Lemma rvc_ok r : rvc r = true -> creg_ok r.
Proof. unfold rvc, creg_ok. lia. Qed.

Ltac rv rd a :=
  let Ea := fresh in
  remember (torvc rd) as a eqn:Ea;
  assert (rd = 8 + a) by (unfold torvc in Ea; lia);
  assert (0 <= a < 8) by (unfold torvc in Ea; lia);
  clear Ea; subst rd.

Lemma dec_c_li rd imm r : reg rd -> -32 <= imm < 32 ->
  fetch (c_li rd imm ++ r) = Some (IOpI ADD rd 0 imm, 2, r).
Proof.
  unfold reg. intros Hd Hi. revert r. unfold c_li. w16. apply dec16.
  - fw 0 2 1. lia.
  - unfold decode16. fw 0 2 1. unfold decode16_q1, ci6.
    fw 13 3 2. fw 7 5 rd. fw 12 1 (fld imm 5 1). fw 2 5 (fld imm 0 5).
    rewrite ci6_s by lia. reflexivity.
Qed.
Lemma dec_c_addi rd imm r : reg rd -> -32 <= imm < 32 ->
  fetch (c_addi rd imm ++ r) = Some (IOpI ADD rd rd imm, 2, r).
Proof.
  unfold reg. intros Hd Hi. revert r. unfold c_addi. w16. apply dec16.
  - fw 0 2 1. lia.
  - unfold decode16. fw 0 2 1. unfold decode16_q1, ci6.
    fw 13 3 0. fw 7 5 rd. fw 12 1 (fld imm 5 1). fw 2 5 (fld imm 0 5).
    rewrite ci6_s by lia. reflexivity.
Qed.
Lemma dec_c_addiw rd imm r : reg rd -> rd <> 0 -> -32 <= imm < 32 ->
  fetch (c_addiw rd imm ++ r) = Some (IOpI ADDW rd rd imm, 2, r).
Proof.
  unfold reg. intros Hd Hn Hi. revert r. unfold c_addiw. w16. apply dec16.
  - fw 0 2 1. lia.
  - unfold decode16. fw 0 2 1. unfold decode16_q1, ci6.
    fw 13 3 1. fw 7 5 rd. fw 12 1 (fld imm 5 1). fw 2 5 (fld imm 0 5).
    rewrite ci6_s by lia. destruct (Z.eqb_spec rd 0); [contradiction|reflexivity].
Qed.
Lemma dec_c_slli rd imm r : reg rd -> 0 <= imm < 64 ->
  fetch (c_slli rd imm ++ r) = Some (IOpI SLL rd rd imm, 2, r).
Proof.
  unfold reg. intros Hd Hi. revert r. unfold c_slli. w16. apply dec16.
  - fw 0 2 2. lia.
  - unfold decode16. fw 0 2 2. unfold decode16_q2, ci6.
    fw 13 3 0. fw 7 5 rd. fw 12 1 (fld imm 5 1). fw 2 5 (fld imm 0 5).
    rewrite ci6_u by lia. reflexivity.
Qed.
Lemma dec_c_lui rd imm r : reg rd -> rd <> 0 -> rd <> 2 ->
  -32 <= Z.shiftr imm 12 < 32 -> Z.shiftr imm 12 <> 0 ->
  fetch (c_lui rd imm ++ r) = Some (ILui rd (imm - imm mod 4096), 2, r).
Proof.
  unfold reg. intros Hd H0 H2 Hi Hn. revert r. unfold c_lui. w16. apply dec16.
  - fw 0 2 1. lia.
  - unfold decode16. fw 0 2 1. unfold decode16_q1, ci6.
    fw 13 3 3. fw 7 5 rd. fw 12 1 (fld imm 17 1). fw 2 5 (fld imm 12 5).
    destruct (Z.eqb_spec rd 2); [contradiction|].
    rewrite Z.shiftr_div_pow2 in Hi, Hn by lia. change (2 ^ 12) with 4096 in *.
    assert (K : (fld imm 17 1 * 32 + fld imm 12 5 =? 0) = false) by (fl; lia).
    rewrite K. do 2 f_equal.
    rewrite <- (sx_small 18 (imm - imm mod 4096)) by (cbn; lia).
    apply sx_cong; [lia|]. fl. lia.
Qed.
Lemma dec_c_addi16sp imm r : -512 <= imm < 512 -> imm mod 16 = 0 -> imm <> 0 ->
  fetch (c_addi16sp imm ++ r) = Some (IOpI ADD 2 2 imm, 2, r).
Proof.
  intros Hi H16 Hn. revert r. unfold c_addi16sp. w16. apply dec16.
  - fw 0 2 1. lia.
  - unfold decode16. fw 0 2 1. unfold decode16_q1, ci6.
    fw 13 3 3. fw 7 5 2. fw 12 1 (fld imm 9 1). fw 3 2 (fld imm 7 2).
    fw 5 1 (fld imm 6 1). fw 2 1 (fld imm 5 1). fw 6 1 (fld imm 4 1).
    change (2 =? 2) with true. cbv iota.
    set (v := fld imm 9 1 * 512 + fld imm 7 2 * 128 + fld imm 6 1 * 64 + fld imm 5 1 * 32 + fld imm 4 1 * 16).
    assert (V : v = imm mod 1024) by (subst v; fl; lia). rewrite V.
    destruct (Z.eqb_spec (imm mod 1024) 0) as [C|C]; [lia|].
    do 2 f_equal. rewrite <- (sx_small 10 imm) at 2 by (cbn; lia).
    apply sx_cong; [lia|]. change (2 ^ 10) with 1024. lia.
Qed.
Ltac cimm e := unfold decode16; fw 0 2 1; unfold decode16_q1, ci6, creg;
    fw 13 3 4; fw 10 2 e.
Lemma dec_c_andi rd imm r : creg_ok rd -> -32 <= imm < 32 ->
  fetch (c_andi rd imm ++ r) = Some (IOpI AND rd rd imm, 2, r).
Proof.
  unfold creg_ok. intros Hd Hi. revert r. unfold c_andi. w16.
  rv rd a.
  apply dec16.
  - fw 0 2 1. lia.
  - cimm 2. fw 12 1 (fld imm 5 1). fw 2 5 (fld imm 0 5). fw 7 3 a.
    rewrite ci6_s by lia. reflexivity.
Qed.
Lemma dec_c_srli rd imm r : creg_ok rd -> 0 <= imm < 64 ->
  fetch (c_srli rd imm ++ r) = Some (IOpI SRL rd rd imm, 2, r).
Proof.
  unfold creg_ok. intros Hd Hi. revert r. unfold c_srli. w16.
  rv rd a.
  apply dec16.
  - fw 0 2 1. lia.
  - cimm 0. fw 12 1 (fld imm 5 1). fw 2 5 (fld imm 0 5). fw 7 3 a.
    rewrite ci6_u by lia. reflexivity.
Qed.
Lemma dec_c_srai rd imm r : creg_ok rd -> 0 <= imm < 64 ->
  fetch (c_srai rd imm ++ r) = Some (IOpI SRA rd rd imm, 2, r).
Proof.
  unfold creg_ok. intros Hd Hi. revert r. unfold c_srai. w16.
  rv rd a.
  apply dec16.
  - fw 0 2 1. lia.
  - cimm 1. fw 12 1 (fld imm 5 1). fw 2 5 (fld imm 0 5). fw 7 3 a.
    rewrite ci6_u by lia. reflexivity.
Qed.

Definition rr_base (o : op3) : Z :=
  match o with
  | SUB => 0x8c01 | XOR => 0x8c21 | OR => 0x8c41 | AND => 0x8c61
  | SUBW => 0x9c01 | _ => 0x9c21
  end.
Lemma dec_c_rr o rd rs r : creg_ok rd -> creg_ok rs ->
  In o [SUB; XOR; OR; AND; SUBW; ADDW] ->
  fetch (c_rr (rr_base o) rd rs ++ r) = Some (IOp o rd rd rs, 2, r).
Proof.
  unfold creg_ok. intros Hd Hs Ho. revert r. unfold c_rr.
  w16. rv rd a. rv rs b.
  repeat destruct Ho as [<-|Ho]; [..|destruct Ho]; cbn [rr_base]; apply dec16;
    try (fw 0 2 1; lia); cimm 3; fw 7 3 a; fw 2 3 b.
  - fw 12 1 0. fw 5 2 0. reflexivity.
  - fw 12 1 0. fw 5 2 1. reflexivity.
  - fw 12 1 0. fw 5 2 2. reflexivity.
  - fw 12 1 0. fw 5 2 3. reflexivity.
  - fw 12 1 1. fw 5 2 0. reflexivity.
  - fw 12 1 1. fw 5 2 1. reflexivity.
Qed.

Lemma dec_c_mv rd rs r : reg rd -> reg rs -> rs <> 0 ->
  fetch (c_mv rd rs ++ r) = Some (IOp ADD rd 0 rs, 2, r).
Proof.
  unfold reg. intros Hd Hs Hn. revert r. unfold c_mv. w16. apply dec16.
  - fw 0 2 2. lia.
  - unfold decode16. fw 0 2 2. unfold decode16_q2. fw 13 3 4. fw 12 1 0.
    fw 2 5 rs. fw 7 5 rd. destruct (Z.eqb_spec rs 0); [contradiction|reflexivity].
Qed.
Lemma dec_c_add rd rs r : reg rd -> reg rs -> rs <> 0 ->
  fetch (c_add rd rs ++ r) = Some (IOp ADD rd rd rs, 2, r).
Proof.
  unfold reg. intros Hd Hs Hn. revert r. unfold c_add. w16. apply dec16.
  - fw 0 2 2. lia.
  - unfold decode16. fw 0 2 2. unfold decode16_q2. fw 13 3 4. fw 12 1 1.
    fw 2 5 rs. fw 7 5 rd. destruct (Z.eqb_spec rs 0); [contradiction|reflexivity].
Qed.
Lemma dec_c_jr rs r : reg rs -> rs <> 0 ->
  fetch (c_jr rs ++ r) = Some (IJalr 0 rs 0, 2, r).
Proof.
  unfold reg. intros Hs Hn. revert r. unfold c_jr. apply dec16.
  - fw 0 2 2. lia.
  - unfold decode16. fw 0 2 2. unfold decode16_q2. fw 13 3 4. fw 12 1 0.
    fw 2 5 0. fw 7 5 rs. destruct (Z.eqb_spec rs 0); [contradiction|reflexivity].
Qed.
Lemma dec_c_jalr rs r : reg rs -> rs <> 0 ->
  fetch (c_jalr rs ++ r) = Some (IJalr 1 rs 0, 2, r).
Proof.
  unfold reg. intros Hs Hn. revert r. unfold c_jalr. apply dec16.
  - fw 0 2 2. lia.
  - unfold decode16. fw 0 2 2. unfold decode16_q2. fw 13 3 4. fw 12 1 1.
    fw 2 5 0. fw 7 5 rs. destruct (Z.eqb_spec rs 0); [contradiction|reflexivity].
Qed.
Lemma land_mod x k n : 0 <= k -> n = Z.ones k -> Z.land x n = x mod 2 ^ k.
Proof. intros ? ->. apply Z.land_ones. lia. Qed.

Lemma dec_c_lw rd imm rs r : creg_ok rd -> creg_ok rs -> 0 <= imm < 128 -> imm mod 4 = 0 ->
  fetch (c_lw rd imm rs ++ r) = Some (ILoad LW rd rs imm, 2, r).
Proof.
  unfold creg_ok. intros Hd Hs Hi Hm. revert r. unfold c_lw.
  w16. rv rd a. rv rs b.
  apply dec16.
  - fw 0 2 0. lia.
  - unfold decode16. fw 0 2 0. unfold decode16_q0, creg, cl_w. fw 13 3 2.
    fw 2 3 a. fw 7 3 b. fw 5 1 (fld imm 6 1). fw 10 3 (fld imm 3 3). fw 6 1 (fld imm 2 1).
    do 2 f_equal. fl. lia.
Qed.
Lemma dec_c_dword base i reg_ imm addr r : creg_ok reg_ -> creg_ok addr ->
  0 <= imm < 256 -> imm mod 8 = 0 ->
  (base, i) = (0x6000, ILoad LD reg_ addr imm) \/ (base, i) = (0xe000, IStore SD reg_ addr imm) \/
  (base, i) = (0x2000, IFload true reg_ addr imm) \/ (base, i) = (0xa000, IFstore true reg_ addr imm) \/
  (base, i) = (0xc000, IStore SW reg_ addr imm) /\ imm < 128 ->
  fetch (c_dword base reg_ imm addr ++ r) = Some (i, 2, r).
Proof.
  unfold creg_ok. intros Hd Hs Hi Hm HB. revert r. unfold c_dword.
  w16. rv reg_ a. rv addr b.
  assert (K : fld imm 6 2 * 64 + fld imm 3 3 * 8 = imm) by (fl; lia).
  repeat destruct HB as [HB|HB]; [..|destruct HB as [HB HB2]]; injection HB as -> ->;
    apply dec16; try (fw 0 2 0; lia); unfold decode16; fw 0 2 0; unfold decode16_q0, creg, cl_d, cl_w.
  - fw 13 3 3. fw 2 3 a. fw 7 3 b. fw 5 2 (fld imm 6 2). fw 10 3 (fld imm 3 3). rewrite K. reflexivity.
  - fw 13 3 7. fw 2 3 a. fw 7 3 b. fw 5 2 (fld imm 6 2). fw 10 3 (fld imm 3 3). rewrite K. reflexivity.
  - fw 13 3 1. fw 2 3 a. fw 7 3 b. fw 5 2 (fld imm 6 2). fw 10 3 (fld imm 3 3). rewrite K. reflexivity.
  - fw 13 3 5. fw 2 3 a. fw 7 3 b. fw 5 2 (fld imm 6 2). fw 10 3 (fld imm 3 3). rewrite K. reflexivity.
  - fw 13 3 6. fw 2 3 a. fw 7 3 b. fw 5 1 (fld imm 6 1). fw 10 3 (fld imm 3 3). fw 6 1 (fld imm 7 1).
    do 2 f_equal. fl. lia.
Qed.
Lemma dec_c_ldsp rd imm r : reg rd -> rd <> 0 -> 0 <= imm < 512 -> imm mod 8 = 0 ->
  fetch (c_ldsp rd imm ++ r) = Some (ILoad LD rd 2 imm, 2, r).
Proof.
  unfold reg. intros Hd Hn Hi Hm. revert r. unfold c_ldsp, c_ldsp_. w16. apply dec16.
  - fw 0 2 2. lia.
  - unfold decode16. fw 0 2 2. unfold decode16_q2. fw 13 3 3. fw 7 5 rd.
    fw 2 3 (fld imm 6 3). fw 12 1 (fld imm 5 1). fw 5 2 (fld imm 3 2).
    destruct (Z.eqb_spec rd 0); [contradiction|]. do 2 f_equal. fl. lia.
Qed.
Lemma dec_c_fldsp rd imm r : reg rd -> 0 <= imm < 512 -> imm mod 8 = 0 ->
  fetch (c_fldsp rd imm ++ r) = Some (IFload true rd 2 imm, 2, r).
Proof.
  unfold reg. intros Hd Hi Hm. revert r. unfold c_fldsp, c_ldsp_. w16. apply dec16.
  - fw 0 2 2. lia.
  - unfold decode16. fw 0 2 2. unfold decode16_q2. fw 13 3 1. fw 7 5 rd.
    fw 2 3 (fld imm 6 3). fw 12 1 (fld imm 5 1). fw 5 2 (fld imm 3 2).
    do 2 f_equal. fl. lia.
Qed.
Lemma dec_c_sdsp rs imm r : reg rs -> 0 <= imm < 512 -> imm mod 8 = 0 ->
  fetch (c_sdsp rs imm ++ r) = Some (IStore SD rs 2 imm, 2, r).
Proof.
  unfold reg. intros Hd Hi Hm. revert r. unfold c_sdsp, c_sdsp_. w16. apply dec16.
  - fw 0 2 2. lia.
  - unfold decode16. fw 0 2 2. unfold decode16_q2. fw 13 3 7. fw 2 5 rs.
    fw 7 3 (fld imm 6 3). fw 10 3 (fld imm 3 3).
    do 2 f_equal. fl. lia.
Qed.
Lemma dec_c_fsdsp rs imm r : reg rs -> 0 <= imm < 512 -> imm mod 8 = 0 ->
  fetch (c_fsdsp rs imm ++ r) = Some (IFstore true rs 2 imm, 2, r).
Proof.
  unfold reg. intros Hd Hi Hm. revert r. unfold c_fsdsp, c_sdsp_. w16. apply dec16.
  - fw 0 2 2. lia.
  - unfold decode16. fw 0 2 2. unfold decode16_q2. fw 13 3 5. fw 2 5 rs.
    fw 7 3 (fld imm 6 3). fw 10 3 (fld imm 3 3).
    do 2 f_equal. fl. lia.
Qed.
