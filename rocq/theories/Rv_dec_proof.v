(** The words the encoder writes are decoded as the intended instructions. *)
From Coq Require Import ZArith List Bool Lia ZifyBool ZifyNat.
From Verif Require Import Base Rv_model Rv_spec Rv_proof.
Import ListNotations.
Open Scope Z_scope.
Ltac Zify.zify_post_hook ::= Z.div_mod_to_equations.

Lemma fld02 u : fld u 0 2 = u mod 4.
Proof. rewrite fld_eq by lia. change (2 ^ 0) with 1. rewrite Z.div_1_r. reflexivity. Qed.
Lemma land_range w k : 0 <= k -> 0 <= Z.land w (Z.ones k) < 2 ^ k.
Proof. intros. rewrite Z.land_ones by lia. apply Z.mod_pos_bound. apply Z.pow_pos_nonneg; lia. Qed.

Lemma fetch32 w r : fld w 0 2 = 3 ->
  fetch (code32 w ++ r) = omap (fun i => (i, 4, r)) (decode32 (Z.land w (Z.ones 32))).
Proof.
  intros H. rewrite <- (fld_low w 0 2 32) in H by lia. rewrite fld02 in H.
  pose proof (land_range w 32 ltac:(lia)) as R. change (2 ^ 32) with 4294967296 in R.
  unfold code32. set (u := Z.land w (Z.ones 32)) in *. clearbody u.
  cbn [app fetch].
  assert (E1 : (u mod 256 + 256 * ((u / 256) mod 256)) mod 4 =? 3 = true) by lia.
  rewrite E1.
  assert (E2 : u mod 256 + 256 * ((u / 256) mod 256) + 65536 * ((u / 65536) mod 256)
               + 16777216 * ((u / 16777216) mod 256) = u) by lia.
  rewrite E2. reflexivity.
Qed.
Lemma fetch16 w r : fld w 0 2 <> 3 ->
  fetch (code16 w ++ r) = omap (fun i => (i, 2, r)) (decode16 (Z.land w (Z.ones 16))).
Proof.
  intros H. rewrite <- (fld_low w 0 2 16) in H by lia. rewrite fld02 in H.
  pose proof (land_range w 16 ltac:(lia)) as R. change (2 ^ 16) with 65536 in R.
  unfold code16. set (u := Z.land w (Z.ones 16)) in *. clearbody u.
  cbn [app fetch].
  assert (E2 : u mod 256 + 256 * ((u / 256) mod 256) = u) by lia.
  rewrite E2.
  assert (E1 : u mod 4 =? 3 = false) by lia.
  rewrite E1. reflexivity.
Qed.
Lemma op_low w op : fld w 0 7 = op -> fld w 0 2 = op mod 4.
Proof.
  intros <-. rewrite !fld_eq by lia. change (2 ^ 0) with 1. rewrite !Z.div_1_r.
  change (2 ^ 2) with 4. change (2 ^ 7) with 128. lia.
Qed.

(** decoding does not look above the word *)
Definition nice (w : Z) : Prop := w <> 0x73.
Lemma dec32 w i : fld w 0 7 mod 4 = 3 -> fld w 0 7 <> 0x73 ->
  decode32 w = Some i -> forall r, fetch (code32 w ++ r) = Some (i, 4, r).
Proof.
  intros H Hn D r. rewrite fetch32 by (rewrite (op_low w _ eq_refl); exact H).
  assert (K : decode32 (Z.land w (Z.ones 32)) = decode32 w).
  { unfold decode32, uimm, jimm, iimm, bimm, simm, dec_imm, dec_imm32, iimm.
    rewrite !fld_low by lia.
    destruct (Z.eqb_spec (fld w 0 7) 0x73); [contradiction|reflexivity]. }
  rewrite K, D. reflexivity.
Qed.

(** ** Signed constants *)
Lemma sx_range n v : 0 < n -> - 2 ^ (n - 1) <= sx n v < 2 ^ (n - 1).
Proof.
  intros. unfold sx. assert (2 ^ n = 2 * 2 ^ (n - 1)).
  { rewrite <- Z.pow_succ_r by lia. f_equal. lia. }
  assert (0 < 2 ^ (n - 1)) by (apply Z.pow_pos_nonneg; lia).
  pose proof (Z.mod_pos_bound (v + 2 ^ (n - 1)) (2 ^ n)). lia.
Qed.
Lemma sx_small n v : 0 < n -> - 2 ^ (n - 1) <= v < 2 ^ (n - 1) -> sx n v = v.
Proof.
  intros. unfold sx. assert (2 ^ n = 2 * 2 ^ (n - 1)).
  { rewrite <- Z.pow_succ_r by lia. f_equal. lia. }
  rewrite Z.mod_small by lia. lia.
Qed.
Lemma sx_cong n a b : 0 < n -> (a - b) mod 2 ^ n = 0 -> sx n a = sx n b.
Proof.
  intros Hn H. unfold sx. f_equal.
  assert (0 < 2 ^ n) by (apply Z.pow_pos_nonneg; lia).
  apply Z.mod_divide in H; [|lia]. destruct H as [k Hk].
  replace (a + 2 ^ (n - 1)) with (b + 2 ^ (n - 1) + k * 2 ^ n) by lia.
  apply Z_mod_plus_full.
Qed.

Ltac fl := rewrite ?fld_eq by lia;
  repeat match goal with
  | |- context [2 ^ ?k] => znum k; let v := eval compute in (2 ^ k) in change (2 ^ k) with v
  end.

Lemma imm12 imm : -2048 <= imm < 2048 -> sx 12 (fld imm 0 12) = imm.
Proof.
  intros. rewrite <- (sx_small 12 imm) at 2 by (cbn; lia).
  apply sx_cong; [lia|]. fl. lia.
Qed.
Lemma simm12 imm : -2048 <= imm < 2048 ->
  sx 12 (fld imm 5 7 * 32 + fld imm 0 5) = imm.
Proof.
  intros. rewrite <- (sx_small 12 imm) at 3 by (cbn; lia).
  apply sx_cong; [lia|]. fl. lia.
Qed.
Lemma bimm13 o : -4096 <= o < 4096 -> o mod 2 = 0 ->
  sx 13 (fld o 12 1 * 4096 + fld o 11 1 * 2048 + fld o 5 6 * 32 + fld o 1 4 * 2) = o.
Proof.
  intros. rewrite <- (sx_small 13 o) at 5 by (cbn; lia).
  apply sx_cong; [lia|]. fl. lia.
Qed.
Lemma jimm21 o : - 2 ^ 20 <= o < 2 ^ 20 -> o mod 2 = 0 ->
  sx 21 (fld o 20 1 * 1048576 + fld o 12 8 * 4096 + fld o 11 1 * 2048 + fld o 1 10 * 2) = o.
Proof.
  intros. rewrite <- (sx_small 21 o) at 5 by (cbn; lia).
  apply sx_cong; [lia|]. fl. lia.
Qed.
Lemma uimm20 o : sx 32 (fld o 12 20 * 4096) = sx 32 (o - o mod 4096).
Proof. apply sx_cong; [lia|]. fl. lia. Qed.

(** ** 32-bit instructions *)
Ltac rt := rewrite ?rtype_op, ?rtype_rd, ?rtype_f3, ?rtype_rs1, ?rtype_rs2, ?rtype_f7,
  ?itype_op, ?itype_rd, ?itype_f3, ?itype_rs1, ?itype_imm, ?itype_sh6, ?itype_sh5,
  ?itype_f6, ?itype_f7, ?stype_op, ?stype_lo, ?stype_f3, ?stype_rs1, ?stype_rs2, ?stype_hi,
  ?btype_op, ?btype_f3, ?btype_rs1, ?btype_rs2, ?btype_12, ?btype_11, ?btype_5, ?btype_1,
  ?utype_op, ?utype_rd, ?jtype_20, ?jtype_12, ?jtype_11, ?jtype_1, ?utype_imm by lia.
Ltac d32 := apply dec32; [rt; reflexivity|rt; lia|
  unfold decode32, iimm, simm, bimm, uimm, jimm, dec_imm, dec_imm32, iimm; rt; cbn].

Lemma dec_w3 o rd rs1 rs2 r : reg rd -> reg rs1 -> reg rs2 ->
  fetch (w3 o rd rs1 rs2 ++ r) = Some (IOp o rd rs1 rs2, 4, r).
Proof. unfold reg; intros ? ? ?. revert r. destruct o; unfold w3; d32; reflexivity. Qed.

Definition ok_imm (o : opi) (imm : Z) : Prop :=
  match o with
  | ADDI | ADDIW | ANDI | ORI | XORI | SLTI | SLTIU => -2048 <= imm < 2048
  | SLLI | SRLI | SRAI => 0 <= imm < 64
  | SLLIW | SRLIW | SRAIW => 0 <= imm < 32
  end.
Lemma sh_land imm k : 0 <= k -> 0 <= imm < 2 ^ k -> Z.land imm (Z.ones k) = imm.
Proof. intros. rewrite Z.land_ones by lia. apply Z.mod_small. lia. Qed.
Lemma sra_6 imm : 0 <= imm < 64 -> fld (Z.lor 0x400 imm) 0 6 = imm.
Proof. intros. fbits. Qed.
Lemma sra_f6 imm : 0 <= imm < 64 -> fld (Z.lor 0x400 imm) 6 6 = 16.
Proof. intros. fbits. Qed.
Lemma sra_5 imm : 0 <= imm < 32 -> fld (Z.lor 0x400 imm) 0 5 = imm.
Proof. intros. fbits. Qed.
Lemma sra_f7 imm : 0 <= imm < 32 -> fld (Z.lor 0x400 imm) 5 7 = 32.
Proof. intros. fbits. Qed.
Lemma srl_6 imm : 0 <= imm < 64 -> fld imm 0 6 = imm.
Proof. intros. fbits. Qed.
Lemma srl_f6 imm : 0 <= imm < 64 -> fld imm 6 6 = 0.
Proof. intros. fbits. Qed.
Lemma srl_5 imm : 0 <= imm < 32 -> fld imm 0 5 = imm.
Proof. intros. fbits. Qed.
Lemma srl_f7 imm : 0 <= imm < 32 -> fld imm 5 7 = 0.
Proof. intros. fbits. Qed.
Lemma dec_wi o rd rs imm r : reg rd -> reg rs -> ok_imm o imm ->
  fetch (wi o rd rs imm ++ r) = Some (IOpI (alu_of o) rd rs imm, 4, r).
Proof.
  unfold reg; intros ? ? H. revert r. destruct o; cbn [ok_imm alu_of] in *; unfold wi.
  1-7: d32; rewrite imm12 by lia; reflexivity.
  all: change 63 with (Z.ones 6); change 31 with (Z.ones 5);
    rewrite sh_land by (try lia; change (2 ^ 6) with 64; change (2 ^ 5) with 32; lia);
    apply dec32; [rt; reflexivity|rt; lia|];
    unfold decode32, iimm, simm, bimm, uimm, jimm, dec_imm, dec_imm32, iimm; rt;
    rewrite ?sra_6, ?sra_f6, ?sra_5, ?sra_f7, ?srl_6, ?srl_f6, ?srl_5, ?srl_f7 by lia;
    reflexivity.
Qed.
Lemma dec_wld o rd ofs rs r : reg rd -> reg rs -> -2048 <= ofs < 2048 ->
  fetch (wld o rd ofs rs ++ r) = Some (ILoad o rd rs ofs, 4, r).
Proof.
  unfold reg; intros ? ? H. revert r. destruct o; unfold wld; d32; rewrite imm12 by lia; reflexivity.
Qed.
Lemma dec_wsd o rs2 ofs rs1 r : reg rs2 -> reg rs1 -> -2048 <= ofs < 2048 ->
  fetch (wsd o rs2 ofs rs1 ++ r) = Some (IStore o rs2 rs1 ofs, 4, r).
Proof.
  unfold reg; intros ? ? H. revert r. destruct o; unfold wsd; d32; rewrite simm12 by lia; reflexivity.
Qed.
Lemma dec_lui rd imm r : reg rd ->
  fetch (w_lui rd imm ++ r) = Some (ILui rd (sx 32 (imm - imm mod 4096)), 4, r).
Proof. unfold reg; intros ?. revert r. unfold w_lui. d32. rewrite uimm20. reflexivity. Qed.
Lemma dec_auipc rd imm r : reg rd ->
  fetch (w_auipc rd imm ++ r) = Some (IAuipc rd (sx 32 (imm - imm mod 4096)), 4, r).
Proof. unfold reg; intros ?. revert r. unfold w_auipc. d32. rewrite uimm20. reflexivity. Qed.
Lemma dec_jal rd o r : reg rd -> - 2 ^ 20 <= o < 2 ^ 20 -> o mod 2 = 0 ->
  fetch (w_jal rd o ++ r) = Some (IJal rd o, 4, r).
Proof. unfold reg; intros ? H1 H2. revert r. unfold w_jal. d32. rewrite jimm21 by assumption. reflexivity. Qed.
Lemma dec_jalr rd rs o r : reg rd -> reg rs ->
  fetch (w_jalr rd rs o ++ r) = Some (IJalr rd rs (sx 12 o), 4, r).
Proof.
  unfold reg; intros ? ?. revert r. unfold w_jalr. d32.
  replace (sx 12 (fld o 0 12)) with (sx 12 o); [reflexivity|].
  apply sx_cong; [lia|]. fl. lia.
Qed.
Lemma dec_bxx o rs1 rs2 ofs r : reg rs1 -> reg rs2 -> -4096 <= ofs < 4096 -> ofs mod 2 = 0 ->
  fetch (asm_bxx o rs1 rs2 ofs ++ r) = Some (IBr o rs1 rs2 ofs, 4, r).
Proof.
  unfold reg; intros ? ? H1 H2. revert r. unfold asm_bxx, w_bxx.
  destruct o; d32; rewrite bimm13 by assumption; reflexivity.
Qed.
Lemma dec_ecall r : fetch (w_ecall ++ r) = Some (IEcall, 4, r).
Proof. reflexivity. Qed.
Lemma dec_3fr o d rd rs1 rs2 r : reg rd -> reg rs1 -> reg rs2 ->
  fetch (asm_3fr o d rd rs1 rs2 ++ r) =
  Some (match o with
        | FADD | FSUB | FMUL | FDIV => IFop o d 7 rd rs1 rs2
        | _ => IFsgnj o d rd rs1 rs2
        end, 4, r).
Proof. unfold reg; intros ? ? ?. revert r. unfold asm_3fr. destruct o, d; d32; reflexivity. Qed.
Lemma dec_sqrt d rd rs r : reg rd -> reg rs ->
  fetch (asm_2fr FSQRT d rd rs ++ r) = Some (IFsqrt d 7 rd rs, 4, r).
Proof. unfold reg; intros ? ?. revert r. unfold asm_2fr. destruct d; d32; reflexivity. Qed.
Lemma dec_fcvt_ds rd rs r : reg rd -> reg rs ->
  fetch (asm_fcvt_ds rd rs ++ r) = Some (ICvtDS rd rs, 4, r).
Proof. unfold reg; intros ? ?. revert r. unfold asm_fcvt_ds. d32; reflexivity. Qed.
Lemma dec_fcvt_sd rd rs r : reg rd -> reg rs ->
  fetch (asm_fcvt_sd rd rs ++ r) = Some (ICvtSD 7 rd rs, 4, r).
Proof. unfold reg; intros ? ?. revert r. unfold asm_fcvt_sd. d32; reflexivity. Qed.
Lemma dec_fcmp o d rd rs1 rs2 r : reg rd -> reg rs1 -> reg rs2 ->
  fetch (asm_fcmp o d rd rs1 rs2 ++ r) = Some (IFcmp o d rd rs1 rs2, 4, r).
Proof. unfold reg; intros ? ? ?. revert r. unfold asm_fcmp. destruct o, d; d32; reflexivity. Qed.
Lemma dec_flw (d : bool) rd ofs rs r : reg rd -> reg rs -> -2048 <= ofs < 2048 ->
  fetch (code32 (itype ofs rs (if d then 3 else 2) rd 0x07) ++ r) = Some (IFload d rd rs ofs, 4, r).
Proof. unfold reg; intros ? ? H. revert r. destruct d; d32; rewrite imm12 by lia; reflexivity. Qed.
Lemma dec_fsw (d : bool) rs2 ofs rs1 r : reg rs2 -> reg rs1 -> -2048 <= ofs < 2048 ->
  fetch (code32 (stype ofs rs2 rs1 (if d then 3 else 2) 0x27) ++ r) = Some (IFstore d rs2 rs1 ofs, 4, r).
Proof. unfold reg; intros ? ? H. revert r. destruct d; d32; rewrite simm12 by lia; reflexivity. Qed.
Lemma dec_fi o d rd rs r : reg rd -> reg rs ->
  fetch (asm_fi o d rd rs ++ r) = Some (ICvtFI o d (if exact o d then 0 else 7) rd rs, 4, r).
Proof. unfold reg; intros ? ?. revert r. unfold asm_fi. destruct o, d; cbn [cvsel exact]; d32; reflexivity. Qed.
Lemma dec_if o d rd rs rm r : reg rd -> reg rs -> 0 <= rm <= 4 \/ rm = 7 ->
  fetch (asm_if o d rd rs rm ++ r) = Some (ICvtIF o d rm rd rs, 4, r).
Proof.
  unfold reg; intros ? ? Hr. revert r. unfold asm_if.
  assert (C : rm = 0 \/ rm = 1 \/ rm = 2 \/ rm = 3 \/ rm = 4 \/ rm = 7) by lia. clear Hr.
  destruct C as [->|[->|[->|[->|[->| ->]]]]]; destruct o, d; cbn [cvsel]; d32; reflexivity.
Qed.
Lemma dec_fmvx d rd rs r : reg rd -> reg rs ->
  fetch (asm_fmvx d rd rs ++ r) = Some (IFmvX d rd rs, 4, r).
Proof. unfold reg; intros ? ?. revert r. unfold asm_fmvx. destruct d; d32; reflexivity. Qed.
