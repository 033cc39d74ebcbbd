(** The remaining instructions, and all of them together. *)
From Coq Require Import ZArith List Bool Lia ZifyBool ZifyNat.
From Verif Require Import Base Rv_model Rv_spec Rv_proof Rv_dec_proof Rv_dec16_proof
  Rv_run_proof Rv_seq_proof.
Import ListNotations.
Open Scope Z_scope.
Ltac Zify.zify_post_hook ::= Z.div_mod_to_equations.

(** one instruction word *)
Lemma word a c i : handler a = Ok c -> length c = 4%nat ->
  (forall r, fetch (c ++ r) = Some (i, 4, r)) ->
  (forall E s, wf s -> same (exec E i 4 s) (means E a 4 s)) -> enc_ok a.
Proof.
  intros H L F S. apply (one a c i 4 H L); [destruct c; discriminate|lia|exact F|exact S].
Qed.
Lemma half a c i : handler a = Ok c -> length c = 2%nat ->
  (forall r, fetch (c ++ r) = Some (i, 2, r)) ->
  (forall E s, wf s -> same (exec E i 2 s) (means E a 2 s)) -> enc_ok a.
Proof.
  intros H L F S. apply (one a c i 2 H L); [destruct c; discriminate|lia|exact F|exact S].
Qed.
Lemma ux_zero a : - 2 ^ 63 <= a < 2 ^ 63 -> ux 64 a = 0 <-> a = 0.
Proof.
  unfold ux. change (2 ^ 63) with 9223372036854775808. change (2 ^ 64) with 18446744073709551616. lia.
Qed.
Lemma ux_nonneg a : 0 <= ux 64 a.
Proof. unfold ux. apply Z.mod_pos_bound. lia. Qed.

Lemma reg0 : reg 0.
Proof. unfold reg. lia. Qed.
Lemma a2_w3 o p rd rs r1 r2 : reg rd -> reg r1 -> reg r2 ->
  handler (A2 o rd rs) = Ok (w3 p rd r1 r2) ->
  (forall s, wf s -> alu p (getx s r1) (getx s r2) = un o (getx s rs)) -> enc_ok (A2 o rd rs).
Proof.
  intros Hd H1 H2 H HU. apply (word _ _ (IOp p rd r1 r2) H); [destruct p; reflexivity| |].
  - intros r. apply dec_w3; assumption.
  - intros E s Hw. apply same_setx. intros _. apply HU. exact Hw.
Qed.
Lemma a2_wi o p rd rs imm : reg rd -> reg rs -> ok_imm p imm ->
  handler (A2 o rd rs) = Ok (wi p rd rs imm) ->
  (forall s, wf s -> alu (alu_of p) (getx s rs) imm = un o (getx s rs)) -> enc_ok (A2 o rd rs).
Proof.
  intros Hd H1 H2 H HU. apply (word _ _ (IOpI (alu_of p) rd rs imm) H); [destruct p; reflexivity| |].
  - intros r. apply dec_wi; assumption.
  - intros E s Hw. apply same_setx. intros _. apply HU. exact Hw.
Qed.
Lemma a2_ok o rd rs : operands (A2 o rd rs) -> covered (A2 o rd rs) -> enc_ok (A2 o rd rs).
Proof.
  intros [Hd Hs] HC. pose proof reg0 as R0.
  destruct o.
  - apply (a2_w3 _ SUB _ _ 0 rs); try assumption; [reflexivity|]. intros s Hw. reflexivity.
  - apply (a2_wi _ XORI _ _ (-1)); try assumption; [cbn; lia|reflexivity|].
    intros s Hw. cbn [alu alu_of un]. rewrite Z.lxor_m1_r. unfold Z.lnot. lia.
  - apply (pair_ok SEXT_B rd rs 56 true); try assumption; [lia|reflexivity|].
    intros a. apply (sext_pair 56). lia.
  - apply (pair_ok SEXT_H rd rs 48 true); try assumption; [lia|reflexivity|].
    intros a. apply (sext_pair 48). lia.
  - cbn [covered] in HC. destruct (Z.eqb_spec rd rs) as [->|Hn].
    + apply (half _ (c_addiw rs 0) (IOpI ADDW rs rs 0)); [|reflexivity| |].
      * cbn [handler asm_2r]. rewrite Z.eqb_refl. reflexivity.
      * intros r. apply dec_c_addiw; first [assumption | lia | tauto].
      * intros E s Hw. apply same_setx. intros _. cbn [alu un]. rewrite Z.add_0_r. reflexivity.
    + apply (a2_wi _ ADDIW _ _ 0); try assumption; [cbn; lia| |].
      * cbn [handler asm_2r]. destruct (Z.eqb_spec rd rs); [contradiction|reflexivity].
      * intros s Hw. cbn [alu alu_of un]. rewrite Z.add_0_r. reflexivity.
  - apply (a2_wi _ ANDI _ _ 255); try assumption; [cbn; lia|reflexivity|].
    intros s Hw. cbn [alu alu_of un]. change 255 with (Z.ones 8). rewrite Z.land_ones by lia. reflexivity.
  - apply (pair_ok ZEXT_H rd rs 48 false); try assumption; [lia|reflexivity|].
    intros a. apply (zext_pair 48). lia.
  - apply (pair_ok ZEXT_W rd rs 32 false); try assumption; [lia|reflexivity|].
    intros a. apply (zext_pair 32). lia.
  - apply (a2_wi _ SLTIU _ _ 1); try assumption; [cbn; lia|reflexivity|].
    intros s Hw. cbn [alu alu_of un]. pose proof (ux_zero (getx s rs) (getx_wf s rs Hw)).
    pose proof (ux_nonneg (getx s rs)). change (ux 64 1) with 1.
    destruct (Z.ltb_spec (ux 64 (getx s rs)) 1), (Z.eqb_spec (getx s rs) 0); lia.
  - apply (a2_w3 _ SLTU _ _ 0 rs); try assumption; [reflexivity|].
    intros s Hw. cbn [alu alu_of un]. pose proof (ux_zero (getx s rs) (getx_wf s rs Hw)).
    pose proof (ux_nonneg (getx s rs)). change (ux 64 (getx s 0)) with 0.
    destruct (Z.ltb_spec 0 (ux 64 (getx s rs))), (Z.eqb_spec (getx s rs) 0); lia.
  - apply (a2_w3 _ SLT _ _ rs 0); try assumption; [reflexivity|]. intros s Hw. reflexivity.
  - apply (a2_w3 _ SLT _ _ 0 rs); try assumption; [reflexivity|]. intros s Hw. reflexivity.
Qed.

(** ** Addresses filled in by the linker *)
Lemma la_ok rd : reg rd -> enc_ok (ALa rd).
Proof.
  intros Hd. exists (w_auipc rd 0 ++ wi ADDI rd rd 0). split; [reflexivity|].
  intros E s Hw.
  set (u := exec E (IAuipc rd 0) 4 s).
  assert (S1 : seq E (w_auipc rd 0) s u).
  { subst u. apply seq_one; [discriminate| |reflexivity]. intros r. apply (dec_auipc rd 0). exact Hd. }
  assert (S2 : seq E (wi ADDI rd rd 0) u (exec E (IOpI ADD rd rd 0) 4 u)).
  { apply seq_one; [discriminate| |reflexivity]. intros r. apply (dec_wi ADDI); cbn; try assumption; lia. }
  eexists. split; [apply seq_run; eapply seq_app; eassumption|].
  change (Z.of_nat (length (w_auipc rd 0 ++ wi ADDI rd rd 0))) with (4 + 4). cbn [means].
  apply lds_same.
  assert (L : lds s u rd (sx 64 (pc s)) 4).
  { repeat split.
    - intros _. subst u. cbn [exec setpc setx xr]. rewrite Z.eqb_refl, Z.add_0_r. reflexivity.
    - intros k Hk. subst u. cbn [exec setpc setx xr]. destruct (Z.eqb_spec k rd); [contradiction|reflexivity]. }
  apply (lds_next _ _ ADD _ _ 0 _ E 4) in L. cbn [alu] in L. rewrite sx_add, !Z.add_0_r in L by lia. exact L.
Qed.
Lemma luis_ok rd : reg rd -> enc_ok (ALuis rd).
Proof.
  intros Hd. apply (word _ (w_lui rd 0) (ILui rd 0)); [reflexivity|reflexivity| |].
  - intros r. apply (dec_lui rd 0). exact Hd.
  - intros E s _. apply same_refl.
Qed.
Lemma addis_ok rd : reg rd -> enc_ok (AAddis rd).
Proof.
  intros Hd. apply (word _ (wi ADDI rd rd 0) (IOpI ADD rd rd 0)); [reflexivity|reflexivity| |].
  - intros r. apply (dec_wi ADDI); cbn; try assumption; lia.
  - intros E s Hw. apply same_nop. intros _. cbn [alu]. rewrite Z.add_0_r.
    apply sx_small; [lia|apply getx_wf; exact Hw].
Qed.

(** ** Loads and stores *)
Lemma al3 x : Z.land x 3 = x mod 4.
Proof. apply (land_mod x 2); [lia|reflexivity]. Qed.
Lemma al7 x : Z.land x 7 = x mod 8.
Proof. apply (land_mod x 3); [lia|reflexivity]. Qed.
Ltac conj := repeat match goal with H : (_ && _)%bool = true |- _ => apply andb_prop in H; destruct H end.

Lemma ld_ok o rd ofs rs : operands (ALd o rd ofs rs) -> covered (ALd o rd ofs rs) ->
  enc_ok (ALd o rd ofs rs).
Proof.
  intros (Hd & Hs & Hi) [Ho HC].
  assert (HW : handler (ALd o rd ofs rs) = Ok (wld o rd ofs rs) -> enc_ok (ALd o rd ofs rs)).
  { intros H. apply (word _ _ (ILoad o rd rs ofs) H); [destruct o; reflexivity| |].
    - intros r. apply dec_wld; assumption.
    - intros E s _. apply same_refl. }
  assert (H16 : forall c, handler (ALd o rd ofs rs) = Ok c -> length c = 2%nat ->
     (forall r, fetch (c ++ r) = Some (ILoad o rd rs ofs, 2, r)) -> enc_ok (ALd o rd ofs rs)).
  { intros c H L F. apply (half _ c _ H L F). intros E s _. apply same_refl. }
  destruct o; try (apply HW; reflexivity).
  - cbn [handler asm_ld] in *. rewrite al3 in *.
    destruct ((0 <=? ofs) && (ofs <? 128) && (ofs mod 4 =? 0) && rvc rd && rvc rs) eqn:EC; [|apply HW; reflexivity].
    eapply H16; [reflexivity|reflexivity|]. conj. intros r. apply dec_c_lw; try (apply rvc_ok; assumption); lia.
  - cbn [handler asm_ld] in *. rewrite al7 in *.
    destruct ((0 <=? ofs) && (ofs <? 512) && (ofs mod 8 =? 0) && (rs =? 2)) eqn:EC.
    + eapply H16; [reflexivity|reflexivity|]. intros r. conj.
      assert (rs = 2) by lia. subst rs. apply dec_c_ldsp; try assumption; try lia. intros ->. apply HC. tauto.
    + destruct ((0 <=? ofs) && (ofs <? 256) && (ofs mod 8 =? 0) && rvc rd && rvc rs) eqn:ED; [|apply HW; reflexivity].
      eapply H16; [reflexivity|reflexivity|]. conj. intros r.
      apply dec_c_dword; try (apply rvc_ok; assumption); try lia. left. reflexivity.
Qed.
Lemma sd_ok o rs2 ofs rs1 : operands (ASd o rs2 ofs rs1) -> covered (ASd o rs2 ofs rs1) ->
  enc_ok (ASd o rs2 ofs rs1).
Proof.
  intros (Hd & Hs & Hi) [Ho HC].
  assert (TI : to_int ofs = ofs) by (apply (sx_small 32); cbn; lia).
  assert (HW : handler (ASd o rs2 ofs rs1) = Ok (wsd o rs2 ofs rs1) -> enc_ok (ASd o rs2 ofs rs1)).
  { intros H. apply (word _ _ (IStore o rs2 rs1 ofs) H); [destruct o; reflexivity| |].
    - intros r. apply dec_wsd; assumption.
    - intros E s _. apply same_refl. }
  assert (H16 : forall c, handler (ASd o rs2 ofs rs1) = Ok c -> length c = 2%nat ->
     (forall r, fetch (c ++ r) = Some (IStore o rs2 rs1 ofs, 2, r)) -> enc_ok (ASd o rs2 ofs rs1)).
  { intros c H L F. apply (half _ c _ H L F). intros E s _. apply same_refl. }
  destruct o; cbn [handler asm_sd] in *; rewrite TI in *; try (apply HW; reflexivity).
  - rewrite al3 in *.
    destruct ((0 <=? ofs) && (ofs <? 128) && (ofs mod 4 =? 0) && rvc rs1 && rvc rs2) eqn:EC; [|apply HW; reflexivity].
    eapply H16; [reflexivity|reflexivity|]. conj. intros r.
    assert (M : ofs mod 8 = 0).
    { destruct (Z.eq_dec (ofs mod 8) 4) as [E4|N4]; [|lia]. exfalso. apply HC. unfold bad_sw.
      match goal with H : rvc rs1 = true |- _ => apply rvc_ok in H end.
      match goal with H : rvc rs2 = true |- _ => apply rvc_ok in H end.
      unfold creg_ok in *. repeat split; lia. }
    apply dec_c_dword; try (apply rvc_ok; assumption); try lia.
    right. right. right. right. split; [reflexivity|lia].
  - rewrite al7 in *.
    destruct ((0 <=? ofs) && (ofs <? 512) && (ofs mod 8 =? 0) && (rs1 =? 2)) eqn:EC.
    + eapply H16; [reflexivity|reflexivity|]. intros r. conj.
      assert (rs1 = 2) by lia. subst rs1. apply dec_c_sdsp; try assumption; lia.
    + destruct ((0 <=? ofs) && (ofs <? 256) && (ofs mod 8 =? 0) && rvc rs1 && rvc rs2) eqn:ED; [|apply HW; reflexivity].
      eapply H16; [reflexivity|reflexivity|]. conj. intros r.
      apply dec_c_dword; try (apply rvc_ok; assumption); try lia. right. left. reflexivity.
Qed.
Lemma fld_ok (d : bool) rd ofs rs : operands (AFld d rd ofs rs) -> covered (AFld d rd ofs rs) ->
  enc_ok (AFld d rd ofs rs).
Proof.
  intros (Hd & Hs & Hi) Ho.
  assert (HW : handler (AFld d rd ofs rs) = Ok (code32 (itype ofs rs (if d then 3 else 2) rd 0x07)) -> enc_ok (AFld d rd ofs rs)).
  { intros H. apply (word _ _ (IFload d rd rs ofs) H); [reflexivity| |].
    - intros r. apply dec_flw; assumption.
    - intros E s _. apply same_refl. }
  assert (H16 : forall c, handler (AFld d rd ofs rs) = Ok c -> length c = 2%nat ->
     (forall r, fetch (c ++ r) = Some (IFload d rd rs ofs, 2, r)) -> enc_ok (AFld d rd ofs rs)).
  { intros c H L F. apply (half _ c _ H L F). intros E s _. apply same_refl. }
  destruct d; cbn [handler] in *; unfold asm_fld in *; cbn [andb] in *; [|apply HW; reflexivity].
  rewrite al7 in *.
  destruct ((0 <=? ofs) && (ofs <? 512) && (ofs mod 8 =? 0) && (rs =? 2)) eqn:EC.
  - eapply H16; [reflexivity|reflexivity|]. intros r. conj.
    assert (rs = 2) by lia. subst rs. apply dec_c_fldsp; try assumption; lia.
  - destruct ((0 <=? ofs) && (ofs <? 256) && (ofs mod 8 =? 0) && rvc rd && rvc rs) eqn:ED; [|apply HW; reflexivity].
    eapply H16; [reflexivity|reflexivity|]. conj. intros r.
    apply dec_c_dword; try (apply rvc_ok; assumption); try lia. right. right. left. reflexivity.
Qed.
Lemma fsd_ok (d : bool) rs2 ofs rs1 : operands (AFsd d rs2 ofs rs1) -> covered (AFsd d rs2 ofs rs1) ->
  enc_ok (AFsd d rs2 ofs rs1).
Proof.
  intros (Hd & Hs & Hi) Ho.
  assert (HW : handler (AFsd d rs2 ofs rs1) = Ok (code32 (stype ofs rs2 rs1 (if d then 3 else 2) 0x27)) -> enc_ok (AFsd d rs2 ofs rs1)).
  { intros H. apply (word _ _ (IFstore d rs2 rs1 ofs) H); [reflexivity| |].
    - intros r. apply dec_fsw; assumption.
    - intros E s _. apply same_refl. }
  assert (H16 : forall c, handler (AFsd d rs2 ofs rs1) = Ok c -> length c = 2%nat ->
     (forall r, fetch (c ++ r) = Some (IFstore d rs2 rs1 ofs, 2, r)) -> enc_ok (AFsd d rs2 ofs rs1)).
  { intros c H L F. apply (half _ c _ H L F). intros E s _. apply same_refl. }
  destruct d; cbn [handler] in *; unfold asm_fsd in *; cbn [andb] in *; [|apply HW; reflexivity].
  rewrite al7 in *.
  destruct ((0 <=? ofs) && (ofs <? 512) && (ofs mod 8 =? 0) && (rs1 =? 2)) eqn:EC.
  - eapply H16; [reflexivity|reflexivity|]. intros r. conj.
    assert (rs1 = 2) by lia. subst rs1. apply dec_c_fsdsp; try assumption; lia.
  - destruct ((0 <=? ofs) && (ofs <? 256) && (ofs mod 8 =? 0) && rvc rs1 && rvc rs2) eqn:ED; [|apply HW; reflexivity].
    eapply H16; [reflexivity|reflexivity|]. conj. intros r.
    apply dec_c_dword; try (apply rvc_ok; assumption); try lia. right. right. right. left. reflexivity.
Qed.

(** ** Jumps *)
Lemma same_jump s v p : same (setpc (setx s 0 v) p) (setpc s p).
Proof. apply same_nop. intros H. contradiction. Qed.
Lemma j_ok imm : operands (AJ imm) -> covered (AJ imm) -> enc_ok (AJ imm).
Proof.
  intros [Hi He] HC. apply (word _ (w_jal 0 imm) (IJal 0 imm)); [reflexivity|reflexivity| |].
  - intros r. apply dec_jal; try assumption. apply reg0.
  - intros E s _. apply same_jump.
Qed.
Lemma jr_ok rs : reg rs -> rs <> 0 -> enc_ok (AJr rs).
Proof.
  intros Hr Hn. apply (half _ (c_jr rs) (IJalr 0 rs 0)); [reflexivity|reflexivity| |].
  - intros r. apply dec_c_jr; assumption.
  - intros E s _. cbn [exec means]. rewrite Z.add_0_r. apply same_jump.
Qed.
Lemma ret_ok : enc_ok ARet.
Proof.
  apply (half _ (c_jr 1) (IJalr 0 1 0)); [reflexivity|reflexivity| |].
  - intros r. apply dec_c_jr; unfold reg; lia.
  - intros E s _. cbn [exec means]. rewrite Z.add_0_r. apply same_jump.
Qed.
Lemma jalr_ok rs : reg rs -> rs <> 0 -> enc_ok (AJalr rs).
Proof.
  intros Hr Hn. apply (half _ (c_jalr rs) (IJalr 1 rs 0)); [reflexivity|reflexivity| |].
  - intros r. apply dec_c_jalr; assumption.
  - intros E s _. cbn [exec means]. rewrite Z.add_0_r. apply same_refl.
Qed.
Lemma br_ok o r1 r2 ofs : operands (ABr o r1 r2 ofs) -> covered (ABr o r1 r2 ofs) ->
  enc_ok (ABr o r1 r2 ofs).
Proof.
  intros (H1 & H2 & Hi & He) HC.
  apply (word _ (asm_bxx o r1 r2 ofs) (IBr o r1 r2 ofs)); [reflexivity|destruct o; reflexivity| |].
  - intros r. apply dec_bxx; assumption.
  - intros E s _. apply same_refl.
Qed.
Lemma ecall_ok : enc_ok AEcall.
Proof.
  apply (word _ w_ecall IEcall); [reflexivity|reflexivity|apply dec_ecall|].
  intros E s _. apply same_refl.
Qed.
Lemma noop_ok : enc_ok ANoop.
Proof.
  exists []. split; [reflexivity|]. intros E s (_ & _ & Hp). exists s. split; [reflexivity|].
  repeat split. cbn. unfold ux. rewrite Z.add_0_r, Z.mod_small by lia. reflexivity.
Qed.
Lemma call_ok ofs : operands (ACall ofs) -> covered (ACall ofs) -> enc_ok (ACall ofs).
Proof.
  intros [Hi He] [Hr Hb]. cbn in He.
  exists (asm_call_d ofs). split; [reflexivity|].
  intros E s Hw.
  set (H := ofs - ofs mod 4096) in *.
  assert (HH : sx 32 H = H).
  { apply sx_small; [lia|]. subst H. change (2 ^ (32 - 1)) with 2147483648. change (2 ^ 31) with 2147483648 in Hr. lia. }
  assert (HL : sx 12 ofs = ofs - H).
  { replace (ofs - H) with (ofs mod 4096) by (subst H; lia).
    rewrite <- (sx_small 12 (ofs mod 4096)) by (cbn; lia).
    apply sx_cong; [lia|]. change (2 ^ 12) with 4096. lia. }
  assert (R1 : reg 1) by (unfold reg; lia).
  set (u := exec E (IAuipc 1 H) 4 s).
  assert (S1 : seq E (w_auipc 1 ofs) s u).
  { subst u. apply seq_one; [discriminate| |reflexivity]. intros r.
    rewrite (dec_auipc 1 ofs) by exact R1. fold H. rewrite HH. reflexivity. }
  assert (F2 : forall r, fetch (w_jalr 1 1 ofs ++ r) = Some (IJalr 1 1 (ofs - H), 4, r)).
  { intros r. rewrite (dec_jalr 1 1 ofs) by exact R1. rewrite HL. reflexivity. }
  exists (exec E (IJalr 1 1 (ofs - H)) 4 u). split.
  - unfold asm_call_d. rewrite (S1 (w_jalr 1 1 ofs)).
    specialize (F2 []). rewrite app_nil_r in F2.
    rewrite (run_cons E (w_jalr 1 1 ofs) u _ _ _ ltac:(intros X; discriminate X) F2). reflexivity.
  - change (Z.of_nat (length (asm_call_d ofs))) with 8. cbn [means exec].
    assert (P : pc u = ux 64 (pc s + 4)) by reflexivity.
    assert (G : getx u 1 = sx 64 (pc s + H)) by reflexivity.
    rewrite P, G.
    eapply same_trans with (b := setpc (setx u 1 (sx 64 (pc s + 8))) (pc s + ofs)).
    + replace (sx 64 (ux 64 (pc s + 4) + 4)) with (sx 64 (pc s + 8)).
      2:{ apply sx_cong; [lia|]. unfold ux. change (2 ^ 64) with 18446744073709551616. lia. }
      apply same_setpc. destruct (sx_mod 64 (pc s + H) ltac:(lia)) as [k Hk]. rewrite Hk.
      replace (pc s + H + k * 2 ^ 64 + (ofs - H)) with (pc s + ofs + k * 2 ^ 64) by lia.
      destruct Hw as (_ & _ & _ & Hev).
      assert (M : (pc s + ofs + k * 2 ^ 64) mod 2 = 0).
      { change (2 ^ 64) with 18446744073709551616. lia. }
      rewrite M, Z.sub_0_r. unfold ux. apply Z_mod_plus_full.
    + repeat split. intros r. rewrite !getx_setpc, !getx_setx.
      destruct (Z.eqb_spec r 0); [reflexivity|]. destruct (Z.eqb_spec r 1); [reflexivity|].
      subst u. cbn [exec]. rewrite getx_setpc, getx_setx.
      destruct (Z.eqb_spec r 0); [contradiction|]. destruct (Z.eqb_spec r 1); [contradiction|reflexivity].
Qed.

(** ** Floating point *)
Lemma sgn_id n a : 0 < n -> 0 <= a < 2 ^ n -> sgnj FSGNJ n a a = a.
Proof.
  intros Hn Ha. unfold sgnj. rewrite Z.testbit_eqb by lia.
  assert (P : 2 ^ n = 2 * 2 ^ (n - 1)).
  { replace n with (Z.succ (n - 1)) at 1 by lia. rewrite Z.pow_succ_r by lia. reflexivity. }
  assert (0 < 2 ^ (n - 1)) by (apply Z.pow_pos_nonneg; lia).
  pose proof (Z.div_mod a (2 ^ (n - 1)) ltac:(lia)).
  pose proof (Z.mod_pos_bound a (2 ^ (n - 1)) ltac:(lia)).
  assert (Q : a / 2 ^ (n - 1) = 0 \/ a / 2 ^ (n - 1) = 1).
  { assert (0 <= a / 2 ^ (n - 1)) by (apply Z.div_pos; lia).
    assert (a / 2 ^ (n - 1) < 2) by (apply Z.div_lt_upper_bound; lia). lia. }
  destruct Q as [Q|Q]; rewrite Q in *; change (0 mod 2 =? 1) with false; change (1 mod 2 =? 1) with true;
  cbv iota; lia.
Qed.
Lemma sgn_neg n a : 0 < n -> 0 <= a < 2 ^ n -> sgnj FSGNJN n a a = Z.lxor a (2 ^ (n - 1)).
Proof.
  intros Hn Ha. unfold sgnj.
  apply Z.bits_inj'. intros i Hi.
  rewrite Z.lxor_spec, Z.pow2_bits_eqb by lia.
  assert (M : forall k, 0 <= k -> Z.testbit (a mod 2 ^ (n - 1)) k = (k <? n - 1) && Z.testbit a k).
  { intros k Hk. destruct (Z.ltb_spec k (n - 1)).
    - apply Z.mod_pow2_bits_low. lia.
    - apply Z.mod_pow2_bits_high. lia. }
  assert (HI : forall k, n <= k -> Z.testbit a k = false).
  { intros k Hk. destruct (Z.eq_dec a 0) as [->|]; [apply Z.testbit_0_l|].
    apply Z.bits_above_log2; [lia|]. assert (Z.log2 a < n) by (apply Z.log2_lt_pow2; lia). lia. }
  assert (L : a mod 2 ^ (n - 1) + (if negb (Z.testbit a (n - 1)) then 2 ^ (n - 1) else 0)
     = Z.lor (a mod 2 ^ (n - 1)) (if negb (Z.testbit a (n - 1)) then 2 ^ (n - 1) else 0)).
  { destruct (negb _); [|rewrite Z.lor_0_r; lia].
    rewrite Z.add_nocarry_lxor, Z.lxor_lor; [reflexivity|..];
    apply Z.bits_inj'; intros k Hk; rewrite Z.land_spec, M, Z.pow2_bits_eqb, Z.bits_0 by lia;
    destruct (Z.ltb_spec k (n - 1)), (Z.eqb_spec (n - 1) k), (Z.testbit a k); try reflexivity; exfalso; lia. }
  rewrite L, Z.lor_spec, M by lia.
  destruct (Z.ltb_spec i (n - 1)); cbn [andb].
  - destruct (Z.eqb_spec (n - 1) i); [lia|]. rewrite xorb_false_r.
    destruct (negb (Z.testbit a (n - 1))).
    + rewrite Z.pow2_bits_eqb by lia. destruct (Z.eqb_spec (n - 1) i); [lia|]. apply orb_false_r.
    + rewrite Z.bits_0. apply orb_false_r.
  - cbn [orb]. destruct (Z.eqb_spec (n - 1) i) as [<-|Hne].
    + destruct (Z.testbit a (n - 1)); cbn [negb xorb].
      * apply Z.bits_0.
      * rewrite Z.pow2_bits_eqb by lia. apply Z.eqb_refl.
    + rewrite (HI i) by lia. cbn [xorb]. destruct (negb _).
      * rewrite Z.pow2_bits_eqb by lia. destruct (Z.eqb_spec (n - 1) i); [contradiction|reflexivity].
      * apply Z.bits_0.
Qed.
Lemma unbox_range a : 0 <= unbox a < 2 ^ 32.
Proof.
  unfold unbox. destruct (_ =? _); [apply Z.mod_pos_bound; lia|lia].
Qed.
Lemma f3_ok o d rd a b : operands (AF3 o d rd a b) -> enc_ok (AF3 o d rd a b).
Proof.
  intros (Hd & Ha & Hb).
  eapply (word _ (asm_3fr o d rd a b)); [reflexivity|destruct o; reflexivity| |].
  - intros r. apply dec_3fr; assumption.
  - intros E s _. destruct o; apply same_refl.
Qed.
Lemma f2_ok o d rd a : operands (AF2 o d rd a) -> enc_ok (AF2 o d rd a).
Proof.
  intros (Hd & Ha). destruct o.
  - apply (word _ (asm_2fr FSQRT d rd a) (IFsqrt d 7 rd a)); [reflexivity|reflexivity| |].
    + intros r. apply dec_sqrt; assumption.
    + intros E s _. apply same_refl.
  - apply (word _ (asm_3fr FSGNJ d rd a a) (IFsgnj FSGNJ d rd a a)); [reflexivity|reflexivity| |].
    + intros r. apply (dec_3fr FSGNJ); assumption.
    + intros E s (_ & Hf & _). apply same_setf. destruct d.
      * apply sgn_id; [lia|apply Hf].
      * f_equal. apply sgn_id; [lia|apply unbox_range].
  - apply (word _ (asm_3fr FSGNJN d rd a a) (IFsgnj FSGNJN d rd a a)); [reflexivity|reflexivity| |].
    + intros r. apply (dec_3fr FSGNJN); assumption.
    + intros E s (_ & Hf & _). apply same_setf. destruct d.
      * apply (sgn_neg 64); [lia|apply Hf].
      * f_equal. apply (sgn_neg 32); [lia|apply unbox_range].
Qed.

(** ** Every instruction *)
Lemma encode_ok a : operands a -> covered a -> enc_ok a.
Proof.
  destruct a; intros HO HC.
  - apply noop_ok.
  - apply a3_ok; assumption.
  - apply ai_ok; assumption.
  - apply a2_ok; assumption.
  - apply mv_ok; assumption.
  - apply li_ok; assumption.
  - apply la_ok; assumption.
  - apply luis_ok; assumption.
  - apply addis_ok; assumption.
  - apply ld_ok; assumption.
  - apply sd_ok; assumption.
  - apply j_ok; assumption.
  - apply jr_ok; assumption.
  - apply jalr_ok; assumption.
  - apply br_ok; assumption.
  - apply call_ok; assumption.
  - apply ret_ok.
  - apply ecall_ok.
  - apply f3_ok; assumption.
  - apply f2_ok; assumption.
  - destruct HO. apply (word _ (asm_fcvt_ds rd rs) (ICvtDS rd rs)); [reflexivity|reflexivity| |].
    + intros r. apply dec_fcvt_ds; assumption.
    + intros E s _. apply same_refl.
  - destruct HO. apply (word _ (asm_fcvt_sd rd rs) (ICvtSD 7 rd rs)); [reflexivity|reflexivity| |].
    + intros r. apply dec_fcvt_sd; assumption.
    + intros E s _. apply same_refl.
  - destruct HO as (? & ? & ?).
    apply (word _ (asm_fcmp o dbl rd rs1 rs2) (IFcmp o dbl rd rs1 rs2)); [reflexivity|reflexivity| |].
    + intros r. apply dec_fcmp; assumption.
    + intros E s _. apply same_refl.
  - apply fld_ok; assumption.
  - apply fsd_ok; assumption.
  - destruct HO. eapply (word _ (asm_fi o dbl rd rs)); [reflexivity|reflexivity| |].
    + intros r. apply dec_fi; assumption.
    + intros E s _. apply same_setf. unfold ofint. destruct o, dbl; reflexivity.
  - destruct HO as (? & ? & ?).
    apply (word _ (asm_if o dbl rd rs rm) (ICvtIF o dbl rm rd rs)); [reflexivity|reflexivity| |].
    + intros r. apply dec_if; assumption.
    + intros E s _. apply same_refl.
  - destruct HO. apply (word _ (asm_fmvx dbl rd rs) (IFmvX dbl rd rs)); [reflexivity|reflexivity| |].
    + intros r. apply dec_fmvx; assumption.
    + intros E s _. apply same_refl.
Qed.
