(** The arm64 encoder is right: integer instructions and branches. *)
From Coq Require Import ZArith List Bool Lia ZifyBool.
From Verif Require Import Base Arm_model Arm_spec Arm_bits_proof Arm_dec_proof Arm_proof.
Import ListNotations.
Open Scope Z_scope.

Section Instrs.
Variables (E : env) (s : st).

Lemma ok_AAddE sub x d n m opt amt : operands (AAddE sub x d n m opt amt) ->
  covered (AAddE sub x d n m opt amt) -> good E (AAddE sub x d n m opt amt) s.
Proof.
  intros (_ & _ & _ & Hopt & _) (Hm & Hd & Hn & Ha).
  assert (P : 0 <= ds x) by (pose proof (ds_pos x); lia).
  assert (Ex : extend opt (gv s x m) =
    (if opt <? 4 then ux (8 * 2 ^ opt) (gv s x m) else sx (8 * 2 ^ (opt - 4)) (gv s x m))).
  { unfold extend. destruct (Z.ltb_spec opt 4).
    - rewrite Z.mod_small by lia. reflexivity.
    - replace (opt mod 4) with (opt - 4); [reflexivity|].
      apply Z.mod_unique_pos with (q := 1); lia. }
  destruct sub.
  - ap SUB_R (W_SUB_E (b2 x) (gi d) (gi n) (gi m) opt amt).
    + cbn [handler asm_3r rg opr nth_error bind regof r_size]. rewrite !Z.eqb_refl.
      cbn [check bind]. unfold asm_addsub. cbn [length Nat.eqb r_idx].
      cbn [opr nth_error bind]. destruct (Z.ltb_spec opt 8); [|lia]. destruct x; reflexivity.
    + apply D_SUB_E; RR.
    + apply same_eq. cbn [exec means]. gz. f_equal. apply put_eq. rewrite addsub_fst, Ex by lia.
      rewrite ux_ux by lia. apply (ux_sub_r true); [lia|]. apply ux_ux. lia.
  - ap ADD_R (W_ADD_E (b2 x) (gi d) (gi n) (gi m) opt amt).
    + cbn [handler asm_3r rg opr nth_error bind regof r_size]. rewrite !Z.eqb_refl.
      cbn [check bind]. unfold asm_addsub. cbn [length Nat.eqb r_idx].
      cbn [opr nth_error bind]. destruct (Z.ltb_spec opt 8); [|lia]. destruct x; reflexivity.
    + apply D_ADD_E; RR.
    + apply same_eq. cbn [exec means]. gz. f_equal. apply put_eq. rewrite addsub_fst, Ex by lia.
      rewrite ux_ux by lia. apply (ux_sub_r false); [lia|]. apply ux_ux. lia.
Qed.
Definition kn (k : shop) : Z := match k with HLsl => 0 | HLsr => 1 | HAsr => 2 end.
Lemma shift_k x k a amt : 0 <= a < 2 ^ ds x -> 0 <= amt ->
  ux (ds x) (shift (ds x) (kn k) a amt) = ux (ds x) (shval k (ds x) a amt).
Proof.
  intros Ha Hm. pose proof (ds_pos x). destruct k; unfold shift, shval, kn.
  - change (0 =? 0) with true. cbv iota. apply ux_ux. lia.
  - reflexivity.
  - change (2 =? 0) with false. change (2 =? 1) with false. change (2 =? 2) with true.
    cbv iota. apply ux_ux. lia.
Qed.
Lemma ok_AAddS sub x d n m k amt : covered (AAddS sub x d n m k amt) ->
  good E (AAddS sub x d n m k amt) s.
Proof.
  intros (Hm & Hd & Hn & Ha).
  assert (P : 0 <= ds x) by (pose proof (ds_pos x); lia).
  assert (K : 0 <= kn k < 3) by (destruct k; cbn; lia).
  destruct sub.
  - ap SUB_R (W_SUB_S (b2 x) (gi d) (gi n) (gi m) (kn k) amt).
    + destruct k, x; reflexivity.
    + apply D_SUB_S; RR.
    + apply same_eq. cbn [exec means]. gz. f_equal. apply put_eq. rewrite addsub_fst by lia.
      rewrite ux_ux by lia. apply (ux_sub_r true); [lia|]. apply shift_k; [apply gv_range|lia].
  - ap ADD_R (W_ADD_S (b2 x) (gi d) (gi n) (gi m) (kn k) amt).
    + destruct k, x; reflexivity.
    + apply D_ADD_S; RR.
    + apply same_eq. cbn [exec means]. gz. f_equal. apply put_eq. rewrite addsub_fst by lia.
      rewrite ux_ux by lia. apply (ux_sub_r false); [lia|]. apply shift_k; [apply gv_range|lia].
Qed.
Lemma h_2ri op x d n imm : -4095 <= imm <= 4095 ->
  asm_2ri op [OReg (Reg (issp d) (gi d) (size_of x)); OReg (Reg (issp n) (gi n) (size_of x)); OImm imm] =
  match op with
  | ADD_I => if 0 <=? imm then Ok (W_ADD_I (b2 x) (gi d) (gi n) imm) else Ok (W_SUB_I (b2 x) (gi d) (gi n) (- imm))
  | SUB_I => if 0 <=? imm then Ok (W_SUB_I (b2 x) (gi d) (gi n) imm) else Ok (W_ADD_I (b2 x) (gi d) (gi n) (- imm))
  | LSL_I => Ok (P_LSL_I (b2 x) (gi d) (gi n) imm)
  | LSR_I => Ok (P_LSR_I (b2 x) (gi d) (gi n) imm)
  | ASR_I => Ok (P_ASR_I (b2 x) (gi d) (gi n) imm)
  | _ => Abort
  end.
Proof.
  intros H. unfold asm_2ri. cbn [rg opr nth_error bind regof r_size r_idx]. rewrite Z.eqb_refl.
  cbn [check bind]. rewrite szof_eq.
  destruct (Z.ltb_spec imm (-4095)); [lia|]. destruct (Z.ltb_spec 4095 imm); [lia|]. reflexivity.
Qed.
Lemma ok_AAddI sub x d n imm : covered (AAddI sub x d n imm) -> good E (AAddI sub x d n imm) s.
Proof.
  intros (Hd & Hn & Hi). assert (P : 0 <= ds x) by (pose proof (ds_pos x); lia).
  destruct sub, (Z.leb_spec 0 imm) as [L|L].
  - ap SUB_I (W_SUB_I (b2 x) (gi d) (gi n) imm).
    + cbn [handler]. rewrite h_2ri by lia. destruct (Z.leb_spec 0 imm); [reflexivity|lia].
    + apply D_SUB_I; RR.
    + apply same_eq. cbn [exec means]. gz. f_equal. apply put_eq. rewrite addsub_fst by lia.
      rewrite ux_ux, low_id by lia. reflexivity.
  - ap SUB_I (W_ADD_I (b2 x) (gi d) (gi n) (- imm)).
    + cbn [handler]. rewrite h_2ri by lia. destruct (Z.leb_spec 0 imm); [lia|reflexivity].
    + apply D_ADD_I; RR.
    + apply same_eq. cbn [exec means]. gz. f_equal. apply put_eq. rewrite addsub_fst by lia.
      rewrite ux_ux, low_id by lia. f_equal; lia.
  - ap ADD_I (W_ADD_I (b2 x) (gi d) (gi n) imm).
    + cbn [handler]. rewrite h_2ri by lia. destruct (Z.leb_spec 0 imm); [reflexivity|lia].
    + apply D_ADD_I; RR.
    + apply same_eq. cbn [exec means]. gz. f_equal. apply put_eq. rewrite addsub_fst by lia.
      rewrite ux_ux, low_id by lia. reflexivity.
  - ap ADD_I (W_SUB_I (b2 x) (gi d) (gi n) (- imm)).
    + cbn [handler]. rewrite h_2ri by lia. destruct (Z.leb_spec 0 imm); [lia|reflexivity].
    + apply D_SUB_I; RR.
    + apply same_eq. cbn [exec means]. gz. f_equal. apply put_eq. rewrite addsub_fst by lia.
      rewrite ux_ux, low_id by lia. f_equal; lia.
Qed.
Lemma ok_AAddSym sub x d n off : covered (AAddSym sub x d n off) -> good E (AAddSym sub x d n off) s.
Proof.
  intros (Hd & Hn). assert (P : 0 <= ds x) by (pose proof (ds_pos x); lia).
  destruct sub.
  - ap SUB_I (W_SUB_I (b2 x) (gi d) (gi n) 0); [hr| |].
    + apply D_SUB_I; RR.
    + apply same_eq. cbn [exec means]. gz. f_equal. apply put_eq. rewrite addsub_fst by lia.
      rewrite ux_ux by lia. change (low 12 0) with 0. f_equal; lia.
  - ap ADD_I (W_ADD_I (b2 x) (gi d) (gi n) 0); [hr| |].
    + apply D_ADD_I; RR.
    + apply same_eq. cbn [exec means]. gz. f_equal. apply put_eq. rewrite addsub_fst by lia.
      rewrite ux_ux by lia. change (low 12 0) with 0. f_equal; lia.
Qed.

(** ** Three registers *)
Lemma log_range x o a b : 0 <= a < 2 ^ ds x -> 0 <= b < 2 ^ ds x -> 0 <= log_val o a b.
Proof. intros. destruct o; [apply Z.land_nonneg|apply Z.lor_nonneg|apply Z.lxor_nonneg]; lia. Qed.
Lemma sx0 n b : 0 < n -> 0 <= b < 2 ^ n -> (sx n b =? 0) = (b =? 0).
Proof.
  intros Hn Hb. destruct (Z.eqb_spec b 0) as [->|Hz].
  - apply Z.eqb_eq. apply sx_small; [lia|]. pose proof (pow_pos (n - 1)). lia.
  - apply Z.eqb_neq. intros e. pose proof (ux_sx n b Hn) as U. rewrite e in U.
    rewrite (ux_small n b) in U by lia. unfold ux in U. rewrite Z.mod_0_l in U by lia. lia.
Qed.
Lemma ok_A3 o x d n m : covered (A3 o x d n m) -> good E (A3 o x d n m) s.
Proof.
  intros (Hd & Hn & Hm). pose proof (ds_pos x) as P.
  pose proof (gv_range s x n) as Rn. pose proof (gv_range s x m) as Rm.
  assert (Hmod : 0 <= gv s x m mod ds x) by (apply Z.mod_pos_bound; lia).
  destruct o.
  - ap MUL (P_MUL (b2 x) (gi d) (gi n) (gi m)); [hr|apply D_MADD; RR|].
    apply same_eq. cbn [exec means]. gz. change (rZ s x 31) with 0. reflexivity.
  - ap SDIV (W_SDIV (b2 x) (gi d) (gi n) (gi m)); [hr|apply D_SDIV; RR|].
    apply same_eq. cbn [exec means dp2_val op3_val]. gz. unfold divs. rewrite sx0 by lia. reflexivity.
  - ap UDIV (W_UDIV (b2 x) (gi d) (gi n) (gi m)); [hr|apply D_UDIV; RR|].
    apply same_eq. cbn [exec means dp2_val op3_val]. gz. reflexivity.
  - ap AND (W_AND_S (b2 x) (gi d) (gi n) (gi m) 0); [hr|apply D_AND_S; RR|].
    apply same_eq. cbn [exec means]. gz. rewrite shift0 by lia. reflexivity.
  - ap ORR (W_ORR_S (b2 x) (gi d) (gi n) (gi m) 0); [hr|apply D_ORR_S; RR|].
    apply same_eq. cbn [exec means]. gz. rewrite shift0 by lia. reflexivity.
  - ap EOR (W_EOR_S (b2 x) (gi d) (gi n) (gi m) 0); [hr|apply D_EOR_S; RR|].
    apply same_eq. cbn [exec means]. gz. rewrite shift0 by lia. reflexivity.
  - ap EON (W_EON_S (b2 x) (gi d) (gi n) (gi m) 0); [hr|apply D_EON_S; RR|].
    apply same_eq. cbn [exec means]. gz. rewrite shift0 by lia. reflexivity.
  - ap LSL_R (W_LSLV (b2 x) (gi d) (gi n) (gi m)); [hr|apply D_LSLV; RR|].
    apply same_eq. cbn [exec means dp2_val op3_val]. gz. f_equal. apply put_eq.
    apply (shift_k x HLsl); lia.
  - ap LSR_R (W_LSRV (b2 x) (gi d) (gi n) (gi m)); [hr|apply D_LSRV; RR|].
    apply same_eq. cbn [exec means dp2_val op3_val]. gz. f_equal.
  - ap ASR_R (W_ASRV (b2 x) (gi d) (gi n) (gi m)); [hr|apply D_ASRV; RR|].
    apply same_eq. cbn [exec means dp2_val op3_val]. gz. f_equal. apply put_eq.
    apply (shift_k x HAsr); lia.
Qed.
Lemma ok_AMadd sub x d n m a : covered (AMadd sub x d n m a) -> good E (AMadd sub x d n m a) s.
Proof.
  intros (Hd & Hn & Hm & Ha). destruct sub.
  - ap MSUB (W_MSUB (b2 x) (gi d) (gi n) (gi m) (gi a)); [hr|apply D_MSUB; RR|].
    apply same_eq. cbn [exec means]. gz. reflexivity.
  - ap MADD (W_MADD (b2 x) (gi d) (gi n) (gi m) (gi a)); [hr|apply D_MADD; RR|].
    apply same_eq. cbn [exec means]. gz. reflexivity.
Qed.

(** ** Comparisons *)
Lemma ok_ACmp neg x n m : covered (ACmp neg x n m) -> good E (ACmp neg x n m) s.
Proof.
  intros (Hn & Hm). pose proof (ds_pos x) as P.
  pose proof (gv_range s x n) as Rn. pose proof (gv_range s x m) as Rm.
  destruct neg.
  - ap CMN_R (P_CMN (b2 x) (gi n) (gi m)); [hr|apply D_ADDS_S; RR|].
    apply same_eq. cbn [exec means]. gz. rewrite shift0 by lia. rewrite cmn_ok by lia. reflexivity.
  - ap CMP_R (P_CMP (b2 x) (gi n) (gi m)); [hr|apply D_SUBS_S; RR|].
    apply same_eq. cbn [exec means]. gz. rewrite shift0 by lia. rewrite cmp_ok by lia. reflexivity.
Qed.
Lemma ok_ACmpI neg x n imm : covered (ACmpI neg x n imm) -> good E (ACmpI neg x n imm) s.
Proof.
  intros (Hn & Hi). pose proof (ds_pos x) as P. pose proof (gv_range s x n) as Rn.
  assert (Pw : 4096 <= 2 ^ ds x) by (destruct x; cbv; discriminate).
  destruct neg.
  - ap CMN_I (P_CMN_I (b2 x) (gi n) imm).
    + cbn [handler asm_ri rg opr nth_error bind regof r_idx].
      destruct (Z.ltb_spec imm 0); [lia|]. destruct (Z.ltb_spec 4095 imm); [lia|].
      destruct x; reflexivity.
    + apply D_ADDS_I; RR.
    + apply same_eq. cbn [exec means]. gz. rewrite low_id by lia. rewrite cmn_ok by lia. reflexivity.
  - ap CMP_I (P_CMP_I (b2 x) (gi n) imm).
    + cbn [handler asm_ri rg opr nth_error bind regof r_idx].
      destruct (Z.ltb_spec imm 0); [lia|]. destruct (Z.ltb_spec 4095 imm); [lia|].
      destruct x; reflexivity.
    + apply D_SUBS_I; RR.
    + apply same_eq. cbn [exec means]. gz. rewrite low_id by lia. rewrite cmp_ok by lia. reflexivity.
Qed.

(** ** Shifts by a constant, extensions *)
Lemma top_eq x : top (b2 x) = ds x - 1. Proof. destruct x; reflexivity. Qed.
Lemma immr_lsl x imm : 0 <= imm < ds x ->
  Z.land (- imm) (top (b2 x)) = if imm =? 0 then 0 else ds x - imm.
Proof.
  intros H. replace (top (b2 x)) with (Z.ones (if x then 6 else 5)) by (destruct x; reflexivity).
  rewrite Z.land_ones by (destruct x; lia).
  replace (2 ^ (if x then 6 else 5)) with (ds x) by (destruct x; reflexivity).
  destruct (Z.eqb_spec imm 0) as [->|].
  - apply Z.mod_0_l. lia.
  - symmetry. apply Z.mod_unique_pos with (q := -1); lia.
Qed.
Lemma lsl_val n imm v : 0 < imm < n ->
  ux n (ux (n - imm) v * 2 ^ imm) = ux n (v * 2 ^ imm).
Proof.
  intros. pose proof (ux_split (n - imm) v) as S. apply ux_eq; [lia|].
  exists (- (v / 2 ^ (n - imm))). replace n with ((n - imm) + imm) at 3 by lia.
  rewrite Z.pow_add_r by lia. nia.
Qed.
Lemma lsr_val n imm v : 0 <= imm < n -> 0 <= v < 2 ^ n -> ux (n - imm) (v / 2 ^ imm) = v / 2 ^ imm.
Proof.
  intros. apply ux_small. pose proof (pow_pos imm). split; [apply Z.div_pos; lia|].
  apply Z.div_lt_upper_bound; [lia|]. rewrite <- Z.pow_add_r by lia.
  replace (imm + (n - imm)) with n by lia. lia.
Qed.
Lemma asr_val n imm v : 0 <= imm < n -> sx (n - imm) (v / 2 ^ imm) = sx n v / 2 ^ imm.
Proof.
  intros. pose proof (pow_pos imm) as P.
  pose proof (ux_sx n v ltac:(lia)) as U. apply ux_inv in U; [|lia]. destruct U as [k U].
  apply sx_uniq; [lia| |].
  - apply ux_eq; [lia|]. exists (- k). rewrite U.
    replace (2 ^ n) with (2 ^ (n - imm) * 2 ^ imm) by (rewrite <- Z.pow_add_r by lia; f_equal; lia).
    rewrite Z.mul_assoc, Z.div_add by lia. lia.
  - pose proof (sx_range n v ltac:(lia)) as Rg.
    replace (2 ^ (n - 1)) with (2 ^ (n - imm - 1) * 2 ^ imm) in Rg
      by (rewrite <- Z.pow_add_r by lia; f_equal; lia).
    split.
    + apply Z.div_le_lower_bound; lia.
    + apply Z.div_lt_upper_bound; lia.
Qed.
Lemma ok_AShI k x d n imm : covered (AShI k x d n imm) -> good E (AShI k x d n imm) s.
Proof.
  intros (Hd & Hn & Hi). pose proof (ds_pos x) as P. pose proof (gv_range s x n) as Rn.
  assert (D64 : ds x <= 64) by (destruct (ds_two x); lia).
  destruct k.
  - ap LSL_I (P_LSL_I (b2 x) (gi d) (gi n) imm).
    + cbn [handler]. rewrite h_2ri by lia. reflexivity.
    + rewrite immr_lsl, top_eq by lia. apply D_UBFM; RR.
      destruct (Z.eqb_spec imm 0); lia.
    + apply same_eq. cbn [exec means shval]. gz. f_equal. apply put_eq. unfold bfm.
      destruct (Z.eqb_spec imm 0) as [->|].
      * destruct (Z.leb_spec 0 (ds x - 1 - 0)); [|lia].
        replace (ds x - 1 - 0 - 0 + 1) with (ds x) by lia. change (2 ^ 0) with 1.
        rewrite ux_ux, Z.div_1_r, Z.mul_1_r by lia. reflexivity.
      * destruct (Z.leb_spec (ds x - imm) (ds x - 1 - imm)); [lia|].
        replace (ds x - 1 - imm + 1) with (ds x - imm) by lia.
        replace (ds x - (ds x - imm)) with imm by lia. apply lsl_val. lia.
  - ap LSR_I (P_LSR_I (b2 x) (gi d) (gi n) imm).
    + cbn [handler]. rewrite h_2ri by lia. reflexivity.
    + rewrite top_eq by lia. apply D_UBFM; RR.
    + apply same_eq. cbn [exec means shval]. gz. f_equal. f_equal. unfold bfm.
      destruct (Z.leb_spec imm (ds x - 1)); [|lia].
      replace (ds x - 1 - imm + 1) with (ds x - imm) by lia. apply lsr_val; lia.
  - ap ASR_I (P_ASR_I (b2 x) (gi d) (gi n) imm).
    + cbn [handler]. rewrite h_2ri by lia. reflexivity.
    + rewrite top_eq by lia. apply D_SBFM; RR.
    + apply same_eq. cbn [exec means shval]. gz. f_equal. f_equal. unfold bfm.
      destruct (Z.leb_spec imm (ds x - 1)); [|lia].
      replace (ds x - 1 - imm + 1) with (ds x - imm) by lia. apply asr_val. lia.
Qed.
Lemma sx_gv x g k : zreg g -> 0 < k <= 32 -> sx k (gv s x g) = sx k (gv s false g).
Proof.
  intros Hg Hk. destruct x; [|reflexivity]. rewrite (gv_WX s g Hg), sx_ux by lia. reflexivity.
Qed.
Lemma ok_ASxt k x d n : operands (ASxt k x d n) -> covered (ASxt k x d n) -> good E (ASxt k x d n) s.
Proof.
  intros (_ & _ & Hk) (Hd & Hn).
  assert (Main : forall b, 0 < b <= 32 -> wZ s x (gi d) (bfm true (ds x) 0 (b - 1) (rZ s x (gi n)))
                 = put s x d (sx b (gv s false n))).
  { intros b Hb. gz. f_equal. unfold bfm. destruct (Z.leb_spec 0 (b - 1)); [|lia].
    replace (b - 1 - 0 + 1) with b by lia. change (2 ^ 0) with 1. rewrite Z.div_1_r.
    apply sx_gv; assumption. }
  destruct k.
  - ap SXTB (W_SBFM (b2 x) (gi d) (b2 x) (gi n) 0 7); [hr|apply D_SBFM; RR; destruct x; cbv [ds]; lia|].
    apply same_eq. cbn [exec means ebits]. f_equal. apply (Main 8). lia.
  - ap SXTH (W_SBFM (b2 x) (gi d) (b2 x) (gi n) 0 15); [hr|apply D_SBFM; RR; destruct x; cbv [ds]; lia|].
    apply same_eq. cbn [exec means ebits]. f_equal. apply (Main 16). lia.
  - assert (x = true) by (apply Hk; reflexivity). subst x.
    ap SXTW (W_SBFM 1 (gi d) 1 (gi n) 0 31); [hr|apply (D_SBFM true); RR; cbv [ds]; lia|].
    apply same_eq. cbn [exec means ebits]. f_equal. apply (Main 32). lia.
Qed.
Lemma ok_AUxt k x d n : operands (AUxt k x d n) -> covered (AUxt k x d n) -> good E (AUxt k x d n) s.
Proof.
  intros (_ & _ & Hk) (Hd & Hn).
  assert (W : forall v, 0 <= v < 2 ^ 32 -> put s false d v = put s x d v).
  { intros v Hv. destruct x; [|reflexivity]. symmetry. apply put_WX; [assumption|].
    rewrite !ux_small by lia. reflexivity. }
  assert (Main : forall b, 0 < b <= 32 -> wZ s false (gi d) (bfm false (ds false) 0 (b - 1) (rZ s false (gi n)))
                 = put s x d (ux b (gv s false n))).
  { intros b Hb. gz. unfold bfm. destruct (Z.leb_spec 0 (b - 1)); [|lia].
    replace (b - 1 - 0 + 1) with b by lia. change (2 ^ 0) with 1. rewrite Z.div_1_r.
    apply W. pose proof (ux_range b (gv s false n)). pose proof (Z.pow_le_mono_r 2 b 32). lia. }
  destruct k.
  - ap UXTB (W_UBFM 0 (gi d) 0 (gi n) 0 7); [hr|apply (D_UBFM false); RR; cbv [ds]; lia|].
    apply same_eq. cbn [exec means ebits]. f_equal. apply (Main 8). lia.
  - ap UXTH (W_UBFM 0 (gi d) 0 (gi n) 0 15); [hr|apply (D_UBFM false); RR; cbv [ds]; lia|].
    apply same_eq. cbn [exec means ebits]. f_equal. apply (Main 16). lia.
  - assert (x = true) by (apply Hk; reflexivity). subst x.
    ap UXTW (P_MOV 0 (gi d) (gi n)); [hr|apply (D_ORR_S _ _ _) with (x := false); RR|].
    apply same_eq. cbn [exec means ebits]. gz. pose proof (gv_range s false n).
    rewrite shift0 by lia. change (rZ s false 31) with 0. rewrite log_orr0.
    rewrite (ux_small 32) by (unfold ds in *; lia). f_equal. apply W. unfold ds in *; lia.
Qed.
Lemma ok_AMvn x d n : covered (AMvn x d n) -> good E (AMvn x d n) s.
Proof.
  intros (Hd & Hn & ->).
  ap MVN (W_ORN_S 1 (gi d) 31 (gi n) 0); [hr|apply D_ORN_S with (x := true); RR|].
  apply same_eq. cbn [exec means]. gz. pose proof (gv_range s true n).
  rewrite shift0 by lia. change (rZ s true 31) with 0. rewrite log_orr0. f_equal. apply put_eq.
  apply ux_eq; [cbv; discriminate|]. exists 1. lia.
Qed.

(** ** The rest *)
Lemma ok_AAdrp d off : covered (AAdrp d off) -> good E (AAdrp d off) s.
Proof.
  intros Hd. cbn [covered] in Hd.
  ap ADRP (W_ADRP (gi d)); [hr|apply D_ADRP; RR|].
  apply same_eq. cbn [exec means]. gz. f_equal. f_equal; lia.
Qed.
Lemma holds_inv c f : 0 <= c < 14 -> holds (Z.lxor c 1) f = negb (holds c f).
Proof.
  intros H. destruct f as [n z cc v].
  assert (C : c = 0 \/ c = 1 \/ c = 2 \/ c = 3 \/ c = 4 \/ c = 5 \/ c = 6 \/ c = 7 \/ c = 8 \/
              c = 9 \/ c = 10 \/ c = 11 \/ c = 12 \/ c = 13) by lia.
  repeat (destruct C as [->|C]; [destruct n, z, cc, v; reflexivity|]).
  subst c; destruct n, z, cc, v; reflexivity.
Qed.
Lemma lxor1_range c : 0 <= c < 14 -> 0 <= Z.lxor c 1 < 16.
Proof.
  intros H.
  assert (C : c = 0 \/ c = 1 \/ c = 2 \/ c = 3 \/ c = 4 \/ c = 5 \/ c = 6 \/ c = 7 \/ c = 8 \/
              c = 9 \/ c = 10 \/ c = 11 \/ c = 12 \/ c = 13) by lia.
  repeat (destruct C as [->|C]; [cbn; lia|]). subst c; cbn; lia.
Qed.
Lemma ok_ACset x d c : operands (ACset x d c) -> covered (ACset x d c) -> good E (ACset x d c) s.
Proof.
  intros [_ H0] [Hd H].
  ap CSET (P_CSET (b2 x) (gi d) c); [hr|apply D_CSINC; RR; apply lxor1_range; lia|].
  apply same_eq. cbn [exec means]. gz. rewrite holds_inv by lia.
  destruct (holds c (nzcv s)); reflexivity.
Qed.
Lemma quot4 off : off mod 4 = 0 -> Z.quot off 4 = off / 4 /\ 4 * (off / 4) = off.
Proof.
  intros H. pose proof (Z.div_mod off 4). assert (A : off = 4 * (off / 4)) by lia. split; [|lia].
  rewrite A at 1. rewrite Z.mul_comm. rewrite Z.quot_mul by lia. reflexivity.
Qed.
Lemma ok_AB link sym off : covered (AB link sym off) -> good E (AB link sym off) s.
Proof.
  intros [Hr H4]. destruct (quot4 off H4) as [Q A].
  assert (B : 4 * sx 26 (low 26 (Z.quot off 4)) = off).
  { rewrite Q, sx_low by lia. exact A. }
  destruct link.
  - ap BL (W_BL (Z.quot off 4)); [hr|apply D_BL|].
    apply same_eq. cbn [exec means]. rewrite B. reflexivity.
  - ap Arm_model.B (W_B (Z.quot off 4)); [hr|apply D_B|].
    apply same_eq. cbn [exec means]. rewrite B. reflexivity.
Qed.
Lemma ok_ABcc sym c off : operands (ABcc sym c off) -> covered (ABcc sym c off) -> good E (ABcc sym c off) s.
Proof.
  intros [Hc _] [Hr H4]. destruct (quot4 off H4) as [Q A].
  assert (B : 4 * sx 19 (low 19 (Z.quot off 4)) = off).
  { rewrite Q, sx_low by lia. exact A. }
  ap (BCC c) (W_BCC c (Z.quot off 4)); [hr|apply D_BCC; RR|].
  apply same_eq. cbn [exec means]. rewrite B. reflexivity.
Qed.
Lemma ok_ACb nz sym x t off : covered (ACb nz sym x t off) -> good E (ACb nz sym x t off) s.
Proof.
  intros (Ht & Hr & H4). destruct (quot4 off H4) as [Q A].
  assert (B : 4 * sx 19 (low 19 (Z.quot off 4)) = off).
  { rewrite Q, sx_low by lia. exact A. }
  destruct nz.
  - ap CBNZ (W_CBNZ (b2 x) (gi t) (Z.quot off 4)); [hr|apply D_CBNZ; RR|].
    apply same_eq. cbn [exec means]. rewrite B. gz. destruct (gv s x t =? 0); reflexivity.
  - ap CBZ (W_CBZ (b2 x) (gi t) (Z.quot off 4)); [hr|apply D_CBZ; RR|].
    apply same_eq. cbn [exec means]. rewrite B. gz. destruct (gv s x t =? 0); reflexivity.
Qed.
Lemma ok_ABr link n : covered (ABr link n) -> good E (ABr link n) s.
Proof.
  intros Hn. cbn [covered] in Hn. destruct link.
  - ap BLR (W_BLR (gi n)); [hr|apply D_BLR; RR|].
    apply same_eq. cbn [exec means]. gz. reflexivity.
  - ap BR (W_BR (gi n)); [hr|apply D_BR; RR|].
    apply same_eq. cbn [exec means]. gz. reflexivity.
Qed.
Lemma ok_ARet : wf s -> good E ARet s.
Proof.
  intros (H & _). ap RET (W_RET 30); [hr|apply D_RET; RR|].
  apply same_eq. cbn [exec means]. unfold rZ, ds. change (30 =? 31) with false. cbv iota.
  rewrite ux_small by apply H. reflexivity.
Qed.
Lemma ok_ASvc imm : covered (ASvc imm) -> good E (ASvc imm) s.
Proof.
  intros H. cbn [covered] in H. ap SVC (W_SVC imm); [hr|apply D_SVC; RR|].
  apply same_refl.
Qed.
Lemma ok_AMrs d r : covered (AMrs d r) -> good E (AMrs d r) s.
Proof.
  intros [Hd H]. ap MRS (W_MRS (gi d) (u32 r)); [hr| |].
  - unfold u32. rewrite Z.mod_small by lia. apply D_MRS; RR.
  - apply same_eq. cbn [exec means]. gz. reflexivity.
Qed.
Lemma ok_ANop : good E ANop s.
Proof. ap NOP W_NOP; [hr|apply D_NOP|]. apply same_refl. Qed.

(** ** Floating point *)
Lemma freg_R r : freg r -> R r. Proof. unfold freg. lia. Qed.
Ltac FR := try first [apply freg_R; assumption | RR].
Ltac sq := apply same_eq; cbn [exec means]; gz; reflexivity.
Lemma ok_AFmov d rd rn : operands (AFmov d rd rn) -> good E (AFmov d rd rn) s.
Proof. intros [A B]. ap FMOV (W_FMOV (b2 d) rd rn); [hr|apply D_FMOV; FR|sq]. Qed.
Lemma ok_AFmovG d rd n : operands (AFmovG d rd n) -> covered (AFmovG d rd n) -> good E (AFmovG d rd n) s.
Proof. intros [A B] C. cbn [covered] in C. ap FMOV (W_FMOV_Z (b2 d) rd (gi n)); [hr|apply D_FMOV_Z; FR|sq]. Qed.
Lemma ok_AFmovI d rd imm : operands (AFmovI d rd imm) -> covered (AFmovI d rd imm) -> good E (AFmovI d rd imm) s.
Proof.
  intros [A _] C. cbn [covered] in C.
  ap FMOV_I (W_FMOV_I (b2 d) rd (Z.land imm 255)); [hr| |].
  - change 255 with (Z.ones 8). rewrite low_id by lia. apply D_FMOV_I; FR.
  - sq.
Qed.
Lemma ok_AF3 o d rd rn rm : operands (AF3 o d rd rn rm) -> good E (AF3 o d rd rn rm) s.
Proof.
  intros (A & B & C). destruct o.
  - ap FADD (W_FADD (b2 d) rd rn rm); [hr|apply D_FADD; FR|sq].
  - ap FSUB (W_FSUB (b2 d) rd rn rm); [hr|apply D_FSUB; FR|sq].
  - ap FMUL (W_FMUL (b2 d) rd rn rm); [hr|apply D_FMUL; FR|sq].
  - ap FDIV (W_FDIV (b2 d) rd rn rm); [hr|apply D_FDIV; FR|sq].
Qed.
Lemma ok_AF4 na np d rd rn rm ra : operands (AF4 na np d rd rn rm ra) -> good E (AF4 na np d rd rn rm ra) s.
Proof.
  intros (A & B & C & D & H). destruct na.
  - assert (np = false) by (apply H; reflexivity). subst np.
    ap FNMSUB (W_FNMSUB (b2 d) rd rn rm ra); [hr|apply D_FNMSUB; FR|sq].
  - destruct np.
    + ap FMSUB (W_FMSUB (b2 d) rd rn rm ra); [hr|apply D_FMSUB; FR|sq].
    + ap FMADD (W_FMADD (b2 d) rd rn rm ra); [hr|apply D_FMADD; FR|sq].
Qed.
Lemma ok_AFcmp d rn rm : operands (AFcmp d rn rm) -> good E (AFcmp d rn rm) s.
Proof. intros [A B]. ap FCMP (W_FCMP (b2 d) rn rm); [hr|apply D_FCMP; FR|sq]. Qed.
Lemma ok_AFneg d rd rn : operands (AFneg d rd rn) -> good E (AFneg d rd rn) s.
Proof. intros [A B]. ap FNEG (W_FNEG (b2 d) rd rn); [hr|apply D_FNEG; FR|sq]. Qed.
Lemma ok_AFsqrt d rd rn : operands (AFsqrt d rd rn) -> good E (AFsqrt d rd rn) s.
Proof. intros [A B]. ap FSQRT (W_FSQRT (b2 d) rd rn); [hr|apply D_FSQRT; FR|sq]. Qed.
Lemma ok_AFcvt d rd rn : operands (AFcvt d rd rn) -> good E (AFcvt d rd rn) s.
Proof. intros [A B]. ap FCVT (W_FCVT (b2 d) rd rn); [hr|apply D_FCVT; FR|sq]. Qed.
Lemma ok_AOfInt sg x d rd n : operands (AOfInt sg x d rd n) -> covered (AOfInt sg x d rd n) ->
  good E (AOfInt sg x d rd n) s.
Proof.
  intros [A _] C. cbn [covered] in C. destruct sg.
  - ap SCVTF (W_SCVTF (b2 x) rd (b2 d) (gi n)); [hr|apply D_SCVTF; FR|sq].
  - ap UCVTF (W_UCVTF (b2 x) rd (b2 d) (gi n)); [hr|apply D_UCVTF; FR|sq].
Qed.
Lemma ok_AToInt sg x d rd n : operands (AToInt sg x d rd n) -> covered (AToInt sg x d rd n) ->
  good E (AToInt sg x d rd n) s.
Proof.
  intros [_ A] C. cbn [covered] in C. destruct sg.
  - ap FCVTZS (W_FCVTZS (b2 x) (gi rd) (b2 d) n); [hr|apply D_FCVTZS; FR|sq].
  - ap FCVTZU (W_FCVTZU (b2 x) (gi rd) (b2 d) n); [hr|apply D_FCVTZU; FR|sq].
Qed.
End Instrs.
