(** The arm64 encoder is right: lemmas. *)
From Coq Require Import ZArith List Bool Lia ZifyBool.
From Verif Require Import Base Arm_model Arm_spec Arm_bits_proof Arm_dec_proof.
Import ListNotations.
Open Scope Z_scope.

(** ** Numbers *)
Lemma ds_pos x : 0 < ds x. Proof. destruct x; cbv; reflexivity. Qed.
Lemma ds_two x : ds x = 32 \/ ds x = 64. Proof. destruct x; [right|left]; reflexivity. Qed.
Lemma pow_pos n : 0 <= n -> 0 < 2 ^ n. Proof. apply Z.pow_pos_nonneg. lia. Qed.
Lemma ux_range n v : 0 <= n -> 0 <= ux n v < 2 ^ n.
Proof. intros. apply Z.mod_pos_bound. apply pow_pos; lia. Qed.
Lemma ux_small n v : 0 <= v < 2 ^ n -> ux n v = v.
Proof. intros. apply Z.mod_small. lia. Qed.
Lemma ux_le m n v : 0 <= m <= n -> ux m (ux n v) = ux m v.
Proof.
  intros. unfold ux. replace n with (m + (n - m)) by lia.
  rewrite Z.pow_add_r by lia.
  rewrite Z.rem_mul_r by (try (pose proof (pow_pos m); pose proof (pow_pos (n - m)); lia)).
  rewrite Z.mul_comm, Z.mod_add by (pose proof (pow_pos m); lia).
  apply Z.mod_mod. pose proof (pow_pos m). lia.
Qed.
Lemma ux_ux n v : 0 <= n -> ux n (ux n v) = ux n v.
Proof. intros. apply ux_le. lia. Qed.
Lemma ux_le2 m n v : 0 <= n <= m -> ux m (ux n v) = ux n v.
Proof.
  intros. apply ux_small. pose proof (ux_range n v). pose proof (Z.pow_le_mono_r 2 n m). lia.
Qed.
Lemma ux_eq n u v : 0 <= n -> (exists k, u = v + k * 2 ^ n) -> ux n u = ux n v.
Proof. intros H [k ->]. unfold ux. apply Z.mod_add. pose proof (pow_pos n). lia. Qed.
Lemma ux_split n v : 0 <= n -> v = ux n v + (v / 2 ^ n) * 2 ^ n.
Proof. intros. unfold ux. pose proof (Z.div_mod v (2 ^ n)). pose proof (pow_pos n). lia. Qed.
Lemma ux_inv n u v : 0 <= n -> ux n u = ux n v -> exists k, u = v + k * 2 ^ n.
Proof.
  intros Hn H. exists (u / 2 ^ n - v / 2 ^ n).
  pose proof (ux_split n u). pose proof (ux_split n v). lia.
Qed.
Lemma sx_mod n u v : 0 < n -> ux n u = ux n v -> sx n u = sx n v.
Proof.
  intros Hn H. apply ux_inv in H; [|lia]. destruct H as [k ->]. unfold sx. f_equal.
  replace (v + k * 2 ^ n + 2 ^ (n - 1)) with (v + 2 ^ (n - 1) + k * 2 ^ n) by lia.
  apply Z.mod_add. pose proof (pow_pos n). lia.
Qed.
Lemma sx_ux m n v : 0 < m <= n -> sx m (ux n v) = sx m v.
Proof. intros. apply sx_mod; [lia|]. apply ux_le. lia. Qed.
Lemma pow_half n : 0 < n -> 2 ^ n = 2 * 2 ^ (n - 1).
Proof. intros. rewrite <- Z.pow_succ_r by lia. f_equal. lia. Qed.
Lemma ux_sx n v : 0 < n -> ux n (sx n v) = ux n v.
Proof.
  intros. apply ux_eq; [lia|]. unfold sx.
  exists (- ((v + 2 ^ (n - 1)) / 2 ^ n)).
  pose proof (Z.div_mod (v + 2 ^ (n - 1)) (2 ^ n)). pose proof (pow_pos n). lia.
Qed.
Lemma sx_range n v : 0 < n -> - 2 ^ (n - 1) <= sx n v < 2 ^ (n - 1).
Proof.
  intros. unfold sx. pose proof (Z.mod_pos_bound (v + 2 ^ (n - 1)) (2 ^ n)).
  pose proof (pow_pos n). pose proof (pow_half n). lia.
Qed.
Lemma sx_small n v : 0 < n -> - 2 ^ (n - 1) <= v < 2 ^ (n - 1) -> sx n v = v.
Proof. intros. unfold sx. pose proof (pow_half n). rewrite Z.mod_small by lia. lia. Qed.
Lemma low_ux n v : 0 <= n -> low n v = ux n v.
Proof. intros. apply Z.land_ones. lia. Qed.
Lemma sx_low n v : 0 < n -> - 2 ^ (n - 1) <= v < 2 ^ (n - 1) -> sx n (low n v) = v.
Proof. intros. rewrite low_ux, sx_ux by lia. apply sx_small; lia. Qed.
Lemma sx_uniq n u v : 0 < n -> ux n u = ux n v -> - 2 ^ (n - 1) <= v < 2 ^ (n - 1) -> sx n u = v.
Proof. intros. rewrite (sx_mod n u v) by assumption. apply sx_small; lia. Qed.

(** ** Registers *)
Definition gi (g : gpr) : Z := match g with X n => n | _ => 31 end.
Definition issp (g : gpr) : bool := match g with SP => true | _ => false end.
Lemma g_eq x g : g_ x g = OReg (Reg (issp g) (gi g) (size_of x)).
Proof. destruct g; reflexivity. Qed.
Lemma i_eq b off p : i_ b off p = OInd (Reg (issp b) (gi b) 8) off (pp_ p) false.
Proof. destruct b; reflexivity. Qed.
Lemma gr_eq b : greg true b = Reg (issp b) (gi b) 8.
Proof. destruct b; reflexivity. Qed.
Lemma szof_eq s i x : szof (Reg s i (size_of x)) = b2 x.
Proof. destruct x; reflexivity. Qed.
Lemma zreg_R g : zreg g -> R (gi g). Proof. destruct g; cbn [zreg gi]; lia. Qed.
Lemma sreg_R g : sreg g -> R (gi g). Proof. destruct g; cbn [sreg gi]; lia. Qed.
Lemma zreg_nsp g : zreg g -> issp g = false. Proof. destruct g; cbn [zreg issp]; tauto. Qed.
Lemma neq31 n : 0 <= n <= 30 -> (n =? 31) = false. Proof. lia. Qed.
Lemma rZ_g s x g : zreg g -> rZ s x (gi g) = gv s x g.
Proof. destruct g; cbn [zreg gi gv]; intros H; unfold rZ; [rewrite neq31 by lia; reflexivity|reflexivity|tauto]. Qed.
Lemma rS_g s x g : sreg g -> rS s x (gi g) = gv s x g.
Proof. destruct g; cbn [sreg gi gv]; intros H; unfold rS; [rewrite neq31 by lia; reflexivity|tauto|reflexivity]. Qed.
Lemma wZ_g s x g v : zreg g -> wZ s x (gi g) v = put s x g v.
Proof. destruct g; cbn [zreg gi put]; intros H; unfold wZ; [rewrite neq31 by lia; reflexivity|reflexivity|tauto]. Qed.
Lemma wS_g s x g v : sreg g -> wS s x (gi g) v = put s x g v.
Proof. destruct g; cbn [sreg gi put]; intros H; unfold wS; [rewrite neq31 by lia; reflexivity|tauto|reflexivity]. Qed.
Lemma put_eq s x g u v : ux (ds x) u = ux (ds x) v -> put s x g u = put s x g v.
Proof. intros H. destruct g; cbn [put]; rewrite ?H; reflexivity. Qed.
Lemma put_WX s g u v : zreg g -> ux 64 u = ux 32 v -> put s true g u = put s false g v.
Proof. intros Hz H. destruct g; cbn [put zreg] in *; unfold ds; rewrite ?H; [reflexivity|reflexivity|tauto]. Qed.
Lemma gv_range s x g : 0 <= gv s x g < 2 ^ ds x.
Proof. pose proof (ds_pos x). destruct g; cbn [gv]; [apply ux_range; lia|pose proof (pow_pos (ds x)); lia|apply ux_range; lia]. Qed.
Lemma gv_WX s g : zreg g -> gv s false g = ux 32 (gv s true g).
Proof.
  destruct g; cbn [gv zreg]; unfold ds; [|reflexivity|tauto]. intros _. rewrite ux_le by lia. reflexivity.
Qed.

(** ** Same states *)
Lemma same_refl s : same s s. Proof. repeat split. Qed.
Lemma same_eq s t : s = t -> same s t. Proof. intros ->. apply same_refl. Qed.
Lemma same_mem s M1 M2 p base b off q : (forall a, M1 a = M2 a) ->
  same (setpc (back (setmem s M1) p base b off) q) (setpc (back (setmem s M2) p base b off) q).
Proof.
  intros H. destruct p; cbn [back]; [| |];
    try (destruct base; cbn [put]); repeat split; intros; try reflexivity; apply H.
Qed.

(** ** Memory *)
Lemma load_range n m a : 0 <= load_ n m a < 256 ^ Z.of_nat n.
Proof.
  revert a. induction n as [|n IH]; intros a; [cbn; lia|].
  rewrite Nat2Z.inj_succ, Z.pow_succ_r by lia. cbn [load_]. specialize (IH (a + 1)).
  pose proof (Z.mod_pos_bound (m (ux 64 a)) 256). lia.
Qed.
Lemma load_small n m a : 0 <= n -> 0 <= load n m a < 2 ^ (8 * n).
Proof.
  intros. unfold load. pose proof (load_range (Z.to_nat n) m a). rewrite Z2Nat.id in * by lia.
  rewrite Z.pow_mul_r by lia. exact H0.
Qed.
Lemma store_mod n m a u v k : 0 <= n -> ux (8 * n) u = ux (8 * n) v ->
  store n m a u k = store n m a v k.
Proof.
  intros Hn H. unfold store. cbv zeta. set (i := ux 64 (k - a)).
  assert (0 <= i) by (apply ux_range; lia).
  destruct (Z.ltb_spec i n) as [L|L]; [|reflexivity].
  apply ux_inv in H; [|lia]. destruct H as [q ->].
  replace (256 ^ i) with (2 ^ (8 * i)) by (rewrite Z.pow_mul_r by lia; reflexivity).
  replace (8 * n) with (8 * i + (8 + 8 * (n - i - 1))) by lia.
  rewrite !Z.pow_add_r by lia.
  replace (v + q * (2 ^ (8 * i) * (2 ^ 8 * 2 ^ (8 * (n - i - 1)))))
    with (v + (q * 2 ^ (8 * (n - i - 1)) * 256) * 2 ^ (8 * i)) by (change (2 ^ 8) with 256; lia).
  rewrite Z.div_add by (pose proof (pow_pos (8 * i)); lia).
  rewrite Z.mod_add by lia. reflexivity.
Qed.

(** ** From encoding to effect *)
Definition good (E : env) (a : asm) (s : st) : Prop :=
  exists w i, assemble a = Ok w /\ 0 < w < 2 ^ 32 /\ decode w = Some i /\
              same (exec E i s) (means E a s).
Lemma mk E a s r os op w i : render a = (r, os) -> r <> R_NOOP ->
  match_rows (table r) os = Ok (Some op) -> handler op os = Ok w -> decodes w i ->
  same (exec E i s) (means E a s) -> good E a s.
Proof.
  intros Hr Hn Hm Hh [Hw Hd] Hs. exists w, i. split; [|split; [exact Hw|split; assumption]].
  unfold assemble. rewrite Hr. cbn [fst snd]. unfold encode.
  assert (Hu : u32 w = w) by (apply Z.mod_small; lia).
  destruct r; try (contradiction Hn; reflexivity);
    rewrite Hm; cbn [bind]; rewrite Hh; cbn [bind]; rewrite Hu;
    (destruct (Z.ltb_spec 0 w); [reflexivity|lia]).
Qed.
Arguments mk E a s [r os] op w i _ _ _ _ _ _.
(** find the row of the table *)
Ltac row := first [reflexivity | match goal with x : bool |- _ => destruct x; reflexivity end].
Ltac regs := unfold render; rewrite ?g_eq, ?i_eq, ?gr_eq; reflexivity.
Ltac gz := rewrite ?rZ_g, ?rS_g, ?wZ_g, ?wS_g by assumption.
Ltac RR := try first [assumption | apply zreg_R; assumption | apply sreg_R; assumption | lia].
Ltac bools := repeat match goal with x : bool |- _ => destruct x end.
Ltac ap op w :=
  eapply (mk _ _ _ op w);
  [ regs | discriminate | bools; reflexivity | |
    unfold P_MOV, P_MOV_SP, P_MUL, P_CMP, P_CMP_I, P_CMN, P_CMN_I, P_LSL_I, P_LSR_I, P_ASR_I, P_CSET, ZERO | ].
Ltac hr := bools; reflexivity.

Global Opaque W_MOVK W_MOVZ W_MOVN W_ADD_I W_ADD_S W_ADD_E W_ADDS_I W_ADDS_S
  W_SUB_I W_SUB_S W_SUBS_I W_SUBS_S W_SUB_E W_MADD W_MSUB W_SDIV
  W_UDIV W_AND_S W_ORR_S W_EOR_S W_EON_S W_LSLV W_LSRV W_ASRV
  W_SBFM W_UBFM W_LDUR W_LDR_UIMM W_LDR W_STUR W_STR_UIMM W_STR
  W_LDP W_STP W_ORN_S W_ADRP W_MRS W_CSINC W_B W_BR
  W_BCC W_CBZ W_CBNZ W_BL W_BLR W_RET W_NOP W_SVC
  F_LDUR F_LDR_UIMM W_F_LDR F_STUR F_STR_UIMM W_F_STR W_F_LDP W_F_STP
  W_FMOV_Z W_FMOV W_FMOV_I W_FADD W_FSUB W_FMUL W_FDIV W_FCMP
  W_FNEG W_FSQRT W_SCVTF W_UCVTF W_FCVT W_FCVTZS W_FCVTZU W_FMADD
  W_FMSUB W_FNMSUB.

Section Instrs.
Variables (E : env) (s : st).

(** ** Moves *)
Lemma shift0 x a : 0 <= a < 2 ^ ds x -> shift (ds x) 0 a 0 = a.
Proof. intros. unfold shift. change (0 =? 0) with true. cbv iota. change (2 ^ 0) with 1. rewrite Z.mul_1_r. apply ux_small. lia. Qed.
Lemma log_orr0 a : log_val LOrr 0 a = a. Proof. apply Z.lor_0_l. Qed.
Lemma ok_AMov x d n : operands (AMov x d n) -> covered (AMov x d n) -> good E (AMov x d n) s.
Proof.
  intros Ho [[Hd Hn]|[Hd Hn]].
  - ap MOV (P_MOV (b2 x) (gi d) (gi n)).
    + rewrite (zreg_nsp d), (zreg_nsp n) by assumption. destruct x; reflexivity.
    + apply D_ORR_S; RR.
    + apply same_eq. cbn [exec means]. gz. rewrite shift0 by apply gv_range.
      change (rZ s x 31) with 0. rewrite log_orr0. reflexivity.
  - destruct (issp d || issp n) eqn:Es.
    + ap MOV (P_MOV_SP (b2 x) (gi d) (gi n)).
      * cbn [handler asm_mov rg opr nth_error bind regof]. unfold is_sp. cbn [r_sp r_idx r_size].
        rewrite Z.eqb_refl. cbn [check bind].
        replace (issp d && (gi d =? 31) || issp n && (gi n =? 31)) with true.
        { destruct x; reflexivity. }
        destruct d, n; cbn [issp gi sreg] in *; try tauto; cbn; try reflexivity; try discriminate.
      * apply D_ADD_I; RR.
      * apply same_eq. cbn [exec means]. gz. cbn [addsub]. unfold add_carry. cbn [fst].
        change (low 12 0) with 0. rewrite !Z.add_0_r. f_equal. apply put_eq. apply ux_ux.
        pose proof (ds_pos x). lia.
    + apply orb_false_iff in Es. destruct Es as [E1 E2].
      assert (Zd : zreg d) by (destruct d; cbn in *; try tauto; discriminate).
      assert (Zn : zreg n) by (destruct n; cbn in *; try tauto; discriminate).
      ap MOV (P_MOV (b2 x) (gi d) (gi n)).
      * rewrite E1, E2. destruct x; reflexivity.
      * apply D_ORR_S; RR.
      * apply same_eq. cbn [exec means]. gz. rewrite shift0 by apply gv_range.
        change (rZ s x 31) with 0. rewrite log_orr0. reflexivity.
Qed.
Lemma ok_AMovI x d imm : covered (AMovI x d imm) -> good E (AMovI x d imm) s.
Proof.
  intros [Hd Hi]. destruct (Z_le_gt_dec 0 imm) as [L|L].
  - ap MOV (W_MOVZ (b2 x) (gi d) imm 0).
    + cbn [handler asm_mov rg opr nth_error bind regof].
      destruct (Z.leb_spec 0 imm); [|lia]. destruct x; reflexivity.
    + apply D_MOVZ; RR.
    + apply same_eq. cbn [exec means]. gz. rewrite low_id by lia. f_equal. f_equal. lia.
  - ap MOV (W_MOVN (b2 x) (gi d) (Z.lnot imm) 0).
    + cbn [handler asm_mov rg opr nth_error bind regof].
      destruct (Z.leb_spec 0 imm); [lia|]. destruct x; reflexivity.
    + apply D_MOVN; RR.
    + apply same_eq. cbn [exec means]. gz. unfold Z.lnot.
      rewrite low_id by lia. f_equal. f_equal. lia.
Qed.
Lemma movk_val v sh imm : 0 <= sh ->
  v - fld v sh 16 * 2 ^ sh + imm * 2 ^ sh
  = v mod 2 ^ sh + imm * 2 ^ sh + v / 2 ^ (sh + 16) * 2 ^ (sh + 16).
Proof.
  intros. unfold fld. rewrite Z.pow_add_r by lia.
  rewrite <- Z.div_div by (try (pose proof (pow_pos sh); lia); lia).
  pose proof (Z.div_mod v (2 ^ sh)). pose proof (pow_pos sh).
  pose proof (Z.div_mod (v / 2 ^ sh) (2 ^ 16)).
  set (q := v / 2 ^ sh) in *. set (P := 2 ^ sh) in *.
  assert (v = P * q + v mod P) by lia. assert (q = 2 ^ 16 * (q / 2 ^ 16) + q mod 2 ^ 16) by lia.
  rewrite H3 at 1. rewrite H4 at 1. lia.
Qed.
Lemma ok_AMovk x d imm sh : covered (AMovk x d imm sh) -> good E (AMovk x d imm sh) s.
Proof.
  intros (Hd & Hi & Hs).
  assert (Hk : exists k, sh = 16 * k /\ (k = 0 \/ k = 1 \/ (x = true /\ (k = 2 \/ k = 3)))).
  { destruct Hs as [->|[->|[-> [->| ->]]]]; [exists 0|exists 1|exists 2|exists 3]; intuition lia. }
  destruct Hk as (k & -> & Hk).
  ap MOVK (W_MOVK (b2 x) (gi d) imm k).
  - destruct Hk as [->|[->|[-> [->| ->]]]]; bools; reflexivity.
  - apply (D_MOVK x (gi d) imm k); RR; exact Hk.
  - apply same_eq. cbn [exec means]. gz. rewrite low_id by lia. rewrite (Z.mul_comm k 16).
    rewrite movk_val by lia. reflexivity.
Qed.

(** ** Addition and comparison *)
Lemma addsub_fst (sub : bool) n a b : 0 <= n -> fst (addsub sub n a b) = ux n (if sub then a - b else a + b).
Proof.
  intros. destruct sub; unfold addsub, add_carry; cbn [fst].
  - apply ux_eq; [lia|]. exists 1. lia.
  - f_equal. lia.
Qed.
Lemma cmp_ok n a b : 0 < n -> 0 <= a < 2 ^ n -> 0 <= b < 2 ^ n ->
  snd (addsub true n a b) = cmp_flags n a b.
Proof.
  intros Hn Ha Hb. unfold addsub, add_carry, cmp_flags. cbn [snd].
  assert (A : ux n (a + (2 ^ n - 1 - b) + 1) = ux n (a - b)).
  { apply ux_eq; [lia|]. exists 1. lia. }
  rewrite A. f_equal.
  - lia.
  - rewrite (sx_ux n n) by lia.
    assert (B : sx n (2 ^ n - 1 - b) = -1 - sx n b).
    { apply sx_uniq; [lia| |pose proof (sx_range n b); lia].
      transitivity (ux n (-1 - b)); [apply ux_eq; [lia|]; exists 1; lia|].
      pose proof (ux_sx n b Hn) as C. apply ux_inv in C; [|lia]. destruct C as [k C].
      apply ux_eq; [lia|]. exists k. lia. }
    rewrite B. f_equal. f_equal. lia.
Qed.
Lemma cmn_ok n a b : 0 < n -> snd (addsub false n a b) = cmn_flags n a b.
Proof.
  intros Hn. unfold addsub, add_carry, cmn_flags. cbn [snd]. rewrite !Z.add_0_r.
  rewrite (sx_ux n n) by lia. reflexivity.
Qed.
Lemma ux_sub_r (sub : bool) n a b c : 0 <= n -> ux n b = ux n c ->
  ux n (if sub then a - b else a + b) = ux n (if sub then a - c else a + c : Z).
Proof.
  intros Hn H. apply ux_inv in H; [|lia]. destruct H as [k ->]. apply ux_eq; [lia|].
  destruct sub; [exists (- k)|exists k]; lia.
Qed.
Lemma ok_AAdd sub x d n m : operands (AAdd sub x d n m) -> covered (AAdd sub x d n m) ->
  good E (AAdd sub x d n m) s.
Proof.
  intros Ho [Hm H]. assert (P : 0 <= ds x) by (pose proof (ds_pos x); lia).
  assert (C : (zreg d /\ zreg n) \/ (sreg d /\ sreg n /\ issp d || issp n = true)).
  { destruct H as [H|[Hd Hn]]; [left; exact H|].
    destruct d, n; cbn [zreg sreg issp orb] in *; try tauto; right; auto. }
  destruct C as [[Hd Hn]|(Hd & Hn & Es)].
  - destruct sub.
    + ap SUB_R (W_SUB_S (b2 x) (gi d) (gi n) (gi m) 0 0).
      * rewrite (zreg_nsp d), (zreg_nsp n) by assumption. destruct x; reflexivity.
      * apply D_SUB_S; RR. destruct x; cbv; split; [discriminate|reflexivity|discriminate|reflexivity].
      * apply same_eq. cbn [exec means]. gz. rewrite addsub_fst, shift0 by (try lia; apply gv_range).
        f_equal. apply put_eq. apply ux_ux. lia.
    + ap ADD_R (W_ADD_S (b2 x) (gi d) (gi n) (gi m) 0 0).
      * rewrite (zreg_nsp d), (zreg_nsp n) by assumption. destruct x; reflexivity.
      * apply D_ADD_S; RR. destruct x; cbv; split; [discriminate|reflexivity|discriminate|reflexivity].
      * apply same_eq. cbn [exec means]. gz. rewrite addsub_fst, shift0 by (try lia; apply gv_range).
        f_equal. apply put_eq. apply ux_ux. lia.
  - assert (Hsp : negb (is_sp (Reg (issp d) (gi d) (size_of x))) &&
                  negb (is_sp (Reg (issp n) (gi n) (size_of x))) = false).
    { unfold is_sp. cbn [r_sp r_idx]. destruct d, n; cbn [issp gi sreg] in *; try tauto;
        cbn in *; try discriminate; try reflexivity. }
    assert (Ex : extend 3 (gv s x m) = gv s x m).
    { unfold extend. change (3 <? 4) with true. cbv iota. apply ux_small.
      pose proof (gv_range s x m). destruct (ds_two x) as [e|e]; rewrite e in *; 
      change (8 * 2 ^ (3 mod 4)) with 64; lia. }
    assert (V : forall a, ux (ds x) (fst (addsub sub (ds x) a (ux (ds x) (extend 3 (gv s x m) * 2 ^ 0))))
                = ux (ds x) (if sub then a - gv s x m else a + gv s x m)).
    { intros a. rewrite addsub_fst by lia. rewrite ux_ux by lia. rewrite Ex.
      apply ux_sub_r; [lia|]. rewrite ux_ux by lia. f_equal. change (2 ^ 0) with 1. lia. }
    destruct sub.
    + ap SUB_R (W_SUB_E (b2 x) (gi d) (gi n) (gi m) 3 0).
      * cbn [handler asm_3r rg opr nth_error bind regof r_size]. rewrite !Z.eqb_refl.
        cbn [check bind]. unfold asm_addsub. cbn [length Nat.eqb r_idx].
        unfold asm_addsub. rewrite Hsp. destruct x; reflexivity.
      * apply D_SUB_E; RR.
      * apply same_eq. cbn [exec means]. gz. f_equal. apply put_eq. apply V.
    + ap ADD_R (W_ADD_E (b2 x) (gi d) (gi n) (gi m) 3 0).
      * cbn [handler asm_3r rg opr nth_error bind regof r_size]. rewrite !Z.eqb_refl.
        cbn [check bind]. unfold asm_addsub. cbn [length Nat.eqb r_idx].
        unfold asm_addsub. rewrite Hsp. destruct x; reflexivity.
      * apply D_ADD_E; RR.
      * apply same_eq. cbn [exec means]. gz. f_equal. apply put_eq. apply V.
Qed.
End Instrs.
