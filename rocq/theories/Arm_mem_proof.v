(** The arm64 encoder is right: loads and stores. *)
From Coq Require Import ZArith List Bool Lia ZifyBool.
From Verif Require Import Base Arm_model Arm_spec Arm_bits_proof Arm_dec_proof Arm_proof Arm_int_proof.
Import ListNotations.
Open Scope Z_scope.

Section Instrs.
Variables (E : env) (s : st).

Lemma distinct_idx p base t : sreg base -> zreg t -> distinct p base t ->
  p = WNone \/ gi base = 31 \/ gi base <> gi t.
Proof.
  intros Hb Ht [->|H]; [left; reflexivity|right].
  destruct base as [b| |], t as [t| |]; cbn [sreg zreg gi] in *; try tauto; try lia.
  right. intros ->. apply H. reflexivity.
Qed.

(** the offset of [base + off] as encoded *)
Definition wmode (p : wbk) (off : Z) : amode :=
  match p with WNone => MOff off | WPre => MPre off | WPost => MPost off end.
Lemma maddr_p p b off : maddr (wmode p off) b = at_addr p b off.
Proof. destruct p; reflexivity. Qed.
Lemma mback_p t p base b off : sreg base ->
  mback t (wmode p off) (gi base) b = back t p base b off.
Proof. intros. destruct p; cbn [wmode mback back]; rewrite ?wS_g by assumption; reflexivity. Qed.

Lemma low_scaled k off : 0 <= k <= 3 -> 0 <= off <= 4095 -> off mod 2 ^ k = 0 ->
  low 12 (Z.shiftr off k) * 2 ^ k = off.
Proof.
  intros Hk Ho Hm. pose proof (pow_pos k ltac:(lia)) as P. rewrite Z.shiftr_div_pow2 by lia.
  assert (0 <= off / 2 ^ k <= 4095).
  { split; [apply Z.div_pos; lia|]. assert (off / 2 ^ k <= off / 1) by (apply Z.div_le_compat_l; lia).
    rewrite Z.div_1_r in *. lia. }
  rewrite low_id by lia. pose proof (Z.div_mod off (2 ^ k)). lia.
Qed.

(** ** Loads *)
Definition kop (k : ldk) : opc :=
  match k with KB => LDRB | KH => LDRH | KW => LDR | KSB => LDRSB | KSH => LDRSH end.
Definition kb (k : ldk) (x : bool) : Z :=
  match k with KB | KSB => 0 | KH | KSH => 1 | KW => 2 + b2 x end.
Definition ki (k : ldk) (x : bool) : amode -> Z -> Z -> instr :=
  ILoad (ld_size k x) (match k with KSB | KSH => Some false | _ => None end).
Lemma kopc k x : match k with KB | KSB | KSH => x = false | _ => True end ->
  ldopc (ld_b (kop k) (b2 x)) (ld_s (kop k)) (ki k x) /\ ld_b (kop k) (b2 x) = kb k x.
Proof.
  intros H. unfold ldopc. destruct k; try subst x; cbn [kop kb];
    try (destruct x); vm_compute; intuition auto 10.
Qed.
Lemma kscaled k x off : match k with KB | KSB | KSH => x = false | _ => True end ->
  scaled (kop k) (b2 x) off = Z.shiftr off (kb k x).
Proof. intros H. destruct k; try subst x; cbn [kop scaled kb]; try reflexivity. Qed.
Lemma ksize k x : ld_size k x = 2 ^ kb k x.
Proof. destruct k, x; reflexivity. Qed.
Lemma kb_range k x : 0 <= kb k x <= 3.
Proof. destruct k, x; cbn; lia. Qed.

Lemma ld_effect k x t base off p : zreg t -> sreg base ->
  match k with KB | KSB | KSH => x = false | _ => True end ->
  exec E (ki k x (wmode p off) (gi base) (gi t)) s = means E (ALd k x t base off p) s.
Proof.
  intros Ht Hb Hk. unfold ki. cbn [exec means]. gz. rewrite maddr_p, mback_p by assumption.
  f_equal. f_equal. set (a := at_addr p (gv s true base) off).
  destruct x.
  - assert (Hn : match k with KSB | KSH => False | _ => True end) by (destruct k; try discriminate; exact I).
    destruct k; try tauto; reflexivity.
  - apply put_WX; [assumption|].
    destruct k; cbn [ld_size]; unfold ds;
    lazymatch goal with
    | |- context [sx] => rewrite ux_le2 by lia; reflexivity
    | |- context [load ?n ?m a] =>
        pose proof (load_small n m a ltac:(lia)); rewrite !ux_small by lia; reflexivity
    end.
Qed.

Lemma h_ld k x t base off p : -4096 <= off <= 4095 ->
  handler (kop k) [OReg (Reg (issp t) (gi t) (size_of x)); OInd (Reg (issp base) (gi base) 8) off (pp_ p) false]
  = match p with
    | WNone => if 0 <=? off
        then Ok (W_LDR_UIMM (ld_b (kop k) (b2 x)) (ld_s (kop k)) (gi t) (scaled (kop k) (b2 x) off) (gi base))
        else Ok (W_LDUR (ld_b (kop k) (b2 x)) (ld_s (kop k)) (gi t) off (gi base))
    | WPre => Ok (W_LDR (ld_b (kop k) (b2 x)) (ld_s (kop k)) (gi t) off (gi base) 3)
    | WPost => Ok (W_LDR (ld_b (kop k) (b2 x)) (ld_s (kop k)) (gi t) off (gi base) 1)
    end.
Proof.
  intros H. transitivity (asm_ldrstr (kop k) [OReg (Reg (issp t) (gi t) (size_of x));
    OInd (Reg (issp base) (gi base) 8) off (pp_ p) false]); [destruct k; reflexivity|].
  unfold asm_ldrstr. cbn [rg opr nth_error bind regof r_size r_idx]. rewrite szof_eq.
  change (8 =? QWORD) with true. cbn [check bind].
  destruct (Z.leb_spec off 4095); [|lia]. destruct (Z.leb_spec (-4096) off); [|lia]. cbn [andb check bind].
  replace (is_load (kop k)) with true by (destruct k; reflexivity).
  destruct p; reflexivity.
Qed.
Lemma ok_ALd k x t base off p : covered (ALd k x t base off p) -> good E (ALd k x t base off p) s.
Proof.
  intros (Ht & (Hb & Ha) & Hd & Hk).
  destruct (kopc k x Hk) as [Ko Kb]. apply (distinct_idx p base t Hb Ht) in Hd.
  pose proof (kb_range k x) as Kr.
  assert (Hr : exists r, render (ALd k x t base off p) = (r, [g_ x t; i_ base off p]) /\ r <> R_NOOP /\
    match_rows (table r) [g_ x t; i_ base off p] = Ok (Some (kop k))).
  { rewrite g_eq, i_eq. destruct k; cbn [render]; rewrite g_eq, i_eq; eexists; (split; [reflexivity|]); (split; [discriminate|]); destruct x; reflexivity. }
  destruct Hr as (r & Hr & Hn & Hm).
  assert (Hrange : -4096 <= off <= 4095) by (destruct p; lia).
  pose proof (h_ld k x t base off p Hrange) as Hh. rewrite <- g_eq, <- i_eq in Hh.
  destruct p.
  - destruct (Z.leb_spec 0 off) as [L|L].
    + eapply (mk _ _ _ (kop k) _ (ki k x (MOff (low 12 (scaled (kop k) (b2 x) off) * 2 ^ kb k x)) (gi base) (gi t)));
        [exact Hr|exact Hn|exact Hm|exact Hh| |].
      * rewrite <- Kb. apply D_LDR_UIMM; RR; exact Ko.
      * apply same_eq. rewrite kscaled by assumption. rewrite ksize in Ha.
        rewrite low_scaled by lia. apply (ld_effect k x t base off WNone); assumption.
    + eapply (mk _ _ _ (kop k) _ (ki k x (MOff (sx 9 (low 9 off))) (gi base) (gi t)));
        [exact Hr|exact Hn|exact Hm|exact Hh| |].
      * apply D_LDUR; RR; exact Ko.
      * apply same_eq. rewrite sx_low by lia. apply (ld_effect k x t base off WNone); assumption.
  - eapply (mk _ _ _ (kop k) _ (ki k x (MPre (sx 9 (low 9 off))) (gi base) (gi t)));
        [exact Hr|exact Hn|exact Hm|exact Hh| |].
    + apply D_LDR_pre; RR. destruct Hd; [discriminate|assumption].
    + apply same_eq. rewrite sx_low by lia. apply (ld_effect k x t base off WPre); assumption.
  - eapply (mk _ _ _ (kop k) _ (ki k x (MPost (sx 9 (low 9 off))) (gi base) (gi t)));
        [exact Hr|exact Hn|exact Hm|exact Hh| |].
    + apply D_LDR_post; RR. destruct Hd; [discriminate|assumption].
    + apply same_eq. rewrite sx_low by lia. apply (ld_effect k x t base off WPost); assumption.
Qed.
Lemma ok_ALdSym k x t base : covered (ALdSym k x t base) -> good E (ALdSym k x t base) s.
Proof.
  intros (Ht & Hb & Hk). destruct (kopc k x Hk) as [Ko Kb].
  assert (Hr : exists r, render (ALdSym k x t base) = (r, [g_ x t; OInd (greg true base) 0 0 true]) /\ r <> R_NOOP /\
    match_rows (table r) [g_ x t; OInd (greg true base) 0 0 true] = Ok (Some (kop k))).
  { rewrite g_eq, gr_eq. destruct k; cbn [render]; rewrite g_eq, gr_eq; eexists; (split; [reflexivity|]); (split; [discriminate|]); destruct x; reflexivity. }
  destruct Hr as (r & Hr & Hn & Hm).
  eapply (mk _ _ _ (kop k) (W_LDR_UIMM (ld_b (kop k) (b2 x)) (ld_s (kop k)) (gi t) 0 (gi base))
     (ki k x (MOff (low 12 0 * 2 ^ ld_b (kop k) (b2 x))) (gi base) (gi t)));
        [exact Hr|exact Hn|exact Hm| | |].
  - rewrite g_eq, gr_eq. destruct k, x; reflexivity.
  - apply D_LDR_UIMM; RR; exact Ko.
  - apply same_eq. change (low 12 0) with 0. rewrite Z.mul_0_l.
    transitivity (means E (ALd k x t base 0 WNone) s).
    + apply (ld_effect k x t base 0 WNone); assumption.
    + cbn [means at_addr back]. rewrite Z.add_0_r. reflexivity.
Qed.

(** ** Stores *)
Definition top_ (k : stk) : opc := match k with TB => STRB | TH => STRH | TW => STR end.
Definition tb (k : stk) (x : bool) : Z := match k with TB => 0 | TH => 1 | TW => 2 + b2 x end.
Lemma tb_size k x : st_size k x = 2 ^ tb k x.
Proof. destruct k, x; reflexivity. Qed.
Lemma tb_range k x : 0 <= tb k x < 4.
Proof. destruct k, x; cbn; lia. Qed.
Lemma h_st k x t base off p : -4096 <= off <= 4095 -> (k <> TW -> x = false) ->
  handler (top_ k) [OReg (Reg (issp t) (gi t) (size_of x)); OInd (Reg (issp base) (gi base) 8) off (pp_ p) false]
  = match p with
    | WNone => if 0 <=? off
        then Ok (W_STR_UIMM (tb k x) (gi t) (Z.shiftr off (tb k x)) (gi base))
        else Ok (W_STUR (tb k x) (gi t) off (gi base))
    | WPre => Ok (W_STR (tb k x) (gi t) off (gi base) 3)
    | WPost => Ok (W_STR (tb k x) (gi t) off (gi base) 1)
    end.
Proof.
  intros H Hk. transitivity (asm_ldrstr (top_ k) [OReg (Reg (issp t) (gi t) (size_of x));
    OInd (Reg (issp base) (gi base) 8) off (pp_ p) false]); [destruct k; reflexivity|].
  unfold asm_ldrstr. cbn [rg opr nth_error bind regof r_size r_idx]. rewrite szof_eq.
  change (8 =? QWORD) with true. cbn [check bind].
  destruct (Z.leb_spec off 4095); [|lia]. destruct (Z.leb_spec (-4096) off); [|lia]. cbn [andb check bind].
  replace (is_load (top_ k)) with false by (destruct k; reflexivity).
  replace (is_store (top_ k)) with true by (destruct k; reflexivity).
  assert (A : Z.lor (from_ldrb (top_ k) - 6) (b2 x) = tb k x).
  { destruct k; try (rewrite Hk by discriminate; reflexivity). destruct x; reflexivity. }
  assert (B : scaled (top_ k) (b2 x) off = Z.shiftr off (tb k x)).
  { destruct k; try reflexivity. }
  rewrite A, B. destruct p; reflexivity.
Qed.
Lemma st_effect k x t base off p : zreg t -> sreg base -> (k <> TW -> x = false) ->
  same (exec E (IStore (st_size k x) (wmode p off) (gi base) (gi t)) s) (means E (ASt k x t base off p) s).
Proof.
  intros Ht Hb Hk. cbn [exec means]. gz. rewrite maddr_p, mback_p by assumption.
  apply same_mem. intros a. apply store_mod; [destruct k, x; cbn; lia|].
  destruct x; [reflexivity|]. rewrite (gv_WX s t Ht), ux_le by (destruct k; cbn; lia). reflexivity.
Qed.
Lemma ok_ASt k x t base off p : operands (ASt k x t base off p) -> covered (ASt k x t base off p) ->
  good E (ASt k x t base off p) s.
Proof.
  intros (_ & _ & _ & Hk) (Ht & (Hb & Ha) & Hd). apply (distinct_idx p base t Hb Ht) in Hd.
  pose proof (tb_range k x) as Kr.
  assert (Hr : exists r, render (ASt k x t base off p) = (r, [g_ x t; i_ base off p]) /\ r <> R_NOOP /\
    match_rows (table r) [g_ x t; i_ base off p] = Ok (Some (top_ k))).
  { rewrite g_eq, i_eq. destruct k; cbn [render]; rewrite g_eq, i_eq; eexists; (split; [reflexivity|]); (split; [discriminate|]);
      try (rewrite Hk by discriminate; reflexivity); destruct x; reflexivity. }
  destruct Hr as (r & Hr & Hn & Hm).
  assert (Hrange : -4096 <= off <= 4095) by (destruct p; lia).
  pose proof (h_st k x t base off p Hrange Hk) as Hh. rewrite <- g_eq, <- i_eq in Hh.
  destruct p.
  - destruct (Z.leb_spec 0 off) as [L|L].
    + eapply (mk _ _ _ (top_ k)); [exact Hr|exact Hn|exact Hm|exact Hh|apply D_STR_UIMM; RR|].
      rewrite tb_size in Ha. rewrite low_scaled by lia. rewrite <- tb_size.
      apply (st_effect k x t base off WNone); assumption.
    + eapply (mk _ _ _ (top_ k)); [exact Hr|exact Hn|exact Hm|exact Hh|apply D_STUR; RR|].
      rewrite sx_low by lia. rewrite <- tb_size. apply (st_effect k x t base off WNone); assumption.
  - eapply (mk _ _ _ (top_ k)); [exact Hr|exact Hn|exact Hm|exact Hh|apply D_STR_pre; RR|].
    + destruct Hd; [discriminate|assumption].
    + rewrite sx_low by lia. rewrite <- tb_size. apply (st_effect k x t base off WPre); assumption.
  - eapply (mk _ _ _ (top_ k)); [exact Hr|exact Hn|exact Hm|exact Hh|apply D_STR_post; RR|].
    + destruct Hd; [discriminate|assumption].
    + rewrite sx_low by lia. rewrite <- tb_size. apply (st_effect k x t base off WPost); assumption.
Qed.

(** ** Pairs *)
Definition ppn (p : wbk) : Z := match p with WNone => 2 | WPre => 3 | WPost => 1 end.
Lemma pmode_p p o : pmode (ppn p) o = wmode p o.
Proof. destruct p; reflexivity. Qed.
Lemma pair_off (x : bool) off : -512 <= off <= 511 -> off mod 8 = 0 -> (x = true \/ off = 0) ->
  sx 7 (low 7 (Z.shiftr off 3)) * (if x then 8 else 4) = off.
Proof.
  intros Hr Hm Hx. rewrite Z.shiftr_div_pow2 by lia. change (2 ^ 3) with 8.
  pose proof (Z.div_mod off 8). rewrite sx_low by lia. destruct Hx as [->| ->]; [lia|reflexivity].
Qed.
Lemma h_pair op x t t2 base off p : -512 <= off <= 511 ->
  asm_ldpstp op [OReg (Reg (issp t) (gi t) (size_of x)); OReg (Reg (issp t2) (gi t2) (size_of x));
                 OInd (Reg (issp base) (gi base) 8) off (pp_ p) false]
  = match op with
    | LDP => Ok (W_LDP (b2 x) (gi t) (gi t2) off (gi base) (ppn p))
    | STP => Ok (W_STP (b2 x) (gi t) (gi t2) off (gi base) (ppn p))
    | _ => Abort
    end.
Proof.
  intros H. unfold asm_ldpstp. cbn [rg opr nth_error bind regof r_size r_idx]. rewrite Z.eqb_refl.
  change (8 =? QWORD) with true. cbn [check bind].
  destruct (Z.ltb_spec off 512); [|lia]. destruct (Z.leb_spec (-512) off); [|lia]. cbn [andb check bind].
  rewrite szof_eq. destruct p; reflexivity.
Qed.
Lemma nocl_p p base t t2 : sreg base -> zreg t -> zreg t2 -> distinct p base t -> distinct p base t2 ->
  nocl (gi base) (gi t) (gi t2) (ppn p).
Proof.
  intros Hb Ht Ht2 D1 D2. apply (distinct_idx p base t Hb Ht) in D1.
  apply (distinct_idx p base t2 Hb Ht2) in D2. unfold nocl.
  destruct D1 as [->|[D1|D1]]; [left; reflexivity|right; left; exact D1|].
  destruct D2 as [->|[D2|D2]]; [left; reflexivity|right; left; exact D2|].
  right; right. split; assumption.
Qed.
Lemma gi_inj t t2 : zreg t -> zreg t2 -> t <> t2 -> gi t2 <> gi t.
Proof.
  intros Ht Ht2 H e. apply H. destruct t, t2; cbn [zreg gi] in *; try tauto; try lia; congruence.
Qed.
Lemma size8 x : ds x / 8 = size_of x. Proof. destruct x; reflexivity. Qed.
Lemma ok_ALdp x t t2 base off p : covered (ALdp x t t2 base off p) -> good E (ALdp x t t2 base off p) s.
Proof.
  intros (Ht & Ht2 & Hne & Hb & D1 & D2 & Hr & Hm & Hx).
  ap LDP (W_LDP (b2 x) (gi t) (gi t2) off (gi base) (ppn p)).
  - cbn [handler]. rewrite h_pair by lia. reflexivity.
  - apply D_LDP; RR; [destruct p; cbn; lia|apply nocl_p; assumption|apply gi_inj; assumption].
  - rewrite pair_off, pmode_p by assumption. apply same_eq. cbn [exec means]. gz.
    rewrite maddr_p, mback_p, size8 by assumption. reflexivity.
Qed.
Lemma ok_AStp x t t2 base off p : covered (AStp x t t2 base off p) -> good E (AStp x t t2 base off p) s.
Proof.
  intros (Ht & Ht2 & Hb & D1 & D2 & Hr & Hm & Hx).
  ap STP (W_STP (b2 x) (gi t) (gi t2) off (gi base) (ppn p)).
  - cbn [handler]. rewrite h_pair by lia. reflexivity.
  - apply D_STP; RR; [destruct p; cbn; lia|apply nocl_p; assumption].
  - rewrite pair_off, pmode_p by assumption. apply same_eq. cbn [exec means]. gz.
    rewrite maddr_p, mback_p, size8 by assumption. reflexivity.
Qed.

(** ** Floating-point registers *)
Lemma h_fld op d t base off p : -512 <= off <= 511 ->
  asm_f_ldrstr op [f_ d t; OInd (Reg (issp base) (gi base) 8) off (pp_ p) false]
  = match op with
    | F_LDR => match p with
               | WNone => if 0 <=? off then Ok (F_LDR_UIMM (b2 d) 0 t (Z.shiftr off (2 + b2 d)) (gi base))
                          else Ok (F_LDUR (b2 d) 0 t off (gi base))
               | _ => Ok (W_F_LDR (b2 d) 0 t off (gi base) (ppn p))
               end
    | F_STR => match p with
               | WNone => if 0 <=? off then Ok (F_STR_UIMM (b2 d) t (Z.shiftr off (2 + b2 d)) (gi base))
                          else Ok (F_STUR (b2 d) t off (gi base))
               | _ => Ok (W_F_STR (b2 d) t off (gi base) (ppn p))
               end
    | _ => Abort
    end.
Proof.
  intros H. unfold asm_f_ldrstr, f_. cbn [rg opr nth_error bind regof r_size r_idx].
  change (8 =? QWORD) with true. cbn [check bind].
  destruct (Z.ltb_spec off 512); [|lia]. destruct (Z.leb_spec (-512) off); [|lia]. cbn [andb check bind].
  rewrite szof_eq. destruct p; reflexivity.
Qed.
Lemma fscaled d off : 0 <= off <= 511 -> off mod size_of d = 0 ->
  low 12 (Z.shiftr off (2 + b2 d)) * (if d then 8 else 4) = off.
Proof.
  intros Ho Hm. replace (if d then 8 else 4) with (2 ^ (2 + b2 d)) by (destruct d; reflexivity).
  apply low_scaled; [destruct d; cbn; lia|lia|]. destruct d; exact Hm.
Qed.
Lemma f_R r : freg r -> R r. Proof. unfold freg. lia. Qed.
Ltac FR := try first [apply f_R; assumption | RR].
Lemma fld_effect d t base off p : sreg base ->
  same (exec E (ILoadF d (wmode p off) (gi base) t) s) (means E (AFld d t base off p) s).
Proof.
  intros Hb. apply same_eq. cbn [exec means]. gz. rewrite maddr_p, mback_p, size8 by assumption. reflexivity.
Qed.
Lemma fst_effect d t base off p : sreg base ->
  same (exec E (IStoreF d (wmode p off) (gi base) t) s) (means E (AFst d t base off p) s).
Proof.
  intros Hb. apply same_eq. cbn [exec means]. gz. rewrite maddr_p, mback_p, size8 by assumption. reflexivity.
Qed.
Lemma ok_AFld d t base off p : operands (AFld d t base off p) -> covered (AFld d t base off p) ->
  good E (AFld d t base off p) s.
Proof.
  intros (Ht & _) (Hb & Ha).
  assert (Hrange : -512 <= off <= 511) by (destruct p; lia).
  assert (Hm : match_rows (table R_LDR) [f_ d t; i_ base off p] = Ok (Some F_LDR)).
  { rewrite i_eq. destruct d; reflexivity. }
  pose proof (h_fld F_LDR d t base off p Hrange) as Hh. rewrite <- i_eq in Hh. cbv iota in Hh.
  destruct p.
  - destruct (Z.leb_spec 0 off) as [L|L].
    + eapply (mk _ _ _ F_LDR); [reflexivity|discriminate|exact Hm|exact Hh|apply D_F_LDR_UIMM; FR|].
      rewrite fscaled by lia. apply (fld_effect d t base off WNone); assumption.
    + eapply (mk _ _ _ F_LDR); [reflexivity|discriminate|exact Hm|exact Hh|apply D_F_LDUR; FR|].
      rewrite sx_low by lia. apply (fld_effect d t base off WNone); assumption.
  - eapply (mk _ _ _ F_LDR); [reflexivity|discriminate|exact Hm|exact Hh|apply D_F_LDR_pre; FR|].
    rewrite sx_low by lia. apply (fld_effect d t base off WPre); assumption.
  - eapply (mk _ _ _ F_LDR); [reflexivity|discriminate|exact Hm|exact Hh|apply D_F_LDR_post; FR|].
    rewrite sx_low by lia. apply (fld_effect d t base off WPost); assumption.
Qed.
Lemma ok_AFst d t base off p : operands (AFst d t base off p) -> covered (AFst d t base off p) ->
  good E (AFst d t base off p) s.
Proof.
  intros (Ht & _) (Hb & Ha).
  assert (Hrange : -512 <= off <= 511) by (destruct p; lia).
  assert (Hm : match_rows (table R_STR) [f_ d t; i_ base off p] = Ok (Some F_STR)).
  { rewrite i_eq. destruct d; reflexivity. }
  pose proof (h_fld F_STR d t base off p Hrange) as Hh. rewrite <- i_eq in Hh. cbv iota in Hh.
  destruct p.
  - destruct (Z.leb_spec 0 off) as [L|L].
    + eapply (mk _ _ _ F_STR); [reflexivity|discriminate|exact Hm|exact Hh|apply D_F_STR_UIMM; FR|].
      rewrite fscaled by lia. apply (fst_effect d t base off WNone); assumption.
    + eapply (mk _ _ _ F_STR); [reflexivity|discriminate|exact Hm|exact Hh|apply D_F_STUR; FR|].
      rewrite sx_low by lia. apply (fst_effect d t base off WNone); assumption.
  - eapply (mk _ _ _ F_STR); [reflexivity|discriminate|exact Hm|exact Hh|apply D_F_STR_pre; FR|].
    rewrite sx_low by lia. apply (fst_effect d t base off WPre); assumption.
  - eapply (mk _ _ _ F_STR); [reflexivity|discriminate|exact Hm|exact Hh|apply D_F_STR_post; FR|].
    rewrite sx_low by lia. apply (fst_effect d t base off WPost); assumption.
Qed.
Lemma h_fpair op d t t2 base off p : -512 <= off <= 511 ->
  asm_f_ldpstp op [f_ d t; f_ d t2; OInd (Reg (issp base) (gi base) 8) off (pp_ p) false]
  = match op with
    | F_LDP => Ok (W_F_LDP (b2 d) t t2 (gi base) off (ppn p))
    | F_STP => Ok (W_F_STP (b2 d) t t2 (gi base) off (ppn p))
    | _ => Abort
    end.
Proof.
  intros H. unfold asm_f_ldpstp, f_. cbn [rg opr nth_error bind regof r_size r_idx].
  change (8 =? QWORD) with true. cbn [check bind].
  destruct (Z.ltb_spec off 512); [|lia]. destruct (Z.leb_spec (-512) off); [|lia]. cbn [andb check bind].
  rewrite szof_eq. destruct p; reflexivity.
Qed.
Lemma ok_AFldp d t t2 base off p : operands (AFldp d t t2 base off p) -> covered (AFldp d t t2 base off p) ->
  good E (AFldp d t t2 base off p) s.
Proof.
  intros (Ht & Ht2 & _) (Hne & Hb & Hr & Hm & Hx).
  ap F_LDP (W_F_LDP (b2 d) t t2 (gi base) off (ppn p)).
  - cbn [handler]. rewrite h_fpair by lia. reflexivity.
  - apply D_F_LDP; FR; first [congruence | destruct p; cbn; lia].
  - rewrite pair_off, pmode_p by assumption. apply same_eq. cbn [exec means]. gz.
    rewrite maddr_p, mback_p, size8 by assumption. reflexivity.
Qed.
Lemma ok_AFstp d t t2 base off p : operands (AFstp d t t2 base off p) -> covered (AFstp d t t2 base off p) ->
  good E (AFstp d t t2 base off p) s.
Proof.
  intros (Ht & Ht2 & _) (Hb & Hr & Hm & Hx).
  ap F_STP (W_F_STP (b2 d) t t2 (gi base) off (ppn p)).
  - cbn [handler]. rewrite h_fpair by lia. reflexivity.
  - apply D_F_STP; FR; destruct p; cbn; lia.
  - rewrite pair_off, pmode_p by assumption. apply same_eq. cbn [exec means]. gz.
    rewrite maddr_p, mback_p, size8 by assumption. reflexivity.
Qed.

(** ** All instructions *)
Lemma all_good a : operands a -> covered a -> wf s -> good E a s.
Proof.
  intros Ho Hc Hw. destruct a.
  - apply ok_AMov; assumption.
  - apply ok_AMovI; assumption.
  - apply ok_AMovk; assumption.
  - apply ok_AAdd; assumption.
  - apply ok_AAddE; assumption.
  - apply ok_AAddS; assumption.
  - apply ok_AAddI; assumption.
  - apply ok_AAddSym; assumption.
  - apply ok_A3; assumption.
  - apply ok_AMadd; assumption.
  - apply ok_ACmp; assumption.
  - apply ok_ACmpI; assumption.
  - apply ok_AShI; assumption.
  - apply ok_ASxt; assumption.
  - apply ok_AUxt; assumption.
  - apply ok_AMvn; assumption.
  - apply ok_ALd; assumption.
  - apply ok_ALdSym; assumption.
  - apply ok_ASt; assumption.
  - apply ok_ALdp; assumption.
  - apply ok_AStp; assumption.
  - apply ok_AAdrp; assumption.
  - apply ok_ACset; assumption.
  - apply ok_AB; assumption.
  - apply ok_ABcc; assumption.
  - apply ok_ACb; assumption.
  - apply ok_ABr; assumption.
  - apply ok_ARet; assumption.
  - apply ok_ASvc; assumption.
  - apply ok_AMrs; assumption.
  - apply ok_ANop.
  - apply ok_AFld; assumption.
  - apply ok_AFst; assumption.
  - apply ok_AFldp; assumption.
  - apply ok_AFstp; assumption.
  - apply ok_AFmov; assumption.
  - apply ok_AFmovG; assumption.
  - apply ok_AFmovI; assumption.
  - apply ok_AF3; assumption.
  - apply ok_AF4; assumption.
  - apply ok_AFcmp; assumption.
  - apply ok_AFneg; assumption.
  - apply ok_AFsqrt; assumption.
  - apply ok_AFcvt; assumption.
  - apply ok_AOfInt; assumption.
  - apply ok_AToInt; assumption.
Qed.
End Instrs.
