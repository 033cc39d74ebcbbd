(** Theorems about the arm64 encoder. *)
From Coq Require Import ZArith List Bool Lia.
From Verif Require Import Base Arm_model Arm_spec Arm_bits_proof Arm_dec_proof Arm_proof
  Arm_int_proof Arm_mem_proof Arm_fmov_proof.
Import ListNotations.
Open Scope Z_scope.

(** a machine to try things on: register [r] holds [100 * r], byte [a] of
    memory holds [a + a / 256 + 128], sp is 8192 *)
Definition E0 : env :=
  Env (fun _ _ a b => a + b) (fun _ a b c => a + b * c) (fun _ a => a)
      (fun _ _ _ => FEqual) (fun _ _ _ a => a) (fun _ _ _ a => a) (fun a => a) (fun a => a)
      (fun _ s => s).
Definition s0 : st :=
  St 4096 (fun r => if (0 <=? r) && (r <? 32) then 100 * r else 0) 8192
     (fun _ => 0) (Flags false false false false) (fun a => (a + a / 256 + 128) mod 256) (fun _ => 0).
Lemma s0_wf : wf s0.
Proof.
  unfold wf, s0; cbn [xr spv vr pc].
  split; [|split; [lia|split; [intros; lia|split; [lia|reflexivity]]]].
  intros r. destruct (andb _ _) eqn:E; [|lia]. apply andb_prop in E. lia.
Qed.

(** ** C107 *)

(** Full statement: every assembler instruction whose operands exist is either
    refused or becomes a word that does what the instruction says, in every
    state of the machine.  It is refuted below; with the operands in [covered]
    it holds, and none is refused. *)
Theorem c107_word_does_what_it_says_partial :
  forall a, operands a -> covered a ->
  exists w, assemble a = Ok w /\ 0 <= w < 2 ^ 32 /\
  forall E s, wf s -> exists t, run1 E w s = Some t /\ same t (means E a s).
Proof.
  intros a Ho Hc.
  destruct (all_good E0 s0 a Ho Hc s0_wf) as (w & i & Hw & Hr & Hd & _).
  exists w. split; [exact Hw|]. split; [lia|]. intros E s Hs.
  destruct (all_good E s a Ho Hc Hs) as (w' & i' & Hw' & _ & Hd' & Hsame).
  rewrite Hw in Hw'. injection Hw' as <-.
  exists (exec E i' s). split; [|exact Hsame].
  unfold run1. rewrite Hd'. reflexivity.
Qed.
Print Assumptions c107_word_does_what_it_says_partial.

Example c107_cases : Forall (fun a => operands a /\ covered a)
  [AMovI true (X 3) (-77); AMovk true (X 3) 65535 48; AAdd true false (X 1) (X 2) ZR;
   AAdd false true (X 16) SP (X 16); AAddI true true SP SP 4080; AMov true (X 29) SP;
   ACmpI true false (X 8) 4095; ALd KSH false (X 0) SP 4094 WNone;
   ALd KW true (X 0) (X 1) (-256) WPre; AStp true (X 29) (X 30) SP (-512) WPre;
   ABcc false 11 (-1048576); AB true true 134217724; AFld true 31 SP 504 WNone;
   AF4 true false true 1 2 3 4; AToInt false true true (X 9) 31; ACset true (X 0) 13].
Proof.
  repeat apply Forall_cons; try apply Forall_nil;
    (split; cbn; unfold imm64, addressable, faddressable, distinct, freg; cbn [sreg zreg ds];
     repeat match goal with |- _ /\ _ => split end; try tauto; try lia; try discriminate;
     try (left; lia); try (right; lia); try (right; discriminate); try (intros; discriminate);
     try reflexivity).
Qed.
Example c107_add : assemble (AAdd true false (X 1) (X 2) (X 3)) = Ok 0x4b030041.
Proof. vm_compute. reflexivity. Qed.
Example c107_ldp : assemble (ALdp true (X 29) (X 30) SP 16 WPost) = Ok 0xa8c17bfd.
Proof. vm_compute. reflexivity. Qed.
Example c107_run : option_map (fun t => (pc t, xr t 1)) (run1 E0 0x4b030041 s0) =
  Some (4100, 2 ^ 32 - 100).
Proof. vm_compute. reflexivity. Qed.

(** Instructions that are accepted and do something else. *)
Definition wrong (a : asm) : Prop :=
  operands a /\ exists w t, assemble a = Ok w /\ run1 E0 w s0 = Some t /\ wf s0 /\
  ~ same t (means E0 a s0).

Ltac ops := cbn; unfold imm64; repeat match goal with |- _ /\ _ => split end;
  try lia; try tauto; try reflexivity; try (intros; discriminate).
Ltac wr := split; [ops|]; eexists; eexists; split; [vm_compute; reflexivity|];
  split; [unfold run1; match goal with |- omap _ ?d = _ =>
            let d' := eval vm_compute in d in change d with d' end; reflexivity|];
  split; [exact s0_wf|]; intros (Hpc & _ & Hf & Hx & _ & Hm & _).

(** mov x0, #65536 loads 0 *)
Theorem c107_wide_constant_refuted : wrong (AMovI true (X 0) 65536).
Proof. wr. specialize (Hx 0). vm_compute in Hx. discriminate. Qed.
Print Assumptions c107_wide_constant_refuted.
(** mvn w0, w1 also sets the upper half of x0 *)
Theorem c107_mvn_refuted : wrong (AMvn false (X 0) (X 1)).
Proof. wr. specialize (Hx 0). vm_compute in Hx. discriminate. Qed.
Print Assumptions c107_mvn_refuted.
(** ldrb to an x register loads two bytes *)
Theorem c107_ldrb_refuted : wrong (ALd KB true (X 0) (X 1) 0 WNone).
Proof. wr. specialize (Hx 0). vm_compute in Hx. discriminate. Qed.
Print Assumptions c107_ldrb_refuted.
(** ldrsb and ldrsh to an x register leave its upper half zero *)
Theorem c107_ldrsb_refuted :
  wrong (ALd KSB true (X 0) (X 1) 0 WNone) /\ wrong (ALd KSH true (X 0) (X 1) 0 WNone).
Proof.
  split; wr; specialize (Hx 0); vm_compute in Hx; discriminate.
Qed.
Print Assumptions c107_ldrsb_refuted.
(** an offset that is not a multiple of the size, and one below -256, are cut *)
Theorem c107_offset_refuted :
  wrong (ALd KW true (X 0) (X 1) 4 WNone) /\ wrong (ALd KW true (X 0) (X 1) (-300) WNone) /\
  wrong (ASt TW false (X 3) (X 1) 6 WNone).
Proof.
  split; [|split].
  - wr. specialize (Hx 0). vm_compute in Hx. discriminate.
  - wr. specialize (Hx 0). vm_compute in Hx. discriminate.
  - wr. specialize (Hm 106). vm_compute in Hm. discriminate.
Qed.
Print Assumptions c107_offset_refuted.
(** ldp w0, w1, [x2, #8] reads at offset 4 *)
Theorem c107_pair_refuted :
  wrong (ALdp false (X 0) (X 1) (X 2) 8 WNone) /\ wrong (AStp false (X 3) (X 1) (X 2) 8 WNone).
Proof.
  split.
  - wr. specialize (Hx 0). vm_compute in Hx. discriminate.
  - wr. specialize (Hm 204). vm_compute in Hm. discriminate.
Qed.
Print Assumptions c107_pair_refuted.
(** the zero register is taken for the stack pointer *)
Theorem c107_zero_refuted :
  wrong (AAddI false true (X 0) ZR 5) /\ wrong (ACmpI false true ZR 5) /\
  wrong (AAdd false true (X 0) SP SP).
Proof.
  split; [|split].
  - wr. specialize (Hx 0). vm_compute in Hx. discriminate.
  - wr. vm_compute in Hf. discriminate.
  - wr. specialize (Hx 0). vm_compute in Hx. discriminate.
Qed.
Print Assumptions c107_zero_refuted.
(** a branch over 128 MB forward goes 128 MB backward *)
Theorem c107_far_branch_refuted : wrong (AB false false (2 ^ 27)).
Proof. wr. vm_compute in Hpc. discriminate. Qed.
Print Assumptions c107_far_branch_refuted.

(** ** C108 *)

(** A double that the compiler decides to load with one instruction ends up in
    the register exactly; the decision is made for all the doubles this is
    possible for, except -1.9375, which has the code that means "no". *)
Theorem c108_fmov_constant :
  (forall b i, 0 <= b < 2 ^ 64 -> double_to_imm8 b = i -> i <> 0xFF ->
   forall rd, 0 <= rd <= 31 ->
   exists w, assemble (AFmovI true rd i) = Ok w /\
   forall E s, wf s -> exists t, run1 E w s = Some t /\ vr t rd = b /\
     (forall r, r <> rd -> vr t r = vr s r) /\ (forall r, xr t r = xr s r) /\
     spv t = spv s /\ nzcv t = nzcv s /\ (forall a, mem t a = mem s a)) /\
  (forall i, 0 <= i < 255 -> double_to_imm8 (expand8 true i) = i) /\
  (forall b, 0 <= b < 2 ^ 32 -> double_to_imm8 b = 0xFF).
Proof.
  split; [|split].
  - intros b i Hb Hi Hn rd Hrd. subst i.
    destruct (imm8_forward b Hb Hn) as [Hr He].
    destruct (c107_word_does_what_it_says_partial (AFmovI true rd (double_to_imm8 b)))
      as (w & Hw & _ & Hrun).
    { cbn. unfold freg, imm64. lia. }
    { cbn. lia. }
    exists w. split; [exact Hw|]. intros E s Hs.
    destruct (Hrun E s Hs) as (t & Ht & _ & Hsp & Hf & Hx & Hv & Hm & _).
    exists t. split; [exact Ht|].
    cbn [means] in *. rewrite He in *. unfold wF, setpc, setv in *.
    cbn [pc xr spv vr nzcv mem] in *.
    split; [|split; [|split; [exact Hx|split; [exact Hsp|split; [exact Hf|exact Hm]]]]].
    + rewrite (Hv rd), Z.eqb_refl. unfold ux. cbn [ds]. apply Z.mod_small. exact Hb.
    + intros r Hne. rewrite (Hv r). destruct (Z.eqb_spec r rd); [contradiction|reflexivity].
  - intros i Hi. apply imm8_backward. lia.
  - exact imm8_single.
Qed.
Print Assumptions c108_fmov_constant.

(** 2.0, -0.125, 31.0 and 0.1 *)
Example c108_cases :
  map double_to_imm8 [0x4000000000000000; 0xBFC0000000000000; 0x403F000000000000;
                      0x3FB999999999999A] = [0x00; 0xC0; 0x3F; 0xFF].
Proof. vm_compute. reflexivity. Qed.
Example c108_exception : double_to_imm8 0xBFFF000000000000 = 0xFF /\
  expand8 true 0xFF = 0xBFFF000000000000.
Proof. split; vm_compute; reflexivity. Qed.
