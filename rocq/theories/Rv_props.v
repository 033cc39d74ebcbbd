(** Theorems about the RISC-V encoder. *)
From Coq Require Import ZArith List Bool Lia.
From Verif Require Import Base Rv_model Rv_spec Rv_proof Rv_dec_proof Rv_dec16_proof
  Rv_run_proof Rv_seq_proof Rv_end_proof.
Import ListNotations.
Open Scope Z_scope.

(** a machine to try things on: register [r] holds [100 * r], memory is empty *)
Definition E0 : env :=
  Env (fun _ _ _ a b => a + b) (fun _ _ a => a) (fun _ _ _ _ => true)
      (fun _ _ _ a => a) (fun _ _ _ a => a) (fun a => a) (fun _ a => a) (fun s => s).
Definition s0 : st := St 4096 (fun r => if (0 <=? r) && (r <? 32) then 100 * r else 0)
                         (fun _ => 0) (fun _ => 0) 0.
Lemma s0_wf : wf s0.
Proof.
  unfold wf, s0; cbn [xr fr pc]. repeat split; try lia;
  destruct (andb _ _) eqn:E; try lia;
  apply andb_prop in E; lia.
Qed.

(** ** C97 *)

(** Full statement: every assembler instruction whose operands exist is turned
    into machine code that does what the instruction says.  It is refuted
    below; with the operands in [covered] it holds. *)
Theorem c97_code_does_what_it_says_partial :
  forall a, operands a -> covered a ->
  exists code, encode a = Ok code /\
  forall E s, wf s -> exists t,
    run E code s = Some t /\ same t (means E a (Z.of_nat (length code)) s).
Proof. exact encode_ok. Qed.
Print Assumptions c97_code_does_what_it_says_partial.

Example c97_cases : Forall (fun a => operands a /\ covered a)
  [A3 SUBW 8 8 9; AI ADDI 2 2 (-48); A2 SEXT_B 10 11; ALi 10 123456789012345;
   ALd LD 10 16 2; ASd SW 11 8 10; ABr BLTU 10 11 (-64); ACall 8192;
   AF2 FNEG true 10 10].
Proof.
  repeat constructor; cbn; unfold reg, bad_sw; try lia; try (intros [? ?]; lia).
Qed.
Example c97_run : option_map (fun t => (pc t, getx t 10))
    (run E0 [0x35; 0x8d] s0) = Some (4098, Z.lxor 1000 1300).
Proof. reflexivity. Qed.
Example c97_enc : encode (A3 XOR 10 10 13) = Ok [0x35; 0x8d].
Proof. reflexivity. Qed.

(** Storing four bytes at offset 4 of an address in a0 puts them at offset 0. *)
Theorem c97_store_word_refuted :
  exists a code t, operands a /\ encode a = Ok code /\ run E0 code s0 = Some t /\
  a = ASd SW 11 4 10 /\ wf s0 /\
  getx s0 10 = 1000 /\ getx s0 11 mod 256 = 76 /\ mem t 1000 = 76 /\ mem t 1004 = 0 /\
  ~ same t (means E0 a (Z.of_nat (length code)) s0).
Proof.
  exists (ASd SW 11 4 10). eexists. eexists.
  split; [cbn; unfold reg; lia|]. split; [reflexivity|]. split; [reflexivity|].
  split; [reflexivity|]. split; [exact s0_wf|].
  split; [reflexivity|]. split; [reflexivity|]. split; [reflexivity|]. split; [reflexivity|].
  intros (_ & _ & _ & _ & H). specialize (H 1000). vm_compute in H. discriminate.
Qed.
Print Assumptions c97_store_word_refuted.

(** Adding x0 to a register becomes a call through that register. *)
Theorem c97_add_zero_refuted :
  exists a code t, operands a /\ encode a = Ok code /\ run E0 code s0 = Some t /\
  a = A3 ADD 5 5 0 /\ pc t = getx s0 5 /\ pc t <> pc s0 + 2 /\
  ~ same t (means E0 a (Z.of_nat (length code)) s0).
Proof.
  exists (A3 ADD 5 5 0). eexists. eexists.
  split; [cbn; unfold reg; lia|]. split; [reflexivity|]. split; [reflexivity|].
  split; [reflexivity|]. split; [reflexivity|]. split; [vm_compute; discriminate|].
  intros (H & _). vm_compute in H. discriminate.
Qed.
Print Assumptions c97_add_zero_refuted.

(** A load at offset 2048 reads at offset -2048. *)
Theorem c97_load_offset_refuted :
  exists a code, operands a /\ encode a = Ok code /\
  a = ALd LW 10 2048 11 /\
  (forall E s, exists t, run E code s = Some t /\
     getx t 10 = ldval LW (mem s) (getx s 11 - 2048)).
Proof.
  exists (ALd LW 10 2048 11). eexists.
  split; [cbn; unfold reg; lia|]. split; [reflexivity|]. split; [reflexivity|].
  intros E s. eexists. split; [reflexivity|]. reflexivity.
Qed.
Print Assumptions c97_load_offset_refuted.

(** A 32-bit shift by 32..63 is accepted and gives an illegal instruction. *)
Theorem c97_shift_word_refuted :
  exists a code, operands a /\ encode a = Ok code /\ a = AI SRLIW 10 11 32 /\
  forall E s, run E code s = None.
Proof.
  exists (AI SRLIW 10 11 32). eexists.
  split; [cbn; unfold reg; lia|]. split; [reflexivity|]. split; [reflexivity|].
  intros E s. reflexivity.
Qed.
Print Assumptions c97_shift_word_refuted.

(** A call over 2048 bytes goes 2048 bytes backwards. *)
Theorem c97_call_refuted :
  exists a code t, operands a /\ encode a = Ok code /\ run E0 code s0 = Some t /\
  a = ACall 2048 /\ pc t = pc s0 - 2048.
Proof.
  exists (ACall 2048). eexists. eexists.
  split; [cbn; lia|]. split; [reflexivity|]. split; [reflexivity|].
  split; [reflexivity|]. vm_compute. reflexivity.
Qed.
Print Assumptions c97_call_refuted.

(** A jump over a megabyte goes a megabyte backwards; a branch over 4096 bytes
    goes 4096 bytes backwards. *)
Theorem c97_jump_range_refuted :
  (exists a code t, operands a /\ encode a = Ok code /\ run E0 code s0 = Some t /\
     a = AJ (2 ^ 20) /\ pc t = ux 64 (pc s0 - 2 ^ 20)) /\
  (exists a code t, operands a /\ encode a = Ok code /\ run E0 code s0 = Some t /\
     a = ABr BNE 10 11 4096 /\ pc t = pc s0 - 4096).
Proof.
  split.
  - exists (AJ (2 ^ 20)). eexists. eexists.
    split; [cbn; lia|]. split; [reflexivity|]. split; [reflexivity|].
    split; [reflexivity|]. vm_compute. reflexivity.
  - exists (ABr BNE 10 11 4096). eexists. eexists.
    split; [cbn; unfold reg; lia|]. split; [reflexivity|]. split; [reflexivity|].
    split; [reflexivity|]. vm_compute. reflexivity.
Qed.
Print Assumptions c97_jump_range_refuted.

(** ** C98 *)

(** Any 64-bit constant can be loaded into any register other than x0 and the
    stack pointer.  It takes at most 26 bytes, the size of the buffer, changes
    no other register and no memory. *)
Theorem c98_load_constant :
  forall rd v, 0 < rd < 32 -> rd <> 2 -> - 2 ^ 63 <= v < 2 ^ 63 ->
  exists code, encode (ALi rd v) = Ok code /\ (length code <= 26)%nat /\
  forall E s, 0 <= pc s < 2 ^ 64 -> exists t, run E code s = Some t /\
    getx t rd = v /\ pc t = (pc s + Z.of_nat (length code)) mod 2 ^ 64 /\
    (forall r, r <> rd -> getx t r = getx s r) /\
    (forall r, fr t r = fr s r) /\ (forall x, mem t x = mem s x).
Proof.
  intros rd v Hr H2 Hv.
  assert (Hd : reg rd) by (unfold reg; lia).
  destruct (li_total rd v Hv) as (c & Hc & Hl). exists c. split.
  { unfold encode. cbn [handler]. rewrite Hc. cbn [bind].
    destruct (Z.ltb_spec 26 (Z.of_nat (length c))); [lia|reflexivity]. }
  split; [exact Hl|]. intros E s Hp.
  destruct (li_run E rd Hd ltac:(lia) H2 8 v c s Hv Hc) as (t & Ht & L1 & L2 & L3 & L4 & L5 & L6).
  exists t. split; [apply seq_run; exact Ht|].
  split. { unfold getx. destruct (Z.eqb_spec rd 0); [lia|]. apply L5. lia. }
  split; [exact L1|]. split.
  { intros r Hn. unfold getx. destruct (r =? 0); [reflexivity|]. apply L6. exact Hn. }
  split; intros; [rewrite L3|rewrite L4]; reflexivity.
Qed.
Print Assumptions c98_load_constant.

(** the longest case takes all 26 bytes *)
Example c98_worst : exists code, encode (ALi 10 (0x123456789abcdef0 + 0x7000000000)) = Ok code /\
  length code = 26%nat.
Proof. eexists. split; vm_compute; reflexivity. Qed.
Example c98_case : exists t, run E0 [0x37; 0x05; 0x00; 0x80] s0 = Some t /\ getx t 10 = - 2 ^ 31.
Proof. eexists. split; reflexivity. Qed.

(** The stack pointer is different: loading 4096 into it adds 32 to it. *)
Theorem c98_stack_pointer_refuted :
  exists code t, encode (ALi 2 4096) = Ok code /\ run E0 code s0 = Some t /\
    getx t 2 = getx s0 2 + 32 /\ getx t 2 <> 4096.
Proof.
  eexists. eexists. split; [reflexivity|]. split; [reflexivity|].
  split; [vm_compute; reflexivity|]. vm_compute. discriminate.
Qed.
Print Assumptions c98_stack_pointer_refuted.
