(** The 8-bit floating-point constants of arm64. *)
From Coq Require Import ZArith List Bool Lia ZifyBool.
From Verif Require Import Base Arm_model Arm_spec.
Import ListNotations.
Open Scope Z_scope.

Definition imm8_of (sign exp frac : Z) : Z :=
  if ((exp =? 0) || (exp =? 0x7FF))%bool then 0xFF
  else if negb (Z.land frac 0xFFFFFFFFFFFF =? 0) then 0xFF
  else
    let exp10 := Z.land (Z.shiftr exp 10) 1 in
    let exp9_2 := Z.land (Z.shiftr exp 2) 0xFF in
    let exp1_0 := Z.land exp 3 in
    if (negb (exp9_2 =? 0) && negb (exp9_2 =? 0xFF))%bool then 0xFF
    else
      let bit6 := if exp9_2 =? 0xFF then 1 else 0 in
      if negb (exp10 =? Z.lxor bit6 1) then 0xFF
      else
        Z.lor (Z.lor (Z.lor (Z.shiftl sign 7) (Z.shiftl bit6 6)) (Z.shiftl exp1_0 4))
              (Z.land (Z.shiftr frac 48) 0xF).

Lemma split_double b : double_to_imm8 b =
  imm8_of ((b / 2 ^ 63) mod 2) ((b / 2 ^ 52) mod 2048) (b mod 2 ^ 52).
Proof.
  unfold double_to_imm8.
  replace (Z.land (Z.shiftr b 63) 1) with ((b / 2 ^ 63) mod 2)
    by (change 1 with (Z.ones 1); rewrite Z.land_ones, Z.shiftr_div_pow2 by lia; reflexivity).
  replace (Z.land (Z.shiftr b 52) 0x7FF) with ((b / 2 ^ 52) mod 2048)
    by (change 0x7FF with (Z.ones 11); rewrite Z.land_ones, Z.shiftr_div_pow2 by lia; reflexivity).
  replace (Z.land b 0xFFFFFFFFFFFFF) with (b mod 2 ^ 52)
    by (change 0xFFFFFFFFFFFFF with (Z.ones 52); rewrite Z.land_ones by lia; reflexivity).
  reflexivity.
Qed.

Lemma imm8_range sg ex fr : 0 <= ex < 2048 -> 0 <= fr < 2 ^ 52 -> imm8_of sg ex fr <> 255 ->
  1020 <= ex <= 1027 /\ exists hi, 0 <= hi <= 15 /\ fr = hi * 2 ^ 48.
Proof.
  intros He Hf. unfold imm8_of.
  replace (Z.land fr 0xFFFFFFFFFFFF) with (fr mod 2 ^ 48)
    by (change 0xFFFFFFFFFFFF with (Z.ones 48); rewrite Z.land_ones by lia; reflexivity).
  replace (Z.land (Z.shiftr ex 10) 1) with ((ex / 1024) mod 2)
    by (change 1 with (Z.ones 1); rewrite Z.land_ones, Z.shiftr_div_pow2 by lia; reflexivity).
  replace (Z.land (Z.shiftr ex 2) 0xFF) with ((ex / 4) mod 256)
    by (change 0xFF with (Z.ones 8); rewrite Z.land_ones, Z.shiftr_div_pow2 by lia; reflexivity).
  destruct (_ || _); [intros []; reflexivity|].
  destruct (Z.eqb_spec (fr mod 2 ^ 48) 0) as [H48|H48]; cbn [negb]; [|intros []; reflexivity].
  cbv zeta.
  destruct (negb ((ex / 4) mod 256 =? 0) && negb ((ex / 4) mod 256 =? 255)) eqn:E1;
    [intros []; reflexivity|].
  destruct (Z.eqb_spec ((ex / 4) mod 256) 255) as [H9|H9].
  - change (Z.lxor 1 1) with 0.
    destruct (Z.eqb_spec ((ex / 1024) mod 2) 0) as [H10|H10]; cbn [negb]; [|intros []; reflexivity].
    intros _. split; [Z.div_mod_to_equations; lia|].
    exists (fr / 2 ^ 48). change (2 ^ 52) with 4503599627370496 in *.
    change (2 ^ 48) with 281474976710656 in *. Z.div_mod_to_equations; lia.
  - change (Z.lxor 0 1) with 1.
    destruct (Z.eqb_spec ((ex / 1024) mod 2) 1) as [H10|H10]; cbn [negb]; [|intros []; reflexivity].
    intros _. split; [Z.div_mod_to_equations; lia|].
    exists (fr / 2 ^ 48). change (2 ^ 52) with 4503599627370496 in *.
    change (2 ^ 48) with 281474976710656 in *. Z.div_mod_to_equations; lia.
Qed.

Definition upto (n : nat) : list Z := map Z.of_nat (seq 0 n).
Lemma in_upto n k : 0 <= k < Z.of_nat n -> In k (upto n).
Proof.
  intros H. unfold upto. rewrite <- (Z2Nat.id k) by lia. apply in_map. apply in_seq. lia.
Qed.

(** the 255 doubles *)
Lemma all_forward : forallb (fun sg => forallb (fun e => forallb (fun hi =>
    let i := imm8_of sg (1020 + e) (hi * 2 ^ 48) in
    (0 <=? i) && (i <? 256) &&
    (expand8 true i =? sg * 2 ^ 63 + (1020 + e) * 2 ^ 52 + hi * 2 ^ 48))
  (upto 16)) (upto 8)) (upto 2) = true.
Proof. vm_compute. reflexivity. Qed.

Lemma imm8_forward b : 0 <= b < 2 ^ 64 -> double_to_imm8 b <> 255 ->
  0 <= double_to_imm8 b < 255 /\ expand8 true (double_to_imm8 b) = b.
Proof.
  intros Hb. rewrite split_double. intros Hn.
  set (sg := (b / 2 ^ 63) mod 2) in *. set (ex := (b / 2 ^ 52) mod 2048) in *.
  set (fr := b mod 2 ^ 52) in *.
  assert (Hx : 0 <= sg < 2 /\ 0 <= ex < 2048 /\ 0 <= fr < 2 ^ 52 /\
    b = sg * 2 ^ 63 + ex * 2 ^ 52 + fr).
  { subst sg ex fr. change (2 ^ 64) with 18446744073709551616 in *.
    change (2 ^ 63) with 9223372036854775808. change (2 ^ 52) with 4503599627370496.
    Z.div_mod_to_equations; lia. }
  destruct Hx as (Hs & He & Hf & Eb).
  destruct (imm8_range _ _ _ He Hf Hn) as (He' & hi & Hh & Ef).
  pose proof all_forward as A. rewrite forallb_forall in A.
  specialize (A sg (in_upto 2 _ Hs)). cbv beta in A. rewrite forallb_forall in A.
  specialize (A (ex - 1020) (in_upto 8 (ex - 1020) ltac:(lia))).
  cbv beta in A. rewrite forallb_forall in A.
  specialize (A hi (in_upto 16 hi ltac:(lia))). cbv beta zeta in A.
  replace (1020 + (ex - 1020)) with ex in A by lia. rewrite <- Ef in A.
  apply andb_prop in A. destruct A as [A1 A2]. apply andb_prop in A1. destruct A1 as [A0 A1].
  split; [lia|]. lia.
Qed.

Lemma all_backward : forallb (fun i => double_to_imm8 (expand8 true i) =? i) (upto 256) = true.
Proof. vm_compute. reflexivity. Qed.
Lemma imm8_backward i : 0 <= i < 256 -> double_to_imm8 (expand8 true i) = i.
Proof.
  intros H. pose proof all_backward as A. rewrite forallb_forall in A.
  specialize (A i (in_upto 256 i ltac:(lia))). cbv beta in A. lia.
Qed.

(** a single held in the low half of a zeroed 64-bit field *)
Lemma imm8_single b : 0 <= b < 2 ^ 32 -> double_to_imm8 b = 255.
Proof.
  intros H. rewrite split_double.
  replace ((b / 2 ^ 52) mod 2048) with 0.
  2:{ rewrite Z.div_small; [reflexivity|]. change (2 ^ 52) with 4503599627370496.
      change (2 ^ 32) with 4294967296 in H. lia. }
  reflexivity.
Qed.
